(** Example for C89: the strip of three triangles on two ranks, for every degree from two. *)
Require Import List Arith Lia Bool Reals Lra.
Require Import Verif.Base Verif.LinAlg Verif.SimplexModel Verif.LocalMeshModel Verif.LocalMeshProps Verif.TopoModel Verif.TopoSpec Verif.TopoProofs Verif.TopoProps
  Verif.AssembleModel Verif.TopoCheck Verif.AssembleSpec Verif.AssembleProps Verif.MatFree Verif.FaultModel Verif.PoissonModel Verif.PenaltyModel Verif.SipSpec Verif.SipExamples
  Verif.GeometryModel Verif.GeometryProofs Verif.GeometrySpec Verif.GeometryProps Verif.GeometryStraight Verif.MeshSpec Verif.MeshProofs Verif.MeshExamples
  Verif.TensorModel Verif.BasisModel Verif.BasisSpec Verif.IntegralSpec Verif.DubinerProofs Verif.NodesConform Verif.ErrorSpec Verif.QuadratureModel Verif.QuadratureSpec Verif.RootsProps Verif.RefElementModel Verif.RefElementSpec Verif.RefElementProps Verif.RefElementExamples
  Verif.DegreeSpec Verif.OperatorRefModel Verif.OperatorRefProps Verif.OperatorRefExamples Verif.ConsistencySpec Verif.ConsistencyProofs Verif.ConsistencyProps Verif.ConsistencyExamples
  Verif.DefiniteSpec Verif.DefiniteProps
  Verif.DefiniteExamples Verif.Br2Spec Verif.Br2Props Verif.Br2Examples Verif.Br2SolveProps.
Import ListNotations.
Local Open Scope R_scope.

(** Case for [br2_operator_exact]. *)
Example strip_br2_solved_every_degree : forall N m0 B, (2 <= N)%nat -> (forall g l, p_K B g l = ex_c g (fun _ => 0)) -> p_force B = ex_force ->
  exists root mi R_, Poisson_constructor root [] [] [] ginv m0 2 N 0 mi (equi 2 N) B = Some R_ /\ let G := strip_at root N in
  let P p := with_method BR2 (ex_part_fi p) N (loaded_rank G R_ N ex_slip (ex_value G) (ex_part p) (ex_part_fi p)) in
  exists A b U, (forall p, (p < 2)%nat -> map_opt (to_global (ex_part p)) (assemble (ex_part p) (ex_part_fi p) (poisson_mat (P p))) = Some (A p)) /\
    (forall p, (p < 2)%nat -> map_opt (to_global_row (ex_part p)) (rhs (ex_part p) (ex_part_fi p) (poisson_vec (P p))) = Some (b p)) /\
    (forall V, nonzero 3 (length mi) V -> 0 < pairing (length mi) (flat_map A (seq 0 2)) V V) /\
    solves (length mi) (flat_map A (seq 0 2)) (flat_map b (seq 0 2)) U /\
    (forall U', solves (length mi) (flat_map A (seq 0 2)) (flat_map b (seq 0 2)) U' -> forall g l, (g < 3)%nat -> (l < length mi)%nat -> U' g l = U g l) /\
    forall g x, (g < 3)%nat -> rsum (length mi) (fun l => U g l * DubinerP 2 (nth l mi []) x) = ex_w g (place_in G ex_elems g x).
Proof.
  intros N m0 B HN HK HF. destruct (constructor_data_every_degree 2 N ltac:(auto) ltac:(lia)) as (root & mi & CD & _).
  destruct (poisson_reference_of_degree root [] [] [] ginv m0 2 N 0 mi (equi 2 N) B CD) as (R1 & E1 & _).
  destruct (br2_operator_exact root [] [] [] ginv m0 2 N 0 mi (equi 2 N) B strip_X 2 ex_elems ex_facets ex_bc ex_part ex_part_fi
    (fun p => with_method BR2 (ex_part_fi p) N (loaded_rank (strip_at root N) R1 N ex_slip (ex_value (strip_at root N)) (ex_part p) (ex_part_fi p))) (fun g => ex_c g (fun _ => 0)) ex_slip (ex_value (strip_at root N)) CD ltac:(lia) ex_parts (strip_valid _ _)) as (R_ & E & H).
  - intros. apply HK.
  - intros g Hg. destruct g as [|[|[|g]]]; unfold ex_c; lra.
  - apply strip_anchored.
  - intros f g h q Hf El. unfold ex_facets in Hf.
    repeat (destruct Hf as [<- | Hf]; [vm_compute in El; try discriminate El; injection El as <- <-|]); [| |destruct Hf].
    + cbn. ring.
    + cbn. ring.
  - assert (R_ = R1) by congruence. subst R1. exists root, mi, R_. split; [exact E|]. intros G P.
    destruct H as (A & b & U & HA & Hb & _ & PD & S1 & S2 & S3).
    { intros p Hp. destruct (strip_table p Hp) as [T1 T2]. destruct (loaded_rank_ok (strip_at root N) R_ N ex_slip (ex_value (strip_at root N)) (ex_part p) (ex_part_fi p) T1 T2) as [K1 K2].
      split; [apply rank_of_br2; [exact K1|reflexivity]|apply with_method_data; exact K2]. }
    exists A, b, U. split; [exact HA|]. split; [exact Hb|]. split; [exact PD|]. split; [exact S1|]. split; [exact S2|].
    intros g x Hg. apply (S3 ex_w ex_dw); [|rewrite HF; apply ex_solution|exact Hg].
    intros g' Hg'. apply (poly_le 2 2); [lia|].
    assert (P2 : forall d, (d < 2)%nat -> polynomial 2 2 (fun x => x d * x d)) by (intros d Hd; apply (poly_mult 2 1 1); apply poly_coord; exact Hd).
    destruct g' as [|[|[|g']]]; unfold ex_w; apply poly_plus; try (apply P2; lia). apply poly_scale. apply P2. lia.
Qed.

