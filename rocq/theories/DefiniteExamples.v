(** Examples for C81: on the strip of three triangles, on two ranks and for every degree from two, the
    computed solution is the classical one; with natural conditions on all of the boundary the matrix is
    singular. *)
Require Import List Arith Lia Bool Reals Lra.
Require Import Verif.Base Verif.LinAlg Verif.SimplexModel Verif.LocalMeshModel Verif.LocalMeshProps Verif.TopoModel Verif.TopoSpec Verif.TopoProofs Verif.TopoProps
  Verif.AssembleModel Verif.TopoCheck Verif.AssembleSpec Verif.AssembleProps Verif.MatFree Verif.FaultModel Verif.PoissonModel Verif.PenaltyModel Verif.SipSpec Verif.SipExamples
  Verif.GeometryModel Verif.GeometryProofs Verif.GeometrySpec Verif.GeometryProps Verif.GeometryStraight Verif.MeshSpec Verif.MeshProofs Verif.MeshExamples
  Verif.TensorModel Verif.BasisModel Verif.BasisSpec Verif.IntegralSpec Verif.DubinerProofs Verif.NodesConform Verif.ErrorSpec Verif.QuadratureModel Verif.QuadratureSpec Verif.RootsProps Verif.RefElementModel Verif.RefElementSpec Verif.RefElementProps Verif.RefElementExamples
  Verif.DegreeSpec Verif.OperatorRefModel Verif.OperatorRefProps Verif.OperatorRefExamples Verif.ConsistencySpec Verif.ConsistencyProofs Verif.ConsistencyProps Verif.ConsistencyExamples
  Verif.DefiniteSpec Verif.DefiniteProps.
Import ListNotations.
Local Open Scope R_scope.

Lemma strip_anchored g : (g < length ex_elems)%nat -> anchored ex_elems ex_facets ex_bc g.
Proof.
  intro Hg. assert (A1 : anchored ex_elems ex_facets ex_bc 1) by (apply (anchored_boundary _ _ _ [1; 3]%nat); [cbn; auto|reflexivity|discriminate]).
  destruct g as [|[|[|g]]]; [|exact A1| |cbn in Hg; lia].
  - apply (anchored_neighbour _ _ _ [1; 2]%nat 1%nat); auto; [cbn; auto|vm_compute; auto|vm_compute; auto].
  - apply (anchored_neighbour _ _ _ [2; 3]%nat 1%nat); auto; [cbn; auto 10|vm_compute; auto|vm_compute; auto].
Qed.
(** Case for [poisson_operator_exact]. *)
Example strip_solved_every_degree : forall N m0 B, (2 <= N)%nat -> (forall g l, p_K B g l = ex_c g (fun _ => 0)) -> p_force B = ex_force ->
  exists root mi R_, Poisson_constructor root [] [] [] ginv m0 2 N 0 mi (equi 2 N) B = Some R_ /\ let G := strip_at root N in
  let P p := loaded_rank G R_ N ex_slip (ex_value G) (ex_part p) (ex_part_fi p) in
  exists A b U, (forall p, (p < 2)%nat -> map_opt (to_global (ex_part p)) (assemble (ex_part p) (ex_part_fi p) (poisson_mat (P p))) = Some (A p)) /\
    (forall p, (p < 2)%nat -> map_opt (to_global_row (ex_part p)) (rhs (ex_part p) (ex_part_fi p) (poisson_vec (P p))) = Some (b p)) /\
    (forall V, nonzero 3 (length mi) V -> 0 < pairing (length mi) (flat_map A (seq 0 2)) V V) /\
    solves (length mi) (flat_map A (seq 0 2)) (flat_map b (seq 0 2)) U /\
    (forall U', solves (length mi) (flat_map A (seq 0 2)) (flat_map b (seq 0 2)) U' -> forall g l, (g < 3)%nat -> (l < length mi)%nat -> U' g l = U g l) /\
    forall g x, (g < 3)%nat -> rsum (length mi) (fun l => U g l * DubinerP 2 (nth l mi []) x) = ex_w g (place_in G ex_elems g x).
Proof.
  intros N m0 B HN HK HF. destruct (constructor_data_every_degree 2 N ltac:(auto) ltac:(lia)) as (root & mi & CD & _).
  destruct (poisson_reference_of_degree root [] [] [] ginv m0 2 N 0 mi (equi 2 N) B CD) as (R1 & E1 & _).
  destruct (poisson_operator_exact root [] [] [] ginv m0 2 N 0 mi (equi 2 N) B strip_X 2 ex_elems ex_facets ex_bc ex_part ex_part_fi
    (fun p => loaded_rank (strip_at root N) R1 N ex_slip (ex_value (strip_at root N)) (ex_part p) (ex_part_fi p)) (fun g => ex_c g (fun _ => 0)) ex_slip (ex_value (strip_at root N)) CD ltac:(lia) ex_parts (strip_valid _ _)) as (R_ & E & H).
  - intros. apply HK.
  - intros g Hg. destruct g as [|[|[|g]]]; unfold ex_c; lra.
  - apply strip_anchored.
  - intros f g h q Hf El. unfold ex_facets in Hf.
    repeat (destruct Hf as [<- | Hf]; [vm_compute in El; try discriminate El; injection El as <- <-|]); [| |destruct Hf].
    + cbn. ring.
    + cbn. ring.
  - assert (R_ = R1) by congruence. subst R1. exists root, mi, R_. split; [exact E|]. intros G P.
    destruct H as (A & b & U & HA & Hb & _ & PD & S1 & S2 & S3).
    { intros p Hp. destruct (strip_table p Hp). apply loaded_rank_ok; auto. }
    exists A, b, U. split; [exact HA|]. split; [exact Hb|]. split; [exact PD|]. split; [exact S1|]. split; [exact S2|].
    intros g x Hg. apply (S3 ex_w ex_dw); [|rewrite HF; apply ex_solution|exact Hg].
    intros g' Hg'. apply (poly_le 2 2); [lia|].
    assert (P2 : forall d, (d < 2)%nat -> polynomial 2 2 (fun x => x d * x d)) by (intros d Hd; apply (poly_mult 2 1 1); apply poly_coord; exact Hd).
    destruct g' as [|[|[|g']]]; unfold ex_w; apply poly_plus; try (apply P2; lia). apply poly_scale. apply P2. lia.
Qed.

(** The strip with natural conditions on all facets. *)
Definition free_part (p : nat) : topo_mesh := let m := ex_part p in {|
  tm_elems := tm_elems m; tm_num_local := tm_num_local m; tm_facets := tm_facets m; tm_num_local_facets := tm_num_local_facets m;
  tm_owner := tm_owner m; tm_l2cg := tm_l2cg m; tm_shared := tm_shared m; tm_bc := Some (repeat BC_Natural (length (tm_facets m))) |}.
Definition free_fi (p : nat) : list facet_info := match facet_table 2 (free_part p) with Some fi => fi | None => [] end.
Lemma free_parts : mesh_parts 2 2 ex_elems ex_facets (fun _ => BC_Natural) free_part.
Proof.
  destruct ex_parts as [F1 F2 F3 F4 F5 F6 F7 F8 F9]. split; auto.
  - intros [|[|p]] Hp; try lia; apply topo_okb_spec; vm_compute; reflexivity.
  - intros p b i f Hp E Ef. cbn [free_part tm_bc tm_facets] in E, Ef. injection E as <-. apply nth_error_repeat. apply nth_error_Some. congruence.
Qed.
Lemma free_floating g : ~ anchored ex_elems ex_facets (fun _ => BC_Natural) g.
Proof. intro H. induction H; auto. Qed.
(** Case for [floating_elements_singular]. *)
Example free_strip_singular : forall N m0 B, (1 <= N)%nat ->
  exists root mi R_, Poisson_constructor root [] [] [] ginv m0 2 N 0 mi (equi 2 N) B = Some R_ /\
  exists A U, (forall p, (p < 2)%nat -> map_opt (to_global (free_part p)) (assemble (free_part p) (free_fi p) (poisson_mat (mesh_rank (strip_at root N) R_ N (free_part p) (free_fi p)))) = Some (A p)) /\
    nonzero 3 (length mi) U /\ (forall V, pairing (length mi) (flat_map A (seq 0 2)) V U = 0).
Proof.
  intros N m0 B HN. destruct (constructor_data_every_degree 2 N ltac:(auto) HN) as (root & mi & CD & _).
  destruct (poisson_reference_of_degree root [] [] [] ginv m0 2 N 0 mi (equi 2 N) B CD) as (R_ & E & EN & EK & RD & _). exists root, mi, R_. split; [exact E|].
  destruct CD as (_ & RT & _). destruct (modal_ref_element 2 N mi ltac:(lia) RT) as (_ & _ & Sp & _). destruct (Sp (fun _ => 1)) as (one & Ho & _); [apply poly_const|].
  rewrite <- EN. apply (floating_elements_singular (strip_at root N) N (fun l => DubinerP 2 (nth l mi [])) 2 ex_elems ex_facets (fun _ => BC_Natural) free_part R_ free_fi _ one 0%nat free_parts (linear_straight _ _ _ _) (strip_valid _ _) HN RD).
  - intro x. rewrite EN. symmetry. apply Ho.
  - cbn. lia.
  - apply free_floating.
  - intros p Hp. apply mesh_rank_ok; [apply (mp_mesh _ _ _ _ _ _ free_parts p Hp)|]. destruct p as [|[|p]]; [| |lia]; vm_compute; reflexivity.
Qed.
