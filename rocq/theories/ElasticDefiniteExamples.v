(** Examples for C82: on the strip of three triangles, on two ranks and for every degree from two, the
    computed displacement is the equilibrium; with natural conditions on all of the boundary the matrix is
    singular. *)
Require Import List Arith Lia Bool Reals Lra.
Require Import Verif.Base Verif.LinAlg Verif.SimplexModel Verif.LocalMeshModel Verif.LocalMeshProps Verif.TopoModel Verif.TopoSpec Verif.TopoProofs Verif.TopoProps
  Verif.AssembleModel Verif.TopoCheck Verif.AssembleSpec Verif.AssembleProps Verif.MatFree Verif.FaultModel Verif.PoissonModel Verif.PenaltyModel Verif.SipSpec Verif.SipExamples
  Verif.GeometryModel Verif.GeometryProofs Verif.GeometrySpec Verif.GeometryProps Verif.GeometryStraight Verif.MeshSpec Verif.MeshProofs Verif.MeshExamples
  Verif.ElasticityModel Verif.ElasticFormSpec Verif.MeshElasticSpec Verif.MeshWaveExamples
  Verif.TensorModel Verif.BasisModel Verif.BasisSpec Verif.IntegralSpec Verif.DubinerProofs Verif.NodesConform Verif.ErrorSpec Verif.QuadratureModel Verif.QuadratureSpec Verif.RootsProps Verif.RefElementModel Verif.RefElementSpec Verif.RefElementProps Verif.RefElementExamples
  Verif.DegreeSpec Verif.OperatorRefModel Verif.OperatorRefProps Verif.OperatorRefExamples Verif.ConsistencySpec Verif.ConsistencyProofs Verif.ConsistencyExamples
  Verif.ElasticConsistencySpec Verif.ElasticConsistencyProps Verif.ElasticConsistencyExamples Verif.DefiniteSpec Verif.DefiniteProps Verif.DefiniteExamples Verif.ElasticDefiniteProps.
Import ListNotations.
Local Open Scope R_scope.

(** Case for [elastic_operator_exact]. *)
Example strip_displacement_solved : forall N m0 B, (2 <= N)%nat ->
  exists root mi R_, Elasticity_constructor root [] [] [] ginv m0 2 N 0 mi (equi 2 N) B = Some R_ /\ let G := strip_at root N in
  let E p := loaded_erank G (ex_material R_) N ex_body ex_jump (ex_disp G) (ex_part p) (ex_part_fi p) in let r := length (equi 2 N) in
  exists A b U, (forall p, (p < 2)%nat -> map_opt (to_global (ex_part p)) (assemble (ex_part p) (ex_part_fi p) (elasticity_mat (E p))) = Some (A p)) /\
    (forall p, (p < 2)%nat -> map_opt (to_global_row (ex_part p)) (rhs (ex_part p) (ex_part_fi p) (elasticity_vec (E p))) = Some (b p)) /\
    (forall V, nonzero 3 (r * 2) V -> 0 < pairing (r * 2) (flat_map A (seq 0 2)) V V) /\
    solves (r * 2) (flat_map A (seq 0 2)) (flat_map b (seq 0 2)) U /\
    (forall U', solves (r * 2) (flat_map A (seq 0 2)) (flat_map b (seq 0 2)) U' -> forall g l, (g < 3)%nat -> (l < r * 2)%nat -> U' g l = U g l) /\
    forall g l p, (g < 3)%nat -> (l < r)%nat -> (p < 2)%nat -> U g (l + r * p)%nat = ex_u g (place_in G ex_elems g (point (equi 2 N) l)) p.
Proof.
  intros N m0 B HN. destruct (constructor_data_every_degree 2 N ltac:(auto) ltac:(lia)) as (root & mi & CD & _).
  pose proof CD as (HD & RT & Ln & Un & HI & _).
  destruct (nodal_basis_exists_unique ginv 2 N mi (equi 2 N) ltac:(lia) RT Ln Un HI) as (psi & Hpsi & _).
  destruct (elastic_reference_of_degree root [] [] [] ginv m0 2 N 0 mi (equi 2 N) psi B CD Hpsi) as (R1 & E1 & EN & _ & RD1 & _).
  destruct (elastic_operator_exact root [] [] [] ginv m0 2 N 0 mi (equi 2 N) B strip_X 2 ex_elems ex_facets ex_bc ex_part ex_part_fi
    (fun p => loaded_erank (strip_at root N) (ex_material R1) N ex_body ex_jump (ex_disp (strip_at root N)) (ex_part p) (ex_part_fi p)) (ex_material R1) (ex_loads (strip_at root N))
    (fun g => ex_lam g (fun _ => 0)) (fun g => ex_mu g (fun _ => 0)) CD ltac:(lia) ex_parts (strip_valid _ _)) as (R_ & E & H).
  - intros g Hg. unfold ex_lam, ex_mu. destruct (up g); lra.
  - apply strip_anchored.
  - intros f g h p q Hf El. unfold ex_facets in Hf.
    repeat (destruct Hf as [<- | Hf]; [vm_compute in El; try discriminate El; injection El as <- <-|]); [| |destruct Hf]; destruct p; cbn; ring.
  - assert (R_ = R1) by congruence. subst R1. exists root, mi, R_. split; [exact E|]. intros G E' r.
    destruct H as (A & b & U & HA & Hb & _ & PD & S1 & S2 & S3); [reflexivity| | |].
    + intros g l Hg Hl. split; reflexivity.
    + intros p Hp. destruct (strip_table p Hp). apply loaded_erank_ok; auto.
    + exists A, b, U. split; [exact HA|]. split; [exact Hb|]. split; [exact PD|]. split; [exact S1|]. split; [exact S2|].
      apply (S3 ex_u ex_du); [|apply ex_equilibrium].
      intros g p Hg Hp. apply (poly_le 2 2); [lia|].
      assert (PC : forall d, (d < 2)%nat -> polynomial 2 2 (fun x => x d)) by (intros d Hd; apply (poly_le 2 1); [lia|apply poly_coord; exact Hd]).
      destruct p as [|[|p]]; [| |lia]; unfold ex_u.
      * apply poly_plus; [apply poly_scale; apply PC; lia|]. apply poly_scale. apply (poly_mult 2 1 1); apply poly_coord; lia.
      * destruct (up g); [apply poly_const|apply poly_scale; apply PC; lia].
Qed.

(** Case for [floating_bodies_singular]. *)
Example free_body_singular : forall N m0 B, (1 <= N)%nat ->
  exists root mi R_, Elasticity_constructor root [] [] [] ginv m0 2 N 0 mi (equi 2 N) B = Some R_ /\ let n := (length (equi 2 N) * 2)%nat in
  exists A U, (forall p, (p < 2)%nat -> map_opt (to_global (free_part p)) (assemble (free_part p) (free_fi p) (elasticity_mat (mesh_erank (strip_at root N) (ex_material R_) N (free_part p) (free_fi p)))) = Some (A p)) /\
    nonzero 3 n U /\ (forall V, pairing n (flat_map A (seq 0 2)) V U = 0).
Proof.
  intros N m0 B HN. destruct (constructor_data_every_degree 2 N ltac:(auto) HN) as (root & mi & CD & _).
  pose proof CD as (HD & RT & Ln & Un & HI & _).
  destruct (nodal_basis_exists_unique ginv 2 N mi (equi 2 N) ltac:(lia) RT Ln Un HI) as (psi & Hpsi & _ & Rep & _).
  destruct (elastic_reference_of_degree root [] [] [] ginv m0 2 N 0 mi (equi 2 N) psi B CD Hpsi) as (R_ & E & EN & _ & RD & _). exists root, mi, R_. split; [exact E|]. intro n. unfold n. rewrite <- EN.
  apply (floating_bodies_singular (strip_at root N) N psi 2 ex_elems ex_facets (fun _ => BC_Natural) free_part (ex_material R_) free_fi _ (fun _ => 1) 0%nat free_parts (linear_straight _ _ _ _) (strip_valid _ _) HN RD).
  - intro x. change (p_N (e_geo (ex_material R_))) with (p_N R_). rewrite EN. symmetry. apply (Rep (fun _ => 1)). apply poly_const.
  - cbn. lia.
  - apply free_floating.
  - intros p Hp. apply mesh_erank_ok; [apply (mp_mesh _ _ _ _ _ _ free_parts p Hp)|]. destruct p as [|[|p]]; [| |lia]; vm_compute; reflexivity.
Qed.
