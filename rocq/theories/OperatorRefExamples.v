(** Data that meet the hypotheses for every degree, and a coefficient that turns negative (C76). *)
Require Import List Arith Lia Bool Reals Lra Permutation.
Require Import Verif.Base Verif.LinAlg Verif.CombinatoricsModel Verif.CombinatoricsProps Verif.SimplexModel Verif.LocalMeshModel Verif.LocalMeshProps Verif.TopoModel Verif.TopoSpec Verif.TopoProps
  Verif.AssembleModel Verif.AssembleSpec Verif.AssembleProps Verif.MatFree Verif.FaultModel Verif.PoissonModel Verif.PenaltyModel Verif.SipSpec Verif.SipExamples
  Verif.GeometryModel Verif.GeometryProofs Verif.GeometrySpec Verif.GeometryProps Verif.GeometryStraight Verif.MeshSpec Verif.MeshExamples
  Verif.ElasticityModel Verif.ElasticFormSpec Verif.MeshElasticSpec Verif.MeshWaveExamples
  Verif.EquidistantModel Verif.EquidistantProps Verif.UnisolventProps Verif.DubinerProofs
  Verif.TensorModel Verif.BasisModel Verif.BasisSpec Verif.IntegralSpec Verif.QuadratureModel Verif.QuadratureSpec Verif.QuadratureProps Verif.QuadratureExamples Verif.RootsProps Verif.RefElementModel Verif.RefElementSpec Verif.RefElementProofs Verif.RefElementProps Verif.RefElementExamples
  Verif.DegreeSpec Verif.DegreeProps Verif.OperatorRefModel Verif.OperatorRefProps.
Import ListNotations.
Local Open Scope R_scope.

Lemma empty_tables root D m : (D = 1 \/ D = 2 \/ D = 3)%nat -> simplexQuadratureRule root [] [] [] D m = TensorProductRule root D m.
Proof. intros [-> | [-> | ->]]; reflexivity. Qed.
Definition equi (D N : nat) : list vec := map of_list (equidistant_nodes D VTK N).
Example constructor_data_every_degree : forall D N, (D = 2 \/ D = 3)%nat -> (1 <= N)%nat ->
  exists root mi, constructor_data root [] [] [] ginv D N 0 mi (equi D N) /\
    forall x w, In (x, w) (volRule root [] [] [] D (MinQuadOrder N 0)) -> (forall d, (d < D)%nat -> 0 < x d) /\ rsum D x < 1.
Proof.
  intros D N HD HN. destruct (integer_sums_enumerate D N true ltac:(lia)) as (fuel & mi & E & _). assert (RT : runs_through D N mi) by (now exists fuel).
  destruct (equidistant_unisolvent D VTK N mi ltac:(lia) HN RT) as [L U]. destruct (roots_for_every_order (2 * N + 1)) as (root & Hr).
  assert (A1 : ((2 * N + 1) / 2 = N)%nat) by (rewrite Nat.mul_comm, Nat.div_add_l by lia; cbn; lia). assert (A2 : ((2 * N) / 2 = N)%nat) by (rewrite Nat.mul_comm; apply Nat.div_mul; lia).
  assert (Q : forall m, (m / 2 = N)%nat -> sound_quadrature root [] [] [] m).
  { intros m Em. split; [rewrite Em; rewrite A1 in Hr; exact Hr|]. split; [|split]; intros k r []. }
  exists root, mi. split; [unfold constructor_data; cbn [MinQuadOrder Nat.eqb]; split; [exact HD|]; split; [exact RT|]; split; [exact L|]; split; [exact U|]; split; [exact gauss_inverse_exact|]|].
  - split; [auto|]. split; [apply Q, A1|]. split; [apply Q, A2|]. unfold volRule, fctRule. rewrite !empty_tables by lia.
    intros x w [H | H].
    + destruct (tensor_product_rule_inside root D _ Hr ltac:(lia) x w H). lra.
    + destruct (tensor_product_rule_inside root (D - 1) _ Hr ltac:(lia) x w H). lra.
  - intros x w H. unfold volRule in H. rewrite empty_tables in H by lia. exact (proj2 (tensor_product_rule_inside root D _ Hr ltac:(lia) x w H)).
Qed.

(** The strip of three triangles on two ranks: the matrix of every degree. *)
Definition strip_at root N : geo_setup := linear_setup 2 strip_X (point (map fst (volRule root [] [] [] 2 (MinQuadOrder N 0)))) (point (map fst (fctRule root [] [] [] 2 (MinQuadOrder N 0)))).
Lemma strip_valid xi chi : valid_geometry (linear_setup 2 strip_X xi chi) ex_elems ex_facets.
Proof.
  apply straight_mesh_valid; auto.
  - apply strip_plexes.
  - apply (mp_facets _ _ _ _ _ _ ex_parts).
  - intros plex [<-|[<-|[<-|[]]]]; cbn; unfold edge_matrix, strip_X; cbn; lra.
  - apply strip_separated.
Qed.
Lemma strip_table p : (p < 2)%nat -> topo_ok 2 (ex_part p) /\ facet_table 2 (ex_part p) = Some (ex_part_fi p).
Proof.
  intro Hp. split; [apply (mp_mesh _ _ _ _ _ _ ex_parts p Hp)|]. destruct p as [|[|p]]; try lia; vm_compute; reflexivity.
Qed.
Example strip_poisson_every_degree : forall N m0 B, (1 <= N)%nat -> (forall g l, p_K B g l = INR (S g)) ->
  exists root mi R_, Poisson_constructor root [] [] [] ginv m0 2 N 0 mi (equi 2 N) B = Some R_ /\
  exists A, (forall p, (p < 2)%nat -> map_opt (to_global (ex_part p)) (assemble (ex_part p) (ex_part_fi p) (poisson_mat (mesh_rank (strip_at root N) R_ N (ex_part p) (ex_part_fi p)))) = Some (A p)) /\
  (forall U V, pairing (length mi) (flat_map A (seq 0 2)) V U = pairing (length mi) (flat_map A (seq 0 2)) U V) /\
  (forall U, 0 <= pairing (length mi) (flat_map A (seq 0 2)) U U).
Proof.
  intros N m0 B HN HK. destruct (constructor_data_every_degree 2 N ltac:(auto) HN) as (root & mi & CD & _).
  destruct (poisson_reference_of_degree root [] [] [] ginv m0 2 N 0 mi (equi 2 N) B CD) as (R1 & E1 & _).
  destruct (poisson_operator_positive root [] [] [] ginv m0 2 N 0 mi (equi 2 N) B strip_X 2 ex_elems ex_facets ex_bc ex_part ex_part_fi
    (fun p => mesh_rank (strip_at root N) R1 N (ex_part p) (ex_part_fi p)) (fun g => INR (S g)) CD HN ex_parts (strip_valid _ _)) as (R_ & E & H).
  - intros. apply HK.
  - intros. apply lt_0_INR. lia.
  - assert (R_ = R1) by congruence. subst R1. exists root, mi, R_. split; [exact E|].
    destruct H as (A & HA & _ & H2 & H3); [|exists A; auto]. intros p Hp. destruct (strip_table p Hp). apply mesh_rank_ok; auto.
Qed.
Definition strip_edata (R_ : pdata) : edata := {|
  e_geo := R_; e_lam := fun g _ => INR g; e_mu := fun g _ => INR (S g); e_rhoInv := fun g _ => / INR (g + 2); e_Minv := fun _ _ _ => 0; e_force := None; e_dir := None; e_slip := None |}.
Example strip_elastic_every_degree : forall N m0 B, (1 <= N)%nat ->
  exists root mi R_, Elasticity_constructor root [] [] [] ginv m0 2 N 0 mi (equi 2 N) B = Some R_ /\ let n := (length (equi 2 N) * 2)%nat in
  exists A, (forall p, (p < 2)%nat -> map_opt (to_global (ex_part p)) (assemble (ex_part p) (ex_part_fi p) (elasticity_mat (mesh_erank (strip_at root N) (strip_edata R_) N (ex_part p) (ex_part_fi p)))) = Some (A p)) /\
  (forall U V, pairing n (flat_map A (seq 0 2)) V U = pairing n (flat_map A (seq 0 2)) U V) /\
  (forall U, 0 <= pairing n (flat_map A (seq 0 2)) U U).
Proof.
  intros N m0 B HN. destruct (constructor_data_every_degree 2 N ltac:(auto) HN) as (root & mi & CD & _).
  destruct CD as (HD & RT & Ln & U & HI & HS & Q1 & Q2 & PW) eqn:ECD.
  destruct (nodal_basis_exists_unique ginv 2 N mi (equi 2 N) ltac:(lia) RT Ln U HI) as (psi & Hpsi & _).
  destruct (elastic_reference_of_degree root [] [] [] ginv m0 2 N 0 mi (equi 2 N) psi B CD Hpsi) as (R1 & E1 & _).
  destruct (elastic_operator_positive root [] [] [] ginv m0 2 N 0 mi (equi 2 N) B strip_X 2 ex_elems ex_facets ex_bc ex_part ex_part_fi
    (fun p => mesh_erank (strip_at root N) (strip_edata R1) N (ex_part p) (ex_part_fi p)) (strip_edata R1) INR (fun g => INR (S g)) CD HN ex_parts (strip_valid _ _)) as (R_ & E & H).
  - intros. split; [apply pos_INR|apply lt_0_INR; lia].
  - assert (R_ = R1) by congruence. subst R1. exists root, mi, R_. split; [exact E|]. intro n.
    destruct H as (A & HA & _ & H2 & H3); [reflexivity|cbn; auto| |exists A; auto]. intros p Hp. destruct (strip_table p Hp). apply mesh_erank_ok; auto.
Qed.

Lemma reference_points D nb basis gradient material Minv vol fct B R_ : operator_reference D nb basis gradient material Minv vol fct B = Some R_ -> p_Nq R_ = length vol.
Proof.
  unfold operator_reference. destruct (f2v D); cbn [bind]; [|discriminate]. destruct Minv; cbn [bind]; [|discriminate].
  repeat match goal with |- context [bind ?e _] => destruct e; cbn [bind]; [|discriminate] end. intro E. injection E as <-. reflexivity.
Qed.
(** The range of the nodal values is needed: with quadratic functions a coefficient that is positive at
    all nodes is negative at a quadrature point. *)
Theorem nodal_sign_refuted : exists root mi, constructor_data root [] [] [] ginv 2 2 0 mi (equi 2 2) /\
  forall m0 B, exists R_ v q, Poisson_constructor root [] [] [] ginv m0 2 2 0 mi (equi 2 2) B = Some R_ /\
    (forall t, (t < p_N R_)%nat -> 0 < v t) /\ (q < p_Nq R_)%nat /\ rsum (p_N R_) (fun t => p_matEQ R_ q t * v t) < 0 /\ ~ in_range 2 R_ v.
Proof.
  destruct (constructor_data_every_degree 2 2 ltac:(auto) ltac:(lia)) as (root & mi & CD & In1). exists root, mi. split; [exact CD|]. intros m0 B.
  destruct (poisson_reference_of_degree root [] [] [] ginv m0 2 2 0 mi (equi 2 2) B CD) as (R_ & ER & EN & _ & RD & MP & _).
  destruct CD as (HD & RT & Ln & U & HI & _). destruct (nodal_basis_exists_unique ginv 2 2 mi (equi 2 2) ltac:(lia) RT Ln U HI) as (psi & Hpsi & _ & Rep & One).
  destruct (MP psi Hpsi) as [M1 _]. clear MP. destruct (rd_W _ _ _ _ _ _ RD) as [_ (q & Hq & _)].
  set (x := point (map fst (volRule root [] [] [] 2 (MinQuadOrder 2 0))) q) in *.
  assert (Hx : (forall d, (d < 2)%nat -> 0 < x d) /\ rsum 2 x < 1).
  { assert (Lq : (q < length (volRule root [] [] [] 2 (MinQuadOrder 2 0)))%nat).
    { rewrite <- (reference_points _ _ _ _ _ _ _ _ _ _ ER). exact Hq. }
    unfold x, point. rewrite nth_indep with (d' := fst ((fun _ => 0, 0) : vec * R)) by (now rewrite map_length). rewrite map_nth.
    apply (In1 _ (snd (nth q (volRule root [] [] [] 2 (MinQuadOrder 2 0)) (fun _ => 0, 0)))). rewrite <- surjective_pairing. apply nth_In. exact Lq. }
  assert (Hd : exists d, (d < 2)%nat /\ 0 < x d < 1 / 2).
  { destruct Hx as [P S]. cbn [rsum] in S. pose proof (P 0%nat ltac:(lia)). pose proof (P 1%nat ltac:(lia)).
    destruct (Rlt_dec (x 0%nat) (1 / 2)); [exists 0%nat; split; [lia|lra]|exists 1%nat; split; [lia|lra]]. }
  destruct Hd as (d & Hd & Lo & Hi).
  set (f := fun y : vec => y d * (2 * y d + -1)). set (c := / (x d * (1 - 2 * x d)) + / (x d * (1 - 2 * x d))).
  assert (Pf : polynomial 2 2 f).
  { unfold f. apply (poly_le 2 (1 + 1)); [lia|]. apply poly_mult; [apply poly_coord; exact Hd|].
    apply poly_plus; [apply poly_scale, poly_coord, Hd|apply poly_const]. }
  assert (Dn : 0 < x d * (1 - 2 * x d)) by (apply Rmult_lt_0_compat; lra).
  assert (Cp : 0 < c) by (unfold c; pose proof (Rinv_0_lt_compat _ Dn); lra).
  assert (Cx : 1 + c * f x < 0) by (replace (c * f x) with (- 2); [lra|unfold c, f; field; lra]).
  exists R_, (fun t => 1 + c * f (point (equi 2 2) t)), q. split; [exact ER|].
  assert (Ev : rsum (p_N R_) (fun t => p_matEQ R_ q t * (1 + c * f (point (equi 2 2) t))) < 0).
  { rewrite (rsum_ext _ _ (fun t => psi t x + c * (f (point (equi 2 2) t) * psi t x))) by (intros t Ht; rewrite M1 by auto; fold x; ring).
    rewrite rsum_plus, rsum_scale, EN, <- Ln, One, <- (Rep f Pf). exact Cx. }
  assert (Vp : forall t, (t < p_N R_)%nat -> 0 < 1 + c * f (point (equi 2 2) t)).
  { intros t Ht. rewrite EN, <- Ln in Ht. assert (0 <= f (point (equi 2 2) t)); [|pose proof (Rmult_le_pos c _ (Rlt_le _ _ Cp) H); lra].
    unfold f. assert (S : exists n : nat, point (equi 2 2) t d = INR n / 2).
    { unfold equi in Ht |- *. destruct (equidistant_nodes_enumerate 2 VTK 2 ltac:(lia) ltac:(lia)) as (idx & _ & Ei & _). rewrite map_length in Ht. unfold point.
      rewrite nth_indep with (d' := of_list []) by (now rewrite map_length). rewrite map_nth, Ei. rewrite Ei, map_length in Ht.
      rewrite nth_indep with (d' := lattice_point 2 []) by (now rewrite map_length). rewrite map_nth. unfold lattice_point, of_list.
      match goal with |- exists n, nth d (map ?h ?l) 0 = _ => destruct (Nat.lt_ge_cases d (length l)) as [Hl|Hl];
        [exists (nth d l 0%nat); rewrite nth_indep with (d' := h 0%nat) by (now rewrite map_length); rewrite (map_nth h); reflexivity
        |exists 0%nat; rewrite nth_overflow by (now rewrite map_length); cbn; lra] end. }
    destruct S as (n & ->). destruct n as [|n]; [cbn; lra|]. apply Rmult_le_pos; [pose proof (pos_INR (S n)); lra|]. pose proof (le_INR 1 (S n) ltac:(lia)). cbn [INR] in *. lra. }
  split; [exact Vp|]. split; [exact Hq|]. split; [exact Ev|].
  intros [W _]. destruct (W q Hq) as [(l & Hl & Le) _]. specialize (Vp l Hl). lra.
Qed.
Print Assumptions nodal_sign_refuted.
