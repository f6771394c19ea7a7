(** Property theorems: the equations assembled for elasticity have exactly one solution (C82). *)
Require Import List Arith Lia Bool Reals Lra Psatz Classical Sorting.Sorted.
Require Import Verif.Base Verif.LinAlg Verif.SimplexModel Verif.SimplexProofs Verif.LocalMeshModel Verif.TopoModel Verif.TopoSpec Verif.TopoProofs Verif.TopoProps
  Verif.AssembleModel Verif.AssembleSpec Verif.AssembleProofs Verif.AssembleProps Verif.MatFree Verif.FaultModel Verif.PoissonModel Verif.PenaltyModel
  Verif.SipSpec Verif.SipProofs Verif.SipRank Verif.SipProps Verif.CoerciveProps
  Verif.GeometryModel Verif.GeometryProofs Verif.GeometrySpec Verif.GeometryProps Verif.GeometryStraight Verif.MeshSpec Verif.MeshProofs Verif.MeshPoissonProps
  Verif.BasisSpec Verif.IntegralSpec Verif.QuadratureProps Verif.DubinerProofs Verif.NodesConform Verif.DegreeSpec Verif.DegreeProofs Verif.DegreeProps Verif.DivergenceProofs
  Verif.TensorModel Verif.BasisModel Verif.QuadratureModel Verif.QuadratureSpec Verif.RefElementSpec Verif.RefElementModel Verif.RefElementProps Verif.OperatorRefModel Verif.OperatorRefProps
  Verif.ElasticityModel Verif.ElasticitySpec Verif.ElasticityProofs Verif.ElasticFormSpec Verif.ElasticFormProofs Verif.ElasticFormProps Verif.ElasticCoerciveProps Verif.MeshElasticSpec Verif.MeshElasticProps
  Verif.ElasticModeProps Verif.ConsistencySpec Verif.ConsistencyProofs Verif.ConsistencyProps Verif.ElasticConsistencySpec Verif.ElasticConsistencyProps
  Verif.DefiniteSpec Verif.DefiniteProofs Verif.DefiniteForm Verif.DefiniteMesh Verif.DefiniteProps Verif.SolveProofs Verif.RigidProofs Verif.ElasticDefiniteForm Verif.ElasticDefiniteMesh.
Import ListNotations.
Local Open Scope R_scope.

(** C82: on every mesh of straight triangles or tetrahedra on which every element is connected, through
    facets, with a boundary where the displacement is prescribed, for every polynomial degree, number of
    ranks and partition, the matrix that the ranks assemble for elasticity is positive definite. *)
Theorem anchored_mesh_elastic_positive_definite : forall G k phi procs elems facets bc m E_ fi E, let R_ := e_geo E_ in
  mesh_parts (gs_D G) procs elems facets bc m -> straight G -> valid_geometry G elems facets -> (1 <= k)%nat ->
  reference_of_degree (gs_D G) k (gs_xi G) (gs_chi G) phi R_ -> linearly_independent (p_N R_) phi ->
  (forall g l, (g < length elems)%nat -> (l < p_N R_)%nat -> 0 <= e_lam E_ g l /\ 0 < e_mu E_ g l) ->
  (forall g, (g < length elems)%nat -> in_range (gs_D G) R_ (e_lam E_ g) /\ in_range (gs_D G) R_ (e_mu E_ g) /\ in_range (gs_D G) R_ (fun l => INR (gs_D G) * e_lam E_ g l + 2 * e_mu E_ g l)) ->
  (forall g, (g < length elems)%nat -> anchored elems facets bc g) ->
  (forall p, (p < procs)%nat -> elastic_rank G E_ k (m p) (fi p) (E p)) ->
  let n := (p_N R_ * gs_D G)%nat in
  exists A, (forall p, (p < procs)%nat -> map_opt (to_global (m p)) (assemble (m p) (fi p) (elasticity_mat (E p))) = Some (A p)) /\
    (forall U V, pairing n (flat_map A (seq 0 procs)) V U = pairing n (flat_map A (seq 0 procs)) U V) /\
    (forall U, nonzero (length elems) n U -> 0 < pairing n (flat_map A (seq 0 procs)) U U).
Proof.
  intros G k phi procs elems facets bc m E_ fi E R_ MP ST VG Hk RD LI K0 KR AN RK n.
  destruct (straight_mesh_elastic_every_degree G k phi procs elems facets bc m E_ fi E MP ST VG Hk RD K0 KR RK) as (A & HA & HF & HS & HP & _). fold R_ n in HF, HS, HP.
  exists A. split; [exact HA|]. split; [exact HS|]. intros U (g & l & Hg & Hl & Ne). destruct (HP U) as [H|H]; [exact H|]. exfalso. apply Ne.
  pose proof (rd_N _ _ _ _ _ _ RD) as HN. fold R_ in HN. unfold n in Hl.
  set (p := (l / p_N R_)%nat). set (r := (l mod p_N R_)%nat).
  assert (Hr : (r < p_N R_)%nat) by (apply Nat.mod_upper_bound; lia). assert (Hp : (p < gs_D G)%nat) by (apply Nat.div_lt_upper_bound; lia).
  assert (El : l = (r + p_N R_ * p)%nat) by (unfold r, p; pose proof (Nat.div_mod l (p_N R_) ltac:(lia)); lia).
  rewrite El. apply (LI (fun r => U g (r + p_N R_ * p)%nat)); [|exact Hr]. intro x.
  apply (rest_on_anchored G procs elems facets bc m ST MP VG k phi E_ Hk RD K0 KR U) with (g := g) (p := p) (x := x); [rewrite <- HF; auto|apply AN; exact Hg|exact Hp].
Qed.
Print Assumptions anchored_mesh_elastic_positive_definite.

(** C82b: so the equations have exactly one solution, whatever force, slip and boundary displacement are. *)
Theorem exactly_one_discrete_displacement : forall G k phi procs elems facets bc m E_ fi E L, let R_ := e_geo E_ in
  mesh_parts (gs_D G) procs elems facets bc m -> straight G -> valid_geometry G elems facets -> (1 <= k)%nat ->
  reference_of_degree (gs_D G) k (gs_xi G) (gs_chi G) phi R_ -> linearly_independent (p_N R_) phi ->
  (forall g l, (g < length elems)%nat -> (l < p_N R_)%nat -> 0 <= e_lam E_ g l /\ 0 < e_mu E_ g l) ->
  (forall g, (g < length elems)%nat -> in_range (gs_D G) R_ (e_lam E_ g) /\ in_range (gs_D G) R_ (e_mu E_ g) /\ in_range (gs_D G) R_ (fun l => INR (gs_D G) * e_lam E_ g l + 2 * e_mu E_ g l)) ->
  (forall g, (g < length elems)%nat -> anchored elems facets bc g) ->
  (forall p, (p < procs)%nat -> elastic_rank G E_ k (m p) (fi p) (E p) /\ holds_loads (gs_D G) L (m p) (E p)) ->
  (forall f g h i q, In f facets -> elements_of elems f = [g; h] -> ld_jump L f h i q = - ld_jump L f g i q) ->
  let n := (p_N R_ * gs_D G)%nat in
  exists A b U, (forall p, (p < procs)%nat -> map_opt (to_global (m p)) (assemble (m p) (fi p) (elasticity_mat (E p))) = Some (A p)) /\
    (forall p, (p < procs)%nat -> map_opt (to_global_row (m p)) (rhs (m p) (fi p) (elasticity_vec (E p))) = Some (b p)) /\
    solves n (flat_map A (seq 0 procs)) (flat_map b (seq 0 procs)) U /\
    forall U', solves n (flat_map A (seq 0 procs)) (flat_map b (seq 0 procs)) U' -> forall g l, (g < length elems)%nat -> (l < n)%nat -> U' g l = U g l.
Proof.
  intros G k phi procs elems facets bc m E_ fi E L R_ MP ST VG Hk RD LI K0 KR AN RK SL n. set (Q := load_problem G elems E_ k L).
  pose proof (rd_dim _ _ _ _ _ _ RD) as Hd. pose proof (rd_N _ _ _ _ _ _ RD) as HN.
  assert (PO : eproblem_ok (gs_D G) elems facets Q).
  { destruct (mesh_eproblem_ok G procs elems facets bc m MP VG E_ Hd k) as [La Nn _]. split; [exact La|exact Nn|exact SL]. }
  destruct (elasticity_assembly_is_interior_penalty (gs_D G) procs elems facets bc m Q E fi MP PO) as (A & b & HA & Hb & _).
  { intros p Hp. apply (load_rank G procs elems facets bc m E_ k fi E L p MP VG Hd Hk HN (fun p Hp => proj1 (RK p Hp)) Hp (proj2 (RK p Hp))). }
  destruct (anchored_mesh_elastic_positive_definite G k phi procs elems facets bc m E_ fi E MP ST VG Hk RD LI K0 KR AN (fun p Hp => proj1 (RK p Hp))) as (A' & HA' & _ & PD).
  assert (EA : flat_map A (seq 0 procs) = flat_map A' (seq 0 procs)).
  { apply flat_map_ext_in. intros p Hp. apply in_seq in Hp. pose proof (HA p ltac:(lia)). pose proof (HA' p ltac:(lia)). congruence. }
  destruct (solvable (length elems) n (flat_map A (seq 0 procs)) (flat_map b (seq 0 procs))) as (U & S1 & S2).
  - intros i j B. apply (blocks_in_range (gs_D G) procs elems facets bc m _ _ A MP HA).
  - intros i B. apply (rows_in_range (gs_D G) procs elems facets bc m _ _ b MP Hb).
  - intros U Z g l Hg Hl. apply NNPP. intro Ne. rewrite EA in Z. pose proof (PD U (ex_intro _ g (ex_intro _ l (conj Hg (conj Hl Ne))))) as P. fold R_ n in P. lra.
  - exists A, b, U. auto.
Qed.
Print Assumptions exactly_one_discrete_displacement.

Lemma nodal_independent D N nodes psi : nodal_basis D N nodes psi -> linearly_independent (length nodes) psi.
Proof.
  intros [_ HN] u Z l Hl. pose proof (Z (nth l nodes (fun _ => 0))) as Y. rewrite (rsum_single (length nodes) l) in Y; [|exact Hl|].
  - rewrite HN, Nat.eqb_refl in Y by auto. lra.
  - intros i Hi Ne. rewrite HN by auto. destruct (Nat.eqb_spec i l); [congruence|ring].
Qed.
(** C82c: for the operator that Elasticity's constructor builds, with Lame parameters constant in each
    element, the assembled matrix is positive definite and the equations have exactly one solution. If
    there is an equilibrium that is a polynomial of at most the degree of the elements in each element,
    then the computed nodal displacements are those of the equilibrium. *)
Theorem elastic_operator_exact : forall root wv2 js wv3 inverse m0 D N set mi nodes B X procs elems facets bc m fi E E_ L lam mu,
  constructor_data root wv2 js wv3 inverse D N set mi nodes -> (1 <= N)%nat ->
  let order := MinQuadOrder N set in
  let G := linear_setup D X (point (map fst (volRule root wv2 js wv3 D order))) (point (map fst (fctRule root wv2 js wv3 D order))) in
  mesh_parts D procs elems facets bc m -> valid_geometry G elems facets ->
  (forall g, (g < length elems)%nat -> 0 <= lam g /\ 0 < mu g) ->
  (forall g, (g < length elems)%nat -> anchored elems facets bc g) ->
  (forall f g h i q, In f facets -> elements_of elems f = [g; h] -> ld_jump L f h i q = - ld_jump L f g i q) ->
  let r := length nodes in let n := (r * D)%nat in
  exists R_, Elasticity_constructor root wv2 js wv3 inverse m0 D N set mi nodes B = Some R_ /\
  (e_geo E_ = R_ -> (forall g l, (g < length elems)%nat -> (l < r)%nat -> e_lam E_ g l = lam g /\ e_mu E_ g l = mu g) ->
   (forall p, (p < procs)%nat -> elastic_rank G E_ N (m p) (fi p) (E p) /\ holds_loads D L (m p) (E p)) ->
   exists A b U, (forall p, (p < procs)%nat -> map_opt (to_global (m p)) (assemble (m p) (fi p) (elasticity_mat (E p))) = Some (A p)) /\
    (forall p, (p < procs)%nat -> map_opt (to_global_row (m p)) (rhs (m p) (fi p) (elasticity_vec (E p))) = Some (b p)) /\
    (forall V W, pairing n (flat_map A (seq 0 procs)) V W = pairing n (flat_map A (seq 0 procs)) W V) /\
    (forall V, nonzero (length elems) n V -> 0 < pairing n (flat_map A (seq 0 procs)) V V) /\
    solves n (flat_map A (seq 0 procs)) (flat_map b (seq 0 procs)) U /\
    (forall U', solves n (flat_map A (seq 0 procs)) (flat_map b (seq 0 procs)) U' -> forall g l, (g < length elems)%nat -> (l < n)%nat -> U' g l = U g l) /\
    forall w dw, (forall g p, (g < length elems)%nat -> (p < D)%nat -> polynomial D N (fun x => w g x p)) ->
      equilibrium G elems facets bc L (p_Nq R_) (p_nq R_) (fun g _ => lam g) (fun g _ => mu g) w dw ->
      forall g l p, (g < length elems)%nat -> (l < r)%nat -> (p < D)%nat -> U g (l + r * p)%nat = w g (place_in G elems g (point nodes l)) p).
Proof.
  intros root wv2 js wv3 inverse m0 D N set mi nodes B X procs elems facets bc m fi E E_ L lam mu CD HN order G MP VG HL AN SL r n.
  pose proof CD as (HD & RT & Ln & Un & HI & _).
  destruct (nodal_basis_exists_unique inverse D N mi nodes ltac:(lia) RT Ln Un HI) as (psi & Hpsi & _).
  destruct (elastic_reference_of_degree root wv2 js wv3 inverse m0 D N set mi nodes psi B CD Hpsi) as (R_ & ER & EN & _ & RD & _ & _ & CR).
  exists R_. split; [exact ER|]. intros EE HM RK. subst R_. pose proof (nodal_independent D N nodes psi Hpsi) as LI. rewrite <- EN in LI. fold r in EN.
  assert (ST : straight G) by apply linear_straight.
  assert (K0 : forall g l, (g < length elems)%nat -> (l < p_N (e_geo E_))%nat -> 0 <= e_lam E_ g l /\ 0 < e_mu E_ g l).
  { intros g l Hg Hl. destruct (HM g l Hg ltac:(lia)) as [-> ->]. apply HL. exact Hg. }
  assert (KR : forall g, (g < length elems)%nat -> in_range D (e_geo E_) (e_lam E_ g) /\ in_range D (e_geo E_) (e_mu E_ g) /\ in_range D (e_geo E_) (fun l => INR D * e_lam E_ g l + 2 * e_mu E_ g l)).
  { intros g Hg. split; [apply (CR _ (lam g)); intros; apply HM; auto; lia|]. split; [apply (CR _ (mu g)); intros; apply HM; auto; lia|].
    apply (CR _ (INR D * lam g + 2 * mu g)). intros l Hl. destruct (HM g l Hg ltac:(lia)) as [-> ->]. reflexivity. }
  destruct (exactly_one_discrete_displacement G N psi procs elems facets bc m E_ fi E L MP ST VG HN RD LI K0 KR AN RK SL) as (A & b & U & HA & Hb & S1 & S2).
  destruct (anchored_mesh_elastic_positive_definite G N psi procs elems facets bc m E_ fi E MP ST VG HN RD LI K0 KR AN (fun p Hp => proj1 (RK p Hp))) as (A' & HA' & SY & PD).
  assert (EA : flat_map A (seq 0 procs) = flat_map A' (seq 0 procs)).
  { apply flat_map_ext_in. intros p Hp. apply in_seq in Hp. pose proof (HA p ltac:(lia)). pose proof (HA' p ltac:(lia)). congruence. }
  rewrite EN in S1, S2, SY, PD. change (gs_D G) with D in S1, S2, SY, PD. fold n in S1, S2, SY, PD.
  exists A, b, U. split; [exact HA|]. split; [exact Hb|]. split; [rewrite EA; intros; apply SY|]. split; [rewrite EA; exact PD|]. split; [exact S1|]. split; [exact S2|].
  intros w dw Hw CS g l p Hg Hl Hp.
  destruct (elastic_operator_reproduces_polynomials root wv2 js wv3 inverse m0 D N set mi nodes B X procs elems facets bc m fi E E_ L (fun g _ => lam g) (fun g _ => mu g) w dw CD HN MP VG) as (R' & ER' & H).
  - intros g' Hg'. split; [apply poly_const|]. split; [apply poly_const|]. intros; apply Hw; auto.
  - exact SL.
  - assert (R' = e_geo E_) by congruence. subst R'. set (W g i := w g (place_in G elems g (point nodes (i mod r))) (i / r)%nat).
    assert (EW : forall g l p, (l < r)%nat -> W g (l + r * p)%nat = w g (place_in G elems g (point nodes l)) p).
    { intros g' l' p' Hl'. unfold W. rewrite (Nat.mul_comm r p'), Nat.mod_add, Nat.div_add, Nat.mod_small, Nat.div_small by lia. reflexivity. }
    destruct (H eq_refl HM CS RK W) as (A2 & b2 & HA2 & Hb2 & S3); [intros; apply EW; auto|].
    rewrite <- EW by exact Hl. symmetry. apply S2; [|exact Hg|unfold n; nia].
    assert (EA2 : flat_map A (seq 0 procs) = flat_map A2 (seq 0 procs)).
    { apply flat_map_ext_in. intros q Hq. apply in_seq in Hq. pose proof (HA q ltac:(lia)). pose proof (HA2 q ltac:(lia)). congruence. }
    assert (Eb2 : flat_map b (seq 0 procs) = flat_map b2 (seq 0 procs)).
    { apply flat_map_ext_in. intros q Hq. apply in_seq in Hq. pose proof (Hb q ltac:(lia)). pose proof (Hb2 q ltac:(lia)). congruence. }
    unfold solves. rewrite EA2, Eb2. exact S3.
Qed.
Print Assumptions elastic_operator_exact.

(** C82d: the condition is needed: when an element is not connected with a boundary where the
    displacement is prescribed, the assembled matrix maps displacements other than zero to zero. *)
Theorem floating_bodies_singular : forall G k phi procs elems facets bc m E_ fi E one g0, let R_ := e_geo E_ in
  mesh_parts (gs_D G) procs elems facets bc m -> straight G -> valid_geometry G elems facets -> (1 <= k)%nat ->
  reference_of_degree (gs_D G) k (gs_xi G) (gs_chi G) phi R_ -> (forall x, rsum (p_N R_) (fun l => one l * phi l x) = 1) ->
  (g0 < length elems)%nat -> ~ anchored elems facets bc g0 ->
  (forall p, (p < procs)%nat -> elastic_rank G E_ k (m p) (fi p) (E p)) ->
  let n := (p_N R_ * gs_D G)%nat in
  exists A U, (forall p, (p < procs)%nat -> map_opt (to_global (m p)) (assemble (m p) (fi p) (elasticity_mat (E p))) = Some (A p)) /\
    nonzero (length elems) n U /\ (forall V, pairing n (flat_map A (seq 0 procs)) V U = 0).
Proof.
  intros G k phi procs elems facets bc m E_ fi E one g0 R_ MP ST VG Hk RD ON Hg0 NA RK n.
  set (Q := mesh_eproblem G elems E_ k). pose proof (rd_dim _ _ _ _ _ _ RD) as Hd. pose proof (rd_N _ _ _ _ _ _ RD) as HN. fold R_ in Hd, HN.
  pose proof (dims G elems facets VG) as HD.
  destruct (mesh_gives_elastic_interior_penalty G procs elems facets bc m E_ k fi E MP VG Hd Hk HN RK) as (A & HA & HF & _).
  destruct (finite_choice (length elems) (nat -> R) (fun _ => 0) (fun g u => (anchored elems facets bc g -> u = fun _ => 0) /\ (~ anchored elems facets bc g -> u = fun l => one (l mod p_N R_)%nat))) as (U & HU).
  { intros g Hg. destruct (classic (anchored elems facets bc g)); [exists (fun _ => 0)|exists (fun l => one (l mod p_N R_)%nat)]; tauto. }
  exists A, U. split; [exact HA|]. split.
  { apply NNPP. intro Z. assert (rsum (p_N R_) (fun l => one l * phi l (fun _ => 0)) = 0); [|rewrite ON in H; lra].
    apply rsum_zero. intros l Hl. assert (one l = 0) as ->; [|ring]. apply NNPP. intro Ne. apply Z. exists g0, l. split; [exact Hg0|]. split; [unfold n; nia|].
    rewrite (proj2 (HU g0 Hg0) NA), Nat.mod_small by exact Hl. exact Ne. }
  intro V. rewrite HF. change (elastic_form Q elems facets bc U V = 0).
  assert (CT : forall g, (g < length elems)%nat -> exists c, (forall p x, fem phi R_ (coef Q (U g) p) x = c) /\ (anchored elems facets bc g -> c = 0) /\ (~ anchored elems facets bc g -> c = 1)).
  { intros g Hg. destruct (HU g Hg) as [H1 H2]. destruct (classic (anchored elems facets bc g)) as [Y|Y].
    - exists 0. split; [|tauto]. intros p x. unfold fem, coef. rewrite (H1 Y). apply rsum_zero. intros; ring.
    - exists 1. split; [|tauto]. intros p x. rewrite <- (ON x). unfold fem, coef. rewrite (H2 Y). apply rsum_ext. intros l Hl. change (p_N (e_geo (ep_ref Q))) with (p_N R_).
      rewrite (Nat.mul_comm (p_N R_) p), Nat.mod_add, Nat.mod_small by lia. reflexivity. }
  assert (DZ : forall g p e x d, (g < length elems)%nat -> partial_derivative (fem phi R_ (coef Q (U g) p)) e x d -> d = 0).
  { intros g p e x d Hg Hdv. destruct (CT g Hg) as (c & Hc & _). unfold partial_derivative in Hdv. eapply uniqueness_limite; [exact Hdv|].
    eapply JacobiProofs.derivable_pt_lim_ext_eq; [| |apply (derivable_pt_lim_const c)]; [intro; unfold fct_cte; rewrite Hc; reflexivity|reflexivity]. }
  assert (GQ : forall g p i q, (g < length elems)%nat -> (p < gs_D G)%nat -> (i < gs_D G)%nat -> (q < p_Nq R_)%nat -> dgrad Q g (U g) q p i + dgrad Q g (U g) q i p = 0).
  { intros g p i q Hg Hp Hi Hq. destruct (dgrad_is G procs elems facets bc m ST MP VG k phi E_ RD g (U g)) as (du & dx & E1 & E2 & _ & E3 & _).
    unfold Q. rewrite !E3, !E2 by auto. rewrite !rsum_zero; [ring| |]; intros e He; [rewrite (DZ g i e _ _ Hg (proj2 (E1 i e Hi He) _))|rewrite (DZ g p e _ _ Hg (proj2 (E1 p e Hp He) _))]; ring. }
  assert (GF : forall f g p i q, In f facets -> In g (elements_of elems f) -> (p < gs_D G)%nat -> (i < gs_D G)%nat -> (q < p_nq R_)%nat -> dgrad_on Q f g (U g) q p i + dgrad_on Q f g (U g) q i p = 0).
  { intros f g p i q Hf Hgf Hp Hi Hq. pose proof (in_elems elems f g Hgf) as Hg. destruct (dgrad_is G procs elems facets bc m ST MP VG k phi E_ RD g (U g)) as (du & dx & E1 & E2 & _ & _ & E3).
    unfold Q. rewrite !E3, !E2 by auto. rewrite !rsum_zero; [ring| |]; intros e He; [rewrite (DZ g i e _ _ Hg (proj2 (E1 i e Hi He) _))|rewrite (DZ g p e _ _ Hg (proj2 (E1 p e Hp He) _))]; ring. }
  unfold elastic_form. rewrite lsum_zero by (intros g Hg; apply in_seq in Hg; apply (free_vol G elems k phi E_ RD U GQ); lia). rewrite Rplus_0_l. apply lsum_zero. intros f Hf.
  assert (TR : forall g q i, In g (elements_of elems f) -> (q < p_nq R_)%nat -> disp_on Q f g (U g) q i = fem phi R_ (coef Q (U g) i) (facet_param (gs_D G) (ref_facet (gs_D G) (facet_number (gs_D G) elems f g)) (gs_chi G q))).
  { intros g q i Hg Hq. apply (disp_on_fem G procs elems facets bc m MP VG k phi E_ RD f g (U g) q i Hf Hg Hq). }
  destruct (facet_one_or_two _ _ _ _ _ _ MP f Hf) as (g & h & [El|El]); unfold efacet_term; rewrite El.
  - destruct (bc f =? BC_Natural)%nat eqn:Eb; [reflexivity|]. apply Nat.eqb_neq in Eb. assert (Hg : In g (elements_of elems f)) by (rewrite El; cbn; auto).
    unfold Q. rewrite (free_bnd G elems facets k phi E_ RD U GF f g V Hf El). fold Q. apply rsum_zero. intros q Hq.
    destruct (CT g (in_elems elems f g Hg)) as (c & Hc & C0 & _). assert (Z : forall i, disp_on Q f g (U g) q i = 0) by (intro i; rewrite (TR g q i Hg Hq), Hc; apply C0, (anchored_boundary elems facets bc f g); auto).
    rewrite rsum_zero by (intros; rewrite Z; ring). unfold contract. rewrite rsum_zero; [ring|]. intros i _. apply rsum_zero. intros j _. rewrite Z. ring.
  - assert (Hg : In g (elements_of elems f)) by (rewrite El; cbn; auto). assert (Hh : In h (elements_of elems f)) by (rewrite El; cbn; auto).
    unfold Q. rewrite (free_int G elems facets k phi E_ RD U GF f g h V Hf El). fold Q. apply rsum_zero. intros q Hq.
    destruct (CT g (in_elems elems f g Hg)) as (c & Hc & C0 & C1). destruct (CT h (in_elems elems f h Hh)) as (c' & Hc' & C0' & C1').
    assert (Ec : c = c').
    { destruct (classic (anchored elems facets bc g)) as [Y|Y].
      - rewrite C0, C0' by (auto; apply (anchored_neighbour elems facets bc f g h); auto). reflexivity.
      - rewrite C1, C1' by (auto; intro Y'; apply Y; apply (anchored_neighbour elems facets bc f h g); auto). reflexivity. }
    assert (Z : forall i, disp_on Q f g (U g) q i = c) by (intro i; rewrite (TR g q i Hg Hq); apply Hc).
    assert (Z' : forall i, disp_on Q f h (U h) q i = c) by (intro i; rewrite (TR h q i Hh Hq), Ec; apply Hc').
    destruct (mesh_good G procs elems facets bc m MP VG R_ Hd) as (NN & _).
    rewrite rsum_zero by (intros; rewrite Z, Z'; ring). unfold contract. rewrite rsum_zero; [ring|]. intros i _. apply rsum_zero. intros j _. unfold djump. rewrite Z, Z'.
    change (ep_n Q f h j q) with (mesh_normal G elems f h j q). rewrite (NN f g h j q Hf El). change (mesh_normal G elems f g j q) with (ep_n Q f g j q). ring.
Qed.
Print Assumptions floating_bodies_singular.
