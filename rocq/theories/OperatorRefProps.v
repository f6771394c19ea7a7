(** Property theorems: the constructors of the operators give reference elements of the polynomial
    degree, and with them positive semidefinite matrices on straight meshes (C76). *)
Require Import List Arith Lia Bool Reals Lra Permutation.
Require Import Verif.Base Verif.LinAlg Verif.SimplexModel Verif.LocalMeshModel Verif.LocalMeshProps Verif.TopoModel Verif.TopoSpec Verif.TopoProps
  Verif.AssembleModel Verif.AssembleSpec Verif.AssembleProps Verif.MatFree Verif.FaultModel Verif.PoissonModel Verif.PenaltyModel Verif.SipSpec
  Verif.GeometryModel Verif.GeometryProofs Verif.GeometrySpec Verif.GeometryProps Verif.GeometryStraight Verif.MeshSpec
  Verif.ElasticityModel Verif.ElasticFormSpec Verif.MeshElasticSpec
  Verif.TensorModel Verif.BasisModel Verif.BasisSpec Verif.IntegralSpec Verif.QuadratureModel Verif.QuadratureSpec Verif.QuadratureProps Verif.RootsProps Verif.RefElementModel Verif.RefElementSpec Verif.RefElementProofs Verif.RefElementProps
  Verif.ErrorExactProps Verif.DegreeSpec Verif.DegreeProofs Verif.DegreeProps Verif.OperatorRefModel.
Import ListNotations.
Local Open Scope R_scope.

Lemma point_map (h : vec -> vec) l q : (q < length l)%nat -> point (map h l) q = h (point l q).
Proof. intro H. unfold point. rewrite nth_indep with (d' := h (fun _ => 0)) by (now rewrite map_length). apply map_nth. Qed.
Lemma pos_weight n w : (forall q, (q < n)%nat -> 0 <= w q) -> 0 < rsum n w -> good_weights n w.
Proof.
  intros H P. split; [exact H|]. induction n as [|n IH]; cbn in P; [lra|]. destruct (Rlt_dec 0 (w n)) as [L|L]; [exists n; split; auto|].
  destruct IH as (q & Hq & L'); [auto|specialize (H n ltac:(lia)); lra|]. exists q. split; auto.
Qed.
Lemma constant_in_range D R_ v c : (0 < p_N R_)%nat -> (forall q, (q < p_Nq R_)%nat -> rsum (p_N R_) (p_matEQ R_ q) = 1) ->
  (forall s q, (s < D + 1)%nat -> (q < p_nq R_)%nat -> rsum (p_N R_) (p_matE R_ s q) = 1) -> (forall l, (l < p_N R_)%nat -> v l = c) -> in_range D R_ v.
Proof.
  intros HN H1 H2 Hv. assert (W : forall f, rsum (p_N R_) f = 1 -> within (p_N R_) f v).
  { intros f Hf. assert (E : rsum (p_N R_) (fun t => f t * v t) = c) by (rewrite (rsum_ext _ _ (fun t => f t * c)) by (intros; rewrite Hv by auto; reflexivity); rewrite rsum_scale_r, Hf; ring).
    split; exists 0%nat; (split; [exact HN|]); rewrite E, Hv by auto; lra. }
  split; intros; apply W; auto.
Qed.
(** Convex weights, as of linear functions, keep every value in range. *)
Lemma convex_in_range D R_ v : (0 < p_N R_)%nat -> (forall q, (q < p_Nq R_)%nat -> convex (p_N R_) (p_matEQ R_ q)) ->
  (forall s q, (s < D + 1)%nat -> (q < p_nq R_)%nat -> convex (p_N R_) (p_matE R_ s q)) -> in_range D R_ v.
Proof.
  intros HN H1 H2. assert (W : forall f, convex (p_N R_) f -> within (p_N R_) f v).
  { intros f Hf. destruct (MeshProofs.convex_between (p_N R_) f v HN Hf) as [(a & Ha & La) (b & Hb & Lb)].
    rewrite (rsum_ext _ _ (fun t => f t * v t)) in La, Lb by (intros; ring). split; eexists; eauto. }
  split; intros; apply W; auto.
Qed.

Section Reference.
Variables (D k nb : nat) (basis gradient material : list vec -> list nat -> option (view * mem)) (Minv : option (nat -> nat -> R)) (vol fct : list (vec * R)) (B : pdata)
  (phi mphi : nat -> vec -> R).
Hypothesis HD : (D = 2 \/ D = 3)%nat.
Hypothesis Hnb : (0 < nb)%nat.
Hypothesis Hphi : forall l, (l < nb)%nat -> polynomial D k (phi l).
Hypothesis Hbasis : forall points perm, Permutation perm [0; 1]%nat -> exists E m, basis points perm = Some (E, m) /\
  forall l q, (l < nb)%nat -> (q < length points)%nat -> m (v_addr E (permuted perm [l; q])) = phi l (point points q).
Hypothesis Hgradient : forall points perm, Permutation perm [0; 1; 2]%nat -> exists E m, gradient points perm = Some (E, m) /\
  forall l d q, (l < nb)%nat -> (d < D)%nat -> (q < length points)%nat -> partial_derivative (phi l) d (point points q) (m (v_addr E (permuted perm [l; d; q]))).
Hypothesis Hmaterial : forall points perm, Permutation perm [0; 1]%nat -> exists E m, material points perm = Some (E, m) /\
  forall l q, (l < nb)%nat -> (q < length points)%nat -> m (v_addr E (permuted perm [l; q])) = mphi l (point points q).
Hypothesis Hunity : forall x, rsum nb (fun l => mphi l x) = 1.
Hypothesis HMinv : exists Mi, Minv = Some Mi.
Hypothesis XV : exact_on_simplex D vol (2 * k).
Hypothesis XF : exact_on_simplex (D - 1) fct (2 * k).
Hypothesis PV : forall x w, In (x, w) vol -> 0 <= w.
Hypothesis PF : forall x w, In (x, w) fct -> 0 <= w.
Lemma rule_weights d rule : (0 < d <= 3)%nat -> exact_on_simplex d rule (2 * k) -> (forall x w, In (x, w) rule -> 0 <= w) -> good_weights (length rule) (fun q => nth q (map snd rule) 0).
Proof.
  intros Hd X P. apply pos_weight.
  - intros q Hq. rewrite nth_indep with (d' := snd ((fun _ => 0, 0) : vec * R)) by (now rewrite map_length). rewrite map_nth.
    apply (P (fst (nth q rule (fun _ => 0, 0)))). rewrite <- surjective_pairing. apply nth_In. exact Hq.
  - pose proof (X (fun _ => 1) (poly_const d 1 _)) as V. rewrite rule_sum_nth in V. rewrite (rsum_ext _ _ (fun q => nth q (map snd rule) 0)) in V by (intros; ring).
    rewrite (simplex_integral_unique d _ _ _ ltac:(lia) V (simplex_one d Hd)). apply Rinv_0_lt_compat, INR_fact_lt_0.
Qed.
Lemma facet_list : exists fs, f2v D = Some fs /\ forall s, (s < D + 1)%nat -> nth_error fs s = Some (ref_facet D s).
Proof.
  destruct HD as [-> | ->]; eexists; (split; [reflexivity|]); intros s Hs; unfold ref_facet; [rewrite f2v_2|rewrite f2v_3]; apply nth_error_nth'; cbn; lia.
Qed.
Lemma reference_ok : exists R_, operator_reference D nb basis gradient material Minv vol fct B = Some R_ /\ p_N R_ = nb /\ p_K R_ = p_K B /\
  reference_of_degree D k (point (map fst vol)) (point (map fst fct)) phi R_ /\
  (forall q t, (q < p_Nq R_)%nat -> (t < nb)%nat -> p_matEQ R_ q t = mphi t (point (map fst vol) q)) /\
  (forall s q t, (s < D + 1)%nat -> (q < p_nq R_)%nat -> (t < nb)%nat -> p_matE R_ s q t = mphi t (facet_param D (ref_facet D s) (point (map fst fct) q))) /\
  (forall v c, (forall l, (l < nb)%nat -> v l = c) -> in_range D R_ v).
Proof.
  destruct facet_list as (fs & Ef & Hf). destruct HMinv as (Mi & EM).
  set (fp f := map (facet_param D f) (map fst fct)).
  assert (Lf : forall f, length (fp f) = length fct) by (intro; unfold fp; now rewrite !map_length).
  assert (Pf : forall f q, (q < length fct)%nat -> point (fp f) q = facet_param D f (point (map fst fct) q)) by (intros f q Hq; unfold fp; apply point_map; now rewrite map_length).
  destruct (Hbasis (map fst vol) [0; 1]%nat (Permutation_refl _)) as (E1 & m1 & EE1 & H1).
  destruct (Hgradient (map fst vol) [0; 1; 2]%nat (Permutation_refl _)) as (E2 & m2 & EE2 & H2).
  destruct (Hmaterial (map fst vol) [1; 0]%nat (perm_swap _ _ _)) as (E3 & m3 & EE3 & H3).
  destruct (map_opt_all (fun f => basis (fp f) [0; 1]%nat) (fun f t => forall l q, (l < nb)%nat -> (q < length fct)%nat -> read t [l; q] = phi l (facet_param D f (point (map fst fct) q))) fs) as (Eq & EE4 & H4).
  { intros f _. destruct (Hbasis (fp f) [0; 1]%nat (Permutation_refl _)) as (E & mm & EE & H). exists (E, mm). split; [exact EE|]. intros l q Hl Hq. rewrite <- Pf by auto. apply (H l q Hl). now rewrite Lf. }
  destruct (map_opt_all (fun f => gradient (fp f) [0; 1; 2]%nat) (fun f t => forall l d q, (l < nb)%nat -> (d < D)%nat -> (q < length fct)%nat -> partial_derivative (phi l) d (facet_param D f (point (map fst fct) q)) (read t [l; d; q])) fs) as (Dq & EE5 & H5).
  { intros f _. destruct (Hgradient (fp f) [0; 1; 2]%nat (Permutation_refl _)) as (E & mm & EE & H). exists (E, mm). split; [exact EE|]. intros l d q Hl Hd Hq. rewrite <- Pf by auto. apply (H l d q Hl Hd). now rewrite Lf. }
  destruct (map_opt_all (fun f => material (fp f) [1; 0]%nat) (fun f t => forall l q, (l < nb)%nat -> (q < length fct)%nat -> read t [q; l] = mphi l (facet_param D f (point (map fst fct) q))) fs) as (Mq & EE6 & H6).
  { intros f _. destruct (Hmaterial (fp f) [1; 0]%nat (perm_swap _ _ _)) as (E & mm & EE & H). exists (E, mm). split; [exact EE|]. intros l q Hl Hq. rewrite <- Pf by auto. apply (H l q Hl). now rewrite Lf. }
  unfold fp in EE4, EE5, EE6. cbv beta in EE4, EE5, EE6.
  eexists. split; [unfold operator_reference; rewrite Ef, EM; cbn [bind]; rewrite EE1, EE2; cbn [bind]; rewrite EE4; cbn [bind]; rewrite EE5; cbn [bind]; rewrite EE6; cbn [bind]; rewrite EE3; cbn [bind]; reflexivity|].
  cbn [p_N p_K p_Nq p_nq p_matEQ p_matE p_method]. split; [reflexivity|]. split; [reflexivity|].
  assert (A3 : forall q t, (q < length vol)%nat -> (t < nb)%nat -> read (E3, m3) [q; t] = mphi t (point (map fst vol) q)) by (intros; apply H3; auto; now rewrite map_length).
  assert (A6 : forall s q t, (s < D + 1)%nat -> (q < length fct)%nat -> (t < nb)%nat -> read (nth s Mq no_tensor) [q; t] = mphi t (facet_param D (ref_facet D s) (point (map fst fct) q))).
  { intros s q t Hs Hq Ht. destruct (H6 s _ (Hf s Hs)) as (b & Eb & Hb). rewrite (nth_error_nth _ _ no_tensor Eb). apply Hb; auto. }
  split; [|split; [exact A3|split; [exact A6|]]].
  - split; cbn [p_dim p_N p_Nq p_nq p_W p_w p_EQ p_DxiQ p_E p_Dxi].
    + reflexivity.
    + exact Hnb.
    + apply (rule_weights D); auto. lia.
    + apply (rule_weights (D - 1)); auto. lia.
    + intros f Hp. rewrite <- (rule_sum_nth vol f). apply XV. exact Hp.
    + intros f Hp. rewrite <- (rule_sum_nth fct f). apply XF. exact Hp.
    + exact Hphi.
    + intros l q Hl Hq. apply H1; auto. now rewrite map_length.
    + intros l e q Hl He Hq. apply H2; auto. now rewrite map_length.
    + intros s l q Hs Hl Hq. destruct (H4 s _ (Hf s Hs)) as (b & Eb & Hb). rewrite (nth_error_nth _ _ no_tensor Eb). apply Hb; auto.
    + intros s l e q Hs Hl He Hq. destruct (H5 s _ (Hf s Hs)) as (b & Eb & Hb). rewrite (nth_error_nth _ _ no_tensor Eb). apply Hb; auto.
  - intros v c Hv. apply (constant_in_range D _ v c); cbn [p_N p_Nq p_nq p_matEQ p_matE]; auto.
    + intros q Hq. rewrite <- (Hunity (point (map fst vol) q)). apply rsum_ext. intros t Ht. apply A3; auto.
    + intros s q Hs Hq. rewrite <- (Hunity (facet_param D (ref_facet D s) (point (map fst fct) q))). apply rsum_ext. intros t Ht. apply A6; auto.
Qed.
End Reference.

(** What the constructors are given: multi-indices up to degree N, nodes that determine a polynomial, an
    exact inverse, zeros of the Jacobi polynomials and tables for the two orders asked for, a build that
    does not ask for less than order 2 N, and rules without negative weights. *)
Definition constructor_data root wv2 js wv3 inverse (D N set : nat) (mi : list (list nat)) (nodes : list vec) : Prop :=
  let order := MinQuadOrder N set in
  (D = 2 \/ D = 3)%nat /\ runs_through D N mi /\ length nodes = length mi /\ unisolvent D N nodes /\ exact_inverse inverse /\
  (set = 0 \/ 2 * N <= set)%nat /\ sound_quadrature root wv2 js wv3 order /\ sound_quadrature root wv2 js wv3 (2 * N) /\
  (forall x w, In (x, w) (volRule root wv2 js wv3 D order) \/ In (x, w) (fctRule root wv2 js wv3 D order) -> 0 <= w).

Section Constructed.
Variables (root : nat -> nat -> nat -> nat -> R) (wv2 js wv3 : table) (inverse : nat -> (nat -> nat -> R) -> nat -> nat -> R) (D N set : nat) (mi : list (list nat)) (nodes : list vec).
Hypothesis CD : constructor_data root wv2 js wv3 inverse D N set mi nodes.
Let order := MinQuadOrder N set.
Lemma rules_exact : exact_on_simplex D (volRule root wv2 js wv3 D order) (2 * N) /\ exact_on_simplex (D - 1) (fctRule root wv2 js wv3 D order) (2 * N).
Proof.
  destruct CD as (HD & _ & _ & _ & _ & HS & (Hr & G2 & Gj & G3) & _ & _). fold order in Hr.
  assert (L : (2 * N <= order)%nat) by (unfold order, MinQuadOrder; destruct (Nat.eqb_spec set 0); lia).
  split; intros f Hf.
  - apply (proj1 (simplex_quadrature_rule_exact root wv2 js wv3 D order Hr G2 Gj G3 ltac:(lia))). eapply poly_le; [exact L|exact Hf].
  - apply (proj1 (simplex_quadrature_rule_exact root wv2 js wv3 (D - 1) order Hr G2 Gj G3 ltac:(lia))). eapply poly_le; [exact L|exact Hf].
Qed.
Lemma basis_nonempty : (0 < length mi)%nat.
Proof.
  destruct CD as (HD & RT & _). destruct (modal_ref_element D N mi ltac:(lia) RT) as (_ & _ & U & _).
  destruct (length mi) eqn:E; [|lia]. destruct (U (fun _ => 1) (poly_const D 1 N)) as (c & Hc & _). specialize (Hc (fun _ => 0)). cbn in Hc. lra.
Qed.
End Constructed.

(** C76c: the constructor of the Poisson operator succeeds for every degree, and what it computes is the
    modal basis, with its derivatives, at the points of rules exact for degree 2 N; constant coefficients
    stay constant. *)
Theorem poisson_reference_of_degree : forall root wv2 js wv3 inverse m0 D N set mi nodes B,
  constructor_data root wv2 js wv3 inverse D N set mi nodes ->
  let xi := point (map fst (volRule root wv2 js wv3 D (MinQuadOrder N set))) in let chi := point (map fst (fctRule root wv2 js wv3 D (MinQuadOrder N set))) in
  exists R_, Poisson_constructor root wv2 js wv3 inverse m0 D N set mi nodes B = Some R_ /\ p_N R_ = length mi /\ p_K R_ = p_K B /\
    reference_of_degree D N xi chi (fun l => DubinerP D (nth l mi [])) R_ /\
    (forall psi, nodal_basis D N nodes psi ->
       (forall q t, (q < p_Nq R_)%nat -> (t < p_N R_)%nat -> p_matEQ R_ q t = psi t (xi q)) /\
       (forall s q t, (s < D + 1)%nat -> (q < p_nq R_)%nat -> (t < p_N R_)%nat -> p_matE R_ s q t = psi t (facet_param D (ref_facet D s) (chi q)))) /\
    (forall v c, (forall l, (l < p_N R_)%nat -> v l = c) -> in_range D R_ v).
Proof.
  intros root wv2 js wv3 inverse m0 D N set mi nodes B CD xi chi. pose proof (rules_exact _ _ _ _ _ _ _ _ _ _ CD) as [XV XF]. pose proof (basis_nonempty _ _ _ _ _ _ _ _ _ _ CD) as N0.
  destruct CD as (HD & RT & Ln & U & HI & HS & Q1 & Q2 & PW). assert (HD3 : (D = 1 \/ D = 2 \/ D = 3)%nat) by lia.
  destruct (nodal_basis_exists_unique inverse D N mi nodes HD3 RT Ln U HI) as (psi & Hpsi & Upsi & _ & One).
  destruct (modal_ref_element D N mi HD3 RT) as (_ & Pol & _ & Bas & Gra). destruct (nodal_ref_element inverse D N mi nodes psi HD3 RT Ln U HI Hpsi) as (Mat & _).
  destruct (modal_mass_matrix m0 root wv2 js wv3 D N mi HD3 RT Q2) as (_ & Minv & _ & EI & _).
  destruct (reference_ok D N (length mi) (modal_evaluateBasisAt m0 D N mi) (modal_evaluateGradientAt m0 D N mi) (nodal_evaluateBasisAt (NodalRefElement inverse D N mi nodes) m0)
    (modal_inverseMassMatrix m0 root wv2 js wv3 D N mi) (volRule root wv2 js wv3 D (MinQuadOrder N set)) (fctRule root wv2 js wv3 D (MinQuadOrder N set)) B
    (fun l => DubinerP D (nth l mi [])) psi HD N0 Pol) as (R_ & ER & EN & EK & RD & M1 & M2 & CR); auto.
  - intros points perm Hp. destruct (Bas m0 points perm Hp) as (E & m & EE & _ & H). exists E, m. split; auto.
  - intros points perm Hp. destruct (Gra m0 points perm Hp) as (E & m & EE & _ & H). exists E, m. split; auto.
  - intros points perm Hp. destruct (Mat m0 points perm Hp) as (E & m & EE & _ & H). exists E, m. split; [exact EE|]. intros l q Hl Hq. apply H; auto; lia.
  - intro x. rewrite <- Ln. apply One.
  - exists Minv. exact EI.
  - intros x w Hin. apply (PW x w). auto.
  - intros x w Hin. apply (PW x w). auto.
  - exists R_. split; [exact ER|]. rewrite EN. split; [reflexivity|]. split; [exact EK|]. split; [exact RD|]. split; [|exact CR].
    intros psi' Hpsi'. split; intros.
    + rewrite M1 by auto. symmetry. apply (Upsi psi' Hpsi'). lia.
    + rewrite M2 by auto. symmetry. apply (Upsi psi' Hpsi'). lia.
Qed.
Print Assumptions poisson_reference_of_degree.

(** C76d: the same of the elasticity operator, whose basis is the nodal one. *)
Theorem elastic_reference_of_degree : forall root wv2 js wv3 inverse m0 D N set mi nodes psi B,
  constructor_data root wv2 js wv3 inverse D N set mi nodes -> nodal_basis D N nodes psi ->
  let xi := point (map fst (volRule root wv2 js wv3 D (MinQuadOrder N set))) in let chi := point (map fst (fctRule root wv2 js wv3 D (MinQuadOrder N set))) in
  exists R_, Elasticity_constructor root wv2 js wv3 inverse m0 D N set mi nodes B = Some R_ /\ p_N R_ = length nodes /\ p_K R_ = p_K B /\
    reference_of_degree D N xi chi psi R_ /\
    (forall q t, (q < p_Nq R_)%nat -> (t < p_N R_)%nat -> p_matEQ R_ q t = psi t (xi q)) /\
    (forall s q t, (s < D + 1)%nat -> (q < p_nq R_)%nat -> (t < p_N R_)%nat -> p_matE R_ s q t = psi t (facet_param D (ref_facet D s) (chi q))) /\
    (forall v c, (forall l, (l < p_N R_)%nat -> v l = c) -> in_range D R_ v).
Proof.
  intros root wv2 js wv3 inverse m0 D N set mi nodes psi B CD Hpsi xi chi. pose proof (rules_exact _ _ _ _ _ _ _ _ _ _ CD) as [XV XF]. pose proof (basis_nonempty _ _ _ _ _ _ _ _ _ _ CD) as N0.
  destruct CD as (HD & RT & Ln & U & HI & HS & Q1 & Q2 & PW). assert (HD3 : (D = 1 \/ D = 2 \/ D = 3)%nat) by lia.
  destruct (nodal_basis_exists_unique inverse D N mi nodes HD3 RT Ln U HI) as (psi1 & _ & Upsi & _ & One).
  destruct (nodal_ref_element inverse D N mi nodes psi HD3 RT Ln U HI Hpsi) as (Bas & Gra).
  destruct (nodal_mass_matrix m0 root wv2 js wv3 inverse D N mi nodes psi HD3 RT Ln U HI Hpsi Q2) as (_ & Minv & _ & EI & _).
  set (S := NodalRefElement inverse D N mi nodes) in *. rewrite <- Ln in N0.
  destruct (reference_ok D N (length nodes) (nodal_evaluateBasisAt S m0) (nodal_evaluateGradientAt S m0) (nodal_evaluateBasisAt S m0)
    (nodal_inverseMassMatrix S m0 root wv2 js wv3) (volRule root wv2 js wv3 D (MinQuadOrder N set)) (fctRule root wv2 js wv3 D (MinQuadOrder N set)) B
    psi psi HD N0) as (R_ & ER & EN & EK & RD & M1 & M2 & CR); auto.
  - intros l Hl. destruct Hpsi as [Hpsi _]. now apply Hpsi.
  - intros points perm Hp. destruct (Bas m0 points perm Hp) as (E & m & EE & _ & H). exists E, m. split; auto.
  - intros points perm Hp. destruct (Gra m0 points perm Hp) as (E & m & EE & _ & H). exists E, m. split; auto.
  - intros points perm Hp. destruct (Bas m0 points perm Hp) as (E & m & EE & _ & H). exists E, m. split; auto.
  - intro x. rewrite <- (One x). apply rsum_ext. intros i Hi. apply (Upsi psi Hpsi); auto.
  - exists Minv. exact EI.
  - intros x w Hin. apply (PW x w). auto.
  - intros x w Hin. apply (PW x w). auto.
  - exists R_. split; [exact ER|]. rewrite EN. split; [reflexivity|]. split; [exact EK|]. split; [exact RD|]. split; [exact M1|]. split; [exact M2|exact CR].
Qed.
Print Assumptions elastic_reference_of_degree.

(** C76e: so with what the constructor computes, on a mesh of straight triangles or tetrahedra with a
    positive coefficient constant in each element, the Poisson matrix is symmetric positive
    semidefinite for every degree. *)
Theorem poisson_operator_positive : forall root wv2 js wv3 inverse m0 D N set mi nodes B X procs elems facets bc m fi P c,
  constructor_data root wv2 js wv3 inverse D N set mi nodes -> (1 <= N)%nat ->
  let order := MinQuadOrder N set in
  let G := linear_setup D X (point (map fst (volRule root wv2 js wv3 D order))) (point (map fst (fctRule root wv2 js wv3 D order))) in
  mesh_parts D procs elems facets bc m -> valid_geometry G elems facets ->
  (forall g l, (g < length elems)%nat -> (l < length mi)%nat -> p_K B g l = c g) -> (forall g, (g < length elems)%nat -> 0 < c g) ->
  exists R_, Poisson_constructor root wv2 js wv3 inverse m0 D N set mi nodes B = Some R_ /\
  ((forall p, (p < procs)%nat -> poisson_rank G R_ N (m p) (fi p) (P p)) ->
   exists A, (forall p, (p < procs)%nat -> map_opt (to_global (m p)) (assemble (m p) (fi p) (poisson_mat (P p))) = Some (A p)) /\
    (forall U V, pairing (length mi) (flat_map A (seq 0 procs)) V U = sip_form (mesh_problem G elems R_ N) elems facets bc U V) /\
    (forall U V, pairing (length mi) (flat_map A (seq 0 procs)) V U = pairing (length mi) (flat_map A (seq 0 procs)) U V) /\
    (forall U, 0 <= pairing (length mi) (flat_map A (seq 0 procs)) U U)).
Proof.
  intros root wv2 js wv3 inverse m0 D N set mi nodes B X procs elems facets bc m fi P c CD HN order G MP VG HK Hc.
  destruct (poisson_reference_of_degree root wv2 js wv3 inverse m0 D N set mi nodes B CD) as (R_ & ER & EN & EK & RD & _ & CR).
  exists R_. split; [exact ER|]. intro RK. rewrite <- EN.
  apply (straight_mesh_positive_every_degree G N (fun l => DubinerP D (nth l mi [])) procs elems facets bc m R_ fi P MP (linear_straight _ _ _ _) VG HN RD); auto.
  - intros g l Hg Hl. rewrite EK, (HK g l Hg) by lia. auto.
  - intros g Hg. apply (CR _ (c g)). intros l Hl. rewrite EK. apply HK; auto. lia.
Qed.
Print Assumptions poisson_operator_positive.

(** C76f: and so is the elasticity matrix with positive mu and nonnegative lambda constant in each element. *)
Theorem elastic_operator_positive : forall root wv2 js wv3 inverse m0 D N set mi nodes B X procs elems facets bc m fi E E_ lam mu,
  constructor_data root wv2 js wv3 inverse D N set mi nodes -> (1 <= N)%nat ->
  let order := MinQuadOrder N set in
  let G := linear_setup D X (point (map fst (volRule root wv2 js wv3 D order))) (point (map fst (fctRule root wv2 js wv3 D order))) in
  mesh_parts D procs elems facets bc m -> valid_geometry G elems facets ->
  (forall g, (g < length elems)%nat -> 0 <= lam g /\ 0 < mu g) ->
  exists R_, Elasticity_constructor root wv2 js wv3 inverse m0 D N set mi nodes B = Some R_ /\
  (e_geo E_ = R_ -> (forall g l, e_lam E_ g l = lam g /\ e_mu E_ g l = mu g) ->
  let n := (length nodes * D)%nat in
  (forall p, (p < procs)%nat -> elastic_rank G E_ N (m p) (fi p) (E p)) ->
   exists A, (forall p, (p < procs)%nat -> map_opt (to_global (m p)) (assemble (m p) (fi p) (elasticity_mat (E p))) = Some (A p)) /\
    (forall U V, pairing n (flat_map A (seq 0 procs)) V U = elastic_form (mesh_eproblem G elems E_ N) elems facets bc U V) /\
    (forall U V, pairing n (flat_map A (seq 0 procs)) V U = pairing n (flat_map A (seq 0 procs)) U V) /\
    (forall U, 0 <= pairing n (flat_map A (seq 0 procs)) U U)).
Proof.
  intros root wv2 js wv3 inverse m0 D N set mi nodes B X procs elems facets bc m fi E E_ lam mu CD HN order G MP VG HL.
  destruct CD as (HD & RT & Ln & U & HI & HS & Q1 & Q2 & PW) eqn:ECD.
  destruct (nodal_basis_exists_unique inverse D N mi nodes ltac:(lia) RT Ln U HI) as (psi & Hpsi & _).
  destruct (elastic_reference_of_degree root wv2 js wv3 inverse m0 D N set mi nodes psi B CD Hpsi) as (R_ & ER & EN & EK & RD & _ & _ & CR).
  exists R_. split; [exact ER|]. intros EE HM n RK. unfold n. rewrite <- EN. subst R_.
  destruct (straight_mesh_elastic_every_degree G N psi procs elems facets bc m E_ fi E MP (linear_straight _ _ _ _) VG HN RD) as (A & HA & H1 & H2 & H3 & _); auto.
  - intros g l Hg Hl. rewrite (proj1 (HM g l)), (proj2 (HM g l)). apply HL. exact Hg.
  - intros g Hg. split; [apply (CR _ (lam g)); intros; apply HM|]. split; [apply (CR _ (mu g)); intros; apply HM|].
    apply (CR _ (INR D * lam g + 2 * mu g)). intros l Hl. rewrite (proj1 (HM g l)), (proj2 (HM g l)). reflexivity.
  - exists A. auto.
Qed.
Print Assumptions elastic_operator_positive.
