(** C69: the error norm on straight meshes is the integral; the norm of derivatives for other numbers of quantities; the
    norm on facets. *)
Require Import List Arith Lia Reals Lra Permutation FunctionalExtensionality.
Require Import Verif.Base Verif.LinAlg Verif.MultiIndexModel Verif.MultiIndexProps Verif.TensorModel Verif.TensorProps Verif.CombinatoricsModel Verif.CombinatoricsProps Verif.SimplexModel Verif.TopoModel Verif.TopoSpec Verif.FaultModel
  Verif.GeometryModel Verif.GeometrySpec Verif.GeometryProofs Verif.GeometryProps Verif.MeshPoissonProps Verif.EquidistantModel Verif.BasisModel Verif.BasisSpec Verif.BasisProps Verif.IntegralSpec Verif.IntegralProofs Verif.QuadratureModel Verif.QuadratureSpec Verif.QuadratureProps
  Verif.RootsProps Verif.DubinerProofs Verif.SpanProofs Verif.RefElementSpec Verif.RefElementModel Verif.RefElementProofs Verif.RefElementProps Verif.UnisolventProps Verif.RefElementExamples
  Verif.AssembleModel Verif.AssembleSpec Verif.InterpolationSpec Verif.ErrorSpec Verif.ErrorModel Verif.ErrorProofs Verif.ErrorProps Verif.ErrorNormProps.
Import ListNotations.
Local Open Scope R_scope.
Local Open Scope opt_scope.

Lemma poly_comp : forall D d f (X : (nat -> R) -> nat -> R), polynomial D d f -> (forall i, (i < D)%nat -> polynomial D 1 (fun xi => X xi i)) -> polynomial D d (fun xi => f (X xi)).
Proof.
  intros D d f X H HX. induction H.
  - apply poly_const.
  - now apply HX.
  - apply poly_plus; assumption.
  - apply poly_mult; assumption.
  - eapply poly_le; eassumption.
  - eapply poly_eq; [| exact IHpolynomial]. intros xi. apply H.
Qed.
Lemma square_integral : forall D N f, (D = 1 \/ D = 2 \/ D = 3)%nat -> polynomial D N f -> exists c, is_simplex_integral D (fun xi => (f xi)²) c
  /\ 0 <= c /\ (c = 0 -> forall xi, f xi = 0).
Proof.
  intros D N f HD Hf. destruct (integer_sums_enumerate D N true ltac:(lia)) as (fuel & mi & E & _).
  destruct (sums_multiindices fuel D N mi ltac:(lia) E) as [Hmi _]. destruct (phi_span D N mi HD Hmi f Hf) as (c & Hc).
  set (phi := fun j => DubinerP D (nth j mi [])) in *. set (n := length mi) in *. set (h := fun k => dub_norm D (nth k mi [])).
  assert (Hh : forall k, 0 < h k) by (intros k; apply dub_norm_pos).
  exists (rsum n (fun k => c k * c k * h k)). split; [| split].
  - pose proof (simplex_rsum D n (fun l xi => c l * rsum n (fun k => c k * (phi l xi * phi k xi))) (fun l => c l * rsum n (fun k => c k * (if (l =? k)%nat then h l else 0)))) as I. cbv beta in I.
    eapply simplex_ext; [| | apply I].
    + intros x y z. rewrite Hc. unfold Rsqr. fold phi. rewrite <- rsum_scale_r. apply rsum_ext. intros l Hl.
      rewrite (rsum_ext n (fun k => c k * (phi l (pt x y z) * phi k (pt x y z))) (fun k => phi l (pt x y z) * (c k * phi k (pt x y z)))) by (intros; ring).
      rewrite rsum_scale. unfold phi. ring.
    + apply rsum_ext. intros l Hl. rewrite (rsum_single n l (fun k => c k * (if (l =? k)%nat then h l else 0))); [rewrite Nat.eqb_refl; ring | exact Hl |].
      intros k Hk Hne. destruct (Nat.eqb_spec l k); [congruence | ring].
    + intros l Hl. apply simplex_scale. apply (simplex_rsum D n (fun k xi => c k * (phi l xi * phi k xi))); [| lia].
      intros k Hk. apply (simplex_scale D (fun xi => phi l xi * phi k xi)). apply (phi_integral D N mi HD Hmi l k Hl Hk).
    + lia.
  - apply rsum_nonneg. intros k Hk. pose proof (Hh k). pose proof (Rle_0_sqr (c k)) as Sq. unfold Rsqr in Sq. nra.
  - intros Z xi. rewrite Hc. apply rsum_zero. intros k Hk.
    assert (T : c k * c k * h k = 0).
    { apply (rsum_nonneg_zero n (fun k => c k * c k * h k)); [| exact Z | exact Hk]. intros j Hj. pose proof (Hh j). pose proof (Rle_0_sqr (c j)) as Sq. unfold Rsqr in Sq. nra. }
    assert (c k = 0). { pose proof (Hh k). destruct (Req_dec (c k) 0) as [e | Hn]; [exact e |]. exfalso. assert (0 < c k * c k) by (pose proof (Rsqr_pos_lt (c k) Hn) as Y; exact Y). nra. }
    rewrite H. ring.
Qed.
Lemma affine_jacobian : forall D (X : (nat -> R) -> nat -> R) v A xi, (forall xi i, (i < D)%nat -> X xi i = v i + rsum D (fun d => A i d * xi d)) ->
  jacobian_of D X xi A.
Proof.
  intros D X v A xi H i e Hi He. unfold partial_derivative.
  apply (affine_deriv (v i + rsum D (fun d => if (d =? e)%nat then 0 else A i d * xi d))). intros t. rewrite H by exact Hi.
  rewrite Rplus_assoc. f_equal.
  rewrite (rsum_ext D (fun d => A i d * with_coord xi e t d) (fun d => (if (d =? e)%nat then 0 else A i d * xi d) + (if (d =? e)%nat then A i e * t else 0))).
  - rewrite rsum_plus. f_equal. rewrite (rsum_single D e (fun d => if (d =? e)%nat then A i e * t else 0)); [now rewrite Nat.eqb_refl | exact He |].
    intros k Hk Hn. destruct (Nat.eqb_spec k e); [congruence | reflexivity].
  - intros d Hd. unfold with_coord. destruct (Nat.eqb_spec d e) as [-> | Hn]; ring.
Qed.

(** C69e: on a straight mesh, with the code's quadrature and polynomials of degree at most 10, what is returned is the
    root of the exact integral of the squared difference over all elements, and it is zero only if the function is the
    reference solution. *)
Theorem l2_error_exact : forall root wv2 js wv3 D k procs elems facets bc m nbg bg pos cl nb Q b x F reference v A,
  (D = 2 \/ D = 3)%nat -> sound_quadrature root wv2 js wv3 20 -> mesh_parts k procs elems facets bc m ->
  distributed_geometry D procs m nbg bg pos cl -> distributed_function D procs m nb Q b x F -> of_coordinates D reference ->
  let X g := place nbg bg (pos g) in let u g j := fe_value b nb Q x g j in
  (forall g xi i, (g < length elems)%nat -> (i < D)%nat -> X g xi i = v g i + rsum D (fun d => A g i d * xi d)) ->
  (forall j, (j < nb)%nat -> polynomial D 10 (b j)) -> (forall j, (j < Q)%nat -> polynomial D 10 (fun y => reference y j)) ->
  forall m0, exists err S,
  (forall p, (p < procs)%nat -> L2_rank D (sr_points (simplexQuadratureRule root wv2 js wv3 D 20)) (cl p) (F p) reference (m0 p) = Some (err p))
  /\ (forall g j, (g < length elems)%nat -> (j < Q)%nat -> is_simplex_integral D (fun xi => Rabs (geo_det D (A g)) * (reference (X g xi) j - u g j xi)²) (S g j))
  /\ reduce_error procs err = sqrt (rsum (length elems) (fun g => rsum Q (S g)))
  /\ ((forall g, (g < length elems)%nat -> geo_det D (A g) <> 0) ->
      (reduce_error procs err = 0 <-> forall g j xi, (g < length elems)%nat -> (j < Q)%nat -> u g j xi = reference (X g xi) j)).
Proof.
  intros root wv2 js wv3 D k procs elems facets bc m nbg bg pos cl nb Q b x F reference v A HD (R1 & R2 & R3 & R4) MP HG HF Href X u HX Hb Hr m0.
  assert (HD' : (D = 1 \/ D = 2 \/ D = 3)%nat) by tauto.
  destruct (simplex_quadrature_rule_exact root wv2 js wv3 D 20 R1 R2 R3 R4 HD') as (EX & _).
  set (rule := sr_points (simplexQuadratureRule root wv2 js wv3 D 20)) in *.
  destruct (l2_error D k procs elems facets bc m nbg bg pos cl nb Q b x F rule reference (fun g _ => A g) HD MP HG HF Href) with (m0 := m0) as (err & E1 & E2).
  { intros g xi Hg. apply (affine_jacobian D _ (v g)). intros. now apply HX. }
  assert (P : forall g j, (g < length elems)%nat -> (j < Q)%nat -> polynomial D 10 (fun xi => reference (X g xi) j - u g j xi)).
  { intros g j Hg Hj. eapply (poly_eq D 10 (fun xi => reference (X g xi) j + (-1) * u g j xi)); [intros; ring |]. apply poly_plus.
    - apply (poly_comp D 10 (fun y => reference y j) (X g)); [now apply Hr |]. intros i Hi.
      apply (poly_eq D 1 (fun xi => v g i + rsum D (fun d => A g i d * xi d))); [intros xi; symmetry; now apply HX |].
      apply poly_plus; [apply poly_const |]. apply (poly_rsum D 1 D (fun d xi => A g i d * xi d)). intros d Hd. apply poly_scale. now apply poly_coord.
    - apply poly_scale. unfold u, fe_value. apply (poly_rsum D 10 nb (fun k xi => x (g * (nb * Q) + (j * nb + k))%nat * b k xi)). intros i Hi. apply poly_scale. now apply Hb. }
  exists err, (fun g j => rule_sum rule (fun xi => Rabs (geo_det D (A g)) * (reference (X g xi) j - u g j xi)²)).
  assert (INT : forall g j, (g < length elems)%nat -> (j < Q)%nat -> is_simplex_integral D (fun xi => Rabs (geo_det D (A g)) * (reference (X g xi) j - u g j xi)²)
    (rule_sum rule (fun xi => Rabs (geo_det D (A g)) * (reference (X g xi) j - u g j xi)²))).
  { intros g j Hg Hj. apply EX. apply poly_scale. unfold Rsqr. apply (poly_mult D 10 10); now apply P. }
  split; [exact E1 |]. split; [exact INT |]. split; [exact E2 |]. intros Hdet.
  assert (SQ : forall g j, (g < length elems)%nat -> (j < Q)%nat -> exists c, rule_sum rule (fun xi => Rabs (geo_det D (A g)) * (reference (X g xi) j - u g j xi)²) = Rabs (geo_det D (A g)) * c
    /\ 0 <= c /\ (c = 0 -> forall xi, reference (X g xi) j - u g j xi = 0)).
  { intros g j Hg Hj. destruct (square_integral D 10 _ HD' (P g j Hg Hj)) as (c & C1 & C2 & C3). exists c. split; [| tauto].
    apply (simplex_integral_unique D (fun xi => Rabs (geo_det D (A g)) * (reference (X g xi) j - u g j xi)²)); [exact HD' | now apply INT | now apply simplex_scale]. }
  assert (NN : forall g j, (g < length elems)%nat -> (j < Q)%nat -> 0 <= rule_sum rule (fun xi => Rabs (geo_det D (A g)) * (reference (X g xi) j - u g j xi)²)).
  { intros g j Hg Hj. destruct (SQ g j Hg Hj) as (c & -> & C & _). apply Rmult_le_pos; [apply Rabs_pos | exact C]. }
  rewrite E2. split.
  - intros Z g j xi Hg Hj. apply sqrt_eq_0 in Z; [| apply rsum_nonneg; intros; apply rsum_nonneg; intros; now apply NN].
    assert (Z1 := rsum_nonneg_zero _ _ (fun g Hg => rsum_nonneg _ _ (fun j Hj => NN g j Hg Hj)) Z g Hg). cbv beta in Z1.
    assert (Z2 := rsum_nonneg_zero _ _ (fun j Hj => NN g j Hg Hj) Z1 j Hj). cbv beta in Z2.
    destruct (SQ g j Hg Hj) as (c & E & _ & C). rewrite E in Z2. apply Rmult_integral in Z2. destruct Z2 as [Z2 | Z2].
    + exfalso. revert Z2. apply Rabs_no_R0. now apply Hdet.
    + specialize (C Z2 xi). lra.
  - intros H. rewrite (rsum_zero (length elems)); [apply sqrt_0 |]. intros g Hg. apply rsum_zero. intros j Hj. rewrite rule_sum_nth. apply rsum_zero. intros q Hq.
    fold (X g) (u g j). rewrite (H g j _ Hg Hj). unfold Rsqr. ring.
Qed.
Print Assumptions l2_error_exact.

(** ** Derivatives, other numbers of quantities *)
(** C69f: for two quantities in three dimensions the code compares the derivatives with the wrong entries of the
    reference: although the reference is the gradient in row-major order, the error is not zero.  (A single element, the
    identity as geometry, u_0 = x_2 and u_1 = 0.) *)
Theorem h1_error_refuted : forall root wv2 js wv3, sound_quadrature root wv2 js wv3 20 -> exists cl F bg b reference,
  represents 3 (cv_re cl) (cv_nb cl) bg /\ represents 3 (ff_re F) (ff_nb F) b /\ of_coordinates 3 reference /\ ff_Q F = 2%nat /\ ff_ne F = 1%nat /\
  let X := place (cv_nb cl) bg (cv_pos cl 0%nat) in
  (forall xi i, (i < 3)%nat -> X xi i = xi i) /\
  (forall xi i, (i < 2)%nat -> exists w, (forall xi', w (X xi') = fe_value b (ff_nb F) 2 (ff_mem F) 0 i xi') /\ gradient_at 3 w (X xi) (fun j => reference (X xi) (i * 3 + j)%nat)) /\
  forall m0, exists err, H1_semi_rank 3 (sr_points (simplexQuadratureRule root wv2 js wv3 3 20)) cl F reference m0 = Some err /\ reduce_error 1 (fun _ => err) <> 0.
Proof.
  intros root wv2 js wv3 (R1 & R2 & R3 & R4).
  destruct (simplex_quadrature_rule_exact root wv2 js wv3 3 20 R1 R2 R3 R4 ltac:(lia)) as (EX & _).
  set (rule := sr_points (simplexQuadratureRule root wv2 js wv3 3 20)) in *.
  destruct (hypotheses_met 3 1 ltac:(lia) ltac:(lia)) as (mi & nodes & _ & RT & L & U & HI & _ & psi & HP).
  pose proof (nodal_represents ginv 3 1 mi nodes psi ltac:(lia) RT L U HI HP) as REP.
  set (S := nodal_re (NodalRefElement ginv 3 1 mi nodes)) in *. set (nb := length nodes) in *.
  set (cl := {| cv_re := S; cv_nb := nb; cv_pos := fun _ j i => point nodes j i |}).
  set (F := {| ff_re := S; ff_nb := nb; ff_Q := 2%nat; ff_ne := 1%nat; ff_mem := fun a => if (a <? nb)%nat then point nodes a 2%nat else 0 |}).
  set (reference := fun (_ : nat -> R) (a : nat) => if (a =? 2)%nat then 1 else 0).
  exists cl, F, psi, psi, reference.
  split; [exact REP |]. split; [exact REP |]. split; [intros x y j _; reflexivity |]. split; [reflexivity |]. split; [reflexivity |]. cbv zeta.
  set (X := place (cv_nb cl) psi (cv_pos cl 0%nat)).
  assert (HX : forall xi i, (i < 3)%nat -> X xi i = xi i).
  { intros xi i Hi. symmetry. apply (nodal_reproduces 3 1 nodes psi (fun xi => xi i) U HP). now apply poly_coord. }
  assert (U0 : forall xi, fe_value psi (ff_nb F) 2 (ff_mem F) 0 0 xi = xi 2%nat).
  { intros xi. rewrite (nodal_reproduces 3 1 nodes psi (fun xi => xi 2%nat) U HP (poly_coord 3 2 ltac:(lia)) xi). unfold fe_value. apply rsum_ext. intros j Hj. cbn [ff_mem F Nat.mul Nat.add].
    now rewrite (proj2 (Nat.ltb_lt j nb) Hj). }
  assert (U1 : forall xi, fe_value psi (ff_nb F) 2 (ff_mem F) 0 1 xi = 0).
  { intros xi. unfold fe_value. apply rsum_zero. intros j Hj. cbn [ff_mem F ff_nb Nat.mul Nat.add]. rewrite (proj2 (Nat.ltb_ge _ _)) by lia. ring. }
  assert (HU : forall xi i, (i < 2)%nat -> exists w, (forall xi', w (X xi') = fe_value psi (ff_nb F) 2 (ff_mem F) 0 i xi') /\ gradient_at 3 w (X xi) (fun j => reference (X xi) (i * 3 + j)%nat)).
  { intros xi i Hi. assert (i = 0 \/ i = 1)%nat as [-> | ->] by lia.
    - exists (fun y => y 2%nat). split; [intros xi'; rewrite U0; apply HX; lia |]. intros c t0 v Hc Hv. cbn [rsum Nat.mul Nat.add]. unfold reference. cbn [Nat.eqb].
      replace (0 + 0 * v 0%nat + 0 * v 1%nat + 1 * v 2%nat) with (v 2%nat) by ring. apply Hv. lia.
    - exists (fun _ => 0). split; [intros xi'; now rewrite U1 |]. intros c t0 v Hc Hv. cbn [rsum Nat.mul Nat.add]. unfold reference. cbn [Nat.eqb].
      replace (0 + 0 * v 0%nat + 0 * v 1%nat + 0 * v 2%nat) with 0 by ring. apply derivable_pt_lim_const. }
  split; [exact HX |]. split; [exact HU |]. intros m0.
  set (I3 := fun i j => if (i =? j)%nat then 1 else 0 : R).
  assert (DET : geo_det 3 I3 = 1) by (unfold I3; cbn; ring).
  rewrite (H1_rank_ok 3 rule cl psi F psi reference (fun _ _ => I3)) with (du := fun _ i j _ => reference (fun _ => 0) (i * 3 + j)%nat); [| lia | exact REP | exact REP | intros x y j _; reflexivity | | |].
  - eexists. split; [reflexivity |]. cbn [ff_ne ff_Q F rsum Nat.mul Nat.add]. unfold reference. cbn [Nat.eqb]. rewrite DET, Rabs_R1.
    match goal with |- context [rule_sum rule (fun xi => 1 * (0 - 0)²)] => assert (Z0 : rule_sum rule (fun _ => 1 * (0 - 0)²) = 0) by (rewrite rule_sum_nth; apply rsum_zero; intros; unfold Rsqr; ring) end.
    assert (Z1 : rule_sum rule (fun _ => 1 * (1 - 1)²) = 0) by (rewrite rule_sum_nth; apply rsum_zero; intros; unfold Rsqr; ring).
    rewrite Z0, Z1. set (s := rule_sum rule (fun _ => 1 * (1 - 0)²)).
    assert (s <> 0 /\ 0 <= s) as [S1 S2].
    { destruct (square_integral 3 0 (fun _ => 1) ltac:(lia) (poly_const 3 1 0)) as (c & C1 & C2 & C3).
      assert (s = c). { apply (simplex_integral_unique 3 (fun _ => 1²)); [lia | | exact C1].
        eapply simplex_ext; [| reflexivity | apply (EX (fun _ => 1 * (1 - 0)²) (poly_const 3 _ _))]. intros; unfold Rsqr; ring. }
      rewrite H. split; [| exact C2]. intros Z. specialize (C3 Z (fun _ => 0)). cbv beta in C3. lra. }
    unfold reduce_error. cbn [rsum]. intros Z. apply sqrt_eq_0 in Z; lra.
  - intros e xi He. apply (affine_jacobian 3 _ (fun _ => 0)). intros xi' i Hi. replace e with 0%nat by (cbn in He; lia). fold X. rewrite HX by exact Hi.
    rewrite (rsum_single 3 i (fun d => I3 i d * xi' d)); [unfold I3; rewrite Nat.eqb_refl; ring | exact Hi |].
    intros d Hd Hn. unfold I3. destruct (Nat.eqb_spec i d); [congruence | ring].
  - intros e q He Hq. rewrite DET. lra.
  - intros e i q He Hi Hq. replace e with 0%nat by (cbn in He; lia). cbn [ff_Q F] in Hi. fold X.
    destruct (HU (point (map fst rule) q) i Hi) as (w & W1 & W2). exists w. split; [exists 1; split; [lra | intros; apply W1] | exact W2].
Qed.
Print Assumptions h1_error_refuted.

(** ** Facets *)
Lemma map_opt_all {A B} (f : A -> option B) (P : A -> B -> Prop) l : (forall a, In a l -> exists b, f a = Some b /\ P a b) ->
  exists r, map_opt f l = Some r /\ forall i a, nth_error l i = Some a -> exists b, nth_error r i = Some b /\ P a b.
Proof.
  induction l as [| a l IH]; intros H; cbn [map_opt].
  - exists []. split; [reflexivity |]. intros [| i] a E; discriminate.
  - destruct (H a (or_introl eq_refl)) as (b & -> & Pb). destruct IH as (r & -> & Hr); [intros; apply H; now right |]. exists (b :: r). split; [reflexivity |].
    intros [| i] a' E; cbn in *; [injection E as <-; eauto | now apply Hr].
Qed.
Lemma fold_sum_opt : forall (M : Type) (step : option (M * R) -> nat -> option (M * R)) h l ms s,
  (forall ms s e, In e l -> exists ms', step (Some (ms, s)) e = Some (ms', s + h e)) ->
  exists ms', fold_left step l (Some (ms, s)) = Some (ms', s + fold_right (fun e a => h e + a) 0 l).
Proof.
  intros M step h l. induction l as [| e l IH]; intros ms s H; cbn [fold_left fold_right]; [exists ms; do 2 f_equal; ring |].
  destruct (H ms s e (or_introl eq_refl)) as (ms' & ->). destruct (IH ms' (s + h e)) as (ms'' & ->); [intros; apply H; now right |].
  exists ms''. do 2 f_equal. ring.
Qed.

Lemma fold_left_ext_in' {A B} (f g : A -> B -> A) l : (forall s b, In b l -> f s b = g s b) -> forall s, fold_left f l s = fold_left g l s.
Proof. induction l as [| b l IH]; intros H s; cbn; [reflexivity |]. rewrite H by now left. apply IH. intros; apply H; now right. Qed.

(** C69g: on facets, what a rank returns is the quadrature of the squared difference with the surface element of the
    facet, where the reference is taken at the image of the facet's point under the map of the facet's first element. *)
Theorem l2_facets_error : forall D (rule : list ((nat -> R) * R)) upward downward fctNos cl F bg b reference J el fc m0, (D = 2 \/ D = 3)%nat ->
  represents D (cv_re cl) (cv_nb cl) bg -> represents (D - 1) (ff_re F) (ff_nb F) b -> of_coordinates D reference ->
  (forall bnd, (bnd < ff_ne F)%nat -> exists fctNo lf fs, nth_error fctNos bnd = Some fctNo /\ nth_error (upward fctNo) 0 = Some (el bnd)
     /\ find_index fctNo (downward (el bnd)) = Some lf /\ f2v D = Some fs /\ nth_error fs lf = Some (fc bnd)) ->
  let X e := place (cv_nb cl) bg (cv_pos cl e) in let at_ bnd (chi : nat -> R) : nat -> R := facet_param D (fc bnd) chi in
  (forall bnd (chi : nat -> R), (bnd < ff_ne F)%nat -> In chi (map fst rule) ->
     jacobian_of D (X (el bnd)) (at_ bnd chi) (J (el bnd) (at_ bnd chi)) /\ geo_det D (J (el bnd) (at_ bnd chi)) <> 0) ->
  L2_facets_rank D rule upward downward fctNos cl F reference m0 = Some (rsum (ff_ne F) (fun bnd => rsum (ff_Q F) (fun j =>
    rule_sum rule (fun chi => let edge d := image D (J (el bnd) (at_ bnd chi)) (ref_edge (fc bnd) d) in
      surface_element D (edge 1%nat) (edge 2%nat) * (reference (X (el bnd) (at_ bnd chi)) j - fe_value b (ff_nb F) (ff_Q F) (ff_mem F) bnd j chi)²)))).
Proof.
  intros D rule upward downward fctNos cl F bg b reference J el fc m0 HD HG HR Href Hf X at_ HJ. unfold L2_facets_rank. cbv zeta.
  set (points := map fst rule). set (n := length rule). assert (Ln : length points = n) by apply map_length.
  assert (Inp : forall q, (q < n)%nat -> In (point points q) points) by (intros q Hq; apply nth_In; exact (eq_ind_r (fun l => (q < l)%nat) Hq Ln)).
  destruct (evaluated (D - 1) F b m0 points HR) as (E & me & E1 & V). rewrite E1. cbn [bind].
  assert (exists fs, f2v D = Some fs) as (fs & Efs) by (destruct HD as [-> | ->]; vm_compute; eauto). rewrite Efs. cbn [bind].
  destruct (map_opt_all (fun f => do g <- re_basis (cv_re cl) m0 (facetParams D f points) [0; 1]%nat;
    do d <- re_gradient (cv_re cl) m0 (facetParams D f points) [0; 1; 2]%nat; Some (g, d))
    (fun f gd => let '((geoE, mgE), (geoD, mgD)) := gd in
      (forall k q, (k < cv_nb cl)%nat -> (q < n)%nat -> emap mgE geoE k q = bg k (facet_param D f (point points q)))
      /\ geoD = packed 0 [cv_nb cl; D; n]
      /\ forall k a q, (k < cv_nb cl)%nat -> (a < D)%nat -> (q < n)%nat -> partial_derivative (bg k) a (facet_param D f (point points q)) (mgD (v_addr geoD [k; a; q]))) fs) as (geo & EQ & Hgeo).
  { intros f _. set (ps := facetParams D f points). assert (Lp : length ps = n) by (unfold ps, facetParams; now rewrite map_length).
    assert (Pp : forall q, (q < n)%nat -> point ps q = facet_param D f (point points q)).
    { intros q Hq. unfold ps, facetParams. etransitivity; [apply (nth_indep (map (facet_param D f) points) (fun _ => 0) (facet_param D f (fun _ => 0))); rewrite map_length; exact (eq_ind_r (fun l => (q < l)%nat) Hq Ln) |]. apply (map_nth (facet_param D f)). }
    destruct (proj1 HG m0 ps [0; 1]%nat (Permutation_refl _)) as (geoE & mgE & E2 & _ & VE).
    destruct (proj2 HG HD m0 ps [0; 1; 2]%nat (Permutation_refl _)) as (geoD & mgD & E3 & EG & VG).
    rewrite E2, E3. cbn [bind]. eexists. split; [reflexivity |]. split; [| split].
    - intros k q Hk Hq. rewrite <- Pp by exact Hq. apply (VE k q Hk). lia.
    - rewrite EG, Lp. reflexivity.
    - intros k a q Hk Ha Hq. rewrite <- Pp by exact Hq. apply (VG k a q Hk Ha). lia. }
  rewrite EQ. cbn [bind].
  match goal with |- bind (fold_left ?s _ _) _ = _ => set (step := s) end.
  set (h := fun bnd => rsum (ff_Q F) (fun j => rule_sum rule (fun chi => let edge d := image D (J (el bnd) (at_ bnd chi)) (ref_edge (fc bnd) d) in
      surface_element D (edge 1%nat) (edge 2%nat) * (reference (X (el bnd) (at_ bnd chi)) j - fe_value b (ff_nb F) (ff_Q F) (ff_mem F) bnd j chi)²))).
  destruct (fold_sum_opt _ step h (seq 0 (ff_ne F)) (m0, m0, m0, m0) 0) as (ms' & Est).
  2:{ rewrite Est. cbn [bind snd]. f_equal. rewrite fold_right_rsum. ring. }
  intros [[[mJ mi] mc] mn] s bnd Hb. apply in_seq in Hb. destruct (Hf bnd ltac:(lia)) as (fctNo & lf & fs' & A1 & A2 & A3 & A4 & A5).
  rewrite Efs in A4. injection A4 as <-. unfold step. cbn [bind]. rewrite A1. cbn [bind]. rewrite A2. cbn [bind]. rewrite A3. cbn [bind]. rewrite A5. cbn [bind].
  destruct (Hgeo lf (fc bnd) A5) as ([[geoE mgE] [geoD mgD]] & E4 & VE & EG & VG). rewrite E4. cbn [bind]. eexists. do 2 f_equal. f_equal.
  set (Jv := packed 0 [D; D; n]).
  set (mJ' := cl_jacobian D (cv_nb cl) (cv_pos cl (el bnd)) geoD mgD Jv mJ). set (mi' := cl_jacobianInv D Jv mJ' Jv mi).
  assert (JJ : forall q i a, (q < n)%nat -> (i < D)%nat -> (a < D)%nat -> emap mJ' (subtensor Jv [Slice; Slice; Idx q]) i a = J (el bnd) (at_ bnd (point points q)) i a).
  { intros q i a Hq Hi Ha. unfold mJ', Jv. rewrite EG, cl_jacobian_read by assumption.
    apply (jacobian_partial D (cv_nb cl) bg (cv_pos cl (el bnd)) (at_ bnd (point points q))); [apply HJ; [lia | now apply Inp] | exact Hi | exact Ha |].
    intros k Hk. specialize (VG k a q Hk Ha Hq). rewrite EG in VG. exact VG. }
  assert (II : forall q a j, (q < n)%nat -> (a < D)%nat -> (j < D)%nat -> emap mi' (subtensor Jv [Slice; Slice; Idx q]) a j = geo_inverse D (J (el bnd) (at_ bnd (point points q))) a j).
  { intros q a j Hq Ha Hj. unfold mi', Jv. rewrite cl_jacobianInv_read by assumption. apply geo_inverse_ext; auto. }
  rewrite (fold_left_ext_in' _ (fun s q => s + rsum (ff_Q F) (fun j => nth q (map snd rule) 0 *
    (let edge d := image D (J (el bnd) (at_ bnd (point points q))) (ref_edge (fc bnd) d) in surface_element D (edge 1%nat) (edge 2%nat) * (reference (X (el bnd) (at_ bnd (point points q))) j - fe_value b (ff_nb F) (ff_Q F) (ff_mem F) bnd j (point points q))²)))).
  - rewrite fold_left_rsum. unfold h. rewrite Rplus_0_l, rsum_swap. apply rsum_ext. intros j Hj. rewrite rule_sum_nth. reflexivity.
  - intros s' q Hq. apply in_seq in Hq. unfold accumulate. rewrite !fold_left_rsum. f_equal. apply rsum_ext. intros j Hj. cbv zeta.
    set (chi := point points q). set (J0 := J (el bnd) (at_ bnd chi)).
    destruct (HJ bnd chi ltac:(lia) ltac:(apply Inp; lia)) as [_ Hdet]. fold J0 in Hdet.
    destruct (facet_normal_is_outward D fs (fc bnd) J0 J0 (fun _ => 0) HD Efs (nth_error_In _ _ A5) Hdet) as (_ & _ & NL & _). rewrite <- NL. cbn [fq_length prepare_bndskl].
    assert (NE : sqrt (0 + rsum D (fun d => cl_normal D (fc bnd) (cl_detJ D Jv mJ') Jv mi' d q * cl_normal D (fc bnd) (cl_detJ D Jv mJ') Jv mi' d q))
      = vnorm D (geo_normal D (geo_det D J0) (geo_inverse D J0) (ref_normal D (fc bnd)))).
    { unfold vnorm, vdot. f_equal. rewrite Rplus_0_l. apply rsum_ext. intros d Hd.
      assert (CN : cl_normal D (fc bnd) (cl_detJ D Jv mJ') Jv mi' d q = geo_normal D (geo_det D J0) (geo_inverse D J0) (ref_normal D (fc bnd)) d); [| now rewrite CN].
      unfold cl_normal, geo_normal, cl_detJ. f_equal.
      - f_equal. apply geo_det_ext; [exact HD |]. intros. apply JJ; auto; lia.
      - apply rsum_ext. intros a Ha. f_equal. apply II; auto; lia. }
    rewrite NE. rewrite ff_map_read by lia. unfold solution_at.
    rewrite (Href _ (X (el bnd) (at_ bnd chi)) j).
    2:{ intros d Hd. unfold cl_map, emap at 1. rewrite assign_read; [| apply packed_inj2 | exact Hd | exact (proj2 Hq)].
        unfold X, place. apply rsum_ext. intros k Hk. f_equal. apply VE; [exact Hk | lia]. }
    rewrite (rsum_ext (ff_nb F) _ (fun k => ff_mem F (bnd * (ff_nb F * ff_Q F) + (j * ff_nb F + k))%nat * b k chi)) by (intros k Hk; rewrite V by lia; unfold chi; ring).
    fold (fe_value b (ff_nb F) (ff_Q F) (ff_mem F) bnd j chi). unfold Rsqr. ring.
Qed.
Print Assumptions l2_facets_error.
