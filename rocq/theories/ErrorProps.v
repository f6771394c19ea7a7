(** C69: values and gradients of finite element functions at points, and the error norms computed from them. *)
Require Import List Arith Lia Reals Lra Permutation FunctionalExtensionality.
Require Import Verif.Base Verif.LinAlg Verif.MultiIndexModel Verif.MultiIndexProps Verif.TensorModel Verif.TensorProps Verif.SimplexModel Verif.TopoModel Verif.TopoSpec Verif.FaultModel
  Verif.GeometryModel Verif.GeometrySpec Verif.GeometryProofs Verif.GeometryProps Verif.MeshPoissonProps Verif.BasisModel Verif.BasisSpec Verif.IntegralSpec Verif.IntegralProofs Verif.QuadratureModel Verif.QuadratureSpec Verif.QuadratureProps
  Verif.DubinerProofs Verif.SpanProofs Verif.RefElementSpec Verif.RefElementModel Verif.RefElementProofs Verif.RefElementProps
  Verif.AssembleModel Verif.AssembleSpec Verif.InterpolationSpec Verif.ErrorSpec Verif.ErrorModel Verif.ErrorProofs.
Import ListNotations.
Local Open Scope R_scope.

(** Both reference elements represent their basis. *)
Theorem nodal_represents : forall inverse D N mi nodes psi, (D = 1 \/ D = 2 \/ D = 3)%nat -> runs_through D N mi ->
  length nodes = length mi -> unisolvent D N nodes -> exact_inverse inverse -> nodal_basis D N nodes psi ->
  represents D (nodal_re (NodalRefElement inverse D N mi nodes)) (length nodes) psi.
Proof.
  intros inverse D N mi nodes psi HD RT Hn U HI HP. destruct (nodal_ref_element inverse D N mi nodes psi HD RT Hn U HI HP) as [A B].
  split; [exact A |]. intros HD' m0 points perm Hp. destruct (B m0 points perm Hp) as (E & m & Em & EE & H). exists E, m. split; [exact Em |]. split; [exact EE |]. auto.
Qed.
Theorem modal_represents : forall D N mi, (D = 1 \/ D = 2 \/ D = 3)%nat -> runs_through D N mi ->
  represents D (modal_re D N mi) (length mi) (fun bf => DubinerP D (nth bf mi [])).
Proof.
  intros D N mi HD RT. destruct (modal_ref_element D N mi HD RT) as (_ & _ & _ & A & B).
  split; [exact A |]. intros HD' m0 points perm Hp. destruct (B m0 points perm Hp) as (E & m & Em & EE & H). exists E, m. split; [exact Em |]. split; [exact EE |]. auto.
Qed.

(** C69a: map writes the values of the function in the element at the points. *)
Theorem fe_map_values : forall D F b e points m0 mr, represents D (ff_re F) (ff_nb F) b ->
  let result := packed 0 [length points; ff_Q F] in
  exists E me, evaluationMatrix F m0 points = Some (E, me)
  /\ forall q p, (q < length points)%nat -> (p < ff_Q F)%nat ->
       ff_map F e E me result mr (v_addr result [q; p]) = fe_value b (ff_nb F) (ff_Q F) (ff_mem F) e p (point points q).
Proof.
  intros D F b e points m0 mr HR result. destruct (evaluated D F b m0 points HR) as (E & me & Eq & V). exists E, me. split; [exact Eq |].
  intros q p Hq Hp. pose proof (ff_map_read F e E me (length points) mr q p Hq Hp) as X. unfold emap at 1 in X. unfold result. rewrite X.
  unfold fe_value. apply rsum_ext. intros k Hk. rewrite V by assumption. ring.
Qed.
Print Assumptions fe_map_values.

Lemma jacobian_partial : forall D nb b pos xi J i e l, jacobian_of D (place nb b pos) xi J -> (i < D)%nat -> (e < D)%nat ->
  (forall j, (j < nb)%nat -> partial_derivative (b j) e xi (l j)) -> rsum nb (fun j => pos j i * l j) = J i e.
Proof.
  intros D nb b pos xi J i e l HJ Hi He Hl. eapply uniqueness_limite; [| exact (HJ i e Hi He)].
  apply (partial_rsum nb (fun j x => pos j i * b j x) e xi (fun j => pos j i * l j)). intros j Hj. apply partial_scale. now apply Hl.
Qed.
Lemma value_partial : forall b nb Q x g p xi a l, (forall k, (k < nb)%nat -> partial_derivative (b k) a xi (l k)) ->
  partial_derivative (fe_value b nb Q x g p) a xi (rsum nb (fun k => x (g * (nb * Q) + (p * nb + k))%nat * l k)).
Proof.
  intros b nb Q x g p xi a l H. unfold fe_value.
  apply (partial_rsum nb (fun k xi => x (g * (nb * Q) + (p * nb + k))%nat * b k xi) a xi (fun k => x (g * (nb * Q) + (p * nb + k))%nat * l k)).
  intros k Hk. apply partial_scale. now apply H.
Qed.

(** C69b: gradient writes the gradient with respect to physical coordinates: the chain rule gives the derivatives in the
    reference element back, and if w is the function on the physical element, it is the gradient of w. *)
Theorem fe_gradient_values : forall D F b cl bg e points m0 mJ0 mi0 mr J, (D = 2 \/ D = 3)%nat ->
  represents D (ff_re F) (ff_nb F) b -> represents D (cv_re cl) (cv_nb cl) bg ->
  let X := place (cv_nb cl) bg (cv_pos cl e) in
  (forall q, (q < length points)%nat -> jacobian_of D X (point points q) (J q) /\ geo_det D (J q) <> 0) ->
  let Jv := packed 0 [D; D; length points] in let result := packed 0 [length points; ff_Q F; D] in
  exists E me geoD mgD, gradientEvaluationTensor F m0 points = Some (E, me) /\ re_gradient (cv_re cl) m0 points [0; 1; 2]%nat = Some (geoD, mgD) /\
  let mJ := cl_jacobian D (cv_nb cl) (cv_pos cl e) geoD mgD Jv mJ0 in
  let mi := cl_jacobianInv D Jv mJ Jv mi0 in
  let m := ff_gradient F e E me Jv mi result mr in
  (forall q, (q < length points)%nat -> cl_absDetJ D Jv mJ q = Rabs (geo_det D (J q)))
  /\ forall q p, (q < length points)%nat -> (p < ff_Q F)%nat ->
    let u := fe_value b (ff_nb F) (ff_Q F) (ff_mem F) e p in
    (forall a, (a < D)%nat -> partial_derivative u a (point points q) (rsum D (fun j => m (v_addr result [q; p; j]) * J q j a)))
    /\ (forall w g, near D (point points q) (fun xi => w (X xi) = u xi) -> gradient_at D w (X (point points q)) g ->
          forall j, (j < D)%nat -> m (v_addr result [q; p; j]) = g j).
Proof.
  intros D F b cl bg e points m0 mJ0 mi0 mr J HD HR HG X HJ Jv result.
  destruct (proj2 HR HD m0 points [2; 0; 1]%nat) as (E & me & E1 & EE & V).
  { apply Permutation_sym. apply (perm_trans (l' := [0; 2; 1]%nat)); [apply perm_skip, perm_swap | apply perm_swap]. }
  destruct (proj2 HG HD m0 points [0; 1; 2]%nat (Permutation_refl _)) as (geoD & mgD & E2 & EG & VG).
  exists E, me, geoD, mgD. split; [exact E1 |]. split; [exact E2 |]. cbv zeta.
  change (permuted [2; 0; 1]%nat [ff_nb F; D; length points]) with [length points; ff_nb F; D] in EE.
  change (permuted [0; 1; 2]%nat [cv_nb cl; D; length points]) with [cv_nb cl; D; length points] in EG.
  set (mJ := cl_jacobian D (cv_nb cl) (cv_pos cl e) geoD mgD Jv mJ0). set (mi := cl_jacobianInv D Jv mJ Jv mi0).
  assert (JJ : forall q i a, (q < length points)%nat -> (i < D)%nat -> (a < D)%nat -> emap mJ (subtensor Jv [Slice; Slice; Idx q]) i a = J q i a).
  { intros q i a Hq Hi Ha. unfold mJ, Jv. rewrite EG. rewrite cl_jacobian_read by assumption.
    apply (jacobian_partial D (cv_nb cl) bg (cv_pos cl e) (point points q)); [apply HJ; exact Hq | exact Hi | exact Ha |].
    intros j Hj. specialize (VG j a q Hj Ha Hq). rewrite EG in VG. exact VG. }
  assert (II : forall q a j, (q < length points)%nat -> (a < D)%nat -> (j < D)%nat -> emap mi (subtensor Jv [Slice; Slice; Idx q]) a j = geo_inverse D (J q) a j).
  { intros q a j Hq Ha Hj. unfold mi, Jv. rewrite cl_jacobianInv_read by assumption. apply geo_inverse_ext; auto. }
  split.
  { intros q Hq. unfold cl_absDetJ, cl_detJ. f_equal. apply geo_det_ext; auto. }
  intros q p Hq Hp. set (xi := point points q).
  assert (Pk : forall k a, (k < ff_nb F)%nat -> (a < D)%nat -> partial_derivative (b k) a xi (me (v_addr (packed 0 [length points; ff_nb F; D]) [q; k; a]))).
  { intros k a Hk Ha. specialize (V k a q Hk Ha Hq). rewrite EE in V. exact V. }
  set (du := fun a => rsum (ff_nb F) (fun k => ff_mem F (e * (ff_nb F * ff_Q F) + (p * ff_nb F + k))%nat * me (v_addr (packed 0 [length points; ff_nb F; D]) [q; k; a]))).
  assert (DU : forall a, (a < D)%nat -> partial_derivative (fe_value b (ff_nb F) (ff_Q F) (ff_mem F) e p) a xi (du a)).
  { intros a Ha. apply value_partial. intros k Hk. now apply Pk. }
  assert (M : forall j, (j < D)%nat -> ff_gradient F e E me Jv mi result mr (v_addr result [q; p; j]) = rsum D (fun a => du a * geo_inverse D (J q) a j)).
  { intros j Hj. rewrite EE. unfold result, Jv. rewrite ff_gradient_read by assumption. apply rsum_ext. intros a Ha. fold Jv. rewrite II by assumption. f_equal.
    unfold du. apply rsum_ext. intros; ring. }
  destruct (HJ q Hq) as [HJq Det].
  assert (L : forall i j, (i < D)%nat -> (j < D)%nat -> rsum D (fun k => geo_inverse D (J q) i k * J q k j) = if (i =? j)%nat then 1 else 0)
    by (intros; now apply inverse_left).
  assert (Rr : forall i j, (i < D)%nat -> (j < D)%nat -> rsum D (fun k => J q i k * geo_inverse D (J q) k j) = delta i j).
  { apply inverse_commutes. intros i j Hi Hj. apply L; assumption. }
  split.
  - intros a Ha. rewrite (rsum_ext D _ (fun j => rsum D (fun c => du c * (geo_inverse D (J q) c j * J q j a)))).
    2:{ intros j Hj. rewrite M by exact Hj. rewrite <- rsum_scale_r. apply rsum_ext. intros; ring. }
    rewrite rsum_swap. rewrite (rsum_ext D _ (fun c => du c * (if (c =? a)%nat then 1 else 0))).
    2:{ intros c Hc. rewrite rsum_scale. rewrite L by assumption. reflexivity. }
    rewrite (rsum_single D a (fun c => du c * (if (c =? a)%nat then 1 else 0))); [| exact Ha | intros c Hc Hne; destruct (Nat.eqb_spec c a); [congruence | ring]].
    rewrite Nat.eqb_refl, Rmult_1_r. now apply DU.
  - intros w g Hn Hg j Hj. rewrite M by exact Hj.
    rewrite (rsum_ext D _ (fun a => rsum D (fun i => g i * (J q i a * geo_inverse D (J q) a j)))).
    2:{ intros a Ha. rewrite (chain D X (fe_value b (ff_nb F) (ff_Q F) (ff_mem F) e p) w xi (J q) g a (du a) Ha HJq Hn Hg (DU a Ha)).
        rewrite <- rsum_scale_r. apply rsum_ext. intros; ring. }
    rewrite rsum_swap. rewrite (rsum_ext D _ (fun i => g i * delta i j)) by (intros i Hi; rewrite rsum_scale; now rewrite Rr).
    rewrite (rsum_single D j (fun i => g i * delta i j)); [unfold delta; rewrite Nat.eqb_refl; ring | exact Hj |].
    intros i Hi Hne. unfold delta. destruct (Nat.eqb_spec i j); [congruence | ring].
Qed.
Print Assumptions fe_gradient_values.

(** ** Sums *)
Lemma fold_sum : forall (M : Type) (step : M * R -> nat -> M * R) h l ms s,
  (forall ms s e, In e l -> exists ms', step (ms, s) e = (ms', s + h e)) -> snd (fold_left step l (ms, s)) = s + fold_right (fun e a => h e + a) 0 l.
Proof.
  intros M step h l. induction l as [| e l IH]; intros ms s H; cbn [fold_left fold_right]; [cbn; ring |].
  destruct (H ms s e (or_introl eq_refl)) as (ms' & ->). rewrite IH by (intros; apply H; now right). ring.
Qed.
Lemma fold_right_rsum : forall n h, fold_right (fun e a => h e + a) 0 (seq 0 n) = rsum n h.
Proof.
  intros n h. induction n as [| n IH]; [reflexivity |]. rewrite seq_S, fold_right_app. cbn [fold_right Nat.add rsum].
  assert (E : forall l z, fold_right (fun e a => h e + a) z l = fold_right (fun e a => h e + a) 0 l + z) by (induction l; intros z; cbn; [ring | rewrite IHl; ring]).
  rewrite E, IH. ring.
Qed.
Lemma accumulate2 : forall (n Q : nat) (f : nat -> nat -> R) s, fold_left (fun s j => accumulate (seq 0 n) (f j) s) (seq 0 Q) s = s + rsum Q (fun j => rsum n (f j)).
Proof.
  intros n Q f s. unfold accumulate. rewrite <- fold_left_rsum. revert s. generalize (seq 0 Q). induction l as [| j l IH]; intros s; cbn [fold_left]; [reflexivity |].
  rewrite fold_left_rsum. apply IH.
Qed.
Lemma accumulate3 : forall (n D Q : nat) (f : nat -> nat -> nat -> R) s,
  fold_left (fun s i => fold_left (fun s j => accumulate (seq 0 n) (f i j) s) (seq 0 D) s) (seq 0 Q) s = s + rsum Q (fun i => rsum D (fun j => rsum n (f i j))).
Proof.
  intros n D Q f s. rewrite <- fold_left_rsum. revert s. generalize (seq 0 Q). induction l as [| j l IH]; intros s; cbn [fold_left]; [reflexivity |].
  rewrite accumulate2. apply IH.
Qed.

(** ** One rank *)
(** The reference solution only depends on the D coordinates. *)
Definition of_coordinates (D : nat) (f : (nat -> R) -> nat -> R) : Prop := forall x y j, (forall d, (d < D)%nat -> x d = y d) -> f x j = f y j.
Lemma coords_read : forall D nb b pos n (mgE mc : mem) geoE points q d, (q < n)%nat -> (d < D)%nat -> n = length points ->
  (forall j, (j < nb)%nat -> emap mgE geoE j q = b j (point points q)) ->
  emap (cl_map nb pos geoE mgE (packed 0 [D; n]) mc) (packed 0 [D; n]) d q = place nb b pos (point points q) d.
Proof.
  intros D nb b pos n mgE mc geoE points q d Hq Hd Hn H. unfold cl_map, emap at 1. rewrite assign_read; [| apply packed_inj2 | exact Hd | exact Hq].
  unfold place. apply rsum_ext. intros j Hj. now rewrite H.
Qed.
Section Rank.
Variables (D : nat) (rule : list ((nat -> R) * R)) (cl : curvilinear) (bg : nat -> (nat -> R) -> R) (F : fe_function) (b : nat -> (nat -> R) -> R)
  (reference : (nat -> R) -> nat -> R) (J : nat -> (nat -> R) -> nat -> nat -> R).
Hypothesis HD : (D = 2 \/ D = 3)%nat.
Hypothesis HG : represents D (cv_re cl) (cv_nb cl) bg.
Hypothesis HR : represents D (ff_re F) (ff_nb F) b.
Hypothesis Href : of_coordinates D reference.
Local Notation X e := (place (cv_nb cl) bg (cv_pos cl e)).
Local Notation u e j := (fe_value b (ff_nb F) (ff_Q F) (ff_mem F) e j).
Local Notation points := (map fst rule).
Local Notation n := (length rule).
Hypothesis HJ : forall e xi, (e < ff_ne F)%nat -> jacobian_of D (X e) xi (J e xi).

Lemma L2_rank_ok : forall m0, L2_rank D rule cl F reference m0 = Some (rsum (ff_ne F) (fun e => rsum (ff_Q F) (fun j =>
  rule_sum rule (fun xi => Rabs (geo_det D (J e xi)) * (reference (X e xi) j - u e j xi)²)))).
Proof.
  intros m0. unfold L2_rank. cbv zeta. assert (Ln : length points = n) by apply map_length.
  destruct (evaluated D F b m0 points HR) as (E & me & E1 & V). rewrite E1. cbn [bind].
  destruct (proj1 HG m0 points [0; 1]%nat (Permutation_refl _)) as (geoE & mgE & E2 & EGE & VE). rewrite E2. cbn [bind].
  destruct (proj2 HG HD m0 points [0; 1; 2]%nat (Permutation_refl _)) as (geoD & mgD & E3 & EG & VG). rewrite E3. cbn [bind].
  change (permuted [0; 1; 2]%nat [cv_nb cl; D; length points]) with [cv_nb cl; D; length points] in EG. rewrite Ln in *.
  f_equal. rewrite fold_sum with (h := fun e => rsum (ff_Q F) (fun j => rule_sum rule (fun xi => Rabs (geo_det D (J e xi)) * (reference (X e xi) j - u e j xi)²))).
  { rewrite fold_right_rsum. ring. }
  intros [[mJ mc] mn] s e He. apply in_seq in He. eexists. f_equal. f_equal. rewrite accumulate2, Rplus_0_l.
  apply rsum_ext. intros j Hj. rewrite rule_sum_nth. apply rsum_ext. intros q Hq.
  rewrite ff_map_read by assumption. unfold solution_at.
  rewrite (Href _ (X e (point points q)) j).
  2:{ intros d Hd. apply (coords_read D (cv_nb cl) bg (cv_pos cl e) n mgE mc geoE points q d Hq Hd); [symmetry; apply map_length |]. intros k Hk. exact (VE k q Hk Hq). }
  replace (cl_absDetJ D (packed 0 [D; D; n]) (cl_jacobian D (cv_nb cl) (cv_pos cl e) geoD mgD (packed 0 [D; D; n]) mJ) q) with (Rabs (geo_det D (J e (point points q)))).
  - rewrite (rsum_ext (ff_nb F) _ (fun k => ff_mem F (e * (ff_nb F * ff_Q F) + (j * ff_nb F + k))%nat * b k (point points q))) by (intros k Hk; rewrite V by assumption; ring).
    fold (u e j (point points q)). unfold Rsqr. ring.
  - unfold cl_absDetJ, cl_detJ. f_equal. apply geo_det_ext; [exact HD |]. intros i a Hi Ha. rewrite EG, cl_jacobian_read by assumption. symmetry.
    apply (jacobian_partial D (cv_nb cl) bg (cv_pos cl e) (point points q)); [apply HJ; lia | exact Hi | exact Ha |].
    intros k Hk. specialize (VG k a q Hk Ha Hq). rewrite EG in VG. exact VG.
Qed.

Variable du : nat -> nat -> nat -> (nat -> R) -> R.
Hypothesis Hdet : forall e q, (e < ff_ne F)%nat -> (q < n)%nat -> geo_det D (J e (point points q)) <> 0.
(** du e i j is the derivative in direction j of quantity i, as a function on the physical element. *)
Hypothesis Hdu : forall e i q, (e < ff_ne F)%nat -> (i < ff_Q F)%nat -> (q < n)%nat -> exists w,
  near D (point points q) (fun xi => w (X e xi) = u e i xi) /\ gradient_at D w (X e (point points q)) (fun j => du e i j (point points q)).
Lemma H1_rank_ok : forall m0, H1_semi_rank D rule cl F reference m0 = Some (rsum (ff_ne F) (fun e => rsum (ff_Q F) (fun i => rsum D (fun j =>
  rule_sum rule (fun xi => Rabs (geo_det D (J e xi)) * (reference (X e xi) (i * ff_Q F + j)%nat - du e i j xi)²))))).
Proof.
  intros m0. unfold H1_semi_rank. cbv zeta. assert (Ln : length points = n) by apply map_length.
  destruct (proj1 HG m0 points [0; 1]%nat (Permutation_refl _)) as (geoE & mgE & E2 & EGE & VE).
  destruct (proj2 HG HD m0 points [0; 1; 2]%nat (Permutation_refl _)) as (geoD & mgD & E3 & EG & VG).
  destruct (proj2 HR HD m0 points [2; 0; 1]%nat) as (E & me & E1 & _ & _).
  { apply Permutation_sym. apply (perm_trans (l' := [0; 2; 1]%nat)); [apply perm_skip, perm_swap | apply perm_swap]. }
  unfold gradientEvaluationTensor. rewrite E1, E2, E3. cbn [bind].
  f_equal. rewrite fold_sum with (h := fun e => rsum (ff_Q F) (fun i => rsum D (fun j => rule_sum rule (fun xi => Rabs (geo_det D (J e xi)) * (reference (X e xi) (i * ff_Q F + j)%nat - du e i j xi)²)))).
  { rewrite fold_right_rsum. ring. }
  intros [[[mJ mi] mc] mn] s e He. apply in_seq in He. assert (Hee : (e < ff_ne F)%nat) by lia. eexists. f_equal. f_equal. rewrite accumulate3, Rplus_0_l.
  destruct (fe_gradient_values D F b cl bg e points m0 mJ mi mn (fun q => J e (point points q)) HD HR HG) as (E' & me' & geoD' & mgD' & E1' & E3' & DET & GR).
  { intros q Hq. rewrite Ln in Hq. split; [now apply HJ | now apply Hdet]. }
  unfold gradientEvaluationTensor in E1'. rewrite E1 in E1'. inversion E1'. subst E' me'. rewrite E3 in E3'. inversion E3'. subst geoD' mgD'. cbv zeta in DET, GR. rewrite Ln in *.
  apply rsum_ext. intros i Hi. apply rsum_ext. intros j Hj. rewrite rule_sum_nth. apply rsum_ext. intros q Hq. unfold solution_at.
  rewrite (Href _ (X e (point points q)) (i * ff_Q F + j)%nat).
  2:{ intros d Hd. apply (coords_read D (cv_nb cl) bg (cv_pos cl e) n mgE mc geoE points q d Hq Hd); [symmetry; apply map_length |]. intros k Hk. exact (VE k q Hk Hq). }
  rewrite DET by exact Hq. destruct (GR q i Hq Hi) as [_ G]. destruct (Hdu e i q Hee Hi Hq) as (w & W1 & W2).
  rewrite (G w _ W1 W2 j Hj). unfold Rsqr. ring.
Qed.
End Rank.
