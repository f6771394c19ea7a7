(** Properties C36, C37, C38: the rate and state friction law. *)
Require Import List Reals Lra Psatz Lia Ranalysis5.
Require Import Verif.VecModel Verif.ZeroModel Verif.ZeroProps Verif.FrictionModel.
Import ListNotations.
Local Open Scope R_scope.

(** ** Specification *)

(** The regularised rate and state law: strength of a fault with normal stress sn (positive in
    compression), slip rate V and state psi. *)
Definition strength (a V0 sn V psi : R) : R := a * sn * arcsinh (V / (2 * V0) * exp (psi / a)).

(** Balance of the shear traction tau, the strength and the radiation damping eta V. *)
Definition balance (a V0 eta sn tau psi V : R) : Prop := tau = strength a V0 sn V psi + eta * V.

(** State at which the friction law is steady for slip rate V. *)
Definition steady_state (f0 b V0 V : R) : R := f0 - b * ln (V / V0).

(** ** Auxiliary facts *)

Lemma arcsinh_increasing : forall x y, x <= y -> arcsinh x <= arcsinh y.
Proof. intros x y [H|H]; [left; apply arcsinh_lt; exact H|right; congruence]. Qed.

Lemma continuity_arcsinh : continuity arcsinh.
Proof.
  intro x. apply derivable_continuous_pt. exists (/ sqrt (x ^ 2 + 1)).
  apply derivable_pt_lim_arcsinh.
Qed.

Lemma ln10_pos : 0 < ln 10.
Proof. rewrite <- ln_1. apply ln_increasing; lra. Qed.

Lemma pow10_pos : forall x, 0 < pow10 x.
Proof. intro x. apply exp_pos. Qed.

Lemma pow10_log10 : forall x, 0 < x -> pow10 (log10 x) = x.
Proof.
  intros x H. unfold pow10, log10. replace (ln x / ln 10 * ln 10) with (ln x).
  - apply exp_ln. exact H.
  - field. pose proof ln10_pos. lra.
Qed.

Lemma log10_pow10 : forall x, log10 (pow10 x) = x.
Proof.
  intro x. unfold log10, pow10. rewrite ln_exp. field. pose proof ln10_pos. lra.
Qed.

Lemma pow10_lt : forall x y, x < y -> pow10 x < pow10 y.
Proof.
  intros x y H. apply exp_increasing. apply Rmult_lt_compat_r; [apply ln10_pos|exact H].
Qed.

Lemma pow10_lt_inv : forall x y, pow10 x < pow10 y -> x < y.
Proof.
  intros x y H. apply exp_lt_inv in H. apply Rmult_lt_reg_r in H; [exact H|apply ln10_pos].
Qed.

Lemma continuity_pow10 : continuity pow10.
Proof. unfold pow10. reg. Qed.

Section Law.
  Variables a V0 eta sn psi : R.
  Hypothesis Ha : 0 < a.
  Hypothesis HV0 : 0 < V0.
  Hypothesis Hsn : 0 < sn.
  Hypothesis Heta : 0 <= eta.

  Lemma strength_lt : forall V W, V < W -> strength a V0 sn V psi < strength a V0 sn W psi.
  Proof.
    intros V W H. unfold strength. apply Rmult_lt_compat_l; [nra|]. apply arcsinh_lt.
    apply Rmult_lt_compat_r; [apply exp_pos|]. apply Rmult_lt_compat_r; [|exact H].
    apply Rinv_0_lt_compat. lra.
  Qed.

  Lemma strength_0 : strength a V0 sn 0 psi = 0.
  Proof.
    unfold strength. replace (0 / (2 * V0) * exp (psi / a)) with 0 by (field; lra).
    rewrite arcsinh_0. ring.
  Qed.

  Lemma total_lt : forall V W, V < W ->
    strength a V0 sn V psi + eta * V < strength a V0 sn W psi + eta * W.
  Proof. intros V W H. pose proof (strength_lt V W H). nra. Qed.

  Lemma continuity_strength : continuity (fun V => strength a V0 sn V psi).
  Proof.
    change (continuity (mult_real_fct (a * sn) (comp arcsinh (fun V => V / (2 * V0) * exp (psi / a))))).
    apply continuity_scal. apply continuity_comp; [|apply continuity_arcsinh].
    reg.
  Qed.

  Lemma continuity_total : continuity (fun V => strength a V0 sn V psi + eta * V).
  Proof.
    apply (continuity_plus (fun V => strength a V0 sn V psi) (fun V => eta * V)).
    - apply continuity_strength.
    - reg.
  Qed.

  Lemma balance_inj : forall tau V W, balance a V0 eta sn tau psi V ->
    balance a V0 eta sn tau psi W -> V = W.
  Proof.
    unfold balance. intros tau V W H1 H2.
    destruct (Rtotal_order V W) as [H|[H|H]]; [|exact H|]; apply total_lt in H; lra.
  Qed.
End Law.

(** ** C36 *)

(** For positive a, V0, eta, normal stress and shear traction exactly one slip rate balances the
    traction, and it lies strictly between 0 and tau / eta. *)
Theorem balance_unique : forall a V0 eta sn tau psi,
  0 < a -> 0 < V0 -> 0 < eta -> 0 < sn -> 0 < tau ->
  exists V, 0 < V < tau / eta /\ balance a V0 eta sn tau psi V /\
            forall W, balance a V0 eta sn tau psi W -> W = V.
Proof.
  intros a V0 eta sn tau psi Ha HV He Hs Ht.
  assert (Hte : 0 < tau / eta) by (apply Rdiv_lt_0_compat; assumption).
  pose proof (strength_0 a V0 sn psi HV) as S0.
  assert (S1 : 0 < strength a V0 sn (tau / eta) psi).
  { rewrite <- S0. apply strength_lt; assumption. }
  assert (E1 : eta * (tau / eta) = tau) by (field; lra).
  destruct (IVT_interv (fun V => strength a V0 sn V psi + eta * V - tau) 0 (tau / eta))
    as (V & HV1 & HV2).
  - intros x _. apply (continuity_pt_minus (fun V => strength a V0 sn V psi + eta * V) (fun _ => tau)).
    + apply continuity_total.
    + apply continuity_pt_const. intros ? ?. reflexivity.
  - exact Hte.
  - rewrite S0. lra.
  - lra.
  - assert (HB : balance a V0 eta sn tau psi V) by (unfold balance; lra).
    exists V. split; [|split; [exact HB|]].
    + unfold balance in HB. split.
      * destruct (proj1 HV1) as [H|H]; [exact H|]. subst V. rewrite S0 in HB. lra.
      * destruct (proj2 HV1) as [H|H]; [exact H|]. subst V. lra.
    + intros W HW. apply (balance_inj a V0 eta sn psi Ha HV Hs (Rlt_le _ _ He) tau W V HW HB).
Qed.

Definition pos_params (c : cparams) (p : params) : Prop := 0 < pa p /\ 0 < cV0 c.

Lemma fric_strength : forall c p sn V psi, fric c p sn V psi = strength (pa p) (cV0 c) sn V psi.
Proof. intros. unfold fric, strength. cbv zeta. ring. Qed.

Section Residual.
  Variables (c : cparams) (p : params) (sn tau psi Vs : R).
  Hypothesis Hp : pos_params c p.
  Hypothesis Heta : 0 < peta p.
  Hypothesis Hsn : 0 < sn.
  Hypothesis Htau : 0 < tau.
  Hypothesis HVs : balance (pa p) (cV0 c) (peta p) sn tau psi Vs.

  Let f := residual c p sn tau psi.
  Let Vb := log10 (tau / peta p).

  Lemma Vs_range : 0 < Vs < tau / peta p.
  Proof.
    destruct Hp as [Ha HV].
    destruct (balance_unique (pa p) (cV0 c) (peta p) sn tau psi Ha HV Heta Hsn Htau)
      as (V & HV1 & _ & HV2). rewrite (HV2 Vs HVs). exact HV1.
  Qed.

  Lemma pow10_Vb : pow10 Vb = tau / peta p.
  Proof. apply pow10_log10. apply Rdiv_lt_0_compat; assumption. Qed.

  Lemma f_sign : forall Ve, (pow10 Ve < Vs -> 0 < f Ve) /\ (Vs < pow10 Ve -> f Ve < 0) /\
                            (pow10 Ve = Vs -> f Ve = 0).
  Proof.
    intro Ve. destruct Hp as [Ha HV]. unfold f, residual. rewrite fric_strength.
    pose proof HVs as H. unfold balance in H.
    split; [|split]; intro Hc.
    - pose proof (total_lt (pa p) (cV0 c) (peta p) sn psi Ha HV Hsn (Rlt_le _ _ Heta) _ _ Hc). lra.
    - pose proof (total_lt (pa p) (cV0 c) (peta p) sn psi Ha HV Hsn (Rlt_le _ _ Heta) _ _ Hc). lra.
    - rewrite Hc. lra.
  Qed.

  Lemma f_Vb : f Vb < 0.
  Proof. apply f_sign. rewrite pow10_Vb. apply Vs_range. Qed.

  Lemma f_zero : forall Ve, f Ve = 0 -> pow10 Ve = Vs.
  Proof.
    intros Ve H. destruct (Rtotal_order (pow10 Ve) Vs) as [L|[L|L]]; [|exact L|];
      apply (f_sign Ve) in L; lra.
  Qed.

  Lemma f_cont : continuity f.
  Proof.
    unfold f, residual.
    apply (continuity_minus (fun Ve => tau - fric c p sn (pow10 Ve) psi) (fun Ve => peta p * pow10 Ve)).
    - apply (continuity_minus (fun _ => tau) (fun Ve => fric c p sn (pow10 Ve) psi)).
      + apply continuity_const. intros ? ?. reflexivity.
      + intro x. apply (continuity_pt_locally_ext (comp (fun V => strength (pa p) (cV0 c) sn V psi) pow10) _ 1 x Rlt_0_1).
        { intros y _. unfold comp. symmetry. apply fric_strength. }
        apply continuity_comp; [apply continuity_pow10|apply continuity_strength].
    - apply (continuity_scal pow10 (peta p)). apply continuity_pow10.
  Qed.

  (** The lower end point l lies below the solution: the root finder is called on [l, Vb]. *)
  Lemma attempt_found : forall eps fuel l, 0 <= eps -> pow10 l <= Vs ->
    attempt f eps fuel l Vb = Out_of_fuel \/
    exists Ve, attempt f eps fuel l Vb = Ret Ve /\
               Rabs (Ve - log10 Vs) <= 4 * eps * Rabs Ve.
  Proof.
    intros eps fuel l He Hl. unfold attempt.
    assert (HlV : l < Vb). { apply pow10_lt_inv. rewrite pow10_Vb. pose proof Vs_range. lra. }
    destruct (Rlt_dec Vb l) as [C|_]; [lra|].
    destruct (zeroIn f eps 0 fuel l Vb) as [o ev] eqn:E. cbn [fst].
    assert (Hs : f l * f Vb <= 0).
    { pose proof f_Vb. destruct Hl as [Hl|Hl].
      - apply (f_sign l) in Hl. nra.
      - apply (f_sign l) in Hl. rewrite Hl. lra. }
    destruct (zeroIn_safe f eps 0 fuel l Vb o ev He (Rle_refl 0) Hs E) as [_ [->|(x & -> & Hx)]].
    - left. reflexivity.
    - right. exists x. split; [reflexivity|].
      destruct (good_value_near_root f eps 0 l Vb x He (Rle_refl 0) Hx) as (z & _ & Hz & Hd).
      { intros y _. apply f_cont. }
      apply f_zero in Hz. rewrite <- Hz, log10_pow10. lra.
  Qed.

  (** The lower end point lies above the solution: both end points have negative residual. *)
  Lemma attempt_rejected : forall eps fuel l, Vs < pow10 l -> attempt f eps fuel l Vb = Throw.
  Proof.
    intros eps fuel l Hl. apply (f_sign l) in Hl. pose proof f_Vb. unfold attempt.
    destruct (Rlt_dec Vb l); rewrite zeroIn_rejects_same_sign by nra; reflexivity.
  Qed.

  (** Termination if all slip rates in question are below one. *)
  Lemma attempt_terminates : forall eps l, 0 < eps -> pow10 l <= Vs -> tau < peta p ->
    exists N, forall fuel, (N <= fuel)%nat -> attempt f eps fuel l Vb <> Out_of_fuel.
  Proof.
    intros eps l He Hl Hlt.
    assert (HlV : l < Vb). { apply pow10_lt_inv. rewrite pow10_Vb. pose proof Vs_range. lra. }
    assert (HVb : Vb < 0).
    { apply pow10_lt_inv. rewrite pow10_Vb. unfold pow10. rewrite Rmult_0_l, exp_0.
      apply (Rmult_lt_reg_r (peta p)); [exact Heta|]. unfold Rdiv. rewrite Rmult_assoc, Rinv_l by lra. lra. }
    set (delta := 2 * eps * - Vb). assert (Hd : 0 < delta) by (unfold delta; nra).
    destruct (INR_archimed_ex (2 * (Vb - l) / delta)) as [N HN]. exists N. intros fuel Hf.
    unfold attempt. destruct (Rlt_dec Vb l) as [C|_]; [lra|].
    destruct (zeroIn_correct f eps 0 delta fuel l Vb) as (x & ev & E & _); auto.
    - intros x Hx. unfold between, Rmin, Rmax in Hx. destruct (Rle_dec l Vb); [|lra].
      rewrite Rabs_left by lra. unfold delta. nra.
    - pose proof f_Vb. destruct Hl as [Hl|Hl]; apply (f_sign l) in Hl; [nra|rewrite Hl; lra].
    - rewrite Rabs_right by lra. apply le_INR in Hf.
      apply (Rmult_lt_compat_r (delta / 2)) in HN; [|lra].
      replace (2 * (Vb - l) / delta * (delta / 2)) with (Vb - l) in HN by (field; lra). nra.
    - rewrite E. discriminate.
  Qed.
End Residual.

(** The slip rate returned for a compressed fault with radiation damping.  [Vs] is the solution of
    the balance.  If it is not below the smallest slip rate 10^-32 (or 10^Va_min, the smallest
    positive number), a vector with a positive magnitude V is returned whose logarithm agrees with
    that of Vs up to 4 eps |log10 V|; otherwise the result is NaN with error code 2. *)
Theorem slip_rate_correct : forall eps fuel Va_min c p sn tau psi Vs,
  0 <= eps -> pos_params c p -> 0 < peta p -> 0 < sn_hat p sn ->
  0 < norm (vadd tau (ptau p)) ->
  balance (pa p) (cV0 c) (peta p) (sn_hat p sn) (norm (vadd tau (ptau p))) psi Vs ->
  (pow10 (-32) <= Vs \/ pow10 Va_min <= Vs ->
   slip_rate eps fuel Va_min c p sn tau psi = Rate_unfinished \/
   exists V, 0 < V /\ Rabs (log10 V - log10 Vs) <= 4 * eps * Rabs (log10 V) /\
     slip_rate eps fuel Va_min c p sn tau psi =
       Rate (vscale (- (V / norm (vadd tau (ptau p)))) (vadd tau (ptau p))) 0) /\
  (Vs < pow10 (-32) -> Vs < pow10 Va_min ->
   slip_rate eps fuel Va_min c p sn tau psi = Rate_nan 2).
Proof.
  intros eps fuel Va_min c p sn tau psi Vs He Hp Heta Hsn Htau HVs.
  unfold sn_hat in *. unfold slip_rate. cbv zeta.
  set (T := vadd tau (ptau p)) in *. set (s := - sn + psn p) in *. set (t := norm T) in *.
  destruct (Req_EM_T (peta p) 0) as [C|_]; [lra|].
  destruct (Rle_dec s 0) as [C|_]; [lra|].
  assert (Hte : 0 < t / peta p) by (apply Rdiv_lt_0_compat; assumption).
  destruct (Rle_dec (t / peta p) 0) as [C|_]; [lra|].
  assert (Hdir : forall V, directed V t T 0 = Rate (vscale (- (V / t)) T) 0).
  { intro V. unfold directed. destruct (Req_EM_T t 0); [lra|reflexivity]. }
  assert (Hok : forall l, pow10 l <= Vs ->
    attempt (residual c p s t psi) eps fuel l (log10 (t / peta p)) = Out_of_fuel \/
    exists Ve, attempt (residual c p s t psi) eps fuel l (log10 (t / peta p)) = Ret Ve /\
      Rabs (log10 (pow10 Ve) - log10 Vs) <= 4 * eps * Rabs (log10 (pow10 Ve))).
  { intros l Hl. destruct (attempt_found c p s t psi Vs Hp Heta Hsn Htau HVs eps fuel l He Hl)
      as [E|(Ve & E & HVe)]; [left; exact E|right].
    exists Ve. rewrite log10_pow10. split; assumption. }
  assert (Hno : forall l, Vs < pow10 l ->
    attempt (residual c p s t psi) eps fuel l (log10 (t / peta p)) = Throw).
  { intros l Hl. apply (attempt_rejected c p s t psi Vs); assumption. }
  split.
  - intro H. destruct (Rle_dec (pow10 (-32)) Vs) as [H32|H32].
    + destruct (Hok (-32) H32) as [->|(Ve & -> & HVe)]; [left; reflexivity|right].
      exists (pow10 Ve). split; [apply pow10_pos|]. split; [exact HVe|]. apply Hdir.
    + rewrite (Hno (-32)) by lra.
      destruct H as [H|H]; [lra|].
      destruct (Hok Va_min H) as [->|(Ve & -> & HVe)]; [left; reflexivity|right].
      exists (pow10 Ve). split; [apply pow10_pos|]. split; [exact HVe|]. apply Hdir.
  - intros H1 H2. rewrite (Hno (-32) H1), (Hno Va_min H2). reflexivity.
Qed.

(** The search ends after finitely many iterations if the traction is below eta (that is, all
    admissible slip rates are below 1 m/s). *)
Theorem slip_rate_terminates : forall eps Va_min c p sn tau psi Vs,
  0 < eps -> pos_params c p -> 0 < peta p -> 0 < sn_hat p sn ->
  0 < norm (vadd tau (ptau p)) < peta p ->
  balance (pa p) (cV0 c) (peta p) (sn_hat p sn) (norm (vadd tau (ptau p))) psi Vs ->
  exists N, forall fuel, (N <= fuel)%nat ->
    slip_rate eps fuel Va_min c p sn tau psi <> Rate_unfinished.
Proof.
  intros eps Va_min c p sn tau psi Vs He Hp Heta Hsn [Htau Hlt] HVs.
  unfold sn_hat in *. unfold slip_rate. cbv zeta.
  set (T := vadd tau (ptau p)) in *. set (s := - sn + psn p) in *. set (t := norm T) in *.
  destruct (Req_EM_T (peta p) 0) as [C|_]; [lra|].
  destruct (Rle_dec s 0) as [C|_]; [lra|].
  assert (Hte : 0 < t / peta p) by (apply Rdiv_lt_0_compat; assumption).
  destruct (Rle_dec (t / peta p) 0) as [C|_]; [lra|].
  assert (Hdir : forall V, directed V t T 0 <> Rate_unfinished).
  { intro V. unfold directed. destruct (Req_EM_T t 0); discriminate. }
  assert (G : forall l, exists N, forall fuel, (N <= fuel)%nat ->
    (exists Ve, attempt (residual c p s t psi) eps fuel l (log10 (t / peta p)) = Ret Ve) \/
    attempt (residual c p s t psi) eps fuel l (log10 (t / peta p)) = Throw).
  { intro l. destruct (Rle_dec (pow10 l) Vs) as [Hl|Hl].
    - destruct (attempt_terminates c p s t psi Vs Hp Heta Hsn Htau HVs eps l He Hl Hlt) as [N HN].
      exists N. intros fuel Hf. left.
      destruct (attempt_found c p s t psi Vs Hp Heta Hsn Htau HVs eps fuel l) as [E|(Ve & E & _)];
        auto; [lra|exfalso; apply (HN fuel Hf); exact E|exists Ve; exact E].
    - exists O. intros fuel _. right. apply (attempt_rejected c p s t psi Vs); try assumption. lra. }
  destruct (G (-32)) as [N1 H1]. destruct (G Va_min) as [N2 H2]. exists (max N1 N2). intros fuel Hf.
  destruct (H1 fuel) as [[Ve ->]| ->]; [lia|apply Hdir|].
  destruct (H2 fuel) as [[Ve ->]| ->]; [lia|apply Hdir|discriminate].
Qed.

(** Without radiation damping the closed form solves the balance exactly. *)
Theorem slip_rate_undamped : forall eps fuel Va_min c p sn tau psi,
  pos_params c p -> peta p = 0 -> 0 < sn_hat p sn -> 0 < norm (vadd tau (ptau p)) ->
  exists V, 0 < V /\
    balance (pa p) (cV0 c) 0 (sn_hat p sn) (norm (vadd tau (ptau p))) psi V /\
    slip_rate eps fuel Va_min c p sn tau psi =
      Rate (vscale (- (V / norm (vadd tau (ptau p)))) (vadd tau (ptau p))) 0.
Proof.
  intros eps fuel Va_min c p sn tau psi [Ha HV] Heta Hsn Htau.
  unfold sn_hat in *. unfold slip_rate. cbv zeta.
  set (T := vadd tau (ptau p)) in *. set (s := - sn + psn p) in *. set (t := norm T) in *.
  destruct (Req_EM_T (peta p) 0) as [_|C]; [|lra].
  destruct (Req_EM_T s 0) as [C|_]; [lra|].
  set (V := fric_inv c p s t psi).
  assert (EV : V = 2 * cV0 c * sinh (t / (pa p * s)) * exp (- (psi / pa p))).
  { unfold V, fric_inv, sinh. cbv zeta.
    replace ((t / s - psi) / pa p) with (t / (pa p * s) + - (psi / pa p)) by (field; lra).
    replace (- (t / s + psi) / pa p) with (- (t / (pa p * s)) + - (psi / pa p)) by (field; lra).
    rewrite !exp_plus. field. }
  assert (Hs : 0 < sinh (t / (pa p * s))).
  { rewrite <- sinh_0. apply sinh_lt. apply Rdiv_lt_0_compat; nra. }
  exists V. split; [|split].
  - rewrite EV. apply Rmult_lt_0_compat; [nra|apply exp_pos].
  - unfold balance, strength.
    replace (V / (2 * cV0 c) * exp (psi / pa p)) with (sinh (t / (pa p * s))).
    + rewrite arcsinh_sinh. field. lra.
    + rewrite EV. replace (2 * cV0 c * sinh (t / (pa p * s)) * exp (- (psi / pa p)) / (2 * cV0 c) *
        exp (psi / pa p)) with (sinh (t / (pa p * s)) * (exp (- (psi / pa p)) * exp (psi / pa p)))
        by (field; lra).
      rewrite <- exp_plus. replace (- (psi / pa p) + psi / pa p) with 0 by lra. rewrite exp_0. ring.
  - unfold directed. destruct (Req_EM_T t 0); [lra|reflexivity].
Qed.

Lemma vadd_scale_r : forall k T, vadd T (vscale k T) = vscale (1 + k) T.
Proof. intros k T. rewrite <- (vscale_1 T) at 1. apply vadd_vscale. Qed.

(** What every returned vector -(V/|T|) T means: its magnitude is V, it points against the traction
    T, and the shear stress reported with it is parallel to T with magnitude |T| - eta V. *)
Theorem slip_rate_vector : forall p tau V,
  0 <= V -> 0 < norm (vadd tau (ptau p)) ->
  let T := vadd tau (ptau p) in
  let v := vscale (- (V / norm T)) T in
  norm v = V /\ dot v T = - (V * norm T) /\
  tau_hat p tau v = vscale ((norm T - peta p * V) / norm T) T /\
  norm (tau_hat p tau v) = Rabs (norm T - peta p * V).
Proof.
  intros p tau V HV HT T v. fold T in HT. assert (Hd : dot T T = norm T * norm T).
  { rewrite norm_sqrt. symmetry. apply sqrt_sqrt. apply dot_nonneg. }
  assert (Et : tau_hat p tau v = vscale ((norm T - peta p * V) / norm T) T).
  { unfold tau_hat. fold T. unfold v. rewrite vscale_vscale, vadd_scale_r. f_equal. field. lra. }
  split; [|split; [|split; [exact Et|]]].
  - unfold v. rewrite norm_scale, Rabs_Ropp, Rabs_right.
    + field. lra.
    + apply Rle_ge. apply Rmult_le_pos; [exact HV|]. left. apply Rinv_0_lt_compat. exact HT.
  - unfold v. rewrite <- (vscale_1 T) at 3. rewrite dot_scale, Hd. field. lra.
  - rewrite Et, norm_scale. unfold Rdiv. rewrite Rabs_mult, Rabs_inv, (Rabs_right (norm T)) by lra.
    field. lra.
Qed.

(** In particular, for the solution of the balance the reported shear stress has the magnitude of
    the frictional strength. *)
Theorem slip_rate_carries_strength : forall c p sn tau psi V,
  pos_params c p -> 0 <= V -> 0 < sn -> 0 < norm (vadd tau (ptau p)) ->
  balance (pa p) (cV0 c) (peta p) sn (norm (vadd tau (ptau p))) psi V ->
  norm (tau_hat p tau (vscale (- (V / norm (vadd tau (ptau p)))) (vadd tau (ptau p)))) =
  strength (pa p) (cV0 c) sn V psi.
Proof.
  intros c p sn tau psi V [Ha HV0] HV Hsn HT HB.
  destruct (slip_rate_vector p tau V HV HT) as (_ & _ & _ & ->).
  unfold balance in HB. rewrite Rabs_right; [lra|].
  assert (0 <= strength (pa p) (cV0 c) sn V psi); [|lra].
  destruct HV as [HV|HV].
  - left. rewrite <- (strength_0 (pa p) (cV0 c) sn psi HV0). apply strength_lt; assumption.
  - subst V. rewrite strength_0 by assumption. lra.
Qed.

(** A fault in tension carries no shear stress; the error code is 1. *)
Theorem slip_rate_tension : forall eps fuel Va_min c p sn tau psi,
  0 < peta p -> sn_hat p sn <= 0 -> 0 < norm (vadd tau (ptau p)) ->
  exists v, slip_rate eps fuel Va_min c p sn tau psi = Rate v 1 /\
            forall x, In x (tau_hat p tau v) -> x = 0.
Proof.
  intros eps fuel Va_min c p sn tau psi Heta Hsn HT.
  unfold sn_hat in *. unfold slip_rate. cbv zeta.
  set (T := vadd tau (ptau p)) in *.
  destruct (Req_EM_T (peta p) 0) as [C|_]; [lra|].
  destruct (Rle_dec (- sn + psn p) 0) as [_|C]; [|lra].
  unfold directed. destruct (Req_EM_T (norm T) 0); [lra|].
  eexists. split; [reflexivity|]. intros x.
  unfold tau_hat. fold T. rewrite vscale_vscale, vadd_scale_r.
  unfold vscale. intro Hx. apply in_map_iff in Hx. destruct Hx as (y & <- & _). field. lra.
Qed.

(** Finding: a vanishing shear traction, which the slip rate 0 balances, gives NaN entries, with an
    error code that does not report it. *)
Theorem slip_rate_zero_traction_refuted : forall eps fuel Va_min c p sn tau psi,
  pos_params c p -> 0 < sn_hat p sn -> 0 <= peta p -> norm (vadd tau (ptau p)) = 0 ->
  balance (pa p) (cV0 c) (peta p) (sn_hat p sn) (norm (vadd tau (ptau p))) psi 0 /\
  slip_rate eps fuel Va_min c p sn tau psi = Rate_nan 0.
Proof.
  intros eps fuel Va_min c p sn tau psi [Ha HV] Hsn Heta HT. split.
  - unfold balance. rewrite strength_0 by assumption. lra.
  - unfold slip_rate. cbv zeta. unfold sn_hat in Hsn. rewrite HT.
    destruct (Req_EM_T (peta p) 0).
    + destruct (Req_EM_T _ 0); [reflexivity|]. unfold directed. destruct (Req_EM_T 0 0); [reflexivity|lra].
    + destruct (Rle_dec _ 0) as [C|_]; [lra|].
      replace (0 / peta p) with 0 by (field; assumption).
      destruct (Rle_dec 0 0); [reflexivity|lra].
Qed.

(** ** C37 *)

(** The initial state balances the initial traction at the initial slip rate. *)
Theorem psi_init_balances : forall c p sn tau,
  pos_params c p -> 0 < sn_hat p sn -> 0 < norm (pVinit p) ->
  peta p * norm (pVinit p) < norm (vadd tau (ptau p)) ->
  exists psi, psi_init c p sn tau = Some psi /\
    balance (pa p) (cV0 c) (peta p) (sn_hat p sn) (norm (vadd tau (ptau p))) psi (norm (pVinit p)).
Proof.
  intros c p sn tau [Ha HV] Hsn HVi Hlt. unfold sn_hat in *. unfold psi_init. cbv zeta.
  set (t := norm (vadd tau (ptau p))) in *. set (s := - sn + psn p) in *.
  set (Vi := norm (pVinit p)) in *.
  destruct (Req_EM_T Vi 0) as [C|_]; [lra|].
  destruct (Req_EM_T (pa p * s) 0) as [C|_]; [nra|].
  set (x := (t - peta p * Vi) / (pa p * s)).
  assert (Hx : 0 < sinh x).
  { rewrite <- sinh_0. apply sinh_lt. apply Rdiv_lt_0_compat; nra. }
  assert (HC : 0 < 2 * cV0 c / Vi) by (apply Rdiv_lt_0_compat; lra).
  assert (Hpos : 0 < 2 * cV0 c / Vi * sinh x) by (apply Rmult_lt_0_compat; assumption).
  destruct (Rlt_dec 0 (2 * cV0 c / Vi * sinh x)) as [_|C]; [|contradiction].
  eexists. split; [reflexivity|].
  unfold balance, strength.
  replace (pa p * ln (2 * cV0 c / Vi * sinh x) / pa p) with (ln (2 * cV0 c / Vi * sinh x)) by (field; lra).
  rewrite exp_ln by exact Hpos.
  replace (Vi / (2 * cV0 c) * (2 * cV0 c / Vi * sinh x)) with (sinh x) by (field; lra).
  rewrite arcsinh_sinh. unfold x. field. split; lra.
Qed.

(** So that the slip rate computed from the initial state is the initial slip rate. *)
Theorem psi_init_slip_rate : forall eps fuel Va_min c p sn tau psi,
  0 <= eps -> pos_params c p -> 0 < peta p -> 0 < sn_hat p sn -> 0 < norm (pVinit p) ->
  peta p * norm (pVinit p) < norm (vadd tau (ptau p)) -> pow10 (-32) <= norm (pVinit p) ->
  psi_init c p sn tau = Some psi ->
  slip_rate eps fuel Va_min c p sn tau psi = Rate_unfinished \/
  exists v, slip_rate eps fuel Va_min c p sn tau psi = Rate v 0 /\ 0 < norm v /\
    Rabs (log10 (norm v) - log10 (norm (pVinit p))) <= 4 * eps * Rabs (log10 (norm v)).
Proof.
  intros eps fuel Va_min c p sn tau psi He Hp Heta Hsn HVi Hlt H32 Hpsi.
  destruct (psi_init_balances c p sn tau Hp Hsn HVi Hlt) as (psi' & E & HB).
  rewrite Hpsi in E. injection E as <-.
  assert (HT : 0 < norm (vadd tau (ptau p))) by nra.
  destruct (slip_rate_correct eps fuel Va_min c p sn tau psi _ He Hp Heta Hsn HT HB) as [[E|(V & HV & Hlog & E)] _].
  - left; exact H32.
  - left; exact E.
  - right. eexists. split; [exact E|].
    destruct (slip_rate_vector p tau V) as (-> & _); [lra|exact HT|]. split; assumption.
Qed.

(** Finding: if the initial slip rate needs more than the available traction for the damping, there
    is no such state and NaN is returned; an initial slip rate of zero gives f0, which need not
    balance anything. *)
Theorem psi_init_excess_rate_refuted : forall c p sn tau,
  pos_params c p -> 0 < sn_hat p sn -> 0 < norm (pVinit p) ->
  norm (vadd tau (ptau p)) <= peta p * norm (pVinit p) ->
  psi_init c p sn tau = None.
Proof.
  intros c p sn tau [Ha HV] Hsn HVi Hle. unfold sn_hat in *. unfold psi_init. cbv zeta.
  set (t := norm (vadd tau (ptau p))) in *. set (s := - sn + psn p) in *.
  set (Vi := norm (pVinit p)) in *.
  destruct (Req_EM_T Vi 0) as [C|_]; [lra|].
  destruct (Req_EM_T (pa p * s) 0) as [C|_]; [reflexivity|].
  destruct (Rlt_dec _ _) as [C|_]; [|reflexivity]. exfalso.
  assert (Hx : sinh ((t - peta p * Vi) / (pa p * s)) <= 0).
  { assert (Hq : (t - peta p * Vi) / (pa p * s) <= 0).
    { apply (Rmult_le_reg_r (pa p * s)); [nra|]. unfold Rdiv. rewrite Rmult_assoc, Rinv_l by exact C0 || nra.
      nra. }
    destruct Hq as [Hq|Hq]; [left; rewrite <- sinh_0; apply sinh_lt; exact Hq|right; rewrite Hq; apply sinh_0]. }
  assert (HC : 0 < 2 * cV0 c / Vi) by (apply Rdiv_lt_0_compat; lra). nra.
Qed.

(** ** C38 *)

Section State.
  Variables (c : cparams) (p : params) (V : R).
  Hypothesis Hb : 0 < cb c.
  Hypothesis HV0 : 0 < cV0 c.
  Hypothesis HL : 0 < pL p.
  Hypothesis HV : 0 < V.

  Let ss := steady_state (cf0 c) (cb c) (cV0 c) V.

  Lemma ageing_form : forall psi, exists k, 0 < k /\
    ageing_rhs c p V psi = k * (exp ((ss - psi) / cb c) - 1).
  Proof.
    intro psi. exists (cb c * V / pL p). split; [apply Rdiv_lt_0_compat; nra|].
    unfold ageing_rhs, ss, steady_state.
    replace ((cf0 c - psi) / cb c) with ((cf0 c - cb c * ln (V / cV0 c) - psi) / cb c + ln (V / cV0 c))
      by (field; lra).
    rewrite exp_plus, exp_ln by (apply Rdiv_lt_0_compat; assumption). field. split; lra.
  Qed.
End State.

(** The ageing law: psi does not change at the steady state, and moves towards it elsewhere. *)
Theorem ageing_steady : forall c p V psi,
  0 < cb c -> 0 < cV0 c -> 0 < pL p -> 0 < V ->
  let ss := steady_state (cf0 c) (cb c) (cV0 c) V in
  (ageing_rhs c p V psi = 0 <-> psi = ss) /\
  (0 < ageing_rhs c p V psi <-> psi < ss) /\ (ageing_rhs c p V psi < 0 <-> ss < psi).
Proof.
  intros c p V psi Hb HV0 HL HV ss.
  destruct (ageing_form c p V Hb HV0 HL HV psi) as (k & Hk & ->). fold ss.
  assert (A : psi < ss -> 1 < exp ((ss - psi) / cb c)).
  { intro H. rewrite <- exp_0. apply exp_increasing. apply Rdiv_lt_0_compat; lra. }
  assert (B : ss < psi -> exp ((ss - psi) / cb c) < 1).
  { intro H. rewrite <- exp_0. apply exp_increasing.
    assert (0 < (psi - ss) / cb c) by (apply Rdiv_lt_0_compat; lra).
    replace ((ss - psi) / cb c) with (- ((psi - ss) / cb c)) by (field; lra). lra. }
  assert (C : psi = ss -> exp ((ss - psi) / cb c) = 1).
  { intros ->. replace ((ss - ss) / cb c) with 0 by (field; lra). apply exp_0. }
  destruct (Rtotal_order psi ss) as [H|[H|H]]; [specialize (A H)|specialize (C H)|specialize (B H)];
    split; [|split| |split| |split]; split; intro; nra.
Qed.

(** The slip law likewise. *)
Theorem slip_law_steady : forall c p V psi,
  0 < cb c -> 0 < cV0 c -> 0 < pL p -> 0 < V ->
  let ss := steady_state (cf0 c) (cb c) (cV0 c) V in
  exists r, slip_rhs c p V psi = Some r /\
    (r = 0 <-> psi = ss) /\ (0 < r <-> psi < ss) /\ (r < 0 <-> ss < psi).
Proof.
  intros c p V psi Hb HV0 HL HV ss. unfold slip_rhs.
  destruct (Rlt_dec 0 (V / cV0 c)) as [_|C]; [|exfalso; apply C; apply Rdiv_lt_0_compat; assumption].
  eexists. split; [reflexivity|].
  assert (E : - cb c * V / pL p * (ln (V / cV0 c) + (psi - cf0 c) / cb c) = V / pL p * (ss - psi)).
  { unfold ss, steady_state. field. split; lra. }
  rewrite E. assert (Hk : 0 < V / pL p) by (apply Rdiv_lt_0_compat; assumption).
  split; [|split]; split; intro; nra.
Qed.

(** Over time: along any trajectory of the ageing law at constant slip rate the distance to the
    steady state never grows. *)
Theorem ageing_relaxes : forall c p V (psi : R -> R),
  0 < cb c -> 0 < cV0 c -> 0 < pL p -> 0 < V ->
  (forall t, derivable_pt_lim psi t (ageing_rhs c p V (psi t))) ->
  let ss := steady_state (cf0 c) (cb c) (cV0 c) V in
  forall t1 t2, t1 <= t2 -> Rabs (psi t2 - ss) <= Rabs (psi t1 - ss).
Proof.
  intros c p V psi Hb HV0 HL HV Hd ss t1 t2 [Ht|Ht]; [|subst; lra].
  assert (G : Rsqr (psi t2 - ss) <= Rsqr (psi t1 - ss)).
  { destruct (MVT_cor2 (fun t => (psi t - ss) * (psi t - ss))
                (fun t => ageing_rhs c p V (psi t) * (psi t - ss) + (psi t - ss) * ageing_rhs c p V (psi t))
                t1 t2 Ht) as (x & Hx & _).
    - intros x _.
      assert (D : derivable_pt_lim (fun t => psi t - ss) x (ageing_rhs c p V (psi x))).
      { replace (ageing_rhs c p V (psi x)) with (ageing_rhs c p V (psi x) - 0) by ring.
        apply (derivable_pt_lim_minus psi (fct_cte ss)); [apply Hd|apply derivable_pt_lim_const]. }
      apply (derivable_pt_lim_mult (fun t => psi t - ss) (fun t => psi t - ss)); exact D.
    - destruct (ageing_steady c p V (psi x) Hb HV0 HL HV) as (S1 & S2 & S3). fold ss in S1, S2, S3.
      assert (ageing_rhs c p V (psi x) * (psi x - ss) <= 0).
      { destruct (Rtotal_order (psi x) ss) as [H|[H|H]].
        - apply S2 in H as H'. nra.
        - rewrite H. lra.
        - apply S3 in H as H'. nra. }
      unfold Rsqr. nra. }
  apply Rsqr_le_abs_0. exact G.
Qed.

(** Finding: at zero slip rate the slip law has no value (0 times log 0), although the ageing law
    does. *)
Theorem slip_law_zero_rate_refuted : forall c p psi, 0 < cV0 c -> slip_rhs c p 0 psi = None.
Proof.
  intros c p psi HV. unfold slip_rhs. destruct (Rlt_dec 0 (0 / cV0 c)) as [C|_]; [|reflexivity].
  replace (0 / cV0 c) with 0 in C by (field; lra). lra.
Qed.

(** ** Examples *)

Definition ex_c : cparams := {| cV0 := / 1000000; cb := 3 / 200; cf0 := 3 / 5 |}.
Definition ex_p : params :=
  {| pa := 1 / 100; peta := 5; pL := 1 / 125; psn := 50; ptau := [3; 0]; pVinit := [/ 10; 0];
     pSinit := [0; 0] |}.

Lemma ex_norm : norm (vadd [0; 4] (ptau ex_p)) = 5.
Proof.
  cbn. replace ((0 + 3) * (0 + 3) + ((4 + 0) * (4 + 0) + 0)) with (5 * 5) by ring.
  apply sqrt_square. lra.
Qed.

Lemma ex_normV : norm (pVinit ex_p) = / 10.
Proof.
  cbn. replace (/ 10 * / 10 + (0 * 0 + 0)) with (/ 10 * / 10) by ring. apply sqrt_square. lra.
Qed.

Example slip_rate_correct_example :
  pos_params ex_c ex_p /\ 0 < peta ex_p /\ 0 < sn_hat ex_p (-2) /\
  0 < norm (vadd [0; 4] (ptau ex_p)) /\
  exists Vs, 0 < Vs /\
    balance (pa ex_p) (cV0 ex_c) (peta ex_p) (sn_hat ex_p (-2)) (norm (vadd [0; 4] (ptau ex_p))) (4 / 5) Vs.
Proof.
  split; [unfold pos_params; cbn; split; lra|]. split; [cbn; lra|].
  split; [unfold sn_hat; cbn; lra|]. rewrite ex_norm. split; [lra|].
  destruct (balance_unique (pa ex_p) (cV0 ex_c) (peta ex_p) (sn_hat ex_p (-2)) 5 (4 / 5))
    as (V & HV & HB & _); try (unfold sn_hat; cbn; lra).
  exists V. split; [lra|exact HB].
Qed.

Example psi_init_example : exists psi, psi_init ex_c ex_p (-2) [0; 4] = Some psi.
Proof.
  destruct (psi_init_balances ex_c ex_p (-2) [0; 4]) as (psi & E & _).
  - unfold pos_params; cbn; split; lra.
  - unfold sn_hat; cbn; lra.
  - rewrite ex_normV. lra.
  - rewrite ex_normV, ex_norm. cbn. lra.
  - exists psi. exact E.
Qed.

Example ageing_example : ageing_rhs ex_c ex_p (/ 1000000) (3 / 5) = 0.
Proof.
  apply ageing_steady; cbn; try lra. unfold steady_state.
  replace (/ 1000000 / / 1000000) with 1 by (field; lra). rewrite ln_1. lra.
Qed.

Print Assumptions balance_unique.
Print Assumptions slip_rate_correct.
Print Assumptions slip_rate_terminates.
Print Assumptions slip_rate_undamped.
Print Assumptions slip_rate_vector.
Print Assumptions slip_rate_carries_strength.
Print Assumptions slip_rate_tension.
Print Assumptions psi_init_balances.
Print Assumptions psi_init_slip_rate.
Print Assumptions ageing_steady.
Print Assumptions slip_law_steady.
Print Assumptions ageing_relaxes.
