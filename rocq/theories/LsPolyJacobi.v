(** The modulus of a Jacobi polynomial on [-1, 1] is largest at -1 if its second parameter is the larger one (Sonin's argument). *)
Require Import List Arith Lia Reals Lra.
Require Import Verif.LinAlg Verif.BasisModel Verif.BasisSpec Verif.JacobiProofs Verif.IntegralSpec Verif.IntegralProofs Verif.OrthogonalProofs Verif.RootsProofs.
Local Open Scope R_scope.

Lemma jacobi_one : forall n a b, jacobi n a b 1 = factR (a + n) / (factR a * factR n).
Proof.
  intros n a b. unfold jacobi. rewrite rsum_head, rsum_zero.
  - cbn [pow]. unfold jacobi_coeff. rewrite !Nat.add_0_r, Nat.sub_0_r. change (factR 0) with (INR 1). simpl (INR 1).
    field. repeat split; apply factR_neq.
  - intros i Hi. replace ((1 - 1) / 2) with 0 by field. rewrite pow_i by lia. ring.
Qed.
Lemma jacobi_one_step : forall n a b c, (1 <= n)%nat -> jacobi n a b 1 < jacobi n (S a) c 1.
Proof.
  intros n a b c Hn. rewrite !jacobi_one. change (S a + n)%nat with (S (a + n)). rewrite !factR_S.
  assert (E : INR (S (a + n)) * factR (a + n) / (INR (S a) * factR a * factR n)
    = factR (a + n) / (factR a * factR n) + (INR n / INR (S a)) * (factR (a + n) / (factR a * factR n))).
  { rewrite !S_INR, plus_INR. pose proof (pos_INR a). field. repeat split; try apply factR_neq; lra. }
  rewrite E. assert (0 < INR n / INR (S a) * (factR (a + n) / (factR a * factR n))); [| lra].
  pose proof (factR_pos (a + n)). pose proof (factR_pos a). pose proof (factR_pos n).
  apply Rmult_lt_0_compat; apply Rdiv_lt_0_compat; try (apply lt_0_INR; lia); try assumption. now apply Rmult_lt_0_compat.
Qed.
Lemma jacobi_one_lt : forall n a b c d, (1 <= n)%nat -> (a < b)%nat -> jacobi n a c 1 < jacobi n b d 1.
Proof.
  intros n a b c d Hn H. induction H as [| m Hm IH]; [now apply jacobi_one_step |].
  eapply Rlt_trans; [exact IH | now apply jacobi_one_step].
Qed.
Lemma jacobi_minus_one : forall n a b, jacobi n a b (-1) = (-1) ^ n * jacobi n b a 1.
Proof. intros n a b. exact (jacobi_reflect n a b 1). Qed.
Lemma jacobi_minus_one_neq : forall n a b, jacobi n a b (-1) <> 0.
Proof.
  intros n a b. rewrite jacobi_minus_one. pose proof (jacobi_at_one b a n).
  apply Rmult_integral_contrapositive_currified; [apply pow_nonzero; lra | lra].
Qed.
Lemma minus_one_sq : forall n a b, jacobi n a b (-1) * jacobi n a b (-1) = jacobi n b a 1 * jacobi n b a 1.
Proof.
  intros n a b. rewrite jacobi_minus_one.
  replace ((-1) ^ n * jacobi n b a 1 * ((-1) ^ n * jacobi n b a 1)) with ((-1) ^ n * (-1) ^ n * (jacobi n b a 1 * jacobi n b a 1)) by ring.
  rewrite sign_sq. ring.
Qed.

Section Sonin.
Variables a b n : nat.
Hypothesis Hab : (a < b)%nat.
Hypothesis Hn : (1 <= n)%nat.
Local Notation A := (INR a).
Local Notation B := (INR b).
Local Notation P := (jacobi n a b).
Local Notation P' := (P1 a b n).
Local Notation P'' := (P2 a b n).
Let L := INR n * (INR n + A + B + 1).
Let f (x : R) := P x * P x + (1 - x * x) * / L * (P' x * P' x).
Let f' (x : R) := 2 * / L * (P' x * P' x) * ((A + B + 1) * x - (B - A)).

Lemma L_pos : 0 < L.
Proof. unfold L. apply Rmult_lt_0_compat; [apply lt_0_INR; lia |]. pose proof (pos_INR n). pose proof (pos_INR a). pose proof (pos_INR b). lra. Qed.
Lemma sonin_deriv : forall x, derivable_pt_lim f x (f' x).
Proof.
  intros x. pose proof L_pos as HL. pose proof (jacobi_ode a b n x) as E. fold L in E.
  apply (derivable_pt_lim_ext_eq (fun x => P x * P x + (1 - x * x) * / L * (P' x * P' x)) f x
    ((P' x * P x + P x * P' x) + ((0 - (1 * x + x * 1)) * / L * (P' x * P' x) + (1 - x * x) * / L * (P'' x * P' x + P' x * P'' x)))).
  - reflexivity.
  - unfold f'.
    transitivity (2 * P' x * P x + / L * (P' x * (-2 * x * P' x + 2 * ((1 - x * x) * P'' x)))); [ring |].
    replace ((1 - x * x) * P'' x) with (- ((B - A - (A + B + 2) * x) * P' x + L * P x)) by lra.
    field. lra.
  - apply (derivable_pt_lim_plus (fun x => P x * P x) (fun x => (1 - x * x) * / L * (P' x * P' x))).
    + apply (derivable_pt_lim_mult P P); apply P1_deriv.
    + apply (derivable_pt_lim_mult (fun x => (1 - x * x) * / L) (fun x => P' x * P' x)).
      * apply (derivable_pt_lim_ext_eq (fun x => / L * (1 - x * x)) _ x (/ L * (0 - (1 * x + x * 1)))); [intros; ring | ring |].
        apply (derivable_pt_lim_scal (fun x => 1 - x * x)).
        apply (derivable_pt_lim_minus (fun _ => 1) (fun x => x * x)); [apply derivable_pt_lim_const |].
        apply (derivable_pt_lim_mult id id); apply derivable_pt_lim_id.
      * apply (derivable_pt_lim_mult P' P'); apply P2_deriv.
Qed.
Lemma f_at_one : f 1 = P 1 * P 1.
Proof. unfold f. ring. Qed.
Lemma f_at_minus_one : f (-1) = P (-1) * P (-1).
Proof. unfold f. ring. Qed.
Lemma f_ge : forall x, -1 <= x <= 1 -> P x * P x <= f x.
Proof.
  intros x H. unfold f. assert (0 <= (1 - x * x) * / L * (P' x * P' x)); [| lra].
  apply Rmult_le_pos; [apply Rmult_le_pos | apply Rle_0_sqr].
  - replace (1 - x * x) with ((1 - x) * (1 + x)) by ring. apply Rmult_le_pos; lra.
  - apply Rlt_le, Rinv_0_lt_compat, L_pos.
Qed.
(** The slope at -1. *)
Lemma end_slope : 2 * (B + 1) * P' (-1) = - L * P (-1).
Proof. pose proof (jacobi_ode a b n (-1)) as E. fold L in E. lra. Qed.
Lemma end_slope_neq : P' (-1) <> 0.
Proof.
  intros E. pose proof end_slope as H. rewrite E in H. pose proof L_pos.
  assert (Z : L * P (-1) = 0) by lra. apply Rmult_integral in Z. destruct Z as [Z | Z]; [lra |]. revert Z. apply jacobi_minus_one_neq.
Qed.
Lemma f'_end : f' (-1) < 0.
Proof.
  unfold f'. pose proof L_pos as HL. pose proof (pos_INR a). pose proof (pos_INR b).
  assert (0 < P' (-1) * P' (-1)) by (apply Rsqr_pos_lt, end_slope_neq). apply Rinv_0_lt_compat in HL.
  assert (0 < / L * (P' (-1) * P' (-1))) by now apply Rmult_lt_0_compat.
  replace (2 * / L * (P' (-1) * P' (-1)) * ((A + B + 1) * -1 - (B - A))) with (- (2 * (2 * B + 1) * (/ L * (P' (-1) * P' (-1))))) by ring.
  assert (0 < 2 * (2 * B + 1) * (/ L * (P' (-1) * P' (-1)))); [| lra]. apply Rmult_lt_0_compat; lra.
Qed.
Lemma drop_at_end : exists d, 0 < d /\ forall h, 0 < h < d -> f (-1 + h) < f (-1).
Proof.
  pose proof f'_end as H. destruct (sonin_deriv (-1) (- f' (-1)) ltac:(lra)) as [d Hd]. exists d. split; [apply cond_pos |].
  intros h Hh. specialize (Hd h ltac:(lra)). rewrite (Rabs_right h) in Hd by lra. specialize (Hd ltac:(lra)).
  apply Rabs_def2 in Hd. destruct Hd as [Hd _].
  assert (K : (f (-1 + h) - f (-1)) / h < 0) by lra.
  assert (f (-1 + h) - f (-1) = (f (-1 + h) - f (-1)) / h * h) by (field; lra).
  assert (0 < - ((f (-1 + h) - f (-1)) / h) * h) by (apply Rmult_lt_0_compat; lra). lra.
Qed.
Let x0 := (B - A) / (A + B + 1).
Lemma x0_spec : forall x, (x <= x0 -> (A + B + 1) * x - (B - A) <= 0) /\ (x0 <= x -> 0 <= (A + B + 1) * x - (B - A)).
Proof.
  intros x. pose proof (pos_INR a). pose proof (pos_INR b). assert (E : (A + B + 1) * x0 = B - A) by (unfold x0; field; lra).
  split; intros H'; assert (0 <= (A + B + 1)) by lra.
  - assert ((A + B + 1) * x <= (A + B + 1) * x0) by now apply Rmult_le_compat_l. lra.
  - assert ((A + B + 1) * x0 <= (A + B + 1) * x) by now apply Rmult_le_compat_l. lra.
Qed.
Lemma f'_sign : forall x, exists q, 0 <= q /\ f' x = q * ((A + B + 1) * x - (B - A)).
Proof.
  intros x. exists (2 * / L * (P' x * P' x)). split; [| reflexivity]. apply Rmult_le_pos; [| apply Rle_0_sqr].
  pose proof (Rinv_0_lt_compat _ L_pos). lra.
Qed.
Lemma f_decreases : forall x y, x <= y -> y <= x0 -> f y <= f x.
Proof.
  intros x y Hxy Hy. destruct (Req_dec x y) as [<- | Hne]; [lra |].
  destruct (MVT_cor2 f f' x y ltac:(lra) (fun c _ => sonin_deriv c)) as (c & E & Hc).
  destruct (f'_sign c) as (q & Hq & Eq). pose proof (proj1 (x0_spec c) ltac:(lra)) as Hs. rewrite Eq in E.
  assert (0 <= q * - ((A + B + 1) * c - (B - A)) * (y - x)); [| lra]. apply Rmult_le_pos; [apply Rmult_le_pos |]; lra.
Qed.
Lemma f_increases : forall x y, x <= y -> x0 <= x -> f x <= f y.
Proof.
  intros x y Hxy Hy. destruct (Req_dec x y) as [<- | Hne]; [lra |].
  destruct (MVT_cor2 f f' x y ltac:(lra) (fun c _ => sonin_deriv c)) as (c & E & Hc).
  destruct (f'_sign c) as (q & Hq & Eq). pose proof (proj2 (x0_spec c) ltac:(lra)) as Hs. rewrite Eq in E.
  assert (0 <= q * ((A + B + 1) * c - (B - A)) * (y - x)); [| lra]. apply Rmult_le_pos; [apply Rmult_le_pos |]; lra.
Qed.
Lemma ends : P 1 * P 1 < P (-1) * P (-1).
Proof.
  rewrite minus_one_sq. pose proof (jacobi_at_one a b n). pose proof (jacobi_one_lt n a b b a Hn Hab).
  apply Rmult_le_0_lt_compat; lra.
Qed.
Theorem jacobi_largest_at_end : forall x, -1 < x <= 1 -> P x * P x < P (-1) * P (-1).
Proof.
  intros x Hx. eapply Rle_lt_trans; [apply f_ge; lra |]. destruct (Rle_lt_dec x x0) as [H | H].
  - destruct drop_at_end as (d & Hd & K). set (h := Rmin (d / 2) (x + 1)).
    assert (Hh : 0 < h < d) by (unfold h; split; [apply Rmin_glb_lt; lra | eapply Rle_lt_trans; [apply Rmin_l | lra]]).
    rewrite <- f_at_minus_one. eapply Rle_lt_trans; [| apply (K h Hh)]. apply f_decreases; [| exact H].
    pose proof (Rmin_r (d / 2) (x + 1)). fold h in H0. lra.
  - eapply Rle_lt_trans; [apply (f_increases x 1); lra |]. rewrite f_at_one. exact ends.
Qed.
End Sonin.
