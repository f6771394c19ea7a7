(** Orthogonality of the Jacobi polynomials, the Christoffel-Darboux identity, and Gauss quadrature. *)
Require Import List Arith Lia Reals Lra.
Require Import Verif.LinAlg Verif.BasisModel Verif.BasisSpec Verif.JacobiProofs Verif.IntegralSpec Verif.IntegralProofs.
Local Open Scope R_scope.

Section Jacobi.
Variables a b : nat.
Local Notation A := (INR a).
Local Notation B := (INR b).
Local Notation P k := (jacobi k a b).
(** First and second derivative. *)
Definition P1 (n : nat) (x : R) : R :=
  match n with O => 0 | S k => 1 / 2 * (INR n + A + B + 1) * jacobi k (a + 1) (b + 1) x end.
Definition P2 (n : nat) (x : R) : R :=
  match n with
  | O | 1%nat => 0
  | S (S k) => 1 / 2 * (INR n + A + B + 1) * (1 / 2 * (INR (S k) + INR (a + 1) + INR (b + 1) + 1) * jacobi k (a + 1 + 1) (b + 1 + 1) x)
  end.
Lemma P1_deriv : forall n x, derivable_pt_lim (P n) x (P1 n x).
Proof. intros n x. apply jacobi_deriv. Qed.
Lemma P2_deriv : forall n x, derivable_pt_lim (P1 n) x (P2 n x).
Proof.
  intros [| n] x; unfold P1, P2; [apply derivable_pt_lim_const |].
  pose proof (jacobi_deriv n (a + 1) (b + 1) x) as D.
  apply (derivable_pt_lim_ext_eq (fun t => 1 / 2 * (INR (S n) + A + B + 1) * jacobi n (a + 1) (b + 1) t) _ x
    (1 / 2 * (INR (S n) + A + B + 1) * match n with
      | O => 0 | S k => 1 / 2 * (INR n + INR (a + 1) + INR (b + 1) + 1) * jacobi k (a + 1 + 1) (b + 1 + 1) x end)).
  - reflexivity.
  - destruct n; [ring | reflexivity].
  - apply (derivable_pt_lim_scal (jacobi n (a + 1) (b + 1))). exact D.
Qed.

(** The derivatives by their series. *)
Lemma P1_series : forall n x, 2 * P1 n x = rsum (S n) (fun k => INR k * jacobi_coeff n a b k * ((x - 1) / 2) ^ (k - 1)).
Proof.
  intros n x. destruct n as [| n].
  - cbn. ring.
  - rewrite rsum_head. simpl (INR 0). rewrite Rmult_0_l, Rmult_0_l, Rplus_0_l. unfold P1, jacobi.
    rewrite <- Rmult_assoc, <- rsum_scale. apply rsum_ext. intros k Hk.
    replace (S k - 1)%nat with k by lia.
    replace (INR (S k) * jacobi_coeff (S n) a b (S k)) with (jacobi_coeff (S n) a b (S k) * INR (S k)) by ring.
    rewrite jacobi_coeff_deriv by lia. field.
Qed.
Lemma P2_series : forall n x, 4 * P2 n x = rsum (S n) (fun k => INR k * INR (k - 1) * jacobi_coeff n a b k * ((x - 1) / 2) ^ (k - 2)).
Proof.
  intros n x. destruct n as [| [| n]].
  - cbn. ring.
  - cbn [rsum P2]. replace (1 - 1)%nat with 0%nat by lia. replace (0 - 1)%nat with 0%nat by lia. simpl (INR 0). ring.
  - rewrite rsum_head, rsum_head. simpl (INR 0). replace (1 - 1)%nat with 0%nat by lia. simpl (INR 0).
    rewrite !Rmult_0_l, Rmult_0_r, !Rmult_0_l, !Rplus_0_l. unfold P2, jacobi.
    rewrite <- !rsum_scale. apply rsum_ext. intros k Hk.
    replace (S (S k) - 2)%nat with k by lia. replace (S (S k) - 1)%nat with (S k) by lia.
    replace (INR (S (S k)) * INR (S k) * jacobi_coeff (S (S n)) a b (S (S k)))
      with (jacobi_coeff (S (S n)) a b (S (S k)) * INR (S (S k)) * INR (S k)) by ring.
    rewrite jacobi_coeff_deriv by lia.
    replace ((INR (S (S n)) + A + B + 1) * jacobi_coeff (S n) (a + 1) (b + 1) (S k) * INR (S k))
      with ((INR (S (S n)) + A + B + 1) * (jacobi_coeff (S n) (a + 1) (b + 1) (S k) * INR (S k))) by ring.
    rewrite jacobi_coeff_deriv by lia. field.
Qed.

Lemma coeff_step : forall n k, (k < n)%nat ->
  (INR k + 1) * (INR k + 1 + A) * jacobi_coeff n a b (S k)
  = (INR n - INR k) * (INR n + INR k + A + B + 1) * jacobi_coeff n a b k.
Proof.
  intros n k Hk. unfold jacobi_coeff.
  replace (a + b + n + S k)%nat with (S (a + b + n + k)) by lia. replace (a + S k)%nat with (S (a + k)) by lia.
  replace (n - k)%nat with (S (n - S k)) by lia. rewrite !factR_S, !S_INR, !plus_INR, minus_INR, S_INR by lia.
  pose proof (pos_INR a). pose proof (pos_INR k). assert (INR k < INR n) by (apply lt_INR; lia).
  field. repeat split; try apply factR_neq; lra.
Qed.

(** The differential equation. *)
Lemma jacobi_ode : forall n x,
  (1 - x * x) * P2 n x + (B - A - (A + B + 2) * x) * P1 n x + INR n * (INR n + A + B + 1) * P n x = 0.
Proof.
  intros n x. set (z := (x - 1) / 2). assert (Ex : x = 1 + 2 * z) by (unfold z; field).
  set (D2 := 4 * P2 n x). set (D1 := 2 * P1 n x).
  assert (G : z * z * D2 + (A + B + 2) * (z * D1) - INR n * (INR n + A + B + 1) * P n x + (z * D2 + (A + 1) * D1) = 0).
  { unfold D1, D2. rewrite P1_series, P2_series. fold z. unfold jacobi. fold z.
    assert (E1 : z * z * rsum (S n) (fun k => INR k * INR (k - 1) * jacobi_coeff n a b k * z ^ (k - 2))
      + (A + B + 2) * (z * rsum (S n) (fun k => INR k * jacobi_coeff n a b k * z ^ (k - 1)))
      - INR n * (INR n + A + B + 1) * rsum (S n) (fun k => jacobi_coeff n a b k * z ^ k)
      = - rsum n (fun k => (INR n - INR k) * (INR n + INR k + A + B + 1) * jacobi_coeff n a b k * z ^ k)).
    { rewrite <- !rsum_scale. rewrite <- rsum_plus, <- rsum_minus.
      rewrite (rsum_ext (S n) _ (fun k => - ((INR n - INR k) * (INR n + INR k + A + B + 1) * jacobi_coeff n a b k * z ^ k))).
      - cbn [rsum]. rewrite Rminus_eq_0. rewrite !Rmult_0_l, Ropp_0, Rplus_0_r.
        rewrite (rsum_ext n _ (fun k => (-1) * ((INR n - INR k) * (INR n + INR k + A + B + 1) * jacobi_coeff n a b k * z ^ k))) by (intros; ring).
        rewrite rsum_scale. ring.
      - intros k Hk. destruct k as [| [| k]].
        + simpl (INR 0). cbn [pow]. ring.
        + replace (1 - 1)%nat with 0%nat by lia. simpl (INR 0). simpl (INR 1). cbn [pow]. ring.
        + replace (S (S k) - 2)%nat with k by lia. replace (S (S k) - 1)%nat with (S k) by lia. cbn [pow].
          rewrite !S_INR. ring. }
    assert (E2 : z * rsum (S n) (fun k => INR k * INR (k - 1) * jacobi_coeff n a b k * z ^ (k - 2))
      + (A + 1) * rsum (S n) (fun k => INR k * jacobi_coeff n a b k * z ^ (k - 1))
      = rsum n (fun k => (INR k + 1) * (INR k + 1 + A) * jacobi_coeff n a b (S k) * z ^ k)).
    { rewrite <- !rsum_scale, <- rsum_plus, rsum_head. simpl (INR 0).
      rewrite !Rmult_0_l, !Rmult_0_r, !Rplus_0_l. apply rsum_ext. intros k Hk. destruct k as [| k].
      - replace (1 - 1)%nat with 0%nat by lia. simpl (INR 0). simpl (INR 1). cbn [pow]. ring.
      - replace (S (S k) - 2)%nat with k by lia. replace (S (S k) - 1)%nat with (S k) by lia. cbn [pow].
        rewrite !S_INR. ring. }
    rewrite E1, E2. rewrite (rsum_ext n (fun k => (INR k + 1) * (INR k + 1 + A) * jacobi_coeff n a b (S k) * z ^ k)
      (fun k => (INR n - INR k) * (INR n + INR k + A + B + 1) * jacobi_coeff n a b k * z ^ k)).
    - ring.
    - intros k Hk. now rewrite coeff_step. }
  assert (E2 : P2 n x = D2 / 4) by (unfold D2; field). assert (E1 : P1 n x = D1 / 2) by (unfold D1; field).
  rewrite E2, E1. clearbody D1 D2. set (Pn := P n x) in *. clearbody Pn. rewrite Ex. nra.
Qed.

(** The weight function. *)
Definition wt (x : R) : R := (1 - x) ^ a * (1 + x) ^ b.

Lemma pow_affine_deriv : forall s m k x, derivable_pt_lim (fun t => (s + m * t) ^ k) x (INR k * (s + m * x) ^ pred k * m).
Proof.
  intros s m k x. apply (derivable_pt_lim_comp (fun t => s + m * t) (fun u => u ^ k)); [| apply derivable_pt_lim_pow].
  apply (derivable_pt_lim_ext_eq (fun t => s + m * t) _ x (0 + m * 1)); [reflexivity | ring |].
  apply (derivable_pt_lim_plus (fct_cte s) (fun t => m * t)); [apply derivable_pt_lim_const |].
  apply (derivable_pt_lim_scal id). apply derivable_pt_lim_id.
Qed.

Lemma jacobi_orthogonal : forall n m, n <> m -> is_integral (fun x => wt x * (P n x * P m x)) (-1) 1 0.
Proof.
  intros n m Hne.
  set (lam := fun k => INR k * (INR k + A + B + 1)).
  assert (Hl : lam n - lam m <> 0).
  { unfold lam. replace (INR n * (INR n + A + B + 1) - INR m * (INR m + A + B + 1))
      with ((INR n - INR m) * (INR n + INR m + A + B + 1)) by ring.
    pose proof (pos_INR n). pose proof (pos_INR m). pose proof (pos_INR a). pose proof (pos_INR b).
    apply Rmult_integral_contrapositive_currified; [| lra]. intros C. apply Hne, INR_eq. lra. }
  exists (fun x => / (lam n - lam m) * (((1 + -1 * x) ^ S a * (1 + 1 * x) ^ S b) * (P n x * P1 m x - P1 n x * P m x))).
  split.
  - intros x _.
    apply (derivable_pt_lim_ext_eq (fun x => / (lam n - lam m) * (((1 + -1 * x) ^ S a * (1 + 1 * x) ^ S b) * (P n x * P1 m x - P1 n x * P m x))) _ x
      (/ (lam n - lam m) * (((INR (S a) * (1 + -1 * x) ^ pred (S a) * -1) * (1 + 1 * x) ^ S b + (1 + -1 * x) ^ S a * (INR (S b) * (1 + 1 * x) ^ pred (S b) * 1))
          * (P n x * P1 m x - P1 n x * P m x)
        + ((1 + -1 * x) ^ S a * (1 + 1 * x) ^ S b) * ((P1 n x * P1 m x + P n x * P2 m x) - (P2 n x * P m x + P1 n x * P1 m x))))).
    + reflexivity.
    + cbn [pred pow]. unfold wt. rewrite !S_INR.
      replace (1 + -1 * x) with (1 - x) by ring. replace (1 + 1 * x) with (1 + x) by ring.
      set (wa := (1 - x) ^ a). set (wb := (1 + x) ^ b).
      pose proof (jacobi_ode n x) as On. pose proof (jacobi_ode m x) as Om.
      fold (lam n) in On. fold (lam m) in Om.
      assert (E : wa * wb * ((lam n - lam m) * (P n x * P m x))
         = (((A + 1) * wa * -1) * ((1 + x) * wb) + (1 - x) * wa * ((B + 1) * wb * 1)) * (P n x * P1 m x - P1 n x * P m x)
           + ((1 - x) * wa * ((1 + x) * wb)) * ((P1 n x * P1 m x + P n x * P2 m x) - (P2 n x * P m x + P1 n x * P1 m x))).
      { replace ((((A + 1) * wa * -1) * ((1 + x) * wb) + (1 - x) * wa * ((B + 1) * wb * 1)) * (P n x * P1 m x - P1 n x * P m x)
           + ((1 - x) * wa * ((1 + x) * wb)) * ((P1 n x * P1 m x + P n x * P2 m x) - (P2 n x * P m x + P1 n x * P1 m x)))
          with (wa * wb * (P n x * ((1 - x * x) * P2 m x + (B - A - (A + B + 2) * x) * P1 m x)
                           - P m x * ((1 - x * x) * P2 n x + (B - A - (A + B + 2) * x) * P1 n x))) by ring.
        replace ((1 - x * x) * P2 m x + (B - A - (A + B + 2) * x) * P1 m x) with (- lam m * P m x) by lra.
        replace ((1 - x * x) * P2 n x + (B - A - (A + B + 2) * x) * P1 n x) with (- lam n * P n x) by lra. ring. }
      rewrite <- E. field. exact Hl.
    + apply (derivable_pt_lim_scal (fun x => ((1 + -1 * x) ^ S a * (1 + 1 * x) ^ S b) * (P n x * P1 m x - P1 n x * P m x))).
      apply (derivable_pt_lim_mult (fun x => (1 + -1 * x) ^ S a * (1 + 1 * x) ^ S b) (fun x => P n x * P1 m x - P1 n x * P m x)).
      * apply (derivable_pt_lim_mult (fun x => (1 + -1 * x) ^ S a) (fun x => (1 + 1 * x) ^ S b)); apply pow_affine_deriv.
      * apply (derivable_pt_lim_minus (fun x => P n x * P1 m x) (fun x => P1 n x * P m x)).
        -- apply (derivable_pt_lim_mult (P n) (P1 m)); [apply P1_deriv | apply P2_deriv].
        -- apply (derivable_pt_lim_mult (P1 n) (P m)); [apply P2_deriv | apply P1_deriv].
  - replace (1 + -1 * 1) with 0 by ring. replace (1 + 1 * -1) with 0 by ring. cbn [pow]. ring.
Qed.

(** ** Three-term recurrence *)
Local Notation s := (A + B).
Definition al (k : nat) : R := 2 * (INR k + 1) * (INR k + s + 1) / ((2 * INR k + s + 1) * (2 * INR k + s + 2)).
Definition ga (k : nat) : R := match k with O => 0 | _ => 2 * (INR k + A) * (INR k + B) / ((2 * INR k + s) * (2 * INR k + s + 1)) end.
Definition be (k : nat) : R :=
  match k with O => (B - A) / (s + 2) | _ => (B * B - A * A) / ((2 * INR k + s) * (2 * INR k + s + 2)) end.
Definition hh (k : nat) : R :=
  2 ^ (a + b + 1) / (2 * INR k + s + 1) * (factR (k + a) * factR (k + b) / (factR k * factR (k + a + b))).

Lemma three_term : forall k x, x * P k x = al k * P (S k) x + be k * P k x + ga k * P (k - 1) x.
Proof.
  intros k x. pose proof (pos_INR a) as Ha. pose proof (pos_INR b) as Hb. destruct k as [| k].
  - rewrite <- !hjac_jacobi. rewrite hjac_0, hjac_1. unfold al, be, ga. rewrite plus_INR. simpl (INR 0). field. lra.
  - pose proof (hjac_rec a b k x 1) as R. cbv zeta in R. rewrite !hjac_jacobi in R.
    replace (k + 2)%nat with (S (S k)) in R by lia. replace (k + 1)%nat with (S k) in R by lia.
    replace (S k - 1)%nat with k by lia. unfold al, be, ga. pose proof (pos_INR k) as Hk.
    rewrite !mult_INR in R. rewrite !S_INR in *. set (K := INR k) in *.
    set (p2 := P (S (S k)) x) in *. set (p1 := P (S k) x) in *. set (p0 := P k x) in *. clearbody p2 p1 p0 K.
    assert (N1 : 2 * (K + 1) + s <> 0) by lra. assert (N2 : 2 * (K + 1) + s + 1 <> 0) by lra. assert (N3 : 2 * (K + 1) + s + 2 <> 0) by lra.
    apply (Rmult_eq_reg_l ((2 * (K + 1) + s) * (2 * (K + 1) + s + 1) * (2 * (K + 1) + s + 2))).
    2: { repeat apply Rmult_integral_contrapositive_currified; assumption. }
    transitivity (2 * (K + 1 + 1) * (K + 1 + 1 + s) * (2 * (K + 1) + s) * p2
      + (B * B - A * A) * (2 * (K + 1) + s + 1) * p1 + 2 * (K + 1 + A) * (K + 1 + B) * (2 * (K + 1) + s + 2) * p0).
    + replace (2 * (K + 1 + 1) * (K + 1 + 1 + s) * (2 * (K + 1) + s) * p2)
        with (2 * (K + 1 + 1) * (K + 1 + 1 + A + B) * (2 * (K + 1 + 1) + A + B - 2) * p2) by ring.
      rewrite R. ring.
    + field. repeat split; lra.
Qed.

Lemma al_pos : forall k, 0 < al k.
Proof.
  intros k. unfold al. pose proof (pos_INR a). pose proof (pos_INR b). pose proof (pos_INR k).
  apply Rdiv_lt_0_compat; repeat apply Rmult_lt_0_compat; lra.
Qed.
Lemma hh_pos : forall k, 0 < hh k.
Proof.
  intros k. unfold hh. pose proof (pos_INR a). pose proof (pos_INR b). pose proof (pos_INR k).
  apply Rmult_lt_0_compat; apply Rdiv_lt_0_compat; try lra; try (repeat apply Rmult_lt_0_compat; apply factR_pos).
  apply pow_lt; lra.
Qed.
Lemma norm_step : forall k, ga (S k) * hh k = al k * hh (S k).
Proof.
  intros k. unfold ga, al, hh. change (S k + a)%nat with (S (k + a)). change (S k + b)%nat with (S (k + b)).
  change (S (k + a) + b)%nat with (S (k + a + b)). rewrite !factR_S, !S_INR, !plus_INR.
  pose proof (pos_INR a). pose proof (pos_INR b). pose proof (pos_INR k).
  field. repeat split; try apply factR_neq; lra.
Qed.

(** ** Christoffel-Darboux *)
Definition kernel (n : nat) (x y : R) : R := rsum n (fun k => P k x * P k y / hh k).
Lemma christoffel_darboux : forall n x y,
  (x - y) * kernel (S n) x y = al n / hh n * (P (S n) x * P n y - P n x * P (S n) y).
Proof.
  induction n as [| n IH]; intros x y; unfold kernel in *.
  - cbn [rsum]. pose proof (three_term 0 x) as T1. pose proof (three_term 0 y) as T2.
    pose proof (hh_pos 0). unfold ga in T1, T2.
    replace ((x - y) * (0 + P 0 x * P 0 y / hh 0)) with (/ hh 0 * ((x * P 0 x) * P 0 y - P 0 x * (y * P 0 y))) by (field; lra).
    rewrite T1, T2. field. lra.
  - set (m := S n) in *. cbn [rsum]. fold m in IH. rewrite Rmult_plus_distr_l, IH. clear IH.
    pose proof (three_term m x) as T1. pose proof (three_term m y) as T2.
    replace (m - 1)%nat with n in T1, T2 by (unfold m; lia).
    pose proof (hh_pos n). pose proof (hh_pos m). pose proof (norm_step n) as NS. fold m in NS.
    replace ((x - y) * (P m x * P m y / hh m)) with (/ hh m * ((x * P m x) * P m y - P m x * (y * P m y))) by (field; lra).
    rewrite T1, T2.
    replace (al n / hh n) with (ga m / hh m) by (apply (Rmult_eq_reg_r (hh n * hh m)); [field_simplify; lra | apply Rmult_integral_contrapositive_currified; lra]).
    field. lra.
Qed.
Lemma three_term_deriv : forall k x, P k x + x * P1 k x = al k * P1 (S k) x + be k * P1 k x + ga k * P1 (k - 1) x.
Proof.
  intros k x.
  refine (uniqueness_limite (fun t => t * P k t) x _ _ _ _).
  - apply (derivable_pt_lim_ext_eq (fun t => id t * P k t) _ x (1 * P k x + id x * P1 k x)); [reflexivity | unfold id; ring |].
    apply (derivable_pt_lim_mult id (P k)); [apply derivable_pt_lim_id | apply P1_deriv].
  - apply (derivable_pt_lim_ext_eq (fun t => al k * P (S k) t + be k * P k t + ga k * P (k - 1) t) _ x
      (al k * P1 (S k) x + be k * P1 k x + ga k * P1 (k - 1) x)); [intros; symmetry; apply three_term | reflexivity |].
    apply (derivable_pt_lim_plus (fun t => al k * P (S k) t + be k * P k t) (fun t => ga k * P (k - 1) t)).
    + apply (derivable_pt_lim_plus (fun t => al k * P (S k) t) (fun t => be k * P k t)).
      * apply (derivable_pt_lim_scal (P (S k))), P1_deriv.
      * apply (derivable_pt_lim_scal (P k)), P1_deriv.
    + apply (derivable_pt_lim_scal (P (k - 1))), P1_deriv.
Qed.
Lemma christoffel_darboux_diag : forall n x,
  kernel (S n) x x = al n / hh n * (P1 (S n) x * P n x - P1 n x * P (S n) x).
Proof.
  assert (Q : forall k x, P k x * P k x = al k * (P1 (S k) x * P k x - P (S k) x * P1 k x) + ga k * (P1 (k - 1) x * P k x - P (k - 1) x * P1 k x)).
  { intros k x. pose proof (three_term k x) as T. pose proof (three_term_deriv k x) as T'.
    replace (P k x * P k x) with (P k x * (P k x + x * P1 k x) - (x * P k x) * P1 k x) by ring. rewrite T', T. ring. }
  induction n as [| n IH]; intros x; unfold kernel in *.
  - cbn [rsum]. rewrite Q. unfold ga. pose proof (hh_pos 0). field. lra.
  - set (m := S n) in *. cbn [rsum]. rewrite IH, Q. replace (m - 1)%nat with n by (unfold m; lia).
    pose proof (hh_pos n). pose proof (hh_pos m). pose proof (norm_step n) as NS. fold m in NS.
    replace (al n / hh n) with (ga m / hh m) by (apply (Rmult_eq_reg_r (hh n * hh m)); [field_simplify; lra | apply Rmult_integral_contrapositive_currified; lra]).
    field. lra.
Qed.

(** ** The polynomials span *)
Definition lead (n : nat) : R := jacobi_coeff n a b n / 2 ^ n.
Lemma lead_neq : forall n, lead n <> 0.
Proof.
  intros n. unfold lead, jacobi_coeff. apply Rmult_integral_contrapositive_currified.
  - apply Rmult_integral_contrapositive_currified; [apply Rmult_integral_contrapositive_currified; apply factR_neq |].
    apply Rinv_neq_0_compat. repeat apply Rmult_integral_contrapositive_currified; apply factR_neq.
  - apply Rinv_neq_0_compat, pow_nonzero. lra.
Qed.
Lemma pow_affine_lead : forall sx mx n, exists g, (n = 0%nat -> forall x, g x = 0) /\ polynomial1 (n - 1) g
  /\ forall x, (sx + mx * x) ^ n = mx ^ n * x ^ n + g x.
Proof.
  intros sx mx n. induction n as [| n (g & G0 & G & E)].
  - exists (fun _ => 0). split; [reflexivity |]. split; [apply p1_const | intros; cbn; ring].
  - exists (fun x => sx * (mx ^ n * x ^ n) + (sx + mx * x) * g x). split; [discriminate |]. split.
    + replace (S n - 1)%nat with n by lia. apply p1_plus; [do 2 apply p1_scale; apply p1_pow |].
      destruct n as [| n].
      * apply (p1_ext _ (fun _ => 0)); [intros; rewrite G0 by reflexivity; ring | apply p1_const].
      * replace (S n) with (1 + (S n - 1))%nat by lia. apply p1_mult; [apply p1_affine | exact G].
    + intros x. cbn [pow]. rewrite E. ring.
Qed.
Lemma jacobi_lead : forall n, exists g, (n = 0%nat -> forall x, g x = 0) /\ polynomial1 (n - 1) g /\ forall x, P n x = lead n * x ^ n + g x.
Proof.
  intros n. destruct (pow_affine_lead (- (1 / 2)) (1 / 2) n) as (g & G0 & G & E).
  exists (fun x => rsum n (fun k => jacobi_coeff n a b k * (- (1 / 2) + 1 / 2 * x) ^ k) + jacobi_coeff n a b n * g x).
  split; [intros -> x; cbn [rsum]; rewrite G0 by reflexivity; ring |]. split.
  - apply p1_plus; [| now apply p1_scale]. apply p1_rsum. intros k Hk. apply p1_scale. apply (p1_le k); [lia | apply p1_pow_affine].
  - intros x. unfold jacobi. cbn [rsum].
    rewrite (rsum_ext n _ (fun k => jacobi_coeff n a b k * (- (1 / 2) + 1 / 2 * x) ^ k)) by (intros; do 2 f_equal; field).
    replace ((x - 1) / 2) with (- (1 / 2) + 1 / 2 * x) by field. rewrite E. unfold lead.
    replace ((1 / 2) ^ n) with (/ 2 ^ n) by (unfold Rdiv; rewrite Rmult_1_l, pow_inv; reflexivity). unfold Rdiv. ring.
Qed.
Lemma jacobi_poly : forall n, polynomial1 n (P n).
Proof.
  intros n. unfold jacobi. apply p1_rsum. intros k Hk. apply p1_scale. apply (p1_le k); [lia |].
  apply (p1_ext _ (fun x => (- (1 / 2) + 1 / 2 * x) ^ k)); [intros; f_equal; field | apply p1_pow_affine].
Qed.
Lemma p1_split : forall n f, polynomial1 (S n) f -> exists c g, polynomial1 n g /\ forall x, f x = c * x ^ S n + g x.
Proof.
  intros n f (c & H). exists (c (S n)), (fun x => rsum (S n) (fun k => c k * x ^ k)). split; [now exists c |].
  intros x. rewrite H. cbn [rsum]. ring.
Qed.
Lemma jacobi_span : forall n f, polynomial1 n f -> exists c, forall x, f x = rsum (S n) (fun k => c k * P k x).
Proof.
  induction n as [| n IH]; intros f Hf.
  - destruct Hf as (c & H). exists c. intros x. rewrite H. cbn [rsum pow].
    rewrite <- hjac_jacobi, hjac_0. ring.
  - destruct (p1_split n f Hf) as (c & g & Hg & E). destruct (jacobi_lead (S n)) as (g' & _ & Hg' & E').
    replace (S n - 1)%nat with n in Hg' by lia.
    destruct (IH (fun x => g x + - (c / lead (S n)) * g' x)) as (c' & H').
    { apply p1_plus; [exact Hg | now apply p1_scale]. }
    exists (fun k => if (k =? S n)%nat then c / lead (S n) else c' k). intros x.
    set (N := S n). cbn [rsum]. unfold N. rewrite Nat.eqb_refl.
    rewrite (rsum_ext (S n) (fun k => (if (k =? S n)%nat then c / lead (S n) else c' k) * P k x) (fun k => c' k * P k x)).
    2: { intros k Hk. destruct (Nat.eqb_spec k (S n)); [lia | reflexivity]. }
    rewrite <- H', E, E'. field. apply lead_neq.
Qed.
Lemma jacobi_divide : forall n m f, polynomial1 (S n + m) f ->
  exists q r, polynomial1 m q /\ polynomial1 n r /\ forall x, f x = P (S n) x * q x + r x.
Proof.
  intros n m. induction m as [| m IH]; intros f Hf.
  - rewrite Nat.add_0_r in Hf. destruct (p1_split n f Hf) as (c & g & Hg & E). destruct (jacobi_lead (S n)) as (g' & _ & Hg' & E').
    replace (S n - 1)%nat with n in Hg' by lia.
    exists (fun _ => c / lead (S n)), (fun x => g x + - (c / lead (S n)) * g' x).
    split; [apply p1_const |]. split; [apply p1_plus; [exact Hg | now apply p1_scale] |].
    intros x. rewrite E, E'. field. apply lead_neq.
  - replace (S n + S m)%nat with (S (S n + m)) in Hf by lia.
    destruct (p1_split _ f Hf) as (c & g & Hg & E). destruct (jacobi_lead (S n)) as (g' & _ & Hg' & E').
    replace (S n - 1)%nat with n in Hg' by lia.
    destruct (IH (fun x => g x + - (c / lead (S n)) * (x ^ S m * g' x))) as (q & r & Hq & Hr & Eq).
    { apply p1_plus; [exact Hg |]. apply p1_scale. apply (p1_le (S m + n)); [lia |]. apply p1_mult; [apply p1_pow | exact Hg']. }
    exists (fun x => c / lead (S n) * x ^ S m + q x), r. split; [| split; [exact Hr |]].
    + apply p1_plus; [apply p1_scale, p1_pow | apply (p1_le m); [lia | exact Hq]].
    + intros x. rewrite Rmult_plus_distr_l, Rplus_assoc, <- Eq, E, E'.
      replace (x ^ S (S n + m)) with (x ^ S m * x ^ S n) by (rewrite <- pow_add; f_equal; lia). field. apply lead_neq.
Qed.
End Jacobi.
