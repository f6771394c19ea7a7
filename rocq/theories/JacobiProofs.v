(** The recursion of the Jacobi polynomials and their derivative, from their series. *)
Require Import List Arith Lia Reals Lra.
Require Import Verif.LinAlg Verif.BasisModel Verif.BasisSpec.
Local Open Scope R_scope.

Lemma factR_S : forall n, factR (S n) = INR (S n) * factR n.
Proof. intros n. unfold factR. change (fact (S n)) with (S n * fact n)%nat. now rewrite mult_INR. Qed.
Lemma factR_neq : forall n, factR n <> 0.
Proof. intros n. unfold factR. apply not_0_INR, fact_neq_0. Qed.
Lemma factR_pos : forall n, 0 < factR n.
Proof. intros n. unfold factR. apply lt_0_INR, lt_O_fact. Qed.

(** Coefficients, zero beyond the degree. *)
Definition jc (n a b k : nat) : R := if (k <=? n)%nat then jacobi_coeff n a b k else 0.

Section Coefficients.
Variables a b p k : nat.
Definition jbase : R :=
  factR (a + b + p + k) * factR (a + p) / (factR (a + b + p + 2) * factR (a + k) * factR k * factR (p + 2 - k)).
Hypothesis Hk : (k <= p + 2)%nat.
Local Notation A := (INR a).
Local Notation B := (INR b).
Local Notation P := (INR p).
Local Notation K := (INR k).

Ltac fx := repeat match goal with
  | |- context [factR (S ?n)] => rewrite (factR_S n)
  end; rewrite ?S_INR, ?plus_INR; simpl (INR 0); simpl (INR 1); simpl (INR 2).
Ltac nz := repeat split; try apply factR_neq; try (rewrite <- ?plus_INR, <- ?S_INR; apply not_0_INR; lia).

Lemma jc_m : jc (p + 2) a b k
  = jbase * ((P + 2 + A + B + K) * (P + 1 + A + B + K)) * ((A + P + 2) * (A + P + 1)).
Proof.
  unfold jc, jbase. replace (k <=? p + 2)%nat with true by (symmetry; apply Nat.leb_le; lia). unfold jacobi_coeff.
  replace (a + (p + 2))%nat with (S (S (a + p))) by lia.
  replace (a + b + (p + 2) + k)%nat with (S (S (a + b + p + k))) by lia.
  replace (a + b + (p + 2))%nat with (a + b + p + 2)%nat by lia.
  fx. field. nz.
Qed.
Lemma jc_m1 : jc (p + 1) a b k
  = jbase * ((P + 1 + A + B + K) * (A + P + 1)) * ((P + 2 + A + B) * (P + 2 - K)).
Proof.
  unfold jc, jbase. destruct (k <=? p + 1)%nat eqn:E.
  - apply Nat.leb_le in E. unfold jacobi_coeff.
    replace (a + (p + 1))%nat with (S (a + p)) by lia.
    replace (a + b + (p + 1) + k)%nat with (S (a + b + p + k)) by lia.
    replace (a + b + p + 2)%nat with (S (a + b + (p + 1))) by lia.
    replace (p + 2 - k)%nat with (S (p + 1 - k)) by lia.
    fx. rewrite !minus_INR by lia. rewrite ?plus_INR. simpl (INR 1).
    assert (N1 : P + 1 - K + 1 <> 0).
    { intros C. assert (INR (p + 2 - k) = 0) by (rewrite minus_INR, plus_INR by lia; simpl; lra).
      apply INR_eq with (m := 0%nat) in H. lia. }
    assert (N2 : A + B + (P + 1) + 1 <> 0).
    { pose proof (pos_INR a). pose proof (pos_INR b). pose proof (pos_INR p). lra. }
    field. nz; assumption.
  - apply Nat.leb_gt in E. assert (k = p + 2)%nat as -> by lia. rewrite plus_INR. simpl (INR 2). ring.
Qed.
Lemma jc_m2 : jc p a b k
  = jbase * ((P + 2 + A + B) * (P + 1 + A + B)) * ((P + 2 - K) * (P + 1 - K)).
Proof.
  unfold jc, jbase. destruct (k <=? p)%nat eqn:E.
  - apply Nat.leb_le in E. unfold jacobi_coeff.
    replace (a + b + p + 2)%nat with (S (S (a + b + p))) by lia.
    replace (p + 2 - k)%nat with (S (S (p - k))) by lia.
    fx. rewrite !minus_INR by lia.
    assert (N0 : K <= P) by (apply le_INR; lia).
    pose proof (pos_INR a). pose proof (pos_INR b). pose proof (pos_INR p).
    field. repeat split; try apply factR_neq; lra.
  - apply Nat.leb_gt in E. assert (k = p + 2 \/ k = p + 1)%nat as [-> | ->] by lia; rewrite plus_INR; simpl (INR 2); simpl (INR 1); ring.
Qed.
End Coefficients.

Lemma jc_m1_prev : forall a b p k, (S k <= p + 2)%nat -> jc (p + 1) a b k
  = jbase a b p (S k) * ((INR a + INR p + 1) * (INR p + 2 + INR a + INR b)) * ((INR a + INR k + 1) * (INR k + 1)).
Proof.
  intros a b p k Hk. unfold jc, jbase. replace (k <=? p + 1)%nat with true by (symmetry; apply Nat.leb_le; lia).
  unfold jacobi_coeff.
  replace (a + (p + 1))%nat with (S (a + p)) by lia.
  replace (a + b + (p + 1) + k)%nat with (a + b + p + S k)%nat by lia.
  replace (a + b + p + 2)%nat with (S (a + b + (p + 1))) by lia.
  replace (a + S k)%nat with (S (a + k)) by lia.
  replace (p + 2 - S k)%nat with (p + 1 - k)%nat by lia.
  rewrite !factR_S, ?S_INR, ?plus_INR. simpl (INR 1).
  pose proof (pos_INR a). pose proof (pos_INR b). pose proof (pos_INR p). pose proof (pos_INR k).
  field. repeat split; try apply factR_neq; lra.
Qed.

(** y^n P_n^(a,b)(x / y) as a polynomial in x and y. *)
Definition hjac (n a b : nat) (x y : R) : R :=
  rsum (S n) (fun k => jacobi_coeff n a b k * ((x - y) / 2) ^ k * y ^ (n - k)).

Lemma hjac_jc : forall n a b x y N, (n < N)%nat ->
  hjac n a b x y = rsum N (fun k => jc n a b k * ((x - y) / 2) ^ k * y ^ (n - k)).
Proof.
  intros n a b x y N HN. unfold hjac.
  assert (G : forall e, rsum (S n + e) (fun k => jc n a b k * ((x - y) / 2) ^ k * y ^ (n - k))
                = rsum (S n) (fun k => jacobi_coeff n a b k * ((x - y) / 2) ^ k * y ^ (n - k))).
  { induction e.
    - rewrite Nat.add_0_r. apply rsum_ext. intros i Hi. unfold jc.
      replace (i <=? n)%nat with true by (symmetry; apply Nat.leb_le; lia). reflexivity.
    - rewrite Nat.add_succ_r. cbn [rsum] in *. rewrite IHe. unfold jc.
      replace (S n + e <=? n)%nat with false by (symmetry; apply Nat.leb_gt; lia). ring. }
  rewrite <- (G (N - S n)%nat). f_equal. lia.
Qed.

Lemma hjac_0 : forall a b x y, hjac 0 a b x y = 1.
Proof.
  intros a b x y. unfold hjac, jacobi_coeff. cbn [rsum pow Nat.sub]. rewrite !Nat.add_0_r.
  change (factR 0) with 1. field. split; apply factR_neq.
Qed.
Lemma hjac_1 : forall a b x y,
  hjac 1 a b x y = (1 / 2 * INR a - 1 / 2 * INR b) * y + (1 + 1 / 2 * INR (a + b)) * x.
Proof.
  intros a b x y. unfold hjac, jacobi_coeff. cbn [rsum pow Nat.sub].
  replace (a + b + 1 + 1)%nat with (S (S (a + b))) by lia.
  replace (a + b + 1 + 0)%nat with (S (a + b)) by lia.
  replace (a + b + 1)%nat with (S (a + b)) by lia.
  replace (a + 1)%nat with (S a) by lia. rewrite Nat.add_0_r, !factR_S.
  replace (factR 0) with 1 by reflexivity.
  rewrite !S_INR, !plus_INR. simpl (INR 0).
  pose proof (pos_INR a). pose proof (pos_INR b). field.
  repeat split; try apply factR_neq; lra.
Qed.

Lemma hjac_rec : forall a b p x y,
  let m := INR (p + 2) in let c0 := 2 * m + INR a + INR b in
  2 * m * (m + INR a + INR b) * (c0 - 2) * hjac (p + 2) a b x y
  = (c0 - 1) * ((INR (a * a) - INR (b * b)) * y + c0 * (c0 - 2) * x) * hjac (p + 1) a b x y
    - 2 * (m + INR a - 1) * (m + INR b - 1) * c0 * y * y * hjac p a b x y.
Proof.
  intros a b p x y m c0.
  set (z := (x - y) / 2). assert (Ex : x = y + 2 * z) by (unfold z; field).
  assert (E1 : y * hjac (p + 1) a b x y = rsum (p + 3) (fun k => jc (p + 1) a b k * z ^ k * y ^ (p + 2 - k))).
  { rewrite (hjac_jc (p + 1) a b x y (p + 3)) by lia. fold z. rewrite <- rsum_scale. apply rsum_ext. intros k Hk.
    destruct (le_lt_dec k (p + 1)) as [L | L].
    - replace (p + 2 - k)%nat with (S (p + 1 - k)) by lia. cbn [pow]. ring.
    - unfold jc. replace (k <=? p + 1)%nat with false by (symmetry; apply Nat.leb_gt; lia). ring. }
  assert (E2 : y * y * hjac p a b x y = rsum (p + 3) (fun k => jc p a b k * z ^ k * y ^ (p + 2 - k))).
  { rewrite (hjac_jc p a b x y (p + 3)) by lia. fold z. rewrite <- rsum_scale. apply rsum_ext. intros k Hk.
    destruct (le_lt_dec k p) as [L | L].
    - replace (p + 2 - k)%nat with (S (S (p - k))) by lia. cbn [pow]. ring.
    - unfold jc. replace (k <=? p)%nat with false by (symmetry; apply Nat.leb_gt; lia). ring. }
  assert (E3 : z * hjac (p + 1) a b x y = rsum (p + 3) (fun k => (match k with O => 0 | S j => jc (p + 1) a b j end)
                                                                 * z ^ k * y ^ (p + 2 - k))).
  { replace (p + 3)%nat with (S (p + 2)) by lia. rewrite rsum_head.
    rewrite (hjac_jc (p + 1) a b x y (p + 2)) by lia. fold z. rewrite <- rsum_scale.
    rewrite Rmult_0_l, Rmult_0_l, Rplus_0_l. apply rsum_ext. intros k Hk.
    replace (p + 2 - S k)%nat with (p + 1 - k)%nat by lia. cbn [pow]. ring. }
  set (d1 := c0 - 1). set (d2 := INR (a * a) - INR (b * b)). set (d3 := c0 * (c0 - 2)).
  set (d4 := 2 * (m + INR a - 1) * (m + INR b - 1) * c0). set (d5 := 2 * m * (m + INR a + INR b) * (c0 - 2)).
  rewrite Ex at 2.
  replace (d1 * (d2 * y + d3 * (y + 2 * z)) * hjac (p + 1) a b x y - d4 * y * y * hjac p a b x y)
    with (d1 * (d2 + d3) * (y * hjac (p + 1) a b x y) + 2 * d1 * d3 * (z * hjac (p + 1) a b x y)
          - d4 * (y * y * hjac p a b x y)) by ring.
  rewrite E1, E2, E3, (hjac_jc (p + 2) a b x y (p + 3)) by lia. fold z.
  rewrite <- !rsum_scale, <- rsum_plus, <- rsum_minus. apply rsum_ext. intros k Hk.
  assert (Em : m = INR p + 2) by (unfold m; rewrite plus_INR; reflexivity).
  assert (C : d5 * jc (p + 2) a b k = d1 * (d2 + d3) * jc (p + 1) a b k
      + 2 * d1 * d3 * (match k with O => 0 | S j => jc (p + 1) a b j end) - d4 * jc p a b k).
  { rewrite (jc_m a b p k), (jc_m1 a b p k), (jc_m2 a b p k) by lia.
    unfold d1, d2, d3, d4, d5, c0. rewrite Em, !mult_INR.
    destruct k as [| j].
    - simpl (INR 0). ring.
    - rewrite jc_m1_prev by lia. rewrite S_INR. ring. }
  replace (d5 * (jc (p + 2) a b k * z ^ k * y ^ (p + 2 - k))) with (d5 * jc (p + 2) a b k * (z ^ k * y ^ (p + 2 - k))) by ring.
  rewrite C. ring.
Qed.

Lemma rec_denominator : forall a b p,
  2 * INR (p + 2) * (INR (p + 2) + INR a + INR b) * (2 * INR (p + 2) + INR a + INR b - 2) <> 0.
Proof.
  intros a b p. pose proof (pos_INR a). pose proof (pos_INR b). pose proof (pos_INR p). rewrite plus_INR. simpl (INR 2).
  repeat apply Rmult_integral_contrapositive_currified; lra.
Qed.

Lemma sfj_loop_hjac : forall k p a b x y,
  sfj_loop k (p + 2) a b x y (hjac p a b x y) (hjac (p + 1) a b x y) = hjac (p + 1 + k) a b x y.
Proof.
  induction k as [| k IH]; intros p a b x y; cbn [sfj_loop]; [now rewrite Nat.add_0_r |].
  replace (p + 1 + S k)%nat with (S p + 1 + k)%nat by lia. rewrite <- IH.
  replace (S (p + 2)) with (S p + 2)%nat by lia. replace (S p) with (p + 1)%nat by lia. f_equal.
  unfold SingularityFreeJacobiPRecursion, SingularityFreeJacobiPFactors. cbn [c_1 c_2 c_3 c_4 c_5].
  replace (p + 1 + 1)%nat with (p + 2)%nat by lia.
  pose proof (hjac_rec a b p x y) as R. cbv zeta in R. rewrite <- R.
  field. pose proof (rec_denominator a b p) as N.
  repeat split; intro C; apply N; rewrite C; ring.
Qed.

Lemma sfj_hjac : forall n a b x y, SingularityFreeJacobiP n a b x y = hjac n a b x y.
Proof.
  intros [| n] a b x y; unfold SingularityFreeJacobiP; [symmetry; apply hjac_0 |].
  rewrite <- hjac_1, <- (hjac_0 a b x y). exact (sfj_loop_hjac n 0 a b x y).
Qed.

(** The plain recursion is the homogenised one at y = 1. *)
Lemma jacobi_loop_sfj : forall k m a b x P1 P, jacobi_loop k m a b x P1 P = sfj_loop k m a b x 1 P1 P.
Proof.
  induction k as [| k IH]; intros; cbn [jacobi_loop sfj_loop]; [reflexivity |]. rewrite IH. f_equal.
  unfold SingularityFreeJacobiPRecursion, SingularityFreeJacobiPFactors. cbn [c_1 c_2 c_3 c_4 c_5].
  unfold Rdiv. f_equal. ring.
Qed.
Lemma JacobiP_hjac : forall n a b x, JacobiP n a b x = hjac n a b x 1.
Proof.
  intros n a b x. rewrite <- sfj_hjac. destruct n as [| k]; [reflexivity |]. unfold JacobiP, SingularityFreeJacobiP.
  rewrite jacobi_loop_sfj. f_equal. ring.
Qed.
Lemma hjac_jacobi : forall n a b x, hjac n a b x 1 = jacobi n a b x.
Proof. intros. unfold hjac, jacobi. apply rsum_ext. intros k Hk. rewrite pow1. ring. Qed.
Lemma hjac_scaled : forall n a b x y, y <> 0 -> hjac n a b x y = y ^ n * jacobi n a b (x / y).
Proof.
  intros n a b x y Hy. unfold hjac, jacobi. rewrite <- rsum_scale. apply rsum_ext. intros k Hk.
  replace ((x - y) / 2) with (y * ((x / y - 1) / 2)) by (field; exact Hy). rewrite Rpow_mult_distr.
  replace (y ^ n) with (y ^ k * y ^ (n - k)) by (rewrite <- pow_add; f_equal; lia). ring.
Qed.

(** Derivative of a power series. *)
Lemma derivable_pt_lim_rsum : forall n (f : nat -> R -> R) (f' : nat -> R) x,
  (forall i, (i < n)%nat -> derivable_pt_lim (f i) x (f' i)) ->
  derivable_pt_lim (fun t => rsum n (fun i => f i t)) x (rsum n f').
Proof.
  induction n as [| n IH]; intros f f' x H; cbn [rsum].
  - apply derivable_pt_lim_const.
  - apply (derivable_pt_lim_plus (fun t => rsum n (fun i => f i t)) (f n)); [apply IH; auto with arith | apply H; lia].
Qed.
Lemma derivable_pt_lim_ext_eq : forall f g x l l', (forall t, f t = g t) -> l = l' ->
  derivable_pt_lim f x l -> derivable_pt_lim g x l'.
Proof.
  intros f g x l l' E <- H eps He. destruct (H eps He) as [d Hd]. exists d. intros h Hh Hl. rewrite <- !E. auto.
Qed.

Lemma jacobi_coeff_deriv : forall n a b k, (k <= n)%nat ->
  jacobi_coeff (S n) a b (S k) * INR (S k) = (INR (S n) + INR a + INR b + 1) * jacobi_coeff n (a + 1) (b + 1) k.
Proof.
  intros n a b k Hk. unfold jacobi_coeff.
  replace (a + 1 + (b + 1) + n + k)%nat with (S (S (a + b + n + k))) by lia.
  replace (a + 1 + (b + 1) + n)%nat with (S (S (a + b + n))) by lia.
  replace (a + b + S n + S k)%nat with (S (S (a + b + n + k))) by lia.
  replace (a + b + S n)%nat with (S (a + b + n)) by lia.
  replace (a + 1 + n)%nat with (a + S n)%nat by lia. replace (a + 1 + k)%nat with (a + S k)%nat by lia.
  replace (S n - S k)%nat with (n - k)%nat by lia.
  rewrite (factR_S k), (factR_S (S (a + b + n))), !S_INR, !plus_INR.
  pose proof (pos_INR a). pose proof (pos_INR b). pose proof (pos_INR n). pose proof (pos_INR k).
  field. repeat split; try apply factR_neq; lra.
Qed.
Lemma jacobi_deriv : forall n a b x, derivable_pt_lim (jacobi n a b) x
  (match n with O => 0 | S k => 1 / 2 * (INR n + INR a + INR b + 1) * jacobi k (a + 1) (b + 1) x end).
Proof.
  intros n a b x. unfold jacobi.
  apply (derivable_pt_lim_ext_eq (fun t => rsum (S n) (fun k => jacobi_coeff n a b k * ((t - 1) / 2) ^ k)) _ x
    (rsum (S n) (fun k => jacobi_coeff n a b k * (INR k * ((x - 1) / 2) ^ pred k * (1 / 2))))); [reflexivity | |].
  - destruct n as [| n].
    + cbn. ring.
    + rewrite rsum_head. simpl (INR 0). rewrite Rmult_0_l, Rmult_0_l, Rmult_0_r, Rplus_0_l.
      rewrite <- rsum_scale. apply rsum_ext. intros k Hk. cbn [pred].
      replace (jacobi_coeff (S n) a b (S k) * (INR (S k) * ((x - 1) / 2) ^ k * (1 / 2)))
        with (jacobi_coeff (S n) a b (S k) * INR (S k) * (((x - 1) / 2) ^ k * (1 / 2))) by ring.
      rewrite jacobi_coeff_deriv by lia. ring.
  - apply derivable_pt_lim_rsum. intros k _.
    apply (derivable_pt_lim_scal (fun t => ((t - 1) / 2) ^ k)).
    apply (derivable_pt_lim_comp (fun t => (t - 1) / 2) (fun u => u ^ k)); [| apply derivable_pt_lim_pow].
    apply (derivable_pt_lim_ext_eq (fun t => (1 / 2) * (t - 1)) _ x (1 / 2 * (1 - 0))); [intros; field | field |].
    apply (derivable_pt_lim_scal (fun t => t - 1)). apply (derivable_pt_lim_minus id (fct_cte 1));
      [apply derivable_pt_lim_id | apply derivable_pt_lim_const].
Qed.

(** Chain rule through two inner functions. *)
Section Jets.
Variables X Y : R -> R.
Variables X' Y' t0 : R.
Hypothesis HX : derivable_pt_lim X t0 X'.
Hypothesis HY : derivable_pt_lim Y t0 Y'.

Lemma sfjd_loop_ok : forall k m a b (P1 P : R -> R) (J1 J : jet),
  j_v J1 = P1 t0 -> j_v J = P t0 ->
  derivable_pt_lim P1 t0 (j_x J1 * X' + j_y J1 * Y') ->
  derivable_pt_lim P t0 (j_x J * X' + j_y J * Y') ->
  let r := sfjd_loop k m a b (X t0) (Y t0) J1 J in
  j_v r = sfj_loop k m a b (X t0) (Y t0) (P1 t0) (P t0)
  /\ derivable_pt_lim (fun t => sfj_loop k m a b (X t) (Y t) (P1 t) (P t)) t0 (j_x r * X' + j_y r * Y').
Proof.
  induction k as [| k IH]; intros m a b P1 P J1 J E1 E D1 D0 r; unfold r; cbn [sfjd_loop sfj_loop].
  - split; assumption.
  - set (c := SingularityFreeJacobiPFactors m a b).
    apply (IH (S m) a b P (fun t => SingularityFreeJacobiPRecursion (X t) (Y t) c (P t) (P1 t)) J); cbn [j_v j_x j_y].
    + exact E.
    + rewrite E1, E. reflexivity.
    + exact D0.
    + unfold SingularityFreeJacobiPRecursion.
      apply (derivable_pt_lim_ext_eq
        (fun t => / c_5 c * (c_1 c * ((c_2 c * Y t + c_3 c * X t) * P t) - c_4 c * ((Y t * Y t) * P1 t))) _ t0
        (/ c_5 c * (c_1 c * ((c_2 c * Y' + c_3 c * X') * P t0 + (c_2 c * Y t0 + c_3 c * X t0) * (j_x J * X' + j_y J * Y'))
           - c_4 c * ((Y' * Y t0 + Y t0 * Y') * P1 t0 + (Y t0 * Y t0) * (j_x J1 * X' + j_y J1 * Y'))))).
      * intros t. unfold Rdiv. ring.
      * rewrite E, E1. unfold Rdiv. ring.
      * apply (derivable_pt_lim_scal (fun t => c_1 c * ((c_2 c * Y t + c_3 c * X t) * P t) - c_4 c * ((Y t * Y t) * P1 t))).
        apply (derivable_pt_lim_minus (fun t => c_1 c * ((c_2 c * Y t + c_3 c * X t) * P t)) (fun t => c_4 c * ((Y t * Y t) * P1 t))).
        -- apply (derivable_pt_lim_scal (fun t => (c_2 c * Y t + c_3 c * X t) * P t)).
           apply (derivable_pt_lim_mult (fun t => c_2 c * Y t + c_3 c * X t) P); [| exact D0].
           apply (derivable_pt_lim_plus (fun t => c_2 c * Y t) (fun t => c_3 c * X t));
             [apply (derivable_pt_lim_scal Y); exact HY | apply (derivable_pt_lim_scal X); exact HX].
        -- apply (derivable_pt_lim_scal (fun t => (Y t * Y t) * P1 t)).
           apply (derivable_pt_lim_mult (fun t => Y t * Y t) P1); [| exact D1].
           apply (derivable_pt_lim_mult Y Y); exact HY.
Qed.

Lemma sfjd_ok : forall n a b,
  let r := SingularityFreeJacobiPAndDerivatives n a b (X t0) (Y t0) in
  j_v r = SingularityFreeJacobiP n a b (X t0) (Y t0)
  /\ derivable_pt_lim (fun t => SingularityFreeJacobiP n a b (X t) (Y t)) t0 (j_x r * X' + j_y r * Y').
Proof.
  intros n a b r. unfold r. destruct n as [| k].
  - cbn. split; [reflexivity |].
    apply (derivable_pt_lim_ext_eq (fct_cte 1) _ t0 0); [reflexivity | ring | apply derivable_pt_lim_const].
  - unfold SingularityFreeJacobiPAndDerivatives, SingularityFreeJacobiP at 1 3.
    apply (sfjd_loop_ok k 2 a b (fct_cte 1)
      (fun t => (1 / 2 * INR a - 1 / 2 * INR b) * Y t + (1 + 1 / 2 * INR (a + b)) * X t)); cbn [j_v j_x j_y].
    + reflexivity.
    + reflexivity.
    + apply (derivable_pt_lim_ext_eq (fct_cte 1) _ t0 0); [reflexivity | ring | apply derivable_pt_lim_const].
    + apply (derivable_pt_lim_ext_eq (fun t => (1 / 2 * INR a - 1 / 2 * INR b) * Y t + (1 + 1 / 2 * INR (a + b)) * X t) _ t0
        ((1 / 2 * INR a - 1 / 2 * INR b) * Y' + (1 + 1 / 2 * INR (a + b)) * X')); [reflexivity | ring |].
      apply (derivable_pt_lim_plus (fun t => (1 / 2 * INR a - 1 / 2 * INR b) * Y t) (fun t => (1 + 1 / 2 * INR (a + b)) * X t));
        [apply (derivable_pt_lim_scal Y); exact HY | apply (derivable_pt_lim_scal X); exact HX].
Qed.
End Jets.
