(** For natural weights the residual polynomial is a Jacobi polynomial scaled to one at zero; it is the best one. *)
Require Import List Arith Lia ZArith Reals Lra.
Require Import Verif.LinAlg Verif.BasisModel Verif.BasisSpec Verif.JacobiProofs Verif.IntegralSpec Verif.IntegralProofs Verif.OrthogonalProofs Verif.RootsProofs.
Require Import Verif.LsPolySpec Verif.LsPolyModel Verif.LsPolyJacobi Verif.LsPolyProofs.
Local Open Scope R_scope.

Section Natural.
Variables alpha beta : nat.
Variable e : R.
Hypothesis He : 0 < e.
Local Notation a := alpha.
Local Notation b := (S beta).
Local Notation P k := (jacobi k a b).
Local Notation rp k := (rp_at (INR alpha) (INR beta) e k).
Local Notation rcoef := (rcoef (INR alpha) (INR beta) e).
Local Notation scoef := (scoef (INR alpha) (INR beta) e).
Local Notation dcoef := (dcoef (INR alpha) (INR beta) e).
Local Notation phi := (phi_at (INR alpha) (INR beta) e).
Local Notation xi := (xi_at (INR alpha) (INR beta) e).

(** The three coefficients as [three_term] has them. *)
Lemma INR_eq_abs : INR a <> INR b -> Rabs (INR a) <> Rabs (INR b).
Proof. intros H. pose proof (pos_INR a). pose proof (pos_INR b). rewrite !Rabs_right by lra. exact H. Qed.
Definition inv_state (k : nat) : ResidualP :=
  {| rp_alpha := INR a; rp_beta := INR beta + 1; rp_emax := e; rp_P0n_1 := P (k - 1) (-1); rp_P0n := P k (-1); rp_n := Z.of_nat k - 1 |}.
Lemma next_spec : forall k,
  ResidualP_Next (inv_state k) = (inv_state (S k),
    (P k (-1) / P (S k) (-1) * ((-1 - be a b k) / al a b k), 2 / (e * al a b k) * (P k (-1) / P (S k) (-1)),
     ga a b k / al a b k * (P (k - 1) (-1) / P (S k) (-1)))).
Proof.
  intros k. pose proof (pos_INR a) as Ha. pose proof (pos_INR beta) as Hb. pose proof (pos_INR k) as Hk.
  pose proof (al_pos a b k) as Hal.
  pose proof (jacobi_minus_one_neq (k - 1) a b) as N0. pose proof (jacobi_minus_one_neq k a b) as N1. pose proof (jacobi_minus_one_neq (S k) a b) as N2.
  assert (T : -1 * P k (-1) = al a b k * P (S k) (-1) + be a b k * P k (-1) + ga a b k * P (k - 1) (-1)) by apply three_term.
  unfold ResidualP_Next, inv_state. cbn [rp_alpha rp_beta rp_emax rp_P0n_1 rp_P0n rp_n].
  replace (Z.of_nat k - 1 + 1)%Z with (Z.of_nat k) by lia. rewrite <- INR_IZR_INZ. rewrite <- (S_INR beta).
  set (n := INR k) in *. 
  assert (Epsi : (if Req_EM_T (Rabs (INR a)) (Rabs (INR b)) then 0
    else (2 * n + INR a + INR b + 1) * (INR a * INR a - INR b * INR b) / (2 * (n + 1) * (n + INR a + INR b + 1) * (2 * n + INR a + INR b)))
    = - be a b k / al a b k).
  { unfold be, al. fold n. rewrite S_INR in *. destruct (Req_EM_T _ _) as [E | E].
    - rewrite !Rabs_right in E by lra. destruct k; rewrite E; field; lra.
    - destruct k as [| k].
      + unfold n in *. simpl (INR 0) in *. field. lra.
      + field. repeat split; lra. }
  assert (Ephi : (2 * n + INR a + INR b + 1) * (2 * n + INR a + INR b + 2) / (2 * (n + 1) * (n + INR a + INR b + 1)) = / al a b k).
  { unfold al. fold n. rewrite S_INR in *. field. repeat split; lra. }
  assert (Exi : (if (0 <? Z.of_nat k)%Z then 2 * (n + INR a) * (n + INR b) * (2 * n + INR a + INR b + 2) / (2 * (n + 1) * (n + INR a + INR b + 1) * (2 * n + INR a + INR b)) else 0)
    = ga a b k / al a b k).
  { unfold ga, al. fold n. destruct k as [| k].
    - cbn. unfold Rdiv. now rewrite Rmult_0_l.
    - replace (0 <? Z.of_nat (S k))%Z with true by (symmetry; apply Z.ltb_lt; lia). rewrite S_INR in *. field. repeat split; lra. }
  rewrite Epsi, Ephi, Exi.
  set (q := al a b k) in *. set (u := be a b k) in *. set (v := ga a b k) in *.
  replace (S k - 1)%nat with k by lia.
  set (p0 := P (k - 1) (-1)) in *. set (p1 := P k (-1)) in *. set (p2 := P (S k) (-1)) in *.
  assert (E2 : (- u / q - / q) * p1 - v / q * p0 = p2).
  { apply (Rmult_eq_reg_l q); [| lra]. transitivity (-1 * p1 - u * p1 - v * p0); [field; lra | rewrite T; ring]. }
  assert (T1 : - u / q - / q - v / q * p0 / p1 = p2 / p1).
  { rewrite <- E2. field. split; [lra | exact N1]. }
  assert (T2 : (- u / q - / q) * p1 / p0 - v / q = p2 / p0).
  { rewrite <- E2. field. split; [lra | exact N0]. }
  rewrite T1, T2, E2. f_equal; [f_equal; lia |]. f_equal; [f_equal |].
  - field. repeat split; try lra; assumption.
  - field. repeat split; try lra; assumption.
  - field. repeat split; try lra; assumption.
Qed.
Lemma rp_inv : forall k, rp k = inv_state k.
Proof.
  induction k as [| k IH].
  - unfold inv_state. cbn [rp_at]. unfold ResidualP_Init. cbn [Nat.sub Z.of_nat Z.sub]. rewrite <- !hjac_jacobi, !hjac_0. reflexivity.
  - cbn [rp_at]. rewrite IH, next_spec. reflexivity.
Qed.
Lemma phi_spec : forall k, phi k = 2 / (e * al a b k) * (P k (-1) / P (S k) (-1)).
Proof. intros k. unfold phi_at. rewrite rp_inv, next_spec. reflexivity. Qed.
Lemma xi_spec : forall k, xi k = ga a b k / al a b k * (P (k - 1) (-1) / P (S k) (-1)).
Proof. intros k. unfold xi_at. rewrite rp_inv, next_spec. reflexivity. Qed.

Definition sval (k : nat) (t : R) : R := rsum k (fun j => scoef k j * t ^ j).
Definition dval (k : nat) (t : R) : R := rsum k (fun j => dcoef k j * t ^ j).
Lemma rval_sval : forall k t, at_number k (rcoef k) t = 1 - t * sval k t.
Proof.
  intros k t. unfold at_number, sval. rewrite rsum_head. unfold LsPolyProofs.rcoef at 1. cbn [res_of pow].
  rewrite <- rsum_scale. rewrite Rmult_1_r. unfold Rminus. f_equal.
  match goal with |- _ = - ?s => replace (- s) with (-1 * s) by ring end. rewrite <- rsum_scale.
  apply rsum_ext. intros j _. unfold LsPolyProofs.rcoef. cbn [res_of]. ring.
Qed.
Lemma dval_step : forall k t, dval (S k) t = - phi k * at_number k (rcoef k) t + xi k * dval k t.
Proof.
  intros k t. unfold dval, at_number.
  assert (Hpad : rsum k (fun j => dcoef k j * t ^ j) = rsum (S k) (fun j => dcoef k j * t ^ j)).
  { cbn [rsum]. destruct (coeffs_high (INR alpha) (INR beta) e k k ltac:(lia)) as [_ Z]. rewrite Z. ring. }
  rewrite Hpad, <- !rsum_scale, <- rsum_plus. apply rsum_ext. intros j _.
  unfold LsPolyProofs.dcoef at 1, LsPolyProofs.rcoef. cbn [coeffs snd]. unfold LsPolyProofs.scoef, LsPolyProofs.dcoef. ring.
Qed.
Lemma sval_step : forall k t, sval (S k) t = sval k t + dval (S k) t.
Proof.
  intros k t. unfold dval, sval.
  assert (Hpad : rsum k (fun j => scoef k j * t ^ j) = rsum (S k) (fun j => scoef k j * t ^ j)).
  { cbn [rsum]. destruct (coeffs_high (INR alpha) (INR beta) e k k ltac:(lia)) as [Z _]. rewrite Z. ring. }
  rewrite Hpad, <- rsum_plus. apply rsum_ext. intros j _.
  unfold LsPolyProofs.dcoef, LsPolyProofs.scoef. cbn [coeffs fst snd]. ring.
Qed.
Lemma rval_jacobi_both : forall k t, let x := 2 * t / e - 1 in
  at_number k (rcoef k) t * P k (-1) = P k x
  /\ t * dval k t * (P k (-1) * P (k - 1) (-1)) = P (k - 1) x * P k (-1) - P k x * P (k - 1) (-1).
Proof.
  intros k t x. induction k as [| k [IH1 IH2]].
  - split.
    + unfold at_number, LsPolyProofs.rcoef. cbn [rsum res_of pow]. rewrite <- !hjac_jacobi, !hjac_0. ring.
    + unfold dval. cbn [rsum Nat.sub]. ring.
  - replace (S k - 1)%nat with k by lia.
    pose proof (al_pos a b k) as Hal.
    pose proof (jacobi_minus_one_neq (k - 1) a b) as N0. pose proof (jacobi_minus_one_neq k a b) as N1. pose proof (jacobi_minus_one_neq (S k) a b) as N2.
    pose proof (three_term a b k (-1)) as T. pose proof (three_term a b k x) as Tx.
    rewrite rval_sval, sval_step. pose proof (dval_step k t) as D. pose proof (rval_sval k t) as RS.
    rewrite phi_spec, xi_spec in D. set (r := at_number k (rcoef k) t) in *. set (s := sval k t) in *. set (d' := dval (S k) t) in *. set (d := dval k t) in *.
    set (q := al a b k) in *. set (u := be a b k) in *. set (v := ga a b k) in *.
    set (p0 := P (k - 1) (-1)) in *. set (p1 := P k (-1)) in *. set (p2 := P (S k) (-1)) in *.
    set (y0 := P (k - 1) x) in *. set (y1 := P k x) in *. set (y2 := P (S k) x) in *.
    assert (Er : r = y1 / p1) by (rewrite <- IH1; field; exact N1).
    assert (Ed : t * d = y0 / p0 - y1 / p1).
    { apply (Rmult_eq_reg_r (p1 * p0)); [| now apply Rmult_integral_contrapositive_currified]. rewrite IH2. field. now split. }
    assert (Ex : x = 2 * t / e - 1) by reflexivity.
    assert (Ed' : t * d' * p2 = - (x + 1) * y1 / q + v / q * (y0 - p0 * y1 / p1)).
    { rewrite D. replace (t * (- (2 / (e * q) * (p1 / p2)) * r + v / q * (p0 / p2) * d) * p2)
        with (- (2 * t / e) / q * (p1 * r) + v / q * p0 * (t * d)) by (field; repeat split; lra).
      rewrite Ed, Er. replace (2 * t / e) with (x + 1) by lra. field. repeat split; try lra; assumption. }
    assert (Y2 : y2 = ((x - u) * y1 - v * y0) / q) by (apply (Rmult_eq_reg_l q); [field_simplify; [lra | lra] | lra]).
    assert (Q2 : p2 = ((-1 - u) * p1 - v * p0) / q) by (apply (Rmult_eq_reg_l q); [field_simplify; [lra | lra] | lra]).
    assert (G1 : (1 - t * (s + d')) * p2 = y2).
    { replace ((1 - t * (s + d')) * p2) with ((1 - t * s) * p2 - t * d' * p2) by ring. rewrite <- RS, Ed', Er, Y2.
      replace (y1 / p1 * p2) with (y1 / p1 * (((-1 - u) * p1 - v * p0) / q)) by now rewrite <- Q2. field. split; [lra | exact N1]. }
    split; [exact G1 |].
    rewrite <- G1. replace ((1 - t * (s + d')) * p2 * p1) with ((1 - t * s) * p1 * p2 - t * d' * (p2 * p1)) by ring.
    rewrite <- RS, Er. field. exact N1.
Qed.
Lemma rval_jacobi : forall k t, at_number k (rcoef k) t = P k (2 * t / e - 1) / P k (-1).
Proof.
  intros k t. destruct (rval_jacobi_both k t) as [H _]. cbv zeta in H. rewrite <- H. field. apply jacobi_minus_one_neq.
Qed.
Lemma rcoef_0 : forall k, rcoef k 0%nat = 1.
Proof. reflexivity. Qed.
End Natural.
