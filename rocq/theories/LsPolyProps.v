(** C71: the least squares polynomial smoother. *)
Require Import List Arith Lia ZArith Reals Lra.
Require Import Verif.LinAlg Verif.BasisModel Verif.BasisSpec Verif.JacobiProofs Verif.IntegralSpec Verif.IntegralProofs Verif.OrthogonalProofs Verif.RootsProofs.
Require Import Verif.LsPolySpec Verif.LsPolyModel Verif.LsPolyJacobi Verif.LsPolyProofs Verif.LsPolyOptimal Verif.LsPolyBest.
Local Open Scope R_scope.

Lemma solve_end : forall N A B cfg b rnorm0 x0 st, KSPSolve_LSPoly N A B cfg b rnorm0 x0 = Some st ->
  exists k, (k <= c_max_it cfg)%nat /\ after N A B cfg b x0 k st
    /\ (has_norm (c_normtype cfg) = false -> k = c_max_it cfg)
    /\ (has_norm (c_normtype cfg) = true -> ks_rnorm st = residual_norm N cfg (residual N A b (ks_x st)) (mat_vec N B (residual N A b (ks_x st))))
    /\ ((has_norm (c_normtype cfg) = false /\ ks_reason st = KSP_CONVERGED_ITS /\ ks_its st = k)
        \/ (has_norm (c_normtype cfg) = true /\ ks_reason st = c_converged cfg k (ks_rnorm st) /\ ks_reason st <> 0%Z /\ (ks_its st <= c_max_it cfg)%nat)
        \/ (has_norm (c_normtype cfg) = true /\ k = c_max_it cfg /\ c_converged cfg k (ks_rnorm st) = 0%Z /\ ks_reason st = KSP_DIVERGED_ITS /\ ks_its st = k)).
Proof.
  intros N A B cfg b rnorm0 x0 st H. unfold KSPSolve_LSPoly in H. destruct (c_diagonalscale cfg); [discriminate |].
  pose proof (loop_end N A B cfg b x0 (c_max_it cfg) 0 _ (after_0 N A B cfg b x0 0%nat rnorm0 0%Z) eq_refl eq_refl) as L.
  cbv zeta in L. cbn [Nat.add] in L.
  set (s := lspoly_loop N A B cfg b (c_max_it cfg) 0 _) in *.
  destruct L as [(K1 & K2 & K3 & K4) | (k & K1 & K2 & K3 & K4 & K5 & K6 & K7)].
  - rewrite K3 in H. cbn [Z.eqb] in H. injection H as <-. exists (c_max_it cfg). cbn [ks_x ks_delta ks_rp ks_its ks_rnorm ks_reason].
    split; [lia |]. split; [exact K1 |]. split; [reflexivity |]. rewrite K2, Nat.leb_refl.
    destruct (has_norm (c_normtype cfg)) eqn:Hh.
    + rewrite residual_norm_spec. split; [reflexivity |]. right. destruct (Z.eqb_spec (c_converged cfg (c_max_it cfg)
        (residual_norm N cfg (residual N A b (ks_x s)) (mat_vec N B (residual N A b (ks_x s))))) 0) as [E | E].
      * right. auto.
      * left. auto.
    + split; [discriminate |]. left. auto.
  - destruct (Z.eqb_spec (ks_reason s) 0) as [E | _]; [contradiction |]. injection H as <-. exists k.
    split; [lia |]. split; [exact K2 |]. split; [congruence |]. split; [auto |]. right. left. split; [exact K4 |]. split; [exact K6 |]. split; [exact K7 | lia].
Qed.

(** What the smoother reports: it always ends with a reason, and the residual norm it reports is the norm of the residual of
    the vector it returns. *)
Theorem lspoly_report : forall N A B cfg b rnorm0 x0 st, KSPSolve_LSPoly N A B cfg b rnorm0 x0 = Some st ->
  ks_reason st <> 0%Z /\ (ks_its st <= c_max_it cfg)%nat
  /\ (c_normtype cfg = NORM_NONE -> ks_reason st = KSP_CONVERGED_ITS /\ ks_its st = c_max_it cfg)
  /\ (c_normtype cfg = NORM_PRECONDITIONED ->
      ks_rnorm st = sqrt (dot N (mat_vec N B (residual N A b (ks_x st))) (mat_vec N B (residual N A b (ks_x st)))))
  /\ (c_normtype cfg = NORM_UNPRECONDITIONED \/ c_normtype cfg = NORM_NATURAL ->
      ks_rnorm st = sqrt (dot N (residual N A b (ks_x st)) (residual N A b (ks_x st))))
  /\ (c_normtype cfg <> NORM_NONE ->
      (exists k, (k <= c_max_it cfg)%nat /\ c_converged cfg k (ks_rnorm st) = ks_reason st)
      \/ (ks_reason st = KSP_DIVERGED_ITS /\ ks_its st = c_max_it cfg /\ c_converged cfg (c_max_it cfg) (ks_rnorm st) = 0%Z)).
Proof.
  intros N A B cfg b rnorm0 x0 st H. destruct (solve_end _ _ _ _ _ _ _ _ H) as (k & Hk & _ & Hn & Hr & Hs).
  assert (Hits : (ks_its st <= c_max_it cfg)%nat) by (destruct Hs as [(_ & _ & ->) | [(_ & _ & _ & K) | (_ & -> & _ & _ & ->)]]; lia).
  split; [| split; [exact Hits |]].
  - destruct Hs as [(_ & -> & _) | [(_ & _ & K & _) | (_ & _ & _ & -> & _)]]; [discriminate | exact K | discriminate].
  - repeat split.
    + rewrite H0 in Hs. cbn in Hs. destruct Hs as [(_ & K & _) | [(K & _) | (K & _)]]; [exact K | discriminate | discriminate].
    + rewrite H0 in Hs, Hn. cbn in Hs, Hn. destruct Hs as [(_ & _ & K) | [(K & _) | (K & _)]]; [rewrite K; auto | discriminate | discriminate].
    + intros E. rewrite E in Hr. specialize (Hr eq_refl). unfold residual_norm in Hr. rewrite E in Hr. exact Hr.
    + intros [E | E]; rewrite E in Hr; specialize (Hr eq_refl); unfold residual_norm in Hr; rewrite E in Hr; exact Hr.
    + intros E. destruct Hs as [(K & _) | [(_ & K & _) | (_ & -> & K & K' & K'')]].
      * destruct (c_normtype cfg); cbn in K; congruence.
      * left. exists k. split; [exact Hk | now rewrite K].
      * right. auto.
Qed.
Print Assumptions lspoly_report.

(** The result is a polynomial correction whose coefficients depend on the weights and the bound only, not on the
    operator, the right-hand side or the initial guess. *)
Theorem lspoly_polynomial : forall cfg, exists c, (forall k, c k 0%nat = 1) /\
  forall N A B b rnorm0 x0 st, KSPSolve_LSPoly N A B cfg b rnorm0 x0 = Some st ->
  exists k, (k <= c_max_it cfg)%nat /\ (c_normtype cfg = NORM_NONE -> k = c_max_it cfg) /\ corrected N A B b x0 k (c k) (ks_x st).
Proof.
  intros cfg. exists (rcoef (c_alpha cfg) (c_beta cfg) (c_estbias cfg * c_emax cfg)). split; [reflexivity |].
  intros N A B b rnorm0 x0 st H. destruct (solve_end _ _ _ _ _ _ _ _ H) as (k & Hk & Ha & Hn & _). exists k.
  split; [exact Hk |]. split; [intros E; apply Hn; now rewrite E |]. apply corrected_of. apply Ha.
Qed.
Print Assumptions lspoly_polynomial.

(** With natural exponents (the default is zero) it is the least squares polynomial: no other polynomial of that degree is
    as small on [0, estbias * emax]. *)
Theorem lspoly_best_polynomial : forall cfg alpha beta, c_alpha cfg = INR alpha -> c_beta cfg = INR beta -> 0 < c_estbias cfg * c_emax cfg ->
  exists c, (forall k, least_squares k alpha beta (c_estbias cfg * c_emax cfg) (c k)) /\
  forall N A B b rnorm0 x0 st, KSPSolve_LSPoly N A B cfg b rnorm0 x0 = Some st ->
  exists k, (k <= c_max_it cfg)%nat /\ (c_normtype cfg = NORM_NONE -> k = c_max_it cfg) /\ corrected N A B b x0 k (c k) (ks_x st).
Proof.
  intros cfg alpha beta Ea Eb He. exists (rcoef (c_alpha cfg) (c_beta cfg) (c_estbias cfg * c_emax cfg)). split.
  - intros k. rewrite Ea, Eb. now apply rcoef_least_squares.
  - intros N A B b rnorm0 x0 st H. destruct (solve_end _ _ _ _ _ _ _ _ H) as (k & Hk & Ha & Hn & _). exists k.
    split; [exact Hk |]. split; [intros E; apply Hn; now rewrite E |]. apply corrected_of. apply Ha.
Qed.
Print Assumptions lspoly_best_polynomial.

(** ** Damping *)
Lemma factor_lt_one : forall alpha beta e k t, (alpha <= beta)%nat -> 0 < e -> (1 <= k)%nat -> 0 < t <= e ->
  Rabs (at_number k (rcoef (INR alpha) (INR beta) e k) t) < 1.
Proof.
  intros alpha beta e k t Hab He Hk Ht. rewrite rval_jacobi by exact He.
  pose proof (jacobi_minus_one_neq k alpha (S beta)) as Hne.
  assert (Hx : -1 < 2 * t / e - 1 <= 1).
  { assert (0 < 2 * t / e <= 2); [| lra]. split; [apply Rdiv_lt_0_compat; lra |].
    apply (Rmult_le_reg_r e); [lra |]. replace (2 * t / e * e) with (2 * t) by (field; lra). lra. }
  pose proof (jacobi_largest_at_end alpha (S beta) k ltac:(lia) Hk _ Hx) as L.
  set (y := jacobi k alpha (S beta) (2 * t / e - 1)) in *. set (p := jacobi k alpha (S beta) (-1)) in *.
  unfold Rdiv. rewrite Rabs_mult, Rabs_inv. apply Rsqr_lt_abs_0 in L.
  assert (Hp : 0 < Rabs p) by now apply Rabs_pos_lt.
  apply (Rmult_lt_reg_r (Rabs p)); [exact Hp |]. rewrite Rmult_assoc, Rinv_l, Rmult_1_r, Rmult_1_l by lra. exact L.
Qed.
Lemma at_zero : forall k c, at_number k c 0 = c 0%nat.
Proof. intros k c. unfold at_number. rewrite rsum_head, rsum_zero; [cbn [pow]; ring | intros; cbn [pow]; ring]. Qed.

Lemma error_poly : forall N A B b x0 xs k c x, c 0%nat = 1 -> corrected N A B b x0 k c x ->
  (forall i, (i < N)%nat -> mat_vec N A xs i = b i) ->
  forall i, (i < N)%nat -> x i - xs i = at_operator (preconditioned N A B) k c (fun j => x0 j - xs j) i.
Proof.
  intros N A B b x0 xs k c x Hc [Hx _] Hs i Hi. rewrite Hx by exact Hi. unfold at_operator. rewrite rsum_head, Hc. cbn [power].
  rewrite Rmult_1_l. unfold Rminus. rewrite Rplus_assoc, (Rplus_comm (rsum _ _)), <- Rplus_assoc. f_equal. apply rsum_ext. intros j _.
  assert (Z : forall l, (l < N)%nat -> mat_vec N B (residual N A b x0) l = -1 * preconditioned N A B (fun j => x0 j - xs j) l).
  { intros l _. unfold preconditioned. rewrite <- mat_vec_scale. apply mat_vec_ext. intros m Hm. unfold residual. rewrite <- (Hs m Hm).
    unfold Rminus. rewrite (mat_vec_ext N A (fun j => x0 j + - xs j) (fun j => x0 j + -1 * xs j)) by (intros; ring).
    rewrite mat_vec_plus, mat_vec_scale. change (mat_vec N A (fun j0 : nat => x0 j0) m) with (mat_vec N A x0 m). 
    change (mat_vec N A (fun j0 : nat => xs j0) m) with (mat_vec N A xs m). ring. }
  rewrite (power_ext N A B j _ (fun l => rsum 1 (fun _ => -1 * preconditioned N A B (fun j => x0 j - xs j) l)) i Hi).
  2: { intros l Hl. cbn [rsum]. rewrite (Z l Hl). ring. }
  rewrite (power_rsum N A B j 1 (fun _ => -1) (fun _ => preconditioned N A B (fun j => x0 j - xs j)) i Hi).
  cbn [rsum]. rewrite power_shift. unfold Rminus. ring.
Qed.
Lemma poly_eigen : forall N A B k c n u v l a, combination N n u a v -> (forall m, (m < n)%nat -> eigenvector N (preconditioned N A B) (l m) (v m)) ->
  forall i, (i < N)%nat -> at_operator (preconditioned N A B) k c u i = rsum n (fun m => (at_number k c (l m) * a m) * v m i).
Proof.
  intros N A B k c n u v l a Hu Hv i Hi. unfold at_operator.
  rewrite (rsum_ext (S k) _ (fun j => rsum n (fun m => c j * (a m * ((l m) ^ j * v m i))))).
  - rewrite rsum_swap. apply rsum_ext. intros m _. unfold at_number.
    rewrite (rsum_ext (S k) _ (fun j => (c j * l m ^ j) * (a m * v m i))) by (intros; ring). rewrite rsum_scale_r. ring.
  - intros j _. rewrite rsum_scale. f_equal.
    rewrite (power_ext N A B j u (fun i => rsum n (fun m => a m * v m i)) i Hi Hu), power_rsum by exact Hi.
    apply rsum_ext. intros m Hm. f_equal. apply power_eigen; [exact Hi | now apply Hv].
Qed.
(** Every component of the error is multiplied with a factor that depends on its eigenvalue only; as long as the bound is not
    below the eigenvalue and alpha is not above beta, no component grows and all except those for zero shrink. *)
Theorem lspoly_damps_error : forall cfg alpha beta, c_alpha cfg = INR alpha -> c_beta cfg = INR beta -> (alpha <= beta)%nat ->
  let e := c_estbias cfg * c_emax cfg in 0 < e ->
  exists factor, (forall k, factor k 0 = 1) /\ (forall k t, (1 <= k)%nat -> 0 < t <= e -> Rabs (factor k t) < 1) /\
  forall N A B b rnorm0 x0 st, KSPSolve_LSPoly N A B cfg b rnorm0 x0 = Some st ->
  exists k, (k <= c_max_it cfg)%nat /\ (c_normtype cfg = NORM_NONE -> k = c_max_it cfg) /\
  forall xs n a v l, (forall i, (i < N)%nat -> mat_vec N A xs i = b i) ->
    combination N n (fun i => x0 i - xs i) a v -> (forall m, (m < n)%nat -> eigenvector N (preconditioned N A B) (l m) (v m)) ->
    combination N n (fun i => ks_x st i - xs i) (fun m => factor k (l m) * a m) v.
Proof.
  intros cfg alpha beta Ea Eb Hab e He. exists (fun k => at_number k (rcoef (INR alpha) (INR beta) e k)).
  split; [intros k; apply at_zero |]. split; [intros k t Hk Ht; now apply factor_lt_one |].
  intros N A B b rnorm0 x0 st H. destruct (solve_end _ _ _ _ _ _ _ _ H) as (k & Hk & Ha & Hn & _). exists k.
  split; [exact Hk |]. split; [intros E; apply Hn; now rewrite E |].
  intros xs n a v l Hs Hc Hv i Hi.
  rewrite (error_poly N A B b x0 xs k (rcoef (INR alpha) (INR beta) e k) (ks_x st) eq_refl); [| | exact Hs | exact Hi].
  - now apply (poly_eigen N A B k (rcoef (INR alpha) (INR beta) e k) n (fun i => x0 i - xs i) v l a).
  - rewrite <- Ea, <- Eb. apply corrected_of. apply Ha.
Qed.
Print Assumptions lspoly_damps_error.

(** ** As a preconditioner *)
Lemma correction_positive : forall alpha beta e k t, (alpha <= beta)%nat -> 0 < e -> (1 <= k)%nat -> 0 <= t <= e -> 0 < sval alpha beta e k t.
Proof.
  intros alpha beta e k t Hab He Hk Ht. destruct (Req_dec t 0) as [-> | Hne].
  - pose proof (end_slope alpha (S beta) k) as Hs. pose proof (jacobi_minus_one_neq k alpha (S beta)) as Hp.
    set (L := INR k * (INR k + INR alpha + INR (S beta) + 1)) in *.
    assert (HL : 0 < L).
    { unfold L. pose proof (pos_INR alpha). pose proof (pos_INR (S beta)). assert (0 < INR k) by (apply lt_0_INR; lia). apply Rmult_lt_0_compat; lra. }
    assert (D1 : derivable_pt_lim (fun t => jacobi k alpha (S beta) (2 * t / e - 1) / jacobi k alpha (S beta) (-1)) 0
      (/ jacobi k alpha (S beta) (-1) * (P1 alpha (S beta) k (-1) * (2 / e)))).
    { apply (derivable_pt_lim_ext_eq (fun t => / jacobi k alpha (S beta) (-1) * jacobi k alpha (S beta) (-1 + 2 / e * t)) _ 0
        (/ jacobi k alpha (S beta) (-1) * (P1 alpha (S beta) k (-1) * (2 / e)))); [| reflexivity |].
      - intros u. unfold Rdiv. rewrite Rmult_comm. do 2 f_equal. ring.
      - apply (derivable_pt_lim_scal (fun u => jacobi k alpha (S beta) (-1 + 2 / e * u))).
        apply (derivable_pt_lim_comp (fun u => -1 + 2 / e * u) (jacobi k alpha (S beta)) 0 (2 / e)).
        + apply (derivable_pt_lim_ext_eq (fun u => -1 + 2 / e * u) _ 0 (0 + 2 / e * 1)); [reflexivity | ring |].
          apply (derivable_pt_lim_plus (fct_cte (-1)) (fun u => 2 / e * u)); [apply derivable_pt_lim_const |].
          apply (derivable_pt_lim_scal id). apply derivable_pt_lim_id.
        + replace (-1 + 2 / e * 0) with (-1) by ring. apply P1_deriv. }
    assert (D2 : exists q, derivable_pt_lim (sval alpha beta e k) 0 q).
    { exists (rsum k (fun j => scoef (INR alpha) (INR beta) e k j * (INR j * 0 ^ pred j))).
      apply (derivable_pt_lim_rsum k (fun j t => scoef (INR alpha) (INR beta) e k j * t ^ j)). intros j _.
      apply (derivable_pt_lim_scal (fun t => t ^ j)). apply derivable_pt_lim_pow. }
    destruct D2 as (q & D2).
    assert (D3 : derivable_pt_lim (fun t => jacobi k alpha (S beta) (2 * t / e - 1) / jacobi k alpha (S beta) (-1)) 0 (- sval alpha beta e k 0)).
    { apply (derivable_pt_lim_ext_eq (fun t => 1 - t * sval alpha beta e k t) _ 0 (0 - (1 * sval alpha beta e k 0 + 0 * q))); [| ring |].
      - intros u. rewrite <- rval_sval. now apply rval_jacobi.
      - apply (derivable_pt_lim_minus (fct_cte 1) (fun t => t * sval alpha beta e k t)); [apply derivable_pt_lim_const |].
        apply (derivable_pt_lim_mult id (sval alpha beta e k)); [apply derivable_pt_lim_id | exact D2]. }
    pose proof (uniqueness_limite _ _ _ _ D1 D3) as U.
    set (p := jacobi k alpha (S beta) (-1)) in *. set (p' := P1 alpha (S beta) k (-1)) in *.
    pose proof (pos_INR (S beta)) as Hb.
    assert (Ep' : p' = - L * p / (2 * (INR (S beta) + 1))) by (rewrite <- Hs; field; lra).
    assert (Es : sval alpha beta e k 0 = L / (e * (INR (S beta) + 1))).
    { replace (sval alpha beta e k 0) with (- (/ p * (p' * (2 / e)))) by (rewrite U; ring). rewrite Ep'. field. repeat split; lra. }
    rewrite Es. apply Rdiv_lt_0_compat; [exact HL | apply Rmult_lt_0_compat; lra].
  - pose proof (factor_lt_one alpha beta e k t Hab He Hk ltac:(lra)) as F. rewrite rval_sval in F. apply Rabs_def2 in F. destruct F as [_ F].
    destruct (Rlt_le_dec 0 (sval alpha beta e k t)) as [K | K]; [exact K |].
    exfalso. pose proof (factor_lt_one alpha beta e k t Hab He Hk ltac:(lra)) as F'. rewrite rval_sval in F'. apply Rabs_def2 in F'.
    assert (0 <= t * - sval alpha beta e k t) by (apply Rmult_le_pos; lra). lra.
Qed.

Lemma mat_vec_dot : forall N A u v, symmetric N A -> dot N u (mat_vec N A v) = dot N (mat_vec N A u) v.
Proof.
  intros N A u v H. unfold dot, mat_vec.
  rewrite (rsum_ext N _ (fun i => rsum N (fun j => u i * (A i j * v j)))) by (intros; now rewrite rsum_scale).
  rewrite rsum_swap. apply rsum_ext. intros j Hj. rewrite <- rsum_scale_r. apply rsum_ext. intros i Hi. rewrite (H i j Hi Hj). ring.
Qed.
Lemma dot_ext : forall N u v u' v', (forall i, (i < N)%nat -> u i = u' i) -> (forall i, (i < N)%nat -> v i = v' i) -> dot N u v = dot N u' v'.
Proof. intros N u v u' v' Hu Hv. unfold dot. apply rsum_ext. intros i Hi. now rewrite Hu, Hv. Qed.
Lemma dot_comm : forall N u v, dot N u v = dot N v u.
Proof. intros. unfold dot. apply rsum_ext. intros. ring. Qed.
Lemma power_mixed_dot : forall N A B k u v, symmetric N A -> symmetric N B ->
  dot N u (power (preconditioned N A B) k (mat_vec N B v)) = dot N (power (preconditioned N A B) k (mat_vec N B u)) v.
Proof.
  intros N A B k u v HA HB. revert u. induction k as [| k IH]; intros u; cbn [power]; [now apply mat_vec_dot |].
  unfold preconditioned at 1. rewrite mat_vec_dot, mat_vec_dot by assumption. rewrite IH.
  rewrite <- power_shift. reflexivity.
Qed.
Lemma solve_none : forall N A B cfg b rnorm0 x0 st, c_normtype cfg = NORM_NONE -> KSPSolve_LSPoly N A B cfg b rnorm0 x0 = Some st ->
  forall i, (i < N)%nat -> ks_x st i = x0 i + rsum (c_max_it cfg) (fun j => scoef (c_alpha cfg) (c_beta cfg) (c_estbias cfg * c_emax cfg) (c_max_it cfg) j
    * power (preconditioned N A B) j (mat_vec N B (residual N A b x0)) i).
Proof.
  intros N A B cfg b rnorm0 x0 st Hn H. destruct (solve_end _ _ _ _ _ _ _ _ H) as (k & _ & (Hx & _) & Hk & _).
  rewrite Hn in Hk. rewrite <- (Hk eq_refl). exact Hx.
Qed.
Lemma from_zero : forall N A B b j i, (i < N)%nat ->
  power (preconditioned N A B) j (mat_vec N B (residual N A b (fun _ => 0))) i = power (preconditioned N A B) j (mat_vec N B b) i.
Proof.
  intros N A B b j i Hi. apply power_ext; [exact Hi |]. intros l _. apply mat_vec_ext. intros m _. unfold residual.
  unfold mat_vec. rewrite rsum_zero; [ring | intros; ring].
Qed.
(** A fixed number of iterations from zero is a symmetric positive definite linear operation on the right-hand side, so that
    the smoother can be used inside the conjugate gradient method. *)
Theorem lspoly_preconditioner : forall cfg N A B rnorm0, c_normtype cfg = NORM_NONE -> symmetric N A -> symmetric N B ->
  let apply b x := exists st, KSPSolve_LSPoly N A B cfg b rnorm0 (fun _ => 0) = Some st /\ x = ks_x st in
  (forall b b' x x', apply b x -> apply b' x' -> dot N b' x = dot N b x')
  /\ (forall b b' s x x' y, apply b x -> apply b' x' -> apply (fun i => b i + s * b' i) y -> forall i, (i < N)%nat -> y i = x i + s * x' i)
  /\ (forall alpha beta n a u l b x, c_alpha cfg = INR alpha -> c_beta cfg = INR beta -> (alpha <= beta)%nat -> (1 <= c_max_it cfg)%nat ->
      0 < c_estbias cfg * c_emax cfg -> apply b x -> combination N n b a u ->
      (forall m, (m < n)%nat -> 0 <= l m <= c_estbias cfg * c_emax cfg /\ eigenvector N (fun w => mat_vec N A (mat_vec N B w)) (l m) (u m)) ->
      (forall m m', (m < n)%nat -> (m' < n)%nat -> m <> m' -> dot N (u m) (mat_vec N B (u m')) = 0) ->
      (forall m, (m < n)%nat -> 0 < dot N (u m) (mat_vec N B (u m))) ->
      0 <= dot N b x /\ ((exists m, (m < n)%nat /\ a m <> 0) -> 0 < dot N b x)).
Proof.
  intros cfg N A B rnorm0 Hn HA HB apply.
  set (k := c_max_it cfg). set (s := scoef (c_alpha cfg) (c_beta cfg) (c_estbias cfg * c_emax cfg) k).
  assert (Hap : forall b x, apply b x -> forall i, (i < N)%nat -> x i = rsum k (fun j => s j * power (preconditioned N A B) j (mat_vec N B b) i)).
  { intros b x (st & H & ->) i Hi. rewrite (solve_none _ _ _ _ _ _ _ _ Hn H i Hi). rewrite Rplus_0_l. apply rsum_ext. intros j _. now rewrite from_zero. }
  assert (Hdot : forall b b' x, apply b x -> dot N b' x = rsum k (fun j => s j * dot N b' (power (preconditioned N A B) j (mat_vec N B b)))).
  { intros b b' x H. unfold dot.
    rewrite (rsum_ext N _ (fun i => rsum k (fun j => s j * (b' i * power (preconditioned N A B) j (mat_vec N B b) i)))).
    - rewrite rsum_swap. apply rsum_ext. intros j _. now rewrite rsum_scale.
    - intros i Hi. rewrite (Hap b x H i Hi), <- rsum_scale. apply rsum_ext. intros. ring. }
  split; [| split].
  - intros b b' x x' H H'. rewrite (Hdot b b' x H), (Hdot b' b x' H'). apply rsum_ext. intros j _. f_equal.
    rewrite power_mixed_dot by assumption. apply dot_comm.
  - intros b b' q x x' y H H' Hy i Hi. rewrite (Hap _ _ H i Hi), (Hap _ _ H' i Hi), (Hap _ _ Hy i Hi), <- rsum_scale, <- rsum_plus.
    apply rsum_ext. intros j _.
    rewrite (power_ext N A B j _ (fun l => rsum 2 (fun m => (match m with O => 1 | _ => q end) * (match m with O => mat_vec N B b | _ => mat_vec N B b' end) l)) i Hi).
    2: { intros l _. cbn [rsum]. rewrite mat_vec_plus, mat_vec_scale. change (mat_vec N B (fun j0 : nat => b j0) l) with (mat_vec N B b l). ring. }
    rewrite power_rsum by exact Hi. cbn [rsum].
    change (fun j0 : nat => mat_vec N B b j0) with (mat_vec N B b). change (fun j0 : nat => mat_vec N B b' j0) with (mat_vec N B b'). ring.
  - intros alpha beta n a u l b x Ea Eb Hab Hk He H Hb Hl Ho Hp.
    assert (Epow : forall j m i, (i < N)%nat -> (m < n)%nat -> power (preconditioned N A B) j (mat_vec N B (u m)) i = l m ^ j * mat_vec N B (u m) i).
    { intros j m i Hi Hm. apply power_eigen; [exact Hi |]. intros i' Hi'. unfold preconditioned.
      rewrite (mat_vec_ext N B _ (fun q => l m * u m q)) by (intros q Hq; now apply (proj2 (Hl m Hm))). apply mat_vec_scale. }
    assert (Eval : dot N b x = rsum n (fun m => a m * a m * (sval alpha beta (c_estbias cfg * c_emax cfg) k (l m) * dot N (u m) (mat_vec N B (u m))))).
    { rewrite (Hdot b b x H).
      rewrite (rsum_ext k _ (fun j => rsum n (fun m => s j * (a m * (l m ^ j * (a m * dot N (u m) (mat_vec N B (u m)))))))).
      - rewrite rsum_swap. apply rsum_ext. intros m _. unfold sval. rewrite <- Ea, <- Eb. fold s.
        rewrite (rsum_ext k _ (fun j => (s j * l m ^ j) * (a m * a m * dot N (u m) (mat_vec N B (u m))))) by (intros; ring).
        rewrite rsum_scale_r. ring.
      - intros j _. rewrite rsum_scale. f_equal. unfold dot at 1.
        rewrite (rsum_ext N _ (fun i => rsum n (fun m => a m * (l m ^ j * (b i * mat_vec N B (u m) i))))).
        + rewrite rsum_swap. apply rsum_ext. intros m Hm. rewrite !rsum_scale. do 2 f_equal.
          change (dot N b (mat_vec N B (u m)) = a m * dot N (u m) (mat_vec N B (u m))).
          rewrite (dot_ext N b (mat_vec N B (u m)) (fun i => rsum n (fun m' => a m' * u m' i)) (mat_vec N B (u m)) Hb ltac:(reflexivity)).
          unfold dot at 1.
          rewrite (rsum_ext N _ (fun i => rsum n (fun m' => a m' * (u m' i * mat_vec N B (u m) i)))) by (intros i _; rewrite <- rsum_scale_r; apply rsum_ext; intros; ring).
          rewrite rsum_swap. rewrite (rsum_single n m (fun m' => rsum N (fun i => a m' * (u m' i * mat_vec N B (u m) i))) Hm).
          * now rewrite rsum_scale.
          * intros m' Hm' Hne. rewrite rsum_scale. rewrite (Ho m' m Hm' Hm Hne : rsum N (fun i => u m' i * mat_vec N B (u m) i) = 0). ring.
        + intros i Hi. rewrite (power_ext N A B j (mat_vec N B b) (fun l' => rsum n (fun m => a m * mat_vec N B (u m) l')) i Hi).
          * rewrite power_rsum by exact Hi. rewrite <- rsum_scale. apply rsum_ext. intros m Hm. rewrite Epow by assumption. ring.
          * intros l' _. rewrite (mat_vec_ext N B b (fun i => rsum n (fun m => a m * u m i)) l' Hb). apply mat_vec_rsum. }
    assert (Hterm : forall m, (m < n)%nat -> 0 < sval alpha beta (c_estbias cfg * c_emax cfg) k (l m) * dot N (u m) (mat_vec N B (u m))).
    { intros m Hm. apply Rmult_lt_0_compat; [apply correction_positive; try assumption; now apply Hl | now apply Hp]. }
    rewrite Eval. assert (Hnn : forall m, (m < n)%nat -> 0 <= a m * a m * (sval alpha beta (c_estbias cfg * c_emax cfg) k (l m) * dot N (u m) (mat_vec N B (u m)))).
    { intros m Hm. apply Rmult_le_pos; [apply Rle_0_sqr | apply Rlt_le; now apply Hterm]. }
    split; [now apply rsum_nonneg |]. intros (m & Hm & Ham).
    destruct (rsum_nonneg n _ Hnn) as [K | K]; [exact K |]. exfalso. symmetry in K.
    pose proof (rsum_nonneg_zero n _ Hnn K m Hm) as Z. pose proof (Hterm m Hm).
    apply Rmult_integral in Z. destruct Z as [Z | Z]; [| lra]. apply Rmult_integral in Z. tauto.
Qed.
Print Assumptions lspoly_preconditioner.

(** ** The bound *)
(** The bound that is computed is not below any of the eigenvalue estimates. *)
Theorem lspoly_bound : forall min_real re l, In l re -> l <= extreme_eigenvalue min_real re.
Proof.
  intros min_real re. unfold extreme_eigenvalue.
  assert (G : forall re m, m <= fold_left Rmax re m).
  { induction re0 as [| r re0 IH]; intros m; cbn [fold_left]; [lra |]. apply Rle_trans with (Rmax m r); [apply Rmax_l | apply IH]. }
  revert min_real. induction re as [| r re IH]; intros m l Hl; [destruct Hl |]. cbn [fold_left]. destruct Hl as [-> | Hl]; [| now apply IH].
  apply Rle_trans with (Rmax m l); [apply Rmax_r | apply G].
Qed.
Print Assumptions lspoly_bound.

(** ** The conditions are needed, and met *)
(** One unknown: A = t, B = 1, b = 0, x0 = 1; the error is the iterate. *)
Definition scalar_cfg (alpha beta emax : R) (its : nat) : lspoly_config :=
  {| c_alpha := alpha; c_beta := beta; c_emax := emax; c_estbias := 1; c_max_it := its; c_normtype := NORM_NONE;
     c_converged := fun _ _ => 0%Z; c_diagonalscale := false |}.
Lemma one_step : forall alpha beta emax t, 0 <= alpha -> 0 <= beta -> 0 < emax ->
  exists st, KSPSolve_LSPoly 1 (fun _ _ => t) (fun _ _ => 1) (scalar_cfg alpha beta emax 1) (fun _ => 0) 0 (fun _ => 1) = Some st
    /\ ks_x st 0%nat = 1 - (alpha + beta + 3) / (beta + 2) * (t / emax).
Proof.
  intros alpha beta emax t Ha Hb He. eexists. split; [reflexivity |].
  cbn [c_max_it scalar_cfg c_normtype has_norm lspoly_loop ks_its ks_x ks_delta ks_rp ks_rnorm ks_reason Z.eqb c_alpha c_beta c_estbias c_emax].
  unfold ResidualP_Next, ResidualP_Init. cbn [rp_alpha rp_beta rp_emax rp_P0n_1 rp_P0n rp_n Z.add Z.ltb Z.compare Z.pos_sub Z.eqb ks_x ks_its Nat.leb ks_reason].
  unfold compute_residual, mat_vec. cbn [rsum].
  destruct (Req_EM_T (Rabs alpha) (Rabs (beta + 1))) as [E | E].
  - rewrite !Rabs_pos_eq in E by lra. subst alpha. field. repeat split; nra.
  - field. repeat split; try lra; try nra.
Qed.
(** If the estimate of the largest eigenvalue is too small by a factor of two, one iteration with the default exponents doubles
    the error. *)
Theorem lspoly_small_bound_refuted : exists st,
  KSPSolve_LSPoly 1 (fun _ _ => 2) (fun _ _ => 1) (scalar_cfg 0 0 1 1) (fun _ => 0) 0 (fun _ => 1) = Some st /\ ks_x st 0%nat = -2.
Proof. destruct (one_step 0 0 1 2) as (st & H & E); try lra. exists st. split; [exact H |]. rewrite E. field. Qed.
Print Assumptions lspoly_small_bound_refuted.
(** With exponents alpha = 2, beta = 0 the component of the largest eigenvalue grows although the bound is right. *)
Theorem lspoly_large_alpha_refuted : exists st,
  KSPSolve_LSPoly 1 (fun _ _ => 1) (fun _ _ => 1) (scalar_cfg (INR 2) (INR 0) 1 1) (fun _ => 0) 0 (fun _ => 1) = Some st /\ Rabs (ks_x st 0%nat) > 1.
Proof.
  destruct (one_step (INR 2) (INR 0) 1 1) as (st & H & E); [cbn; lra | cbn; lra | lra |]. exists st. split; [exact H |]. rewrite E. cbn [INR].
  replace (1 - (1 + 1 + 0 + 3) / (0 + 2) * (1 / 1)) with (-(3/2)) by field. rewrite Rabs_Ropp, Rabs_pos_eq; lra.
Qed.
Print Assumptions lspoly_large_alpha_refuted.

(** Two unknowns with eigenvalues 1 and 2, the default exponents and safety factor, three iterations. *)
Definition diag12 (i j : nat) : R := if Nat.eqb i j then INR (S i) else 0.
Definition ident (i j : nat) : R := if Nat.eqb i j then 1 else 0.
Definition cfg12 : lspoly_config :=
  {| c_alpha := INR 0; c_beta := INR 0; c_emax := 2; c_estbias := 11 / 10; c_max_it := 3; c_normtype := NORM_NONE;
     c_converged := fun _ _ => 0%Z; c_diagonalscale := false |}.
Lemma solve_some : forall N A B cfg b rnorm0 x0, c_diagonalscale cfg = false -> exists st, KSPSolve_LSPoly N A B cfg b rnorm0 x0 = Some st.
Proof. intros N A B cfg b rnorm0 x0 H. unfold KSPSolve_LSPoly. rewrite H. eexists. reflexivity. Qed.
Example damping_case : exists factor, (forall t, 0 < t <= 22 / 10 -> Rabs (factor t) < 1) /\
  exists st, KSPSolve_LSPoly 2 diag12 ident cfg12 (fun _ => 0) 0 (fun _ => 1) = Some st /\
    forall i, (i < 2)%nat -> ks_x st i = factor (INR (S i)).
Proof.
  destruct (lspoly_damps_error cfg12 0 0 eq_refl eq_refl (le_n _)) as (factor & _ & F & H); [cbn; lra |].
  exists (factor 3%nat). split; [intros t Ht; apply F; [lia | cbn; lra] |].
  destruct (solve_some 2 diag12 ident cfg12 (fun _ => 0) 0 (fun _ => 1) eq_refl) as (st & Hst).
  exists st. split; [exact Hst |]. intros i Hi.
  destruct (H 2%nat diag12 ident (fun _ => 0) 0 (fun _ => 1) st Hst) as (k & _ & Hk & Hc). rewrite (Hk eq_refl) in Hc. cbn [c_max_it cfg12] in Hc.
  pose proof (Hc (fun _ => 0) 2%nat (fun _ => 1) ident (fun m => INR (S m))) as K.
  assert (K0 : forall i, (i < 2)%nat -> mat_vec 2 diag12 (fun _ => 0) i = 0) by (intros; unfold mat_vec; rewrite rsum_zero; [reflexivity | intros; ring]).
  specialize (K K0). rewrite <- (Rminus_0_r (ks_x _ i)). etransitivity; [apply K; [| | exact Hi] |].
  - intros j Hj. unfold ident. destruct j as [| [| j]]; cbn; [ring | ring | lia].
  - intros m Hm j Hj. unfold preconditioned, mat_vec, diag12, ident. destruct m as [| [| m]]; [| | lia]; destruct j as [| [| j]]; try lia; cbn; ring.
  - unfold ident. destruct i as [| [| i]]; [| | lia]; cbn; ring.
Qed.
Example preconditioner_case : exists st, KSPSolve_LSPoly 2 diag12 ident cfg12 (fun _ => 1) 0 (fun _ => 0) = Some st /\ 0 < dot 2 (fun _ => 1) (ks_x st).
Proof.
  destruct (solve_some 2 diag12 ident cfg12 (fun _ => 1) 0 (fun _ => 0) eq_refl) as (st & Hst).
  exists st. split; [exact Hst |].
  destruct (lspoly_preconditioner cfg12 2 diag12 ident 0 eq_refl) as (_ & _ & P).
  - intros i j _ _. unfold diag12. destruct (Nat.eqb_spec i j) as [-> | E]; [now rewrite Nat.eqb_refl |]. destruct (Nat.eqb_spec j i); congruence.
  - intros i j _ _. unfold ident. destruct (Nat.eqb_spec i j) as [-> | E]; [now rewrite Nat.eqb_refl |]. destruct (Nat.eqb_spec j i); congruence.
  - refine (proj2 (P 0%nat 0%nat 2%nat (fun _ => 1) ident (fun m => INR (S m)) (fun _ => 1) (ks_x st) eq_refl eq_refl (le_n _) _ _ (ex_intro _ st (conj Hst eq_refl)) _ _ _ _) _).
    + cbn; lia.
    + cbn; lra.
    + intros j Hj. unfold ident. destruct j as [| [| j]]; cbn; [ring | ring | lia].
    + intros m Hm. split; [destruct m as [| [| m]]; [| | lia]; cbn; lra |]. intros j Hj. unfold mat_vec, diag12, ident.
      destruct m as [| [| m]]; [| | lia]; destruct j as [| [| j]]; try lia; cbn; ring.
    + intros m m' Hm Hm' Hne. unfold dot, mat_vec, ident. destruct m as [| [| m]], m' as [| [| m']]; try lia; cbn; ring.
    + intros m Hm. unfold dot, mat_vec, ident. destruct m as [| [| m]]; try lia; cbn; lra.
    + exists 0%nat. split; [lia | lra].
Qed.
(** The best polynomial of degree one for the default exponents on [0, 1] is 1 - 3/2 t. *)
Example best_case : exists c, least_squares 1 0 0 1 c /\ (forall t, at_number 1 c t = 1 - 3 / 2 * t).
Proof.
  exists (rcoef (INR 0) (INR 0) 1 1). split; [apply rcoef_least_squares; lra |]. intros t. rewrite rval_jacobi by lra.
  assert (E1 : forall x, jacobi 1 0 1 x = 3 / 2 * x - 1 / 2). { intros x. unfold jacobi, jacobi_coeff. cbn. field. }
  rewrite !E1. field.
Qed.
