(** The iterates of the smoother as polynomials of the preconditioned operator, and the polynomials as Jacobi polynomials. *)
Require Import List Arith Lia ZArith Reals Lra.
Require Import Verif.LinAlg Verif.BasisModel Verif.BasisSpec Verif.JacobiProofs Verif.IntegralSpec Verif.IntegralProofs Verif.OrthogonalProofs Verif.RootsProofs.
Require Import Verif.LsPolySpec Verif.LsPolyModel Verif.LsPolyJacobi.
Local Open Scope R_scope.

Lemma mat_vec_ext : forall N A u v i, (forall j, (j < N)%nat -> u j = v j) -> mat_vec N A u i = mat_vec N A v i.
Proof. intros N A u v i H. unfold mat_vec. apply rsum_ext. intros j Hj. now rewrite H. Qed.
Lemma mat_vec_plus : forall N A u v i, mat_vec N A (fun j => u j + v j) i = mat_vec N A u i + mat_vec N A v i.
Proof. intros N A u v i. unfold mat_vec. rewrite <- rsum_plus. apply rsum_ext. intros. ring. Qed.
Lemma mat_vec_scale : forall N A c v i, mat_vec N A (fun j => c * v j) i = c * mat_vec N A v i.
Proof. intros N A c v i. unfold mat_vec. rewrite <- rsum_scale. apply rsum_ext. intros. ring. Qed.
Lemma mat_vec_rsum : forall N A n (c : nat -> R) (v : nat -> nat -> R) i,
  mat_vec N A (fun j => rsum n (fun m => c m * v m j)) i = rsum n (fun m => c m * mat_vec N A (v m) i).
Proof.
  intros N A n c v i. unfold mat_vec.
  rewrite (rsum_ext N _ (fun j => rsum n (fun m => A i j * (c m * v m j)))) by (intros j _; now rewrite rsum_scale).
  rewrite rsum_swap. apply rsum_ext. intros m _. rewrite <- rsum_scale. apply rsum_ext. intros j _. ring.
Qed.

Section Operator.
Variable N : nat.
Variables A B : nat -> nat -> R.
Local Notation op := (preconditioned N A B).
Lemma op_ext : forall u v i, (forall j, (j < N)%nat -> u j = v j) -> op u i = op v i.
Proof. intros u v i H. unfold preconditioned. apply mat_vec_ext. intros j _. now apply mat_vec_ext. Qed.
Lemma op_rsum : forall n (c : nat -> R) (v : nat -> nat -> R) i,
  op (fun j => rsum n (fun m => c m * v m j)) i = rsum n (fun m => c m * op (v m) i).
Proof.
  intros n c v i. unfold preconditioned.
  rewrite (mat_vec_ext N B _ (fun j => rsum n (fun m => c m * mat_vec N A (v m) j))) by (intros; apply mat_vec_rsum).
  apply mat_vec_rsum.
Qed.
Lemma power_ext : forall k u v i, (i < N)%nat -> (forall j, (j < N)%nat -> u j = v j) -> power op k u i = power op k v i.
Proof.
  induction k as [| k IH]; intros u v i Hi H; cbn [power]; [now apply H |]. apply op_ext. intros j Hj. now apply IH.
Qed.
Lemma power_rsum : forall k n (c : nat -> R) (v : nat -> nat -> R) i, (i < N)%nat ->
  power op k (fun j => rsum n (fun m => c m * v m j)) i = rsum n (fun m => c m * power op k (v m) i).
Proof.
  induction k as [| k IH]; intros n c v i Hi; cbn [power]; [reflexivity |].
  rewrite (op_ext _ (fun j => rsum n (fun m => c m * power op k (v m) j))); [apply op_rsum | intros j Hj; now apply IH].
Qed.
Lemma power_shift : forall k v, power op k (op v) = op (power op k v).
Proof. induction k as [| k IH]; intros v; cbn [power]; [reflexivity |]. now rewrite IH. Qed.
Lemma power_eigen : forall k l v i, (i < N)%nat -> eigenvector N op l v -> power op k v i = l ^ k * v i.
Proof.
  intros k l v i Hi H. revert i Hi. induction k as [| k IH]; intros i Hi; cbn [power pow]; [ring |].
  rewrite (op_ext _ (fun j => l ^ k * v j)) by (intros; now apply IH).
  pose proof (op_rsum 1 (fun _ => l ^ k) (fun _ => v) i) as K. cbn [rsum] in K.
  etransitivity; [apply op_ext; intros j Hj; symmetry; apply Rplus_0_l |]. rewrite K, (H i Hi). ring.
Qed.
End Operator.

(** ** The coefficients *)
Section Coefficients.
Variables alpha beta emax : R.
Fixpoint rp_at (k : nat) : ResidualP := match k with O => ResidualP_Init alpha beta emax | S k => fst (ResidualP_Next (rp_at k)) end.
Definition psi_at (k : nat) : R := fst (fst (snd (ResidualP_Next (rp_at k)))).
Definition phi_at (k : nat) : R := snd (fst (snd (ResidualP_Next (rp_at k)))).
Definition xi_at (k : nat) : R := snd (snd (ResidualP_Next (rp_at k))).
(** Coefficients of the correction, of the last update, and of the residual. *)
Definition res_of (s : nat -> R) (j : nat) : R := match j with O => 1 | S j => - s j end.
Fixpoint coeffs (k : nat) : (nat -> R) * (nat -> R) :=
  match k with
  | O => (fun _ => 0, fun _ => 0)
  | S k => let d := fun j => - phi_at k * res_of (fst (coeffs k)) j + xi_at k * snd (coeffs k) j in
           (fun j => fst (coeffs k) j + d j, d)
  end.
Definition scoef k := fst (coeffs k).
Definition dcoef k := snd (coeffs k).
Definition rcoef k := res_of (scoef k).
Lemma coeffs_high : forall k j, (k <= j)%nat -> scoef k j = 0 /\ dcoef k j = 0.
Proof.
  induction k as [| k IH]; intros j Hj; [now split |]. unfold scoef, dcoef in *. cbn [coeffs fst snd].
  destruct (IH j ltac:(lia)) as [E1 E2]. destruct j as [| j]; [lia |]. destruct (IH j ltac:(lia)) as [E3 _].
  cbn [res_of]. rewrite E1, E2, E3. split; ring.
Qed.
End Coefficients.

(** ** The loop *)
Section Loop.
Variable N : nat.
Variables A B : nat -> nat -> R.
Variable cfg : lspoly_config.
Variables b x0 : nat -> R.
Local Notation op := (preconditioned N A B).
Local Notation e := (c_estbias cfg * c_emax cfg).
Local Notation z := (mat_vec N B (residual N A b x0)).
Local Notation scoef := (scoef (c_alpha cfg) (c_beta cfg) e).
Local Notation dcoef := (dcoef (c_alpha cfg) (c_beta cfg) e).
Local Notation rcoef := (rcoef (c_alpha cfg) (c_beta cfg) e).
Local Notation rp_at := (rp_at (c_alpha cfg) (c_beta cfg) e).

Lemma corrected_of : forall k x, (forall i, (i < N)%nat -> x i = x0 i + rsum k (fun j => scoef k j * power op j z i)) ->
  corrected N A B b x0 k (rcoef k) x.
Proof.
  intros k x H. split.
  - intros i Hi. rewrite H by exact Hi. f_equal. apply rsum_ext. intros j _. unfold LsPolyProofs.rcoef. cbn [res_of]. ring.
  - intros i Hi. unfold at_operator. rewrite rsum_head. cbn [power]. unfold LsPolyProofs.rcoef at 1. cbn [res_of]. rewrite Rmult_1_l.
    rewrite (mat_vec_ext N B _ (fun j => residual N A b x0 j + -1 * mat_vec N A (fun l => rsum k (fun m => scoef k m * power op m z l)) j)).
    + rewrite mat_vec_plus, mat_vec_scale. f_equal.
      change (mat_vec N B (mat_vec N A (fun l => rsum k (fun m => scoef k m * power op m z l))) i)
        with (op (fun l => rsum k (fun m => scoef k m * power op m z l)) i).
      rewrite op_rsum, <- rsum_scale. apply rsum_ext. intros j _. unfold LsPolyProofs.rcoef. cbn [res_of power]. change (fun j0 : nat => power op j z j0) with (power op j z). ring.
    + intros j _. change (residual N A b x j) with (b j - mat_vec N A x j). change (residual N A b x0 j) with (b j - mat_vec N A x0 j).
      rewrite (mat_vec_ext N A x (fun l => x0 l + rsum k (fun m => scoef k m * power op m z l))) by exact H.
      rewrite mat_vec_plus. change (mat_vec N A (fun j0 : nat => x0 j0) j) with (mat_vec N A x0 j). ring.
Qed.

(** What holds before iteration k: [st] is the result of k updates. *)
Definition after (k : nat) (st : ksp_state) : Prop :=
  (forall i, (i < N)%nat -> ks_x st i = x0 i + rsum k (fun j => scoef k j * power op j z i))
  /\ (forall i, (i < N)%nat -> ks_delta st i = rsum k (fun j => dcoef k j * power op j z i))
  /\ ks_rp st = rp_at k.
Lemma compute_residual_spec : forall x j, compute_residual N A b x j = residual N A b x j.
Proof. intros. unfold compute_residual, residual. ring. Qed.
Lemma after_step : forall k st its rnorm reason, after k st ->
  let '(rp, (psi, phi, xi)) := ResidualP_Next (ks_rp st) in
  let delta := fun i => - phi * mat_vec N B (compute_residual N A b (ks_x st)) i + xi * ks_delta st i in
  after (S k) {| ks_x := fun i => ks_x st i + 1 * delta i; ks_delta := delta; ks_rp := rp; ks_its := its; ks_rnorm := rnorm; ks_reason := reason |}.
Proof.
  intros k st its rnorm reason (Hx & Hd & Hr). destruct (ResidualP_Next (ks_rp st)) as [rp [[psi phi] xi]] eqn:E.
  assert (Ephi : phi = phi_at (c_alpha cfg) (c_beta cfg) e k) by (unfold phi_at; rewrite <- Hr, E; reflexivity).
  assert (Exi : xi = xi_at (c_alpha cfg) (c_beta cfg) e k) by (unfold xi_at; rewrite <- Hr, E; reflexivity).
  set (delta := fun i => - phi * mat_vec N B (compute_residual N A b (ks_x st)) i + xi * ks_delta st i). cbv zeta. fold delta.
  assert (D : forall i, (i < N)%nat -> delta i = rsum (S k) (fun j => dcoef (S k) j * power op j z i)).
  { intros i Hi. unfold delta. rewrite (mat_vec_ext N B _ (residual N A b (ks_x st))) by (intros; apply compute_residual_spec).
    destruct (corrected_of k (ks_x st) Hx) as [_ Hres]. rewrite Hres, Hd by exact Hi. unfold at_operator.
    assert (Hpad : rsum k (fun j => dcoef k j * power op j z i) = rsum (S k) (fun j => dcoef k j * power op j z i)).
    { cbn [rsum]. destruct (coeffs_high (c_alpha cfg) (c_beta cfg) e k k ltac:(lia)) as [_ Z]. rewrite Z. ring. }
    rewrite Hpad, <- !rsum_scale, <- rsum_plus. apply rsum_ext. intros j _. rewrite Ephi, Exi.
    unfold LsPolyProofs.dcoef at 2, LsPolyProofs.rcoef. cbn [coeffs snd].
    unfold LsPolyProofs.scoef, LsPolyProofs.dcoef. ring. }
  split; [| split]; cbn [ks_x ks_delta ks_rp].
  - intros i Hi. rewrite (Hx i Hi), D by exact Hi. rewrite Rmult_1_l, Rplus_assoc. f_equal.
    assert (Hpad : rsum k (fun j => scoef k j * power op j z i) = rsum (S k) (fun j => scoef k j * power op j z i)).
    { cbn [rsum]. destruct (coeffs_high (c_alpha cfg) (c_beta cfg) e k k ltac:(lia)) as [Z _]. rewrite Z. ring. }
    rewrite Hpad, <- rsum_plus. apply rsum_ext. intros j _.
    unfold LsPolyProofs.scoef, LsPolyProofs.dcoef. cbn [coeffs fst snd]. ring.
  - exact D.
  - cbn [LsPolyProofs.rp_at]. rewrite <- Hr, E. reflexivity.
Qed.

Lemma after_0 : forall its rnorm reason,
  after 0 {| ks_x := x0; ks_delta := fun _ => 0; ks_rp := ResidualP_Init (c_alpha cfg) (c_beta cfg) e; ks_its := its; ks_rnorm := rnorm; ks_reason := reason |}.
Proof. intros. split; [| split]; cbn [ks_x ks_delta ks_rp rsum]; [intros; ring | reflexivity | reflexivity]. Qed.

Local Notation nt := (c_normtype cfg).
Local Notation rn x := (residual_norm N cfg (residual N A b x) (mat_vec N B (residual N A b x))).
Lemma residual_norm_spec : forall x,
  residual_norm N cfg (compute_residual N A b x) (mat_vec N B (compute_residual N A b x)) = rn x.
Proof.
  intros x. unfold residual_norm, norm2. destruct nt; try reflexivity; f_equal; apply rsum_ext; intros i _;
    rewrite ?compute_residual_spec; try reflexivity.
  now rewrite (mat_vec_ext N B _ (residual N A b x)) by (intros; apply compute_residual_spec).
Qed.
(** How the loop ends: after all iterations, or because the test said so. *)
Lemma loop_end : forall fuel i st, after i st -> ks_its st = i -> ks_reason st = 0%Z ->
  let st' := lspoly_loop N A B cfg b fuel i st in
  (after (i + fuel) st' /\ ks_its st' = (i + fuel)%nat /\ ks_reason st' = 0%Z /\ (has_norm nt = false -> ks_rnorm st' = ks_rnorm st))
  \/ exists k, (i <= k < i + fuel)%nat /\ after k st' /\ ks_its st' = S k /\ has_norm nt = true
       /\ ks_rnorm st' = rn (ks_x st') /\ ks_reason st' = c_converged cfg k (ks_rnorm st') /\ ks_reason st' <> 0%Z.
Proof.
  induction fuel as [| fuel IH]; intros i st Ha Hi Hr; cbv zeta; cbn [lspoly_loop].
  - left. rewrite Nat.add_0_r. auto.
  - rewrite residual_norm_spec.
    set (rnorm := if has_norm nt then rn (ks_x st) else ks_rnorm st).
    set (reason := if has_norm nt then c_converged cfg i rnorm else ks_reason st).
    destruct (Z.eqb_spec reason 0) as [E | E].
    + pose proof (after_step i st (S (ks_its st)) rnorm reason Ha) as Hs.
      destruct (ResidualP_Next (ks_rp st)) as [rp [[psi phi] xi]]. cbv zeta in Hs.
      destruct (IH (S i) _ Hs ltac:(cbn [ks_its]; lia) E) as [(K1 & K2 & K3 & K4) | (k & K1 & K2)].
      * left. replace (i + S fuel)%nat with (S i + fuel)%nat by lia. split; [exact K1 | split; [exact K2 | split; [exact K3 |]]].
        intros Hh. rewrite (K4 Hh). cbn [ks_rnorm]. unfold rnorm. now rewrite Hh.
      * right. exists k. split; [lia | exact K2].
    + right. exists i. split; [lia |]. cbn [ks_x ks_delta ks_rp ks_its ks_rnorm ks_reason].
      destruct (has_norm nt) eqn:Hh.
      * repeat split; try apply Ha; try lia; try reflexivity; exact E.
      * unfold reason in E. now rewrite Hr in E.
Qed.
End Loop.
