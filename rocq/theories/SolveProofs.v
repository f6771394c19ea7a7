(** Linear equations for blocks of coefficients: a definite bilinear form has exactly one solution for
    every right-hand side (C81). *)
Require Import List Arith Lia Bool Reals Lra.
Require Import Verif.Base Verif.LinAlg.
Local Open Scope R_scope.

Section Solve.
Variables (ne N : nat) (a : (nat -> nat -> R) -> (nat -> nat -> R) -> R) (b : (nat -> nat -> R) -> R).
Local Notation blocks := (nat -> nat -> R).
Definition agree (U V : blocks) : Prop := forall g l, (g < ne)%nat -> (l < N)%nat -> U g l = V g l.
Hypothesis a_left : forall c U V W, a (fun g l => c * U g l + V g l) W = c * a U W + a V W.
Hypothesis a_right : forall c U V W, a W (fun g l => c * U g l + V g l) = c * a W U + a W V.
Hypothesis b_linear : forall c U V, b (fun g l => c * U g l + V g l) = c * b U + b V.
Hypothesis a_local : forall U V W, agree U V -> a U W = a V W.
Hypothesis a_local_r : forall U V W, agree U V -> a W U = a W V.
Hypothesis b_local : forall U V, agree U V -> b U = b V.
Hypothesis definite : forall U, a U U = 0 -> agree U (fun _ _ => 0).

Definition expand (x : nat -> R) : blocks := fun g l => x (g * N + l)%nat.
Definition unit_block (i : nat) : blocks := fun g l => if (g * N + l =? i)%nat then 1 else 0.
Lemma zero_left W : a (fun _ _ => 0) W = 0.
Proof. pose proof (a_left 1 (fun _ _ => 0) (fun _ _ => 0) W) as E. cbv beta in E. rewrite (a_local (fun g l => 1 * 0 + 0) (fun _ _ => 0) W) in E by (intros g l _ _; ring). lra. Qed.
Lemma zero_right W : a W (fun _ _ => 0) = 0.
Proof. pose proof (a_right 1 (fun _ _ => 0) (fun _ _ => 0) W) as E. cbv beta in E. rewrite (a_local_r (fun g l => 1 * 0 + 0) (fun _ _ => 0) W) in E by (intros g l _ _; ring). lra. Qed.
Lemma zero_b : b (fun _ _ => 0) = 0.
Proof. pose proof (b_linear 1 (fun _ _ => 0) (fun _ _ => 0)) as E. cbv beta in E. rewrite (b_local (fun g l => 1 * 0 + 0) (fun _ _ => 0)) in E by (intros g l _ _; ring). lra. Qed.
Lemma sum_left n x W : a (fun g l => rsum n (fun j => x j * unit_block j g l)) W = rsum n (fun j => x j * a (unit_block j) W).
Proof.
  induction n as [|n IH]; [apply zero_left|]. cbn [rsum]. rewrite <- IH, Rplus_comm, <- a_left. apply a_local. intros g l _ _. cbn [rsum]. ring.
Qed.
Lemma sum_right n x W : a W (fun g l => rsum n (fun j => x j * unit_block j g l)) = rsum n (fun j => x j * a W (unit_block j)).
Proof.
  induction n as [|n IH]; [apply zero_right|]. cbn [rsum]. rewrite <- IH, Rplus_comm, <- a_right. apply a_local_r. intros g l _ _. cbn [rsum]. ring.
Qed.
Lemma sum_b n x : b (fun g l => rsum n (fun j => x j * unit_block j g l)) = rsum n (fun j => x j * b (unit_block j)).
Proof.
  induction n as [|n IH]; [apply zero_b|]. cbn [rsum]. rewrite <- IH, Rplus_comm, <- b_linear. apply b_local. intros g l _ _. cbn [rsum]. ring.
Qed.
Lemma index_lt g l : (g < ne)%nat -> (l < N)%nat -> (g * N + l < ne * N)%nat.
Proof. intros. nia. Qed.
Lemma expand_units x : agree (fun g l => rsum (ne * N) (fun j => x j * unit_block j g l)) (expand x).
Proof.
  intros g l Hg Hl. unfold unit_block, expand. rewrite (rsum_single (ne * N) (g * N + l)); [rewrite Nat.eqb_refl; ring|apply index_lt; auto|].
  intros i _ Ne. destruct (Nat.eqb_spec (g * N + l) i); [congruence|ring].
Qed.
Definition flat (V : blocks) (i : nat) : R := V (i / N)%nat (i mod N).
Lemma expand_flat V : agree (expand (flat V)) V.
Proof.
  intros g l Hg Hl. unfold expand, flat. rewrite Nat.div_add_l, (Nat.div_small l N), Nat.add_0_r by lia. rewrite Nat.add_comm, Nat.mod_add, Nat.mod_small by lia. reflexivity.
Qed.
Theorem exactly_one_solution : exists U, (forall V, a U V = b V) /\ forall U', (forall V, a U' V = b V) -> agree U' U.
Proof.
  set (n := (ne * N)%nat). set (M i j := a (unit_block j) (unit_block i)).
  assert (MV : forall x i, mat_vec n M x i = a (expand x) (unit_block i)).
  { intros x i. rewrite <- (a_local _ _ _ (expand_units x)), sum_left. apply rsum_ext. intros. unfold M. ring. }
  assert (NS : nonsingular n M).
  { intros x Hx j Hj. assert (Z : a (expand x) (expand x) = 0).
    { rewrite <- (a_local_r _ _ _ (expand_units x)), sum_right. apply rsum_zero. intros i Hi. rewrite <- MV, Hx by exact Hi. ring. }
    assert (N0 : N <> 0%nat) by (intro E; unfold n in Hj; rewrite E in Hj; lia).
    pose proof (definite _ Z (j / N)%nat (j mod N)) as E. unfold expand in E. rewrite (Nat.mul_comm _ N), <- Nat.div_mod in E by exact N0. apply E.
    - apply Nat.div_lt_upper_bound; [exact N0|]. unfold n in Hj. lia.
    - apply Nat.mod_upper_bound. exact N0. }
  set (x := gauss n M (fun i => b (unit_block i))).
  assert (Sx : forall i, (i < n)%nat -> a (expand x) (unit_block i) = b (unit_block i)).
  { intros i Hi. rewrite <- MV. apply (gauss_exact n M (fun i => b (unit_block i)) NS i Hi). }
  exists (expand x). split.
  - intro V. rewrite <- (a_local_r _ _ _ (expand_flat V)), <- (a_local_r _ _ _ (expand_units (flat V))), sum_right.
    rewrite <- (b_local _ _ (expand_flat V)), <- (b_local _ _ (expand_units (flat V))), sum_b. apply rsum_ext. intros i Hi. rewrite Sx by exact Hi. reflexivity.
  - intros U' HU'. assert (SX : forall V, a (expand x) V = b V).
    { intro V. rewrite <- (a_local_r _ _ _ (expand_flat V)), <- (a_local_r _ _ _ (expand_units (flat V))), sum_right.
      rewrite <- (b_local _ _ (expand_flat V)), <- (b_local _ _ (expand_units (flat V))), sum_b. apply rsum_ext. intros i Hi. rewrite Sx by exact Hi. reflexivity. }
    set (W g l := -1 * expand x g l + U' g l). assert (Z : a W W = 0) by (unfold W at 1; rewrite a_left, HU', SX; ring).
    intros g l Hg Hl. pose proof (definite W Z g l Hg Hl) as E. unfold W in E. lra.
Qed.
End Solve.
