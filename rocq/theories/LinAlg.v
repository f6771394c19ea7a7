(** Finite sums of reals and exact solution of linear systems.  Gaussian elimination shows that a
    solver with the contract of Eigen's LU and QR decompositions (in exact arithmetic) exists. *)
Require Import Arith Lia Reals Lra List.
Import ListNotations.
Local Open Scope R_scope.

(** f(0) + ... + f(n-1). *)
Fixpoint rsum (n : nat) (f : nat -> R) : R :=
  match n with O => 0 | S m => rsum m f + f m end.

Lemma rsum_ext : forall n f g, (forall i, (i < n)%nat -> f i = g i) -> rsum n f = rsum n g.
Proof.
  induction n; intros f g H; cbn; [reflexivity |]. rewrite (IHn f g), H by auto with arith. reflexivity.
Qed.
Lemma rsum_zero : forall n f, (forall i, (i < n)%nat -> f i = 0) -> rsum n f = 0.
Proof. induction n; intros f H; cbn; [reflexivity |]. rewrite IHn, H by auto with arith. ring. Qed.
Lemma rsum_plus : forall n f g, rsum n (fun i => f i + g i) = rsum n f + rsum n g.
Proof. induction n; intros; cbn; [ring |]. rewrite IHn. ring. Qed.
Lemma rsum_minus : forall n f g, rsum n (fun i => f i - g i) = rsum n f - rsum n g.
Proof. induction n; intros; cbn; [ring |]. rewrite IHn. ring. Qed.
Lemma rsum_scale : forall n c f, rsum n (fun i => c * f i) = c * rsum n f.
Proof. induction n; intros; cbn; [ring |]. rewrite IHn. ring. Qed.
Lemma rsum_scale_r : forall n c f, rsum n (fun i => f i * c) = rsum n f * c.
Proof. induction n; intros; cbn; [ring |]. rewrite IHn. ring. Qed.
Lemma rsum_swap : forall n m (f : nat -> nat -> R),
  rsum n (fun i => rsum m (f i)) = rsum m (fun j => rsum n (fun i => f i j)).
Proof.
  induction n; intros m f; cbn.
  - symmetry. apply rsum_zero. reflexivity.
  - rewrite IHn. rewrite <- rsum_plus. reflexivity.
Qed.
Lemma rsum_single : forall n k f, (k < n)%nat -> (forall i, (i < n)%nat -> i <> k -> f i = 0) ->
  rsum n f = f k.
Proof.
  induction n; intros k f Hk H; [lia |]. cbn. destruct (Nat.eq_dec k n) as [-> | Hne].
  - rewrite rsum_zero; [ring |]. intros i Hi. apply H; lia.
  - rewrite (IHn k), (H n) by (try lia; intros; apply H; lia). ring.
Qed.
Lemma rsum_head : forall n f, rsum (S n) f = f 0%nat + rsum n (fun i => f (S i)).
Proof. induction n; intros f; [cbn; ring |]. cbn [rsum]. rewrite <- Rplus_assoc, <- IHn. reflexivity. Qed.
Lemma rsum_nonneg : forall n f, (forall i, (i < n)%nat -> 0 <= f i) -> 0 <= rsum n f.
Proof.
  induction n; intros f H; cbn; [lra |].
  pose proof (IHn f ltac:(auto with arith)). pose proof (H n ltac:(lia)). lra.
Qed.
Lemma rsum_le : forall n f g, (forall i, (i < n)%nat -> f i <= g i) -> rsum n f <= rsum n g.
Proof.
  induction n; intros f g H; cbn; [lra |].
  pose proof (IHn f g ltac:(auto with arith)). pose proof (H n ltac:(lia)). lra.
Qed.
Lemma rsum_nonneg_zero : forall n f, (forall i, (i < n)%nat -> 0 <= f i) -> rsum n f = 0 ->
  forall i, (i < n)%nat -> f i = 0.
Proof.
  induction n; intros f H E i Hi; [lia |]. cbn in E.
  pose proof (rsum_nonneg n f ltac:(auto with arith)). pose proof (H n ltac:(lia)).
  destruct (Nat.eq_dec i n) as [-> | Hne]; [lra |].
  apply IHn; [auto with arith | lra | lia].
Qed.

(** A x, for an n by n matrix. *)
Definition mat_vec (n : nat) (A : nat -> nat -> R) (x : nat -> R) (i : nat) : R :=
  rsum n (fun j => A i j * x j).
(** Only the zero vector is mapped to zero. *)
Definition nonsingular (n : nat) (A : nat -> nat -> R) : Prop :=
  forall x, (forall i, (i < n)%nat -> mat_vec n A x i = 0) -> forall j, (j < n)%nat -> x j = 0.
(** What is expected of an LU or QR solver, without rounding errors. *)
Definition exact_solver (solve : nat -> (nat -> nat -> R) -> (nat -> R) -> nat -> R) : Prop :=
  forall n A b, nonsingular n A -> forall i, (i < n)%nat -> mat_vec n A (solve n A b) i = b i.

(** ** Gaussian elimination *)
Fixpoint pivot (n : nat) (A : nat -> nat -> R) : nat :=
  match n with
  | O => O
  | S m => if Req_EM_T (A m 0%nat) 0 then pivot m A else m
  end.
Definition skip (r i : nat) : nat := if (i <? r)%nat then i else S i.
Fixpoint gauss (n : nat) (A : nat -> nat -> R) (b : nat -> R) : nat -> R :=
  match n with
  | O => fun _ => 0
  | S m =>
      let r := pivot n A in
      let f i := A (skip r i) 0%nat / A r 0%nat in
      let y := gauss m (fun i j => A (skip r i) (S j) - f i * A r (S j))
                       (fun i => b (skip r i) - f i * b r) in
      fun j => match j with
               | O => (b r - rsum m (fun j => A r (S j) * y j)) / A r 0%nat
               | S j => y j
               end
  end.

Lemma pivot_spec : forall n A, (forall i, (i < n)%nat -> A i 0%nat = 0) \/
  ((pivot n A < n)%nat /\ A (pivot n A) 0%nat <> 0).
Proof.
  induction n; intros A; cbn [pivot]; [left; lia |].
  destruct (Req_EM_T (A n 0%nat) 0) as [E | E].
  - destruct (IHn A) as [H | [H1 H2]]; [left | right; split; [lia | exact H2]].
    intros i Hi. destruct (Nat.eq_dec i n) as [-> | Hne]; [exact E | apply H; lia].
  - right. split; [lia | exact E].
Qed.
Lemma skip_cases : forall n r i, (r < S n)%nat -> (i < S n)%nat -> i <> r ->
  exists k, (k < n)%nat /\ skip r k = i.
Proof.
  intros n r i Hr Hi Hne. destruct (Nat.ltb_spec i r) as [H | H].
  - exists i. split; [lia |]. unfold skip. rewrite (proj2 (Nat.ltb_lt i r)); auto.
  - exists (i - 1)%nat. split; [lia |]. unfold skip. rewrite (proj2 (Nat.ltb_ge (i - 1) r)); lia.
Qed.
Lemma skip_lt : forall n r k, (k < n)%nat -> (skip r k < S n)%nat.
Proof. intros n r k H. unfold skip. destruct (k <? r)%nat; lia. Qed.

Lemma mat_vec_S : forall m A x i,
  mat_vec (S m) A x i = A i 0%nat * x 0%nat + rsum m (fun j => A i (S j) * x (S j)).
Proof. intros. unfold mat_vec. apply rsum_head. Qed.

Lemma gauss_exact : exact_solver gauss.
Proof.
  intros n. induction n as [| m IH]; intros A b Hns i Hi; [lia |].
  destruct (pivot_spec (S m) A) as [H0 | [Hr Hp]].
  - exfalso. assert (E : 1 = 0); [| lra].
    refine (Hns (fun j => match j with O => 1 | _ => 0 end) _ 0%nat _); [| lia].
    intros k Hk. rewrite mat_vec_S, H0 by exact Hk. rewrite rsum_zero; [ring | intros; ring].
  - set (r := pivot (S m) A) in *.
    set (f := fun i => A (skip r i) 0%nat / A r 0%nat).
    set (A' := fun i j => A (skip r i) (S j) - f i * A r (S j)).
    set (b' := fun i => b (skip r i) - f i * b r).
    set (y := gauss m A' b').
    set (x0 := (b r - rsum m (fun j => A r (S j) * y j)) / A r 0%nat).
    assert (Eg : gauss (S m) A b = fun j => match j with O => x0 | S j => y j end) by reflexivity.
    assert (Hns' : nonsingular m A').
    { intros z Hz. set (z0 := - rsum m (fun j => A r (S j) * z j) / A r 0%nat).
      assert (Hall : forall k, (k < S m)%nat ->
                mat_vec (S m) A (fun j => match j with O => z0 | S j => z j end) k = 0).
      { intros k Hk. rewrite mat_vec_S.
        destruct (Nat.eq_dec k r) as [-> | Hne].
        - unfold z0. field. exact Hp.
        - destruct (skip_cases m r k Hr Hk Hne) as (k' & Hk' & <-).
          specialize (Hz k' Hk'). unfold mat_vec, A' in Hz.
          rewrite (rsum_ext m _ (fun j => A (skip r k') (S j) * z j - f k' * (A r (S j) * z j))) in Hz
            by (intros; ring).
          rewrite rsum_minus, rsum_scale in Hz.
          replace (rsum m (fun j => A (skip r k') (S j) * z j))
            with (f k' * rsum m (fun j => A r (S j) * z j)) by lra.
          unfold z0, f. field. exact Hp. }
      intros j Hj. exact (Hns _ Hall (S j) ltac:(lia)). }
    assert (Hy : forall k, (k < m)%nat -> mat_vec m A' y k = b' k) by (intros; apply IH; assumption).
    rewrite Eg, mat_vec_S. cbn beta iota.
    destruct (Nat.eq_dec i r) as [-> | Hne].
    + unfold x0. field. exact Hp.
    + destruct (skip_cases m r i Hr Hi Hne) as (k & Hk & <-).
      specialize (Hy k Hk). unfold mat_vec, A', b' in Hy.
      rewrite (rsum_ext m _ (fun j => A (skip r k) (S j) * y j - f k * (A r (S j) * y j))) in Hy
        by (intros; ring).
      rewrite rsum_minus, rsum_scale in Hy.
      replace (rsum m (fun j => A (skip r k) (S j) * y j))
        with (b (skip r k) - f k * b r + f k * rsum m (fun j => A r (S j) * y j)) by lra.
      unfold x0, f. field. exact Hp.
Qed.

(** The solution is the only one. *)
Lemma solver_unique : forall solve n A b x, exact_solver solve -> nonsingular n A ->
  (forall i, (i < n)%nat -> mat_vec n A x i = b i) -> forall j, (j < n)%nat -> solve n A b j = x j.
Proof.
  intros solve n A b x Hs Hns Hx j Hj.
  assert (E : (fun j => solve n A b j - x j) j = 0); [| cbv beta in E; lra].
  refine (Hns (fun j => solve n A b j - x j) _ j Hj). intros i Hi. unfold mat_vec.
  rewrite (rsum_ext n _ (fun j => A i j * solve n A b j - A i j * x j)) by (intros; ring).
  rewrite rsum_minus. specialize (Hs n A b Hns i Hi). specialize (Hx i Hi).
  unfold mat_vec in Hs, Hx. lra.
Qed.
