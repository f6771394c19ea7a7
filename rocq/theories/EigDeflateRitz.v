(** The projected eigenvalue problem: Rayleigh-Ritz. *)
Require Import List Arith Bool Lia Reals Lra.
Require Import Verif.LinAlg Verif.LsPolySpec Verif.LsPolyProofs Verif.LsPolyProps Verif.EigDeflateSpec Verif.EigDeflateModel Verif.EigDeflateProofs.
Import ListNotations.
Local Open Scope R_scope.

Lemma symmetrize_loop_spec : forall cnt m i A a b, (i + cnt <= m)%nat -> (a < m)%nat -> (b < m)%nat -> symmetrize_loop m i cnt A a b =
  if ((i <=? Nat.min a b) && (Nat.min a b <? i + cnt))%nat%bool then / 2 * (A a b + A b a) else A a b.
Proof.
  induction cnt as [| cnt IH]; intros m i A a b Hi Ha Hb; cbn [symmetrize_loop].
  - destruct (Nat.leb_spec i (Nat.min a b)), (Nat.ltb_spec (Nat.min a b) (i + 0)); try lia; reflexivity.
  - rewrite IH by lia. rewrite !symmetrize_row_spec by lia.
    destruct (Nat.leb_spec (S i) (Nat.min a b)), (Nat.ltb_spec (Nat.min a b) (S i + cnt)), (Nat.leb_spec i (Nat.min a b)), (Nat.ltb_spec (Nat.min a b) (i + S cnt)); try lia;
    destruct (Nat.eqb_spec a i), (Nat.leb_spec i b), (Nat.ltb_spec b (i + (m - i))), (Nat.eqb_spec b i), (Nat.leb_spec i a), (Nat.ltb_spec a (i + (m - i))); cbn [andb orb]; try lia; reflexivity.
Qed.
Lemma symmetrize_spec : forall m A a b, (a < m)%nat -> (b < m)%nat -> MatDenseSymmetrizeSEQ m A a b = / 2 * (A a b + A b a).
Proof.
  intros m A a b Ha Hb. unfold MatDenseSymmetrizeSEQ. rewrite symmetrize_loop_spec by lia.
  destruct (Nat.leb_spec 0 (Nat.min a b)), (Nat.ltb_spec (Nat.min a b) (0 + m)); try lia; reflexivity.
Qed.
Lemma swap_loop_spec : forall (T : Type) cnt n i (w : nat -> T) l, (2 * (i + cnt) <= n)%nat -> (l < n)%nat -> swap_loop n i cnt w l =
  if ((i <=? l) && (l <? i + cnt) || (i <=? n - 1 - l) && (n - 1 - l <? i + cnt))%nat%bool then w (n - 1 - l)%nat else w l.
Proof.
  intros T. induction cnt as [| cnt IH]; intros n i w l Hi Hl; cbn [swap_loop].
  - destruct (Nat.leb_spec i l), (Nat.ltb_spec l (i + 0)), (Nat.leb_spec i (n - 1 - l)), (Nat.ltb_spec (n - 1 - l) (i + 0)); try lia; reflexivity.
  - rewrite IH by lia. unfold set_column.
    destruct (Nat.leb_spec (S i) l), (Nat.ltb_spec l (S i + cnt)), (Nat.leb_spec (S i) (n - 1 - l)), (Nat.ltb_spec (n - 1 - l) (S i + cnt)),
      (Nat.leb_spec i l), (Nat.ltb_spec l (i + S cnt)), (Nat.leb_spec i (n - 1 - l)), (Nat.ltb_spec (n - 1 - l) (i + S cnt)); cbn [andb orb]; try lia;
    destruct (Nat.eqb_spec (n - 1 - l) i), (Nat.eqb_spec (n - 1 - l) (n - 1 - i)), (Nat.eqb_spec l i), (Nat.eqb_spec l (n - 1 - i)); try lia; try reflexivity; f_equal; lia.
Qed.
Lemma swap_all : forall (T : Type) n (w : nat -> T) l, (l < n)%nat -> swap_loop n 0 (n / 2) w l = w (n - 1 - l)%nat.
Proof.
  intros T n w l Hl. pose proof (Nat.div_mod n 2 ltac:(lia)) as D. pose proof (Nat.mod_upper_bound n 2 ltac:(lia)).
  rewrite swap_loop_spec by lia.
  destruct (Nat.leb_spec 0 l), (Nat.ltb_spec l (0 + n / 2)), (Nat.leb_spec 0 (n - 1 - l)), (Nat.ltb_spec (n - 1 - l) (0 + n / 2)); cbn [andb orb]; try lia; try reflexivity.
  f_equal. lia.
Qed.

(** The rows of a square matrix with orthonormal columns are orthonormal. *)
Lemma square_orthonormal : forall n (Z : nat -> nat -> R), orthonormal n n (fun j i => Z i j) ->
  forall l m, (l < n)%nat -> (m < n)%nat -> rsum n (fun b => Z l b * Z m b) = if Nat.eqb l m then 1 else 0.
Proof.
  intros n Z H l m Hl Hm.
  assert (Hin : forall x b, (b < n)%nat -> rsum n (fun i => Z i b * mat_vec n Z x i) = x b).
  { intros x b Hb. unfold mat_vec.
    rewrite (rsum_ext n _ (fun i => rsum n (fun j => x j * (Z i b * Z i j)))) by (intros; rewrite <- rsum_scale; apply rsum_ext; intros; ring).
    rewrite rsum_swap. rewrite (rsum_single n b (fun j => rsum n (fun i => x j * (Z i b * Z i j))) Hb).
    - rewrite rsum_scale. specialize (H b b Hb Hb). rewrite Nat.eqb_refl in H. unfold dot in H. rewrite H. ring.
    - intros j Hj Hne. rewrite rsum_scale. specialize (H b j Hb Hj). destruct (Nat.eqb_spec b j); [congruence |]. unfold dot in H. rewrite H. ring. }
  assert (Hns : nonsingular n Z).
  { intros x Hx j Hj. rewrite <- (Hin x j Hj). apply rsum_zero. intros i Hi. rewrite (Hx i Hi). ring. }
  set (e := fun i : nat => if Nat.eqb i m then 1 else 0).
  set (x := gauss n Z e). assert (Hx : forall i, (i < n)%nat -> mat_vec n Z x i = e i) by (intros; now apply gauss_exact).
  assert (Ex : forall b, (b < n)%nat -> x b = Z m b).
  { intros b Hb. rewrite <- (Hin x b Hb). rewrite (rsum_ext n _ (fun i => Z i b * e i)) by (intros i Hi; now rewrite (Hx i Hi)).
    rewrite (rsum_single n m (fun i => Z i b * e i) Hm); [unfold e; rewrite Nat.eqb_refl; ring |].
    intros i _ Hi. unfold e. destruct (Nat.eqb_spec i m); [contradiction | ring]. }
  specialize (Hx l Hl). unfold mat_vec in Hx. rewrite (rsum_ext n _ (fun b => Z l b * Z m b)) in Hx by (intros b Hb; now rewrite Ex). exact Hx.
Qed.

Section Ritz.
Variables (N n : nat) (Op X : nat -> nat -> R) (w : nat -> R) (Z : nat -> nat -> R).
Hypothesis HOp : symmetric N Op.
Hypothesis HX : orthonormal N n X.
Hypothesis HZ : eigen_answer n (projected N Op n X) w Z.
Definition ritz (b : nat) : nat -> R := combine n X (fun l => Z l b).

Lemma projected_spec : forall i j, (i < n)%nat -> (j < n)%nat -> projected N Op n X i j = dot N (X i) (mat_vec N Op (X j)).
Proof.
  intros i j Hi Hj. unfold projected. rewrite symmetrize_spec by assumption. unfold MatPtOpP.
  change (/ 2 * (dot N (X i) (mat_vec N Op (X j)) + dot N (X j) (mat_vec N Op (X i))) = dot N (X i) (mat_vec N Op (X j))).
  rewrite (mat_vec_dot N Op (X j) (X i) HOp), (dot_comm N (mat_vec N Op (X j))). field.
Qed.
Lemma ritz_sum : forall b i, ritz b i = rsum n (fun l => Z l b * X l i).
Proof. intros. unfold ritz, combine. apply rsum_ext. intros. ring. Qed.
Lemma dot_ritz : forall u b, dot N u (ritz b) = rsum n (fun l => Z l b * dot N u (X l)).
Proof. intros u b. rewrite <- dot_rsum_r. apply dot_ext; [reflexivity | intros; apply ritz_sum]. Qed.
Lemma ritz_orthonormal : orthonormal N n ritz.
Proof.
  intros a b Ha Hb. rewrite dot_ritz. rewrite (rsum_ext n _ (fun l => Z l a * Z l b)).
  - destruct HZ as (_ & H & _). exact (H a b Ha Hb).
  - intros l Hl. rewrite dot_comm, dot_ritz. rewrite (rsum_single n l (fun m => Z m a * dot N (X l) (X m)) Hl).
    + rewrite HX, Nat.eqb_refl by assumption. ring.
    + intros m Hm Hne. rewrite HX by assumption. destruct (Nat.eqb_spec l m); [congruence | ring].
Qed.
Lemma Op_ritz : forall b i, mat_vec N Op (ritz b) i = rsum n (fun l => Z l b * mat_vec N Op (X l) i).
Proof. intros b i. rewrite (mat_vec_ext N Op (ritz b) (fun i => rsum n (fun l => Z l b * X l i))) by (intros; apply ritz_sum). apply mat_vec_rsum. Qed.
Lemma ritz_diagonal : forall a b, (a < n)%nat -> (b < n)%nat -> dot N (ritz a) (mat_vec N Op (ritz b)) = if Nat.eqb a b then w b else 0.
Proof.
  intros a b Ha Hb.
  rewrite (dot_ext N (ritz a) (mat_vec N Op (ritz b)) (ritz a) (fun i => rsum n (fun l => Z l b * mat_vec N Op (X l) i)) ltac:(reflexivity) ltac:(intros; apply Op_ritz)).
  rewrite dot_rsum_r.
  assert (E : forall l, (l < n)%nat -> dot N (ritz a) (mat_vec N Op (X l)) = rsum n (fun m => Z m a * projected N Op n X m l)).
  { intros l Hl. rewrite dot_comm, dot_ritz. apply rsum_ext. intros m Hm. rewrite projected_spec by assumption. now rewrite dot_comm. }
  rewrite (rsum_ext n _ (fun l => rsum n (fun m => Z m a * (projected N Op n X m l * Z l b)))).
  2: { intros l Hl. change (fun i : nat => mat_vec N Op (X l) i) with (mat_vec N Op (X l)). rewrite (E l Hl), <- rsum_scale. apply rsum_ext. intros. ring. }
  rewrite rsum_swap. rewrite (rsum_ext n _ (fun m => w b * (Z m a * Z m b))).
  - rewrite rsum_scale. destruct HZ as (_ & H & _). pose proof (H a b Ha Hb) as H'. unfold dot in H'. rewrite H'.
    destruct (Nat.eqb a b); ring.
  - intros m Hm. rewrite rsum_scale. destruct HZ as (_ & _ & H). specialize (H b Hb m Hm). unfold mat_vec in H. rewrite H. ring.
Qed.
Lemma X_in_ritz : forall l i, (l < n)%nat -> X l i = rsum n (fun b => Z l b * ritz b i).
Proof.
  intros l i Hl. rewrite (rsum_ext n _ (fun b => rsum n (fun m => Z l b * Z m b * X m i))) by (intros; rewrite ritz_sum, <- rsum_scale; apply rsum_ext; intros; ring).
  rewrite rsum_swap. rewrite (rsum_single n l (fun m => rsum n (fun b => Z l b * Z m b * X m i)) Hl).
  - rewrite rsum_scale_r, (square_orthonormal n Z) by (assumption || apply HZ). rewrite Nat.eqb_refl. ring.
  - intros m Hm Hne. rewrite rsum_scale_r, (square_orthonormal n Z) by (assumption || apply HZ).
    destruct (Nat.eqb_spec l m); [congruence | ring].
Qed.
Lemma ritz_span : same_span N n X ritz.
Proof.
  split; intros j Hj.
  - exists (fun l => Z l j). intros i _. apply ritz_sum.
  - exists (fun b => Z j b). intros i _. now apply X_in_ritz.
Qed.
(** An element of the space, written with the Ritz vectors. *)
Lemma ritz_expand : forall u, in_span N n X u -> forall i, (i < N)%nat -> u i = rsum n (fun b => dot N u (ritz b) * ritz b i).
Proof.
  intros u Hu i Hi.
  assert (Hr : in_span N n ritz u) by (apply (in_span_trans N n n ritz X); [apply ritz_span | exact Hu]).
  destruct Hr as (d & Hd). rewrite (Hd i Hi). apply rsum_ext. intros b Hb. f_equal.
  rewrite (dot_ext N u (ritz b) (fun i => rsum n (fun m => d m * ritz m i)) (ritz b) Hd ltac:(reflexivity)), dot_rsum_l.
  rewrite (rsum_single n b (fun m => d m * dot N (ritz m) (ritz b)) Hb).
  - rewrite ritz_orthonormal, Nat.eqb_refl by assumption. ring.
  - intros m Hm Hne. rewrite ritz_orthonormal by assumption. destruct (Nat.eqb_spec m b); [contradiction | ring].
Qed.
Lemma ritz_norms : forall u, in_span N n X u ->
  dot N u u = rsum n (fun b => dot N u (ritz b) * dot N u (ritz b)) /\
  dot N u (mat_vec N Op u) = rsum n (fun b => w b * (dot N u (ritz b) * dot N u (ritz b))).
Proof.
  intros u Hu. pose proof (ritz_expand u Hu) as E. split.
  - rewrite (dot_ext N u u u (fun i => rsum n (fun b => dot N u (ritz b) * ritz b i)) ltac:(reflexivity) E), dot_rsum_r. reflexivity.
  - rewrite (dot_ext N u (mat_vec N Op u) u (fun i => rsum n (fun b => dot N u (ritz b) * mat_vec N Op (ritz b) i)) ltac:(reflexivity)).
    2: { intros i _. rewrite (mat_vec_ext N Op u (fun i => rsum n (fun b => dot N u (ritz b) * ritz b i)) i E). apply mat_vec_rsum. }
    rewrite dot_rsum_r. apply rsum_ext. intros b Hb. change (fun i : nat => mat_vec N Op (ritz b) i) with (mat_vec N Op (ritz b)).
    rewrite (dot_ext N u (mat_vec N Op (ritz b)) (fun i => rsum n (fun a => dot N u (ritz a) * ritz a i)) (mat_vec N Op (ritz b)) E ltac:(reflexivity)), dot_rsum_l.
    rewrite (rsum_single n b (fun a => dot N u (ritz a) * dot N (ritz a) (mat_vec N Op (ritz b))) Hb).
    + rewrite ritz_diagonal, Nat.eqb_refl by assumption. ring.
    + intros a Ha Hne. rewrite ritz_diagonal by assumption. destruct (Nat.eqb_spec a b); [contradiction | ring].
Qed.
Lemma ritz_largest : forall u m, in_span N n X u -> (m < n)%nat -> (forall b, (m < b)%nat -> (b < n)%nat -> dot N u (ritz b) = 0) ->
  dot N u (mat_vec N Op u) <= w m * dot N u u.
Proof.
  intros u m Hu Hm H. destruct (ritz_norms u Hu) as (-> & ->). rewrite <- rsum_scale. apply rsum_le. intros b Hb.
  destruct (le_lt_dec b m) as [K | K].
  - apply Rmult_le_compat_r; [apply Rle_0_sqr |]. destruct HZ as (A & _). now apply A.
  - rewrite (H b K Hb). lra.
Qed.
(** When the operator maps the space into itself the Ritz pairs are eigenpairs. *)
Lemma ritz_exact : (forall j, (j < n)%nat -> in_span N n X (mat_vec N Op (X j))) -> forall b, (b < n)%nat -> eigenvector N (mat_vec N Op) (w b) (ritz b).
Proof.
  intros H b Hb i Hi.
  assert (Hs : in_span N n X (mat_vec N Op (ritz b))).
  { apply (in_span_trans N n n X (fun j => mat_vec N Op (X j))); [exact H |]. apply in_span_map. now apply ritz_span. }
  rewrite (ritz_expand _ Hs i Hi). rewrite (rsum_single n b (fun a => dot N (mat_vec N Op (ritz b)) (ritz a) * ritz a i) Hb).
  - rewrite dot_comm, ritz_diagonal, Nat.eqb_refl by assumption. reflexivity.
  - intros a Ha Hne. rewrite dot_comm, ritz_diagonal by assumption. destruct (Nat.eqb_spec a b); [contradiction | ring].
Qed.
End Ritz.

(** N independent vectors span everything. *)
Lemma full_span : forall N X, independent N N X -> forall v, in_span N N X v.
Proof.
  intros N X H v.
  assert (Hns : nonsingular N (fun i j => X j i)).
  { intros c Hc. apply H. intros i Hi. rewrite <- (Hc i Hi). unfold mat_vec. apply rsum_ext. intros. ring. }
  exists (gauss N (fun i j => X j i) v). intros i Hi. rewrite <- (gauss_exact N _ v Hns i Hi). unfold mat_vec. apply rsum_ext. intros. ring.
Qed.
Lemma positive_nonsingular : forall N A, positive_definite N A -> nonsingular N A.
Proof.
  intros N A (_ & H) x Hx j Hj. destruct (Req_dec (x j) 0) as [E | E]; [exact E |]. exfalso.
  specialize (H x (ex_intro _ j (conj Hj E))). unfold dot in H. rewrite rsum_zero in H; [lra |]. intros i Hi. rewrite (Hx i Hi). ring.
Qed.
