(** Rules for integrals and polynomials. *)
Require Import List Arith Lia Reals Lra.
Require Import Verif.LinAlg Verif.JacobiProofs Verif.IntegralSpec.
Local Open Scope R_scope.

(** ** Antiderivatives *)
Lemma zero_derivative_const : forall F a b, a <= b ->
  (forall x, a <= x <= b -> derivable_pt_lim F x 0) -> F b = F a.
Proof.
  intros F a b Hab H. destruct (Req_dec a b) as [-> | Hne]; [reflexivity |].
  destruct (MVT_cor2 F (fun _ => 0) a b) as (c & E & _); [lra | exact H |]. lra.
Qed.
Lemma is_integral_unique : forall f a b I J, a <= b -> is_integral f a b I -> is_integral f a b J -> I = J.
Proof.
  intros f a b I J Hab (F & HF & ->) (G & HG & ->).
  pose proof (zero_derivative_const (fun x => F x - G x) a b Hab) as E. cbv beta in E.
  assert (forall x, a <= x <= b -> derivable_pt_lim (fun x => F x - G x) x 0).
  { intros x Hx. apply (derivable_pt_lim_ext_eq (fun t => F t - G t) _ x (f x - f x)); [reflexivity | ring |].
    apply (derivable_pt_lim_minus F G); auto. }
  specialize (E H). lra.
Qed.
Lemma is_integral_ext : forall f g a b I J, (forall x, a <= x <= b -> f x = g x) -> I = J ->
  is_integral f a b I -> is_integral g a b J.
Proof. intros f g a b I J E <- (F & HF & ->). exists F. split; [intros x Hx; rewrite <- E by exact Hx; auto | reflexivity]. Qed.
Lemma is_integral_const : forall c a b, is_integral (fun _ => c) a b (c * (b - a)).
Proof.
  intros c a b. exists (fun x => c * x). split; [| ring]. intros x _.
  apply (derivable_pt_lim_ext_eq (fun t => c * id t) _ x (c * 1)); [reflexivity | ring |].
  apply (derivable_pt_lim_scal id). apply derivable_pt_lim_id.
Qed.
Lemma is_integral_plus : forall f g a b I J, is_integral f a b I -> is_integral g a b J ->
  is_integral (fun x => f x + g x) a b (I + J).
Proof.
  intros f g a b I J (F & HF & ->) (G & HG & ->). exists (fun x => F x + G x). split; [| ring].
  intros x Hx. apply (derivable_pt_lim_plus F G); auto.
Qed.
Lemma is_integral_scale : forall f a b I c, is_integral f a b I -> is_integral (fun x => c * f x) a b (c * I).
Proof.
  intros f a b I c (F & HF & ->). exists (fun x => c * F x). split; [| ring].
  intros x Hx. apply (derivable_pt_lim_scal F); auto.
Qed.
Lemma is_integral_rsum : forall n (f : nat -> R -> R) a b (I : nat -> R),
  (forall k, (k < n)%nat -> is_integral (f k) a b (I k)) ->
  is_integral (fun x => rsum n (fun k => f k x)) a b (rsum n I).
Proof.
  induction n as [| n IH]; intros f a b I H; cbn [rsum].
  - eapply is_integral_ext; [| | apply (is_integral_const 0)]; [reflexivity | ring].
  - apply is_integral_plus; [apply IH; auto with arith | apply H; lia].
Qed.
(** Substitution x = s + m t, with m positive. *)
Lemma is_integral_affine : forall f a b s m I, 0 < m -> is_integral f (s + m * a) (s + m * b) I ->
  is_integral (fun t => f (s + m * t)) a b (I / m).
Proof.
  intros f a b s m I Hm (F & HF & ->). exists (fun t => / m * F (s + m * t)). split.
  - intros x Hx. apply (derivable_pt_lim_ext_eq (fun t => / m * F (s + m * t)) _ x (/ m * (f (s + m * x) * m)));
      [reflexivity | field; lra |].
    apply (derivable_pt_lim_scal (fun t => F (s + m * t))).
    apply (derivable_pt_lim_comp (fun t => s + m * t) F).
    + apply (derivable_pt_lim_ext_eq (fun t => s + m * t) _ x (0 + m * 1)); [reflexivity | ring |].
      apply (derivable_pt_lim_plus (fct_cte s) (fun t => m * t)); [apply derivable_pt_lim_const |].
      apply (derivable_pt_lim_scal id). apply derivable_pt_lim_id.
    + apply HF. split; apply Rplus_le_compat_l, Rmult_le_compat_l; lra.
  - field. lra.
Qed.
Lemma is_integral_point : forall f a, is_integral f a a 0.
Proof.
  intros f a. exists (fun x => f a * x). split; [| ring]. intros x Hx. assert (x = a) as -> by lra.
  apply (derivable_pt_lim_ext_eq (fun t => f a * id t) _ a (f a * 1)); [reflexivity | ring |].
  apply (derivable_pt_lim_scal id). apply derivable_pt_lim_id.
Qed.

(** ** Polynomials in one variable *)
Lemma p1_ext : forall d f g, (forall x, f x = g x) -> polynomial1 d f -> polynomial1 d g.
Proof. intros d f g E (c & H). exists c. intros x. rewrite <- E. apply H. Qed.
Lemma rsum_pad : forall n e (f : nat -> R), (forall i, (n <= i)%nat -> f i = 0) -> rsum (n + e) f = rsum n f.
Proof.
  intros n e f H. induction e as [| e IH]; [now rewrite Nat.add_0_r |]. rewrite Nat.add_succ_r. cbn [rsum].
  rewrite IH, (H (n + e)%nat) by lia. ring.
Qed.
Lemma p1_le : forall d d' f, (d <= d')%nat -> polynomial1 d f -> polynomial1 d' f.
Proof.
  intros d d' f Hd (c & H). exists (fun k => if (k <=? d)%nat then c k else 0). intros x. rewrite H.
  replace (S d') with (S d + (d' - d))%nat by lia. rewrite rsum_pad.
  - apply rsum_ext. intros i Hi. replace (i <=? d)%nat with true by (symmetry; apply Nat.leb_le; lia). reflexivity.
  - intros i Hi. replace (i <=? d)%nat with false by (symmetry; apply Nat.leb_gt; lia). ring.
Qed.
Lemma p1_const : forall d c, polynomial1 d (fun _ => c).
Proof.
  intros d c. apply (p1_le 0); [lia |]. exists (fun _ => c). intros x. cbn. ring.
Qed.
Lemma p1_plus : forall d f g, polynomial1 d f -> polynomial1 d g -> polynomial1 d (fun x => f x + g x).
Proof.
  intros d f g (c & H) (c' & H'). exists (fun k => c k + c' k). intros x. rewrite H, H', <- rsum_plus.
  apply rsum_ext. intros; ring.
Qed.
Lemma p1_scale : forall d f c, polynomial1 d f -> polynomial1 d (fun x => c * f x).
Proof.
  intros d f c0 (c & H). exists (fun k => c0 * c k). intros x. rewrite H, <- rsum_scale. apply rsum_ext. intros; ring.
Qed.
Lemma p1_x : forall d f, polynomial1 d f -> polynomial1 (S d) (fun x => x * f x).
Proof.
  intros d f (c & H). exists (fun k => match k with O => 0 | S j => c j end). intros x. rewrite rsum_head, H, <- rsum_scale.
  rewrite Rmult_0_l, Rplus_0_l. apply rsum_ext. intros i Hi. cbn [pow]. ring.
Qed.
Lemma p1_pow : forall n, polynomial1 n (fun x => x ^ n).
Proof.
  induction n as [| n IH]; [exact (p1_const 0 1) |]. apply (p1_ext _ (fun x => x * x ^ n)); [reflexivity |]. now apply p1_x.
Qed.
Lemma p1_rsum : forall n d (f : nat -> R -> R), (forall k, (k < n)%nat -> polynomial1 d (f k)) ->
  polynomial1 d (fun x => rsum n (fun k => f k x)).
Proof.
  induction n as [| n IH]; intros d f H; cbn [rsum]; [apply p1_const |].
  apply p1_plus; [apply IH; auto with arith | apply H; lia].
Qed.
Lemma p1_mult : forall d d' f g, polynomial1 d f -> polynomial1 d' g -> polynomial1 (d + d') (fun x => f x * g x).
Proof.
  intros d d' f g (c & H) Hg.
  assert (M : forall k, polynomial1 (k + d') (fun x => x ^ k * g x)).
  { induction k as [| k IH]; [apply (p1_ext _ g); [intros; cbn; ring | exact Hg] |].
    apply (p1_ext _ (fun x => x * (x ^ k * g x))); [intros; cbn; ring |]. exact (p1_x _ _ IH). }
  apply (p1_ext _ (fun x => rsum (S d) (fun k => c k * (x ^ k * g x)))).
  - intros x. rewrite H, <- rsum_scale_r. apply rsum_ext. intros; ring.
  - apply p1_rsum. intros k Hk. apply p1_scale. apply (p1_le (k + d')); [lia | apply M].
Qed.
Lemma p1_affine : forall s m, polynomial1 1 (fun x => s + m * x).
Proof. intros s m. exists (fun k => match k with O => s | _ => m end). intros x. cbn. ring. Qed.
Lemma p1_powf : forall d f n, polynomial1 d f -> polynomial1 (n * d) (fun x => f x ^ n).
Proof.
  intros d f n Hf. induction n as [| n IH]; [exact (p1_const 0 1) |].
  apply (p1_ext _ (fun x => f x * f x ^ n)); [reflexivity |]. change (S n * d)%nat with (d + n * d)%nat. now apply p1_mult.
Qed.
Lemma p1_pow_affine : forall s m n, polynomial1 n (fun x => (s + m * x) ^ n).
Proof. intros s m n. pose proof (p1_powf 1 _ n (p1_affine s m)) as H. now rewrite Nat.mul_1_r in H. Qed.
Lemma p1_comp_affine : forall d f s m, polynomial1 d f -> polynomial1 d (fun x => f (s + m * x)).
Proof.
  intros d f s m (c & H). apply (p1_ext _ (fun x => rsum (S d) (fun k => c k * (s + m * x) ^ k))).
  - intros x. now rewrite H.
  - apply p1_rsum. intros k Hk. apply p1_scale. apply (p1_le k); [lia | apply p1_pow_affine].
Qed.

(** Polynomials have antiderivatives. *)
Lemma pow_integral : forall k a b, is_integral (fun x => x ^ k) a b (/ INR (S k) * (b ^ S k - a ^ S k)).
Proof.
  intros k a b. exists (fun x => / INR (S k) * x ^ S k). split; [| ring]. intros x _.
  assert (N : INR (S k) <> 0) by (apply not_0_INR; lia).
  apply (derivable_pt_lim_ext_eq (fun t => / INR (S k) * t ^ S k) _ x (/ INR (S k) * (INR (S k) * x ^ pred (S k))));
    [reflexivity | cbn [pred]; field; exact N |].
  apply (derivable_pt_lim_scal (fun t => t ^ S k)). apply derivable_pt_lim_pow.
Qed.
Lemma p1_integral : forall d f a b, polynomial1 d f -> exists I, is_integral f a b I.
Proof.
  intros d f a b (c & H). exists (rsum (S d) (fun k => c k * (/ INR (S k) * (b ^ S k - a ^ S k)))).
  apply (is_integral_ext (fun x => rsum (S d) (fun k => c k * x ^ k)) _ _ _ _ _ (fun x _ => eq_sym (H x)) eq_refl).
  apply is_integral_rsum. intros k Hk. apply is_integral_scale, pow_integral.
Qed.

(** ** A right inverse of a square matrix is a left inverse *)
Definition delta (i j : nat) : R := if (i =? j)%nat then 1 else 0.
Lemma delta_sum : forall n i (f : nat -> R), (i < n)%nat -> rsum n (fun j => delta i j * f j) = f i.
Proof.
  intros n i f Hi. rewrite (rsum_single n i); [unfold delta; rewrite Nat.eqb_refl; ring | exact Hi |].
  intros j Hj Hne. unfold delta. destruct (Nat.eqb_spec i j); [congruence | ring].
Qed.
Lemma delta_sum_r : forall n i (f : nat -> R), (i < n)%nat -> rsum n (fun j => f j * delta j i) = f i.
Proof.
  intros n i f Hi. rewrite (rsum_single n i); [unfold delta; rewrite Nat.eqb_refl; ring | exact Hi |].
  intros j Hj Hne. unfold delta. destruct (Nat.eqb_spec j i); [congruence | ring].
Qed.
Lemma inverse_commutes : forall n (X Y : nat -> nat -> R),
  (forall i j, (i < n)%nat -> (j < n)%nat -> rsum n (fun k => X i k * Y k j) = delta i j) ->
  forall i j, (i < n)%nat -> (j < n)%nat -> rsum n (fun k => Y i k * X k j) = delta i j.
Proof.
  intros n X Y H.
  assert (XY : forall v i, (i < n)%nat -> rsum n (fun k => X i k * mat_vec n Y v k) = v i).
  { intros v i Hi. unfold mat_vec.
    rewrite (rsum_ext n _ (fun k => rsum n (fun j => X i k * Y k j * v j))).
    2: { intros k Hk. rewrite <- rsum_scale. apply rsum_ext. intros; ring. }
    rewrite rsum_swap. rewrite (rsum_ext n _ (fun j => delta i j * v j)).
    - apply delta_sum. exact Hi.
    - intros j Hj. rewrite rsum_scale_r, H by assumption. reflexivity. }
  assert (Hns : nonsingular n Y).
  { intros v Hv j Hj. rewrite <- (XY v j Hj). apply rsum_zero. intros k Hk. rewrite Hv by exact Hk. ring. }
  intros i j Hi Hj. set (v := gauss n Y (fun k => delta k j)).
  assert (E : forall k, (k < n)%nat -> mat_vec n Y v k = delta k j) by (intros k Hk; exact (gauss_exact n Y (fun k => delta k j) Hns k Hk)).
  assert (Ev : forall k, (k < n)%nat -> v k = X k j).
  { intros k Hk. rewrite <- (XY v k Hk). rewrite (rsum_ext n _ (fun l => X k l * delta l j)).
    - apply delta_sum_r. exact Hj.
    - intros l Hl. now rewrite E. }
  rewrite <- (E i Hi). unfold mat_vec. apply rsum_ext. intros k Hk. now rewrite Ev.
Qed.
