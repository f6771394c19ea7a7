(** Property theorems: operations on small vectors (C99). *)
Require Import List Reals Lra Lia Arith.
Require Import Verif.VecModel Verif.VecCrossModel Verif.VecSpec.
Import ListNotations.
Local Open Scope R_scope.

(** C99a: sum and difference go by coordinates, and subtraction undoes addition. *)
Theorem sum_and_difference : forall a b, length a = length b ->
  length (vadd a b) = length a /\ length (vsub a b) = length a /\
  (forall i, coord (vadd a b) i = coord a i + coord b i) /\
  (forall i, coord (vsub a b) i = coord a i - coord b i) /\
  vsub (vadd a b) b = a /\ vadd (vsub a b) b = a.
Proof.
  induction a as [|x a IH]; intros [|y b] L; cbn in L; try discriminate.
  - cbn. repeat split; auto; intros [|i]; unfold coord; cbn; ring.
  - destruct (IH b ltac:(lia)) as (A & B & C & D & E & F).
    unfold vadd, vsub, coord in *. cbn. repeat split; try congruence.
    + intros [|i]; cbn; [ring|apply C].
    + intros [|i]; cbn; [ring|apply D].
    + rewrite E. f_equal. ring.
    + rewrite F. f_equal. ring.
Qed.
Print Assumptions sum_and_difference.

Lemma dot_inner v : forall w, dot v w = inner v w.
Proof. induction v as [|x v IH]; intros [|y w]; unfold inner in *; cbn; auto. rewrite IH. reflexivity. Qed.

Lemma dot_comm v : forall w, dot v w = dot w v.
Proof. induction v as [|x v IH]; intros [|y w]; cbn; auto. rewrite IH. ring. Qed.

Lemma dot_vadd_l a : forall b c, length a = length b -> dot (vadd a b) c = dot a c + dot b c.
Proof.
  unfold vadd. induction a as [|x a IH]; intros [|y b] [|z c] L; cbn in *; try discriminate; try ring.
  rewrite IH by lia. ring.
Qed.

Lemma vscale_length s v : length (vscale s v) = length v.
Proof. apply map_length. Qed.

Lemma dot_vscale_l s v w : dot (vscale s v) w = s * dot v w.
Proof. rewrite <- (vscale_1 w) at 1. rewrite dot_scale. ring. Qed.

Lemma norm_sqr v : norm v * norm v = dot v v.
Proof. rewrite norm_sqrt. apply sqrt_sqrt, dot_nonneg. Qed.

Lemma vadd_length a : forall b, length a = length b -> length (vadd a b) = length a.
Proof. unfold vadd. induction a as [|x a IH]; intros [|y b] L; cbn in *; try discriminate; auto. Qed.

(** Cauchy-Schwarz. *)
Lemma cauchy_schwarz v w : length v = length w -> Rabs (dot v w) <= norm v * norm w.
Proof.
  intro L. pose proof (norm_nonneg v) as Nv. pose proof (norm_nonneg w) as Nw.
  pose proof (norm_sqr v) as Sv. pose proof (norm_sqr w) as Sw.
  assert (K : dot v w * dot v w <= dot v v * dot w w).
  { set (A := dot v v) in *. set (B := dot v w). set (C := dot w w) in *.
    assert (Q : 0 <= C * (C * A - B * B)).
    { pose proof (dot_nonneg (vadd (vscale C v) (vscale (- B) w))) as P.
      assert (E : length (vscale C v) = length (vscale (- B) w)) by (rewrite !vscale_length; auto).
      rewrite dot_vadd_l in P by auto.
      rewrite (dot_comm (vscale C v)), (dot_comm (vscale (- B) w)) in P.
      rewrite !dot_vadd_l in P by auto. rewrite !dot_scale in P.
      rewrite (dot_comm w v) in P. fold A B C in P.
      replace (C * (C * A - B * B)) with (C * C * A + - B * C * B + (C * - B * B + - B * - B * C)) by ring. lra. }
    assert (C0 : 0 <= C) by apply dot_nonneg.
    destruct (Req_dec C 0) as [Z|Z].
    - assert (B = 0); [|nra]. unfold B. clear -Z L.
      pose proof (dot_zero w Z) as W. revert v L. induction w as [|y w IH]; intros [|x v] L; cbn in *; try discriminate; auto.
      rewrite (W y) by (left; auto). rewrite IH; [ring| |intros; apply W; right; auto|lia].
      unfold C in Z. cbn in Z. pose proof (dot_nonneg w). pose proof (Rle_0_sqr y) as Y. unfold Rsqr in Y. lra.
    - nra. }
  apply Rsqr_incr_0_var; [|nra]. unfold Rsqr.
  rewrite <- Rabs_mult, Rabs_pos_eq by (apply Rle_0_sqr).
  replace (norm v * norm w * (norm v * norm w)) with (norm v * norm v * (norm w * norm w)) by ring.
  rewrite Sv, Sw. exact K.
Qed.

(** C99b: the norm is the Euclidean length, in one dimension too: zero for the zero vector only, it scales with the
    vector and satisfies the triangle inequality. *)
Theorem norm_is_length : forall v,
  (forall w, dot v w = inner v w) /\ norm v = sqrt (inner v v) /\ 0 <= norm v /\ (norm v = 0 <-> forall i, coord v i = 0) /\
  (forall s, stretched s v (vscale s v) /\ norm (vscale s v) = Rabs s * norm v) /\
  (forall w, length v = length w -> norm (vadd v w) <= norm v + norm w).
Proof.
  intro v. split; [apply dot_inner|]. split; [rewrite norm_sqrt, dot_inner; reflexivity|]. split; [apply norm_nonneg|]. split.
  - split; intro H.
    + assert (D : dot v v = 0) by (rewrite <- norm_sqr, H; ring).
      intro i. unfold coord. destruct (Nat.lt_ge_cases i (length v)).
      * apply (dot_zero v D). apply nth_In. auto.
      * apply nth_overflow. auto.
    + rewrite norm_sqrt. replace (dot v v) with 0; [apply sqrt_0|].
      assert (G : forall u, (forall i, coord u i = 0) -> dot u u = 0).
      { induction u as [|x u IH]; intro Z; cbn; auto. pose proof (Z 0%nat) as Z0. unfold coord in Z0. cbn in Z0.
        rewrite Z0, IH; [ring|]. intro i. apply (Z (S i)). }
      symmetry. auto.
  - split.
    + intro s. split; [|apply norm_scale]. split; [apply vscale_length|].
      intro i. unfold coord, vscale. destruct (Nat.lt_ge_cases i (length v)).
      * rewrite nth_indep with (d' := s * 0) by (rewrite map_length; auto). apply (map_nth (Rmult s)).
      * rewrite !nth_overflow by (try rewrite map_length; auto). ring.
    + intros w L. pose proof (norm_nonneg v). pose proof (norm_nonneg w).
      apply Rsqr_incr_0_var; [|lra]. unfold Rsqr. rewrite norm_sqr.
      rewrite dot_vadd_l by auto. rewrite (dot_comm v (vadd v w)), (dot_comm w (vadd v w)).
      rewrite !dot_vadd_l by auto. rewrite (dot_comm w v).
      pose proof (cauchy_schwarz v w L) as CS. pose proof (Rle_abs (dot v w)).
      pose proof (norm_sqr v). pose proof (norm_sqr w). nra.
Qed.
Print Assumptions norm_is_length.

(** C99c: normalize gives the vector of length 1 in the same direction, for every vector but zero. *)
Theorem normalize_unit : forall v, (exists i, coord v i <> 0) ->
  norm (normalize v) = 1 /\ exists s, 0 < s /\ stretched s v (normalize v).
Proof.
  intros v [i Hi]. destruct (norm_is_length v) as (_ & _ & N & Z & S & _).
  assert (P : 0 < norm v).
  { destruct N as [N|N]; [auto|]. exfalso. apply Hi. apply Z. auto. }
  unfold normalize. destruct (S (1 / norm v)) as [A B]. rewrite B.
  assert (Q : 0 < 1 / norm v) by (apply Rdiv_lt_0_compat; lra).
  split; [|eauto]. rewrite Rabs_pos_eq by lra. field. lra.
Qed.
Print Assumptions normalize_unit.

(** C99d: the vector product: its product with any vector is the determinant; so it is orthogonal to both factors,
    and its length is the area of the parallelogram. *)
Theorem cross_product : forall a b c, length a = 3%nat -> length b = 3%nat -> length c = 3%nat ->
  length (cross a b) = 3%nat /\ dot (cross a b) c = det3 a b c /\
  inner (cross a b) a = 0 /\ inner (cross a b) b = 0 /\
  norm (cross a b) * norm (cross a b) = inner a a * inner b b - inner a b * inner a b.
Proof.
  intros [|a0 [|a1 [|a2 [|]]]] [|b0 [|b1 [|b2 [|]]]] [|c0 [|c1 [|c2 [|]]]] La Lb Lc; try discriminate.
  rewrite norm_sqr. unfold det3, coord, inner. cbn. repeat split; ring.
Qed.
Print Assumptions cross_product.

(** The vector (3, 4) has length 5 and direction (3/5, 4/5). *)
Example vector_ex : norm [3; 4] = 5 /\ normalize [3; 4] = [3 / 5; 4 / 5] /\ cross [1; 0; 0] [0; 1; 0] = [0; 0; 1].
Proof.
  assert (N : norm [3; 4] = 5).
  { cbn. replace (3 * 3 + (4 * 4 + 0)) with (5 * 5) by ring. apply sqrt_square. lra. }
  split; [exact N|]. split.
  - unfold normalize. rewrite N. cbn. f_equal; [field|]. f_equal. field.
  - cbn. f_equal; [ring|]. f_equal; [ring|]. f_equal. ring.
Qed.
