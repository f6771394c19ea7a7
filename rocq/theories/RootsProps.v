(** C66, continued: the points of the quadrature rules exist, lie inside, and have positive weights. *)
Require Import List Arith Lia Reals Lra.
Require Import Verif.LinAlg Verif.BasisModel Verif.BasisSpec Verif.JacobiProofs Verif.IntegralSpec Verif.IntegralProofs
  Verif.OrthogonalProofs Verif.QuadratureModel Verif.QuadratureSpec Verif.QuadratureProofs Verif.RootsProofs.
Import ListNotations.
Local Open Scope R_scope.

(** C66e: the zeros GaussJacobi looks for exist: the Jacobi polynomial of degree n has n distinct zeros between
    -1 and 1, for every n, a and b. *)
Theorem jacobi_roots_exist : forall n a b, exists x, jacobi_roots n a b x /\ forall i, (i < n)%nat -> -1 < x i < 1.
Proof. intros n a b. apply roots_exist. Qed.
Print Assumptions jacobi_roots_exist.

Lemma zprod_zero_inv : forall n x t, zprod n x t = 0 -> exists j, (j < n)%nat /\ t = x j.
Proof.
  induction n as [| n IH]; intros x t E; cbn [zprod] in E; [lra |]. apply Rmult_integral in E. destruct E as [E | E].
  - destruct (IH x t E) as (j & Hj & ->). exists j. split; [lia | reflexivity].
  - exists n. split; [lia | lra].
Qed.
Lemma roots_inside : forall n a b x i, jacobi_roots n a b x -> (i < n)%nat -> -1 < x i < 1.
Proof.
  intros n a b x i [Hz _] Hi. destruct n as [| n]; [lia |].
  destruct (interlaced_exists a b n) as (y & Hy & Hm).
  pose proof (jacobi_factored a b (S n) y ltac:(lia) (fun j Hj => proj1 (proj2 (Hy j Hj))) Hm (x i)) as E.
  rewrite (Hz i Hi) in E. symmetry in E. apply Rmult_integral in E. destruct E as [E | E].
  - pose proof (lead_pos a b (S n)). lra.
  - destruct (zprod_zero_inv _ _ _ E) as (j & Hj & ->). apply (Hy j Hj).
Qed.

(** C66f: whatever distinct zeros were found, the points of the rule lie inside its interval, and the weights are
    positive. *)
Theorem gauss_jacobi_inside : forall n a b root start stop i, jacobi_roots n a b root -> start < stop -> (i < n)%nat ->
  let r := changeInterval start stop (GaussJacobi root n a b) in
  start < ir_x r i < stop /\ 0 < ir_w r i.
Proof.
  intros n a b root start stop i Hr Hs Hi r. pose proof (roots_inside n a b root i Hr Hi) as B. split.
  - unfold r, changeInterval, GaussJacobi. cbn [ir_x ir_a ir_b].
    replace (1 / 2 * (stop - start) * (root i - 1 / 2 * (-1 + 1)) / (1 / 2 * (1 - -1)) + 1 / 2 * (start + stop))
      with (start + (stop - start) * ((1 + root i) / 2)) by field.
    assert (0 < (stop - start) * ((1 + root i) / 2)) by (apply Rmult_lt_0_compat; lra).
    assert (0 < (stop - start) * (1 - (1 + root i) / 2)) by (apply Rmult_lt_0_compat; lra). lra.
  - pose proof (weight_kernel n a b root ltac:(lia) Hr i Hi) as K. assert (KP : 0 < kernel a b n (root i) (root i)) by exact (kernel_pos n a b ltac:(lia) n (root i) ltac:(lia)).
    cbv beta in K. assert (W : 0 < ir_w (GaussJacobi root n a b) i).
    { apply (Rmult_lt_reg_r (kernel a b n (root i) (root i))); [exact KP |]. rewrite Rmult_0_l.
      rewrite K. lra. }
    unfold r, changeInterval. cbn [ir_w]. apply Rmult_lt_0_compat; [exact W |]. cbn [ir_a ir_b GaussJacobi].
    apply Rdiv_lt_0_compat; lra.
Qed.
Print Assumptions gauss_jacobi_inside.

(** C66g: the points of the collapsed tensor product rule lie inside the reference simplex, with positive
    weights. *)
Theorem tensor_product_rule_inside : forall root D m,
  (forall a, (a <= 2)%nat -> jacobi_roots (1 + m / 2) a 0 (root (1 + m / 2)%nat a 0%nat)) -> (D = 1 \/ D = 2 \/ D = 3)%nat ->
  forall xi w, In (xi, w) (sr_points (TensorProductRule root D m)) ->
  0 < w /\ (forall d, (d < D)%nat -> 0 < xi d) /\ rsum D xi < 1.
Proof.
  intros root D m Hr HD xi w Hin. unfold TensorProductRule in Hin. cbn [sr_points] in Hin.
  change (1 + m / 2)%nat with (pointsPerDim m) in Hr. set (n := pointsPerDim m) in *.
  assert (B : forall a i, (a <= 2)%nat -> (i < n)%nat ->
    let r := changeInterval 0 1 (GaussJacobi (root n a 0%nat) n a 0) in 0 < ir_x r i < 1 /\ 0 < ir_w r i).
  { intros a i Ha Hi. apply gauss_jacobi_inside; [now apply Hr | lra | exact Hi]. }
  cbv zeta in B.
  set (g0 := changeInterval 0 1 (GaussJacobi (root n 0%nat 0%nat) n 0 0)) in *.
  set (g1 := changeInterval 0 1 (GaussJacobi (root n 1%nat 0%nat) n 1 0)) in *.
  set (g2 := changeInterval 0 1 (GaussJacobi (root n 2%nat 0%nat) n 2 0)) in *.
  pose proof (fun i => B 0%nat i ltac:(lia)) as B0. pose proof (fun i => B 1%nat i ltac:(lia)) as B1.
  pose proof (fun i => B 2%nat i ltac:(lia)) as B2. fold g0 in B0. fold g1 in B1. fold g2 in B2. clear B. clearbody g0 g1 g2.
  assert (MU : forall u v, 0 < u < 1 -> 0 < v < 1 -> 0 < u * (1 - v) /\ u * (1 - v) < 1 - v).
  { intros u v Hu Hv. split; [apply Rmult_lt_0_compat; lra |].
    assert (0 < (1 - u) * (1 - v)) by (apply Rmult_lt_0_compat; lra). lra. }
  destruct HD as [-> | [-> | ->]].
  - apply in_map_iff in Hin. destruct Hin as (i & E & Hi). apply in_seq in Hi. inversion E; subst. destruct (B0 i ltac:(lia)) as [X W].
    split; [exact W |]. split; [| cbn; lra]. intros d Hd. assert (d = 0%nat) as -> by lia. cbn. lra.
  - apply in_flat_map in Hin. destruct Hin as (i & Hi & Hin). apply in_map_iff in Hin. destruct Hin as (j & E & Hj).
    apply in_seq in Hi. apply in_seq in Hj. inversion E; subst. destruct (B1 i ltac:(lia)) as [X1 W1]. destruct (B0 j ltac:(lia)) as [X0 W0].
    destruct (MU _ _ X0 X1). split; [repeat apply Rmult_lt_0_compat; lra |]. split; [| cbn; lra].
    intros d Hd. assert (d = 0 \/ d = 1)%nat as [-> | ->] by lia; cbn; lra.
  - apply in_flat_map in Hin. destruct Hin as (i & Hi & Hin). apply in_flat_map in Hin. destruct Hin as (j & Hj & Hin).
    apply in_map_iff in Hin. destruct Hin as (k & E & Hk).
    apply in_seq in Hi. apply in_seq in Hj. apply in_seq in Hk. inversion E; subst.
    destruct (B2 i ltac:(lia)) as [X2 W2]. destruct (B1 j ltac:(lia)) as [X1 W1]. destruct (B0 k ltac:(lia)) as [X0 W0].
    destruct (MU _ _ X0 X1) as [M1 M2]. destruct (MU _ _ X1 X2) as [M3 M4].
    assert (V : 0 < 1 - ir_x g2 i) by lra.
    assert (0 < ir_x g0 k * (1 - ir_x g1 j) * (1 - ir_x g2 i)) by (apply Rmult_lt_0_compat; lra).
    assert (0 < ((1 - ir_x g1 j) - ir_x g0 k * (1 - ir_x g1 j)) * (1 - ir_x g2 i)) by (apply Rmult_lt_0_compat; lra).
    split; [repeat apply Rmult_lt_0_compat; lra |]. split; [| cbn; lra].
    intros d Hd. assert (d = 0 \/ d = 1 \/ d = 2)%nat as [-> | [-> | ->]] by lia; cbn; lra.
Qed.
Print Assumptions tensor_product_rule_inside.

(** A function has at most one integral over the reference simplex, so the sums of an exact rule are it. *)
Theorem simplex_integral_unique : forall D f I J, (D = 1 \/ D = 2 \/ D = 3)%nat ->
  is_simplex_integral D f I -> is_simplex_integral D f J -> I = J.
Proof.
  intros D f I J [-> | [-> | ->]]; cbn [is_simplex_integral].
  - intros H1 H2. apply (is_integral_unique _ 0 1 I J ltac:(lra) H1 H2).
  - intros (G & A1 & A2) (G' & B1 & B2). apply (is_integral_unique G 0 1); [lra | exact A2 |].
    eapply is_integral_ext; [| reflexivity | exact B2]. intros y Hy.
    apply (is_integral_unique _ 0 (1 - y) _ _ ltac:(lra) (B1 y Hy) (A1 y Hy)).
  - intros (G & H & A1 & A2 & A3) (G' & H' & B1 & B2 & B3). apply (is_integral_unique H 0 1); [lra | exact A3 |].
    eapply is_integral_ext; [| reflexivity | exact B3]. intros z Hz.
    apply (is_integral_unique (fun y => G y z) 0 (1 - z)); [lra | | exact (A2 z Hz)].
    eapply is_integral_ext; [| reflexivity | exact (B2 z Hz)]. intros y Hy.
    apply (is_integral_unique _ 0 (1 - y - z) _ _ ltac:(lra) (B1 z y Hz Hy) (A1 z y Hz Hy)).
Qed.
Print Assumptions simplex_integral_unique.
