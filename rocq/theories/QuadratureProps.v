(** C66: the quadrature rules are exact for the polynomials they are asked for. *)
Require Import List Arith Lia Reals Lra.
Require Import Verif.LinAlg Verif.BasisModel Verif.BasisSpec Verif.JacobiProofs Verif.IntegralSpec Verif.IntegralProofs
  Verif.OrthogonalProofs Verif.QuadratureModel Verif.QuadratureSpec Verif.QuadratureProofs.
Import ListNotations.
Local Open Scope R_scope.

(** C66a: GaussJacobi(n, a, b), on the zeros of the Jacobi polynomial, integrates every polynomial of degree
    at most 2 n - 1 with the weight function (1-x)^a (1+x)^b exactly. *)
Theorem gauss_jacobi_exact : forall n a b root f, (0 < n)%nat -> jacobi_roots n a b root -> polynomial1 (2 * n - 1) f ->
  let r := GaussJacobi root n a b in
  is_integral (fun x => (1 - x) ^ a * (1 + x) ^ b * f x) (-1) 1 (rsum n (fun i => ir_w r i * f (ir_x r i))).
Proof. intros n a b root f Hn Hr Hf r. exact (gauss_exact_poly n a b root Hn Hr f Hf). Qed.
Print Assumptions gauss_jacobi_exact.

(** C66b: after changeInterval(start, stop) the same holds on [start, stop], for the weight function
    carried over. *)
Theorem change_interval_exact : forall n a b root f start stop,
  (0 < n)%nat -> jacobi_roots n a b root -> polynomial1 (2 * n - 1) f -> start < stop ->
  let r := changeInterval start stop (GaussJacobi root n a b) in
  is_integral (fun t => (2 * (stop - t) / (stop - start)) ^ a * (2 * (t - start) / (stop - start)) ^ b * f t) start stop
    (rsum n (fun i => ir_w r i * f (ir_x r i))).
Proof.
  intros n a b root f start stop Hn Hr Hf Hs r.
  set (h := (stop - start) / 2). assert (Hh : 0 < h) by (unfold h; lra).
  set (mid := (start + stop) / 2).
  pose proof (gauss_jacobi_exact n a b root (fun x => f (mid + h * x)) Hn Hr (p1_comp_affine _ _ mid h Hf)) as G. cbv zeta in G.
  assert (E : is_integral (fun x => (1 - x) ^ a * (1 + x) ^ b * f (mid + h * x)) (- (mid / h) + / h * start) (- (mid / h) + / h * stop)
     (rsum n (fun i => ir_w (GaussJacobi root n a b) i * f (mid + h * ir_x (GaussJacobi root n a b) i)))).
  { replace (- (mid / h) + / h * start) with (-1) by (unfold mid, h; field; lra).
    replace (- (mid / h) + / h * stop) with 1 by (unfold mid, h; field; lra). exact G. }
  apply is_integral_affine in E; [| now apply Rinv_0_lt_compat].
  eapply is_integral_ext; [| | exact E].
  - intros t _. cbv beta.
    replace (1 - (- (mid / h) + / h * t)) with (2 * (stop - t) / (stop - start)) by (unfold mid, h; field; lra).
    replace (1 + (- (mid / h) + / h * t)) with (2 * (t - start) / (stop - start)) by (unfold mid, h; field; lra).
    replace (mid + h * (- (mid / h) + / h * t)) with t by (unfold mid, h; field; lra). reflexivity.
  - unfold Rdiv at 1. rewrite Rinv_inv, <- rsum_scale_r. apply rsum_ext. intros i Hi.
    unfold r, changeInterval. cbn [ir_w ir_x ir_a ir_b GaussJacobi].
    replace (1 / 2 * (stop - start) / (1 / 2 * (1 - -1))) with h by (unfold h; field).
    replace (1 / 2 * (stop - start) * (root i - 1 / 2 * (-1 + 1)) / (1 / 2 * (1 - -1)) + 1 / 2 * (start + stop))
      with (mid + h * root i) by (unfold mid, h; field). ring.
Qed.
Print Assumptions change_interval_exact.

(** ** Monomials *)
Definition mono (p q r : nat) (xi : nat -> R) : R := xi 0%nat ^ p * xi 1%nat ^ q * xi 2%nat ^ r.
(** The exponents of coordinates beyond the dimension are zero. *)
Definition expo (D d : nat) (e : nat * nat * nat) : Prop :=
  let '(p, q, r) := e in (p + q + r <= d)%nat /\ ((D < 2)%nat -> q = 0%nat) /\ ((D < 3)%nat -> r = 0%nat).
Definition msum (l : list (R * (nat * nat * nat))) (xi : nat -> R) : R :=
  fold_right (fun t s => (let '(c, (p, q, r)) := t in c * mono p q r xi) + s) 0 l.
Lemma msum_app : forall l l' xi, msum (l ++ l') xi = msum l xi + msum l' xi.
Proof.
  intros l l' xi. unfold msum. induction l as [| t l IH]; cbn [app fold_right]; [ring |]. rewrite IH. ring.
Qed.
Lemma polynomial_monos : forall D, (0 < D <= 3)%nat -> forall d f, polynomial D d f ->
  exists l, (forall t, In t l -> expo D d (snd t)) /\ forall xi, f xi = msum l xi.
Proof.
  intros D HD d f H. induction H.
  - exists [(c, (0, 0, 0)%nat)]. split.
    + intros t [<- | []]. cbn. repeat split; lia.
    + intros xi. cbn. unfold mono. cbn [pow]. ring.
  - exists [(1, ((if e =? 0 then 1 else 0), (if e =? 1 then 1 else 0), (if e =? 2 then 1 else 0))%nat)]. split.
    + intros t [<- | []]. cbn. destruct e as [| [| [| e]]]; cbn; repeat split; lia.
    + intros xi. cbn. unfold mono. destruct e as [| [| [| e]]]; cbn; try ring. lia.
  - destruct IHpolynomial1 as (l1 & A1 & E1). destruct IHpolynomial2 as (l2 & A2 & E2). exists (l1 ++ l2). split.
    + intros t Ht. apply in_app_or in Ht. destruct Ht; auto.
    + intros xi. rewrite msum_app, E1, E2. reflexivity.
  - destruct IHpolynomial1 as (l1 & A1 & E1). destruct IHpolynomial2 as (l2 & A2 & E2).
    exists (flat_map (fun t => map (fun u => let '(c, (p, q, r)) := t in let '(c', (p', q', r')) := u in
              (c * c', (p + p', q + q', r + r')%nat)) l2) l1). split.
    + intros t Ht. apply in_flat_map in Ht. destruct Ht as ([c [[p q] r]] & I1 & Ht).
      apply in_map_iff in Ht. destruct Ht as ([c' [[p' q'] r']] & <- & I2).
      specialize (A1 _ I1). specialize (A2 _ I2). cbn in *. lia.
    + intros xi. rewrite E1, E2. clear. induction l1 as [| [c [[p q] r]] l1 IH]; cbn [flat_map]; [cbn; ring |].
      rewrite msum_app, <- IH. change (msum ((c, (p, q, r)) :: l1) xi) with (c * mono p q r xi + msum l1 xi).
      rewrite Rmult_plus_distr_r. f_equal. clear. induction l2 as [| [c' [[p' q'] r']] l2 IH]; cbn [map]; [cbn; ring |].
      change (msum ((c', (p', q', r')) :: l2) xi) with (c' * mono p' q' r' xi + msum l2 xi).
      rewrite Rmult_plus_distr_l, IH. unfold msum at 2. cbn [fold_right]. f_equal. unfold mono. rewrite !pow_add. ring.
  - destruct IHpolynomial as (l & A & E). exists l. split; [| exact E].
    intros t Ht. specialize (A t Ht). destruct t as [c [[p q] r]]. cbn in *. lia.
  - destruct IHpolynomial as (l & A & E). exists l. split; [exact A |]. intros xi. rewrite <- H. apply E.
Qed.

(** Linearity of the simplex integral. *)
Lemma simplex_ext : forall D f g I J, (forall x y z, f (pt x y z) = g (pt x y z)) -> I = J ->
  is_simplex_integral D f I -> is_simplex_integral D g J.
Proof.
  intros D f g I J E <-. destruct D as [| [| [| D]]]; cbn [is_simplex_integral].
  - intros (G & H & A1 & A2 & A3). exists G, H. split; [| split; assumption].
    intros z y Hz Hy. eapply is_integral_ext; [| reflexivity | apply A1; assumption]. intros; apply E.
  - apply is_integral_ext; [intros; apply E | reflexivity].
  - intros (G & A1 & A2). exists G. split; [| assumption].
    intros y Hy. eapply is_integral_ext; [| reflexivity | apply A1; assumption]. intros; apply E.
  - intros (G & H & A1 & A2 & A3). exists G, H. split; [| split; assumption].
    intros z y Hz Hy. eapply is_integral_ext; [| reflexivity | apply A1; assumption]. intros; apply E.
Qed.
Lemma simplex_plus : forall D f g I J, is_simplex_integral D f I -> is_simplex_integral D g J ->
  is_simplex_integral D (fun xi => f xi + g xi) (I + J).
Proof.
  assert (T : forall f g I J, is_simplex_integral 3 f I -> is_simplex_integral 3 g J ->
            is_simplex_integral 3 (fun xi => f xi + g xi) (I + J)).
  { intros f g I J (G & H & A1 & A2 & A3) (G' & H' & B1 & B2 & B3).
    exists (fun y z => G y z + G' y z), (fun z => H z + H' z). repeat split; intros.
    - apply (is_integral_plus (fun x => f (pt x y z)) (fun x => g (pt x y z))); auto.
    - apply (is_integral_plus (fun y => G y z) (fun y => G' y z)); auto.
    - apply (is_integral_plus H H'); auto. }
  intros D f g I J. destruct D as [| [| [| D]]]; [apply T | | | apply T].
  - apply (is_integral_plus (fun x => f (pt x 0 0)) (fun x => g (pt x 0 0))).
  - intros (G & A1 & A2) (G' & B1 & B2). exists (fun y => G y + G' y). split.
    + intros y Hy. apply (is_integral_plus (fun x => f (pt x y 0)) (fun x => g (pt x y 0))); auto.
    + apply (is_integral_plus G G'); auto.
Qed.
Lemma simplex_scale : forall D f I c, is_simplex_integral D f I -> is_simplex_integral D (fun xi => c * f xi) (c * I).
Proof.
  assert (T : forall f I c, is_simplex_integral 3 f I -> is_simplex_integral 3 (fun xi => c * f xi) (c * I)).
  { intros f I c (G & H & A1 & A2 & A3). exists (fun y z => c * G y z), (fun z => c * H z). repeat split; intros.
    - apply (is_integral_scale (fun x => f (pt x y z))); auto.
    - apply (is_integral_scale (fun y => G y z)); auto.
    - apply (is_integral_scale H); auto. }
  intros D f I c. destruct D as [| [| [| D]]]; [apply T | | | apply T].
  - apply (is_integral_scale (fun x => f (pt x 0 0))).
  - intros (G & A1 & A2). exists (fun y => c * G y). split.
    + intros y Hy. apply (is_integral_scale (fun x => f (pt x y 0))); auto.
    + apply (is_integral_scale G); auto.
Qed.
(** p! q! r! / (p + q + r + D)!. *)
Lemma simplex_mono : forall D d p q r, (0 < D <= 3)%nat -> expo D d (p, q, r) ->
  is_simplex_integral D (mono p q r) (factR p * factR q * factR r / factR (p + q + r + D)).
Proof.
  intros D d p q r HD (_ & Hq & Hr). assert (D = 1 \/ D = 2 \/ D = 3)%nat as [-> | [-> | ->]] by lia.
  - rewrite (Hq ltac:(lia)), (Hr ltac:(lia)). cbn [is_simplex_integral]. unfold mono, pt.
    eapply is_integral_ext; [| | apply (pow_integral p 0 1)].
    + intros x _. cbn [pow]. ring.
    + rewrite pow1, (pow_i (S p)) by lia. replace (p + 0 + 0 + 1)%nat with (S p) by lia. rewrite factR_S.
      change (factR 0) with 1. field. split; [apply factR_neq | apply not_0_INR; lia].
  - rewrite (Hr ltac:(lia)). cbn [is_simplex_integral]. unfold mono, pt.
    exists (fun y => / INR (S p) * (y ^ q * (1 - y) ^ S p)). split.
    + intros y Hy. apply (is_integral_ext (fun x => y ^ q * x ^ p) _ 0 (1 - y) (y ^ q * (/ INR (S p) * ((1 - y) ^ S p - 0 ^ S p)))).
      * intros x _. cbn [pow]. ring.
      * rewrite (pow_i (S p)) by lia. ring.
      * apply is_integral_scale, pow_integral.
    + pose proof (beta_integral q (S p) 1) as Hb. apply (is_integral_scale _ _ _ _ (/ INR (S p))) in Hb.
      eapply is_integral_ext; [| | exact Hb]; [reflexivity |].
      rewrite pow1. replace (S p + q + 1)%nat with (p + q + 0 + 2)%nat by lia. rewrite (factR_S p). change (factR 0) with 1.
      field. split; [apply factR_neq | apply not_0_INR; lia].
  - cbn [is_simplex_integral]. unfold mono, pt.
    exists (fun y z => / INR (S p) * (y ^ q * z ^ r * (1 - y - z) ^ S p)),
      (fun z => / INR (S p) * (factR (S p) * factR q / factR (S p + q + 1)) * (z ^ r * (1 - z) ^ (S p + q + 1))).
    split; [| split].
    + intros z y Hz Hy. apply (is_integral_ext (fun x => (y ^ q * z ^ r) * x ^ p) _ 0 (1 - y - z) ((y ^ q * z ^ r) * (/ INR (S p) * ((1 - y - z) ^ S p - 0 ^ S p)))).
      * intros x _. ring.
      * rewrite (pow_i (S p)) by lia. ring.
      * apply is_integral_scale, pow_integral.
    + intros z Hz. pose proof (beta_integral q (S p) (1 - z)) as Hb. apply (is_integral_scale _ _ _ _ (/ INR (S p) * z ^ r)) in Hb.
      eapply is_integral_ext; [| | exact Hb].
      * intros y _. cbv beta. replace (1 - y - z) with (1 - z - y) by ring. ring.
      * ring.
    + pose proof (beta_integral r (S p + q + 1) 1) as Hb.
      apply (is_integral_scale _ _ _ _ (/ INR (S p) * (factR (S p) * factR q / factR (S p + q + 1)))) in Hb.
      eapply is_integral_ext; [| | exact Hb]; [reflexivity |].
      rewrite pow1. replace (S p + q + 1 + r + 1)%nat with (p + q + r + 3)%nat by lia. rewrite (factR_S p).
      field. repeat split; try apply factR_neq; apply not_0_INR; lia.
Qed.
(** A rule exact for the monomials is exact. *)
Lemma exact_of_monos : forall D d l, (0 < D <= 3)%nat ->
  (forall p q r, expo D d (p, q, r) -> rule_sum l (mono p q r) = factR p * factR q * factR r / factR (p + q + r + D)) ->
  exact_on_simplex D l d.
Proof.
  intros D d l HD HM f Hf. destruct (polynomial_monos D HD d f Hf) as (ts & A & E).
  assert (RE : rule_sum l f = rule_sum l (msum ts)).
  { clear -E. unfold rule_sum. induction l as [| t l IH]; cbn [fold_right]; [reflexivity |]. rewrite IH, E. reflexivity. }
  rewrite RE. apply (simplex_ext D (msum ts) f (rule_sum l (msum ts))); [intros; symmetry; apply E | reflexivity |].
  clear E RE Hf. induction ts as [| [c [[p q] r]] ts IH].
  - assert (Z : forall l, rule_sum l (msum []) = 0).
    { clear. intros l. unfold rule_sum. induction l as [| t l IH]; cbn [fold_right]; [reflexivity |]. rewrite IH. change (msum [] (fst t)) with 0. ring. }
    rewrite Z. pose proof (simplex_scale D (mono 0 0 0) _ 0 (simplex_mono D 0 0 0 0 HD ltac:(cbn; repeat split; lia))) as S0.
    eapply simplex_ext; [| | exact S0]; [intros; cbn; ring | ring].
  - assert (RS : rule_sum l (msum ((c, (p, q, r)) :: ts)) = c * rule_sum l (mono p q r) + rule_sum l (msum ts)).
    { clear. unfold rule_sum. induction l as [| t l IH]; cbn [fold_right]; [ring |]. rewrite IH.
      change (msum ((c, (p, q, r)) :: ts) (fst t)) with (c * mono p q r (fst t) + msum ts (fst t)). ring. }
    rewrite RS, HM by (apply (A (c, (p, q, r))); left; reflexivity).
    apply (simplex_plus D (fun xi => c * mono p q r xi) (msum ts)).
    + apply simplex_scale. eapply simplex_mono; [exact HD |]. apply (A (c, (p, q, r))). left. reflexivity.
    + apply IH. intros t Ht. apply A. right. exact Ht.
Qed.

Lemma rule_sum_app : forall l l' f, rule_sum (l ++ l') f = rule_sum l f + rule_sum l' f.
Proof. intros l l' f. unfold rule_sum. induction l as [| t l IH]; cbn [app fold_right]; [ring |]. rewrite IH. ring. Qed.
Lemma rule_sum_map : forall n (g : nat -> (nat -> R) * R) f,
  rule_sum (map g (seq 0 n)) f = rsum n (fun i => snd (g i) * f (fst (g i))).
Proof.
  induction n as [| n IH]; intros g f; [reflexivity |]. rewrite seq_S, map_app, rule_sum_app, IH. cbn. ring.
Qed.
Lemma rule_sum_flat_map : forall n (g : nat -> list ((nat -> R) * R)) f,
  rule_sum (flat_map g (seq 0 n)) f = rsum n (fun i => rule_sum (g i) f).
Proof.
  induction n as [| n IH]; intros g f; [reflexivity |]. rewrite seq_S, flat_map_app, rule_sum_app, IH. cbn [flat_map rsum Nat.add].
  rewrite app_nil_r. reflexivity.
Qed.

(** The one-dimensional rule of weight (1-t)^a on [0, 1]. *)
Lemma gj_beta : forall n a root p q, (0 < n)%nat -> jacobi_roots n a 0 root -> (p + q <= 2 * n - 1)%nat ->
  let r := changeInterval 0 1 (GaussJacobi root n a 0) in
  rsum n (fun i => ir_w r i * (ir_x r i ^ p * (1 - ir_x r i) ^ q)) = 2 ^ a * (factR p * factR (q + a) / factR (p + q + a + 1)).
Proof.
  intros n a root p q Hn Hr Hd r.
  assert (Hp : polynomial1 (2 * n - 1) (fun t => t ^ p * (1 - t) ^ q)).
  { apply (p1_le (p + q)); [exact Hd |]. apply p1_mult; [apply p1_pow |].
    apply (p1_ext _ (fun x => (1 + -1 * x) ^ q)); [intros; f_equal; ring | apply p1_pow_affine]. }
  pose proof (change_interval_exact n a 0 root _ 0 1 Hn Hr Hp ltac:(lra)) as E. cbv zeta in E. fold r in E.
  pose proof (beta_integral p (q + a) 1) as Hb. apply (is_integral_scale _ _ _ _ (2 ^ a)) in Hb. rewrite pow1 in Hb.
  refine (is_integral_unique _ 0 1 _ _ Rle_0_1 E _).
  eapply is_integral_ext; [| | exact Hb].
  - intros t _. cbv beta. replace (2 * (1 - t) / (1 - 0)) with (2 * (1 - t)) by field. rewrite Rpow_mult_distr, pow_add. cbn [pow]. ring.
  - replace (q + a + p + 1)%nat with (p + q + a + 1)%nat by lia. field. apply factR_neq.
Qed.

(** C66c: the collapsed tensor product rule integrates every polynomial up to its order over the reference
    simplex exactly, and its order is at least the one asked for. *)
Theorem tensor_product_rule_exact : forall root D m,
  (forall a, (a <= 2)%nat -> jacobi_roots (1 + m / 2) a 0 (root (1 + m / 2)%nat a 0%nat)) -> (D = 1 \/ D = 2 \/ D = 3)%nat ->
  let r := TensorProductRule root D m in
  exact_on_simplex D (sr_points r) (sr_order r) /\ (m <= sr_order r)%nat /\ sr_size r = tensor_size D m.
Proof.
  intros root D m Hroot HD r. set (n := pointsPerDim m).
  assert (Hn : (0 < n)%nat) by (unfold n, pointsPerDim; lia).
  split; [| split].
  - assert (HD' : (0 < D <= 3)%nat) by lia. apply exact_of_monos; [exact HD' |]. intros p q s (Hd & Hq & Hs).
    unfold r, TensorProductRule in *. cbn [sr_order sr_points] in *. fold n in Hd. fold n.
    set (g0 := changeInterval 0 1 (GaussJacobi (root n 0%nat 0%nat) n 0 0)).
    set (g1 := changeInterval 0 1 (GaussJacobi (root n 1%nat 0%nat) n 1 0)).
    set (g2 := changeInterval 0 1 (GaussJacobi (root n 2%nat 0%nat) n 2 0)).
    assert (B0 : forall p q, (p + q <= 2 * n - 1)%nat -> rsum n (fun i => ir_w g0 i * (ir_x g0 i ^ p * (1 - ir_x g0 i) ^ q)) = 2 ^ 0 * (factR p * factR (q + 0) / factR (p + q + 0 + 1)))
      by (intros; apply gj_beta; try assumption; apply Hroot; lia).
    assert (B1 : forall p q, (p + q <= 2 * n - 1)%nat -> rsum n (fun i => ir_w g1 i * (ir_x g1 i ^ p * (1 - ir_x g1 i) ^ q)) = 2 ^ 1 * (factR p * factR (q + 1) / factR (p + q + 1 + 1)))
      by (intros; apply gj_beta; try assumption; apply Hroot; lia).
    assert (B2 : forall p q, (p + q <= 2 * n - 1)%nat -> rsum n (fun i => ir_w g2 i * (ir_x g2 i ^ p * (1 - ir_x g2 i) ^ q)) = 2 ^ 2 * (factR p * factR (q + 2) / factR (p + q + 2 + 1)))
      by (intros; apply gj_beta; try assumption; apply Hroot; lia).
    clearbody g0 g1 g2. destruct HD as [-> | [-> | ->]].
    + rewrite (Hq ltac:(lia)), (Hs ltac:(lia)) in *. rewrite rule_sum_map. cbn [fst snd]. unfold mono, pt.
      rewrite (rsum_ext n _ (fun i => ir_w g0 i * (ir_x g0 i ^ p * (1 - ir_x g0 i) ^ 0))) by (intros; cbn [pow]; ring).
      rewrite B0 by lia. replace (p + 0 + 0 + 1)%nat with (p + 0 + 0 + 1)%nat by lia. cbn [pow Nat.add]. change (factR 0) with 1. field. apply factR_neq.
    + rewrite (Hs ltac:(lia)) in *. rewrite rule_sum_flat_map.
      rewrite (rsum_ext n _ (fun i => 1 / 2 * (ir_w g1 i * (ir_x g1 i ^ p * (1 - ir_x g1 i) ^ q)) * (1 * (factR q * factR (0 + 0) / factR (q + 0 + 0 + 1))))).
      * rewrite rsum_scale_r, rsum_scale, B1 by lia.
        replace (factR (q + 1)) with (factR (q + 0 + 0 + 1)) by (f_equal; lia).
        replace (p + q + 1 + 1)%nat with (p + q + 0 + 2)%nat by lia. cbn [pow Nat.add]. change (factR 0) with 1. field.
        split; apply factR_neq.
      * intros i Hi. rewrite rule_sum_map. cbn [fst snd]. unfold mono, pt.
        rewrite (rsum_ext n _ (fun j => 1 / 2 * (ir_w g1 i * (ir_x g1 i ^ p * (1 - ir_x g1 i) ^ q)) * (ir_w g0 j * (ir_x g0 j ^ q * (1 - ir_x g0 j) ^ 0)))).
        -- rewrite rsum_scale, B0 by lia. cbn [pow]. ring.
        -- intros j Hj. rewrite Rpow_mult_distr. cbn [pow]. ring.
    + rewrite rule_sum_flat_map.
      set (F0 := factR s * factR (0 + 0) / factR (s + 0 + 0 + 1)). set (F1 := factR q * factR (s + 1) / factR (q + s + 1 + 1)).
      rewrite (rsum_ext n _ (fun i => 1 / 8 * (ir_w g2 i * (ir_x g2 i ^ p * (1 - ir_x g2 i) ^ (q + s))) * (2 * F1 * (1 * F0)))).
      * rewrite rsum_scale_r, rsum_scale, B2 by lia. unfold F0, F1.
        replace (factR (s + 1)) with (factR (s + 0 + 0 + 1)) by (f_equal; lia).
        replace (factR (q + s + 2)) with (factR (q + s + 1 + 1)) by (f_equal; lia).
        replace (p + (q + s) + 2 + 1)%nat with (p + q + s + 3)%nat by lia. cbn [pow Nat.add]. change (factR 0) with 1. field.
        repeat split; apply factR_neq.
      * intros i Hi. rewrite rule_sum_flat_map.
        rewrite (rsum_ext n _ (fun j => 1 / 8 * (ir_w g2 i * (ir_x g2 i ^ p * (1 - ir_x g2 i) ^ (q + s))) * (ir_w g1 j * (ir_x g1 j ^ q * (1 - ir_x g1 j) ^ s)) * (1 * F0))).
        -- rewrite rsum_scale_r, rsum_scale, B1 by lia. fold F1. cbn [pow]. ring.
        -- intros j Hj. rewrite rule_sum_map. cbn [fst snd]. unfold mono, pt.
           rewrite (rsum_ext n _ (fun k => 1 / 8 * (ir_w g2 i * (ir_x g2 i ^ p * (1 - ir_x g2 i) ^ (q + s))) * (ir_w g1 j * (ir_x g1 j ^ q * (1 - ir_x g1 j) ^ s)) * (ir_w g0 k * (ir_x g0 k ^ s * (1 - ir_x g0 k) ^ 0)))).
           ++ rewrite rsum_scale, B0 by lia. fold F0. cbn [pow]. ring.
           ++ intros k Hk. rewrite !Rpow_mult_distr, pow_add. cbn [pow]. ring.
  - unfold r, TensorProductRule. cbn [sr_order]. unfold pointsPerDim.
    pose proof (Nat.div_mod m 2 ltac:(lia)). pose proof (Nat.mod_upper_bound m 2 ltac:(lia)). lia.
  - assert (FM : forall {X} k (l : list nat) (g : nat -> list X), (forall i, length (g i) = k) -> length (flat_map g l) = (length l * k)%nat).
    { intros X k l g Hg. induction l as [| i l IH]; [reflexivity |]. cbn [flat_map length]. rewrite app_length, Hg, IH. lia. }
    unfold r, TensorProductRule, sr_size, tensor_size. cbn [sr_points]. fold n.
    destruct HD as [-> | [-> | ->]]; cbn [seq fold_left].
    + rewrite map_length, seq_length. lia.
    + rewrite (FM _ n); [rewrite seq_length; lia |]. intros. now rewrite map_length, seq_length.
    + rewrite (FM _ (n * n)%nat); [rewrite seq_length; lia |]. intros. rewrite (FM _ n); [now rewrite seq_length |].
      intros. now rewrite map_length, seq_length.
Qed.
Print Assumptions tensor_product_rule_exact.

(** ** The choice of the rule *)
(** What is asked of a table of rules: sorted by order, every rule, after the transformation, exact up to its order. *)
Definition good_table (D : nat) (transform : (nat -> R) * R -> (nat -> R) * R) (t : table) : Prop :=
  forall k r, In (k, r) t -> exact_on_simplex D (map transform r) k.
Lemma lower_bound_spec : forall t m k r, lower_bound t m = Some (k, r) -> In (k, r) t /\ (m <= k)%nat.
Proof.
  induction t as [| [k0 r0] t IH]; intros m k r E; [discriminate |]. cbn [lower_bound] in E. destruct (Nat.ltb_spec k0 m).
  - destruct (IH m k r E). split; [right; assumption | assumption].
  - inversion E; subst. split; [left; reflexivity | assumption].
Qed.
Lemma exact_le : forall D l d d', (d' <= d)%nat -> exact_on_simplex D l d -> exact_on_simplex D l d'.
Proof. intros D l d d' Hd H f Hf. apply H. apply (poly_le D d'); assumption. Qed.

(** A class of rules with a rule at least of order m delivers one. *)
Definition delivers (D m : nat) (c : rule_class) : Prop :=
  forall s, rc_size c m = Some s -> sr_size (rc_get c m) = s /\ (m <= sr_order (rc_get c m))%nat
    /\ exact_on_simplex D (sr_points (rc_get c m)) (sr_order (rc_get c m)).
Lemma min_size_spec : forall D m cs c, (forall c', In c' (c :: cs) -> delivers D m c') ->
  (exists c', In c' (c :: cs) /\ rc_size c' m <> None) ->
  let r := minSizeSimplexQuadratureRule c cs m in
  exact_on_simplex D (sr_points r) (sr_order r) /\ (m <= sr_order r)%nat
  /\ (forall c' s, In c' (c :: cs) -> rc_size c' m = Some s -> (sr_size r <= s)%nat).
Proof.
  intros D m cs. induction cs as [| c2 cs IH]; intros c Hd (c0 & Hi & Hs) r; unfold r; cbn [minSizeSimplexQuadratureRule].
  - destruct Hi as [-> | []]. destruct (rc_size c0 m) as [s |] eqn:E; [| congruence].
    destruct (Hd c0 (or_introl eq_refl) s E) as (A1 & A2 & A3). split; [exact A3 |]. split; [exact A2 |].
    intros c' s' [<- | []] E'. assert (s' = s) by congruence. lia.
  - destruct (size_le (rc_size c m) (rc_size c2 m)) eqn:EL.
    + destruct (IH c) as (A1 & A2 & A3).
      * intros c' [<- | H]; apply Hd; cbn; auto.
      * destruct Hi as [<- | [<- | Hi]]; [exists c; split; [left; reflexivity | exact Hs] | | exists c0; split; [right; exact Hi | exact Hs]].
        exists c. split; [left; reflexivity |]. intros C. rewrite C in EL. destruct (rc_size c2 m); [discriminate | congruence].
      * split; [exact A1 |]. split; [exact A2 |]. intros c' s [<- | [<- | H]] E.
        -- apply (A3 c s); cbn; auto.
        -- rewrite E in EL. destruct (rc_size c m) as [s1 |] eqn:E1; [| discriminate]. cbn in EL. apply Nat.leb_le in EL.
           pose proof (A3 c s1 (or_introl eq_refl) E1). lia.
        -- apply (A3 c' s); cbn; auto.
    + destruct (IH c2) as (A1 & A2 & A3).
      * intros c' [<- | H]; apply Hd; cbn; auto.
      * exists c2. split; [left; reflexivity |]. intros C. rewrite C in EL. destruct (rc_size c m); discriminate.
      * split; [exact A1 |]. split; [exact A2 |]. intros c' s [<- | [<- | H]] E.
        -- rewrite E in EL. destruct (rc_size c2 m) as [s2 |] eqn:E2; [| discriminate]. cbn in EL. apply Nat.leb_gt in EL.
           pose proof (A3 c2 s2 (or_introl eq_refl) E2). lia.
        -- apply (A3 c2 s); cbn; auto.
        -- apply (A3 c' s); cbn; auto.
Qed.
Lemma tabulated_delivers : forall D m t tr, good_table D tr t -> delivers D m (tabulated_class t tr).
Proof.
  intros D m t tr Ht s E. unfold tabulated_class in *. cbn [rc_size rc_get] in *.
  destruct (lower_bound t m) as [[k r] |] eqn:L; [| discriminate]. inversion E; subst.
  destruct (lower_bound_spec t m k r L) as [Hi Hm]. unfold sr_size. cbn [sr_points sr_order]. rewrite map_length.
  split; [reflexivity |]. split; [exact Hm | now apply Ht].
Qed.
Lemma tensor_delivers : forall root D m,
  (forall a, (a <= 2)%nat -> jacobi_roots (1 + m / 2) a 0 (root (1 + m / 2)%nat a 0%nat)) -> (D = 1 \/ D = 2 \/ D = 3)%nat ->
  delivers D m (tensor_class root D).
Proof.
  intros root D m Hr HD s E. unfold tensor_class in *. cbn [rc_size rc_get] in *. inversion E; subst.
  destruct (tensor_product_rule_exact root D m Hr HD) as (A1 & A2 & A3). auto.
Qed.

(** C66d: simplexQuadratureRule<D>(m) integrates every polynomial of degree at most m over the reference simplex
    exactly, whether or not the tables have a rule of that order, and has no more points than any of the
    candidates. *)
Theorem simplex_quadrature_rule_exact : forall root wv2 js wv3 D m,
  (forall a, (a <= 2)%nat -> jacobi_roots (1 + m / 2) a 0 (root (1 + m / 2)%nat a 0%nat)) ->
  good_table 2 (wv_transform 2) wv2 -> good_table 3 js_transform js -> good_table 3 (wv_transform 3) wv3 ->
  (D = 1 \/ D = 2 \/ D = 3)%nat ->
  let r := simplexQuadratureRule root wv2 js wv3 D m in
  exact_on_simplex D (sr_points r) m /\ (m <= sr_order r)%nat /\ (sr_size r <= (1 + m / 2) ^ D)%nat
  /\ (forall k l, D = 2%nat -> lower_bound wv2 m = Some (k, l) -> (sr_size r <= length l)%nat)
  /\ (forall k l, D = 3%nat -> lower_bound js m = Some (k, l) \/ lower_bound wv3 m = Some (k, l) -> (sr_size r <= length l)%nat).
Proof.
  intros root wv2 js wv3 D m Hr G2 Gj G3 HD r.
  assert (TS : forall D', tensor_size D' m = ((1 + m / 2) ^ D')%nat).
  { intros D'. unfold tensor_size. change (pointsPerDim m) with (1 + m / 2)%nat. generalize (1 + m / 2)%nat. intros n.
    assert (F : forall l acc, fold_left (fun s (_ : nat) => (s * n)%nat) l acc = (acc * n ^ length l)%nat).
    { induction l as [| e l IH]; intros acc; cbn [fold_left length]; [cbn; lia |]. rewrite IH. cbn. ring. }
    rewrite F, seq_length. lia. }
  destruct HD as [-> | [-> | ->]]; unfold r; cbn [simplexQuadratureRule].
  - destruct (tensor_product_rule_exact root 1 m Hr ltac:(lia)) as (A1 & A2 & A3). split; [eapply exact_le; eassumption |].
    split; [exact A2 |]. split; [rewrite A3, TS; lia |]. split; intros; discriminate.
  - destruct (min_size_spec 2 m [tensor_class root 2] (tabulated_class wv2 (wv_transform 2))) as (A1 & A2 & A3).
    + intros c' [<- | [<- | []]]; [now apply tabulated_delivers | apply tensor_delivers; [exact Hr | lia]].
    + exists (tensor_class root 2). split; [right; left; reflexivity | discriminate].
    + split; [eapply exact_le; eassumption |]. split; [exact A2 |]. split; [| split; [| intros; discriminate]].
      * rewrite <- TS. apply (A3 (tensor_class root 2)); [right; left; reflexivity | reflexivity].
      * intros k l _ L. apply (A3 (tabulated_class wv2 (wv_transform 2))); [left; reflexivity |]. cbn. now rewrite L.
  - destruct (min_size_spec 3 m [tabulated_class wv3 (wv_transform 3); tensor_class root 3] (tabulated_class js js_transform)) as (A1 & A2 & A3).
    + intros c' [<- | [<- | [<- | []]]]; [now apply tabulated_delivers | now apply tabulated_delivers | apply tensor_delivers; [exact Hr | lia]].
    + exists (tensor_class root 3). split; [right; right; left; reflexivity | discriminate].
    + split; [eapply exact_le; eassumption |]. split; [exact A2 |]. split; [| split; [intros; discriminate |]].
      * rewrite <- TS. apply (A3 (tensor_class root 3)); [right; right; left; reflexivity | reflexivity].
      * intros k l _ [L | L].
        -- apply (A3 (tabulated_class js js_transform)); [left; reflexivity |]. cbn. now rewrite L.
        -- apply (A3 (tabulated_class wv3 (wv_transform 3))); [right; left; reflexivity |]. cbn. now rewrite L.
Qed.
Print Assumptions simplex_quadrature_rule_exact.
