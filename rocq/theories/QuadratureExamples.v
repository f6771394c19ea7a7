(** Concrete cases of the theorems of QuadratureProps and RootsProps. *)
Require Import List Arith Lia Reals Lra.
Require Import Verif.LinAlg Verif.BasisModel Verif.BasisSpec Verif.BasisProps Verif.BasisExamples Verif.JacobiProofs
  Verif.IntegralSpec Verif.IntegralProofs Verif.QuadratureModel Verif.QuadratureSpec Verif.QuadratureProps Verif.RootsProps.
Import ListNotations.
Local Open Scope R_scope.

(** The rules with one point in each direction: P_1^(a,0) vanishes at - a / (a + 2). *)
Definition root1 (n a b i : nat) : R := - INR a / (INR a + 2).
Example root1_ok : forall a, jacobi_roots 1 a 0 (root1 1 a 0).
Proof.
  intros a. split; [| intros; lia]. intros i Hi. rewrite <- hjac_jacobi, hjac_1, Nat.add_0_r. unfold root1. cbn [INR].
  pose proof (pos_INR a). field. lra.
Qed.
(** GaussJacobi(2, 1, 0): the zeros of 5 x^2 + 2 x - 1; the rule is exact up to degree three. *)
Definition root2 (i : nat) : R := match i with O => (-1 - sqrt 6) / 5 | _ => (-1 + sqrt 6) / 5 end.
Example root2_ok : jacobi_roots 2 1 0 root2.
Proof.
  pose proof (sqrt_lt_R0 6 ltac:(lra)) as P6. pose proof (sqrt_sqrt 6 ltac:(lra)) as S6.
  split.
  - intros i Hi. rewrite (proj1 (proj2 (jacobi_two _))). assert (i = 0 \/ i = 1)%nat as [-> | ->] by lia; cbn [root2 pow].
    + replace (5 * ((-1 - sqrt 6) / 5 * ((-1 - sqrt 6) / 5 * 1)) + 2 * ((-1 - sqrt 6) / 5) - 1) with ((sqrt 6 * sqrt 6 - 6) / 5) by field. rewrite S6. field.
    + replace (5 * ((-1 + sqrt 6) / 5 * ((-1 + sqrt 6) / 5 * 1)) + 2 * ((-1 + sqrt 6) / 5) - 1) with ((sqrt 6 * sqrt 6 - 6) / 5) by field. rewrite S6. field.
  - intros i j Hi Hj. assert (i = 0 \/ i = 1)%nat as [-> | ->] by lia; assert (j = 0 \/ j = 1)%nat as [-> | ->] by lia; cbn [root2]; try lia; lra.
Qed.
Example gauss_two : is_integral (fun x => (1 - x) ^ 1 * (1 + x) ^ 0 * x ^ 3) (-1) 1
  (rsum 2 (fun i => ir_w (GaussJacobi root2 2 1 0) i * root2 i ^ 3))
  /\ rsum 2 (fun i => ir_w (GaussJacobi root2 2 1 0) i * root2 i ^ 3) = - (2 / 5).
Proof.
  pose proof (gauss_jacobi_exact 2 1 0 root2 (fun x => x ^ 3) ltac:(lia) root2_ok (p1_pow 3)) as G. cbv zeta beta in G.
  split; [exact G |]. eapply is_integral_unique; [| exact G |]; [lra |].
  exists (fun x => x ^ 4 / 4 - x ^ 5 / 5). split; [| cbn; field]. intros x _.
  apply (derivable_pt_lim_ext_eq (fun t => / 4 * t ^ 4 - / 5 * t ^ 5) _ x (/ 4 * (INR 4 * x ^ 3) - / 5 * (INR 5 * x ^ 4))).
  - intros t. field.
  - cbn [INR pow]. field.
  - apply (derivable_pt_lim_minus (fun t => / 4 * t ^ 4) (fun t => / 5 * t ^ 5)).
    + apply (derivable_pt_lim_scal (fun t => t ^ 4)). apply (derivable_pt_lim_pow x 4).
    + apply (derivable_pt_lim_scal (fun t => t ^ 5)). apply (derivable_pt_lim_pow x 5).
Qed.
(** The exactness on the triangle and tetrahedron, for the rules with one point; the rule on the triangle is the
    centre with weight 1/2. *)
Example centre_rule : exact_on_simplex 2 (sr_points (TensorProductRule root1 2 1)) 1
  /\ exact_on_simplex 3 (sr_points (TensorProductRule root1 3 1)) 1.
Proof.
  split.
  - apply (tensor_product_rule_exact root1 2 1); [intros; apply root1_ok | lia].
  - apply (tensor_product_rule_exact root1 3 1); [intros; apply root1_ok | lia].
Qed.
(** For every order there are zeros as the theorems ask for. *)
Example roots_for_every_order : forall m, exists root : nat -> nat -> nat -> nat -> R,
  forall a, (a <= 2)%nat -> jacobi_roots (1 + m / 2) a 0 (root (1 + m / 2)%nat a 0%nat).
Proof.
  intros m. destruct (jacobi_roots_exist (1 + m / 2) 0 0) as (x0 & H0' & _). destruct (jacobi_roots_exist (1 + m / 2) 1 0) as (x1 & H1' & _).
  destruct (jacobi_roots_exist (1 + m / 2) 2 0) as (x2 & H2' & _).
  exists (fun _ a _ => match a with 0%nat => x0 | 1%nat => x1 | _ => x2 end).
  intros a Ha. assert (a = 0 \/ a = 1 \/ a = 2)%nat as [-> | [-> | ->]] by lia; assumption.
Qed.
(** A table with one rule, as in src/quadrules/WitherdenVincent2015_Tri.cpp for order 1: the centre of the triangle
    (-1,-1), (1,-1), (-1,1) of area 2. *)
Definition wv2_eg : table := [(1%nat, [(pt (- (1 / 3)) (- (1 / 3)) 0, 2)])].
Definition js_eg : table := [(1%nat, [(pt (1 / 4) (1 / 4) (1 / 4), 1)])].
Lemma exact_eq : forall D r r' d, r = r' -> exact_on_simplex D r d -> exact_on_simplex D r' d.
Proof. now intros D r r' d ->. Qed.
Example tables_good : good_table 2 (wv_transform 2) wv2_eg /\ good_table 3 js_transform js_eg /\ good_table 3 (wv_transform 3) [].
Proof.
  destruct centre_rule as [C2 C3]. split; [| split; [| intros k r []]].
  - intros k r [E | []]. inversion E; subst. eapply exact_eq; [| exact C2].
    unfold TensorProductRule. change (pointsPerDim 1) with 1%nat. cbn [sr_points seq map flat_map app].
    apply (f_equal (fun x => [x])). unfold wv_transform. cbn [fst snd]. f_equal.
    + apply FunctionalExtensionality.functional_extensionality. intros d.
      unfold changeInterval, GaussJacobi, root1. cbn [ir_x ir_a ir_b INR]. destruct d as [| [| [| d]]]; cbn [pt Nat.ltb Nat.leb]; field.
    + unfold changeInterval, GaussJacobi, weightFactor, rangeProduct, root1.
      cbn [ir_w ir_a ir_b Nat.sub Nat.add range_loop Nat.mul Nat.pow]. unfold JacobiPDerivative, JacobiP, jacobi_loop. cbn [INR Nat.add Nat.mul]. field.
  - intros k r [E | []]. inversion E; subst. eapply exact_eq; [| exact C3].
    unfold TensorProductRule. change (pointsPerDim 1) with 1%nat. cbn [sr_points seq map flat_map app].
    apply (f_equal (fun x => [x])). unfold js_transform. cbn [fst snd]. f_equal.
    + apply FunctionalExtensionality.functional_extensionality. intros d.
      unfold changeInterval, GaussJacobi, root1. cbn [ir_x ir_a ir_b INR]. destruct d as [| [| [| d]]]; cbn [pt]; field.
    + unfold changeInterval, GaussJacobi, weightFactor, rangeProduct, root1.
      cbn [ir_w ir_a ir_b Nat.sub Nat.add range_loop Nat.mul Nat.pow]. unfold JacobiPDerivative, JacobiP, jacobi_loop. cbn [INR Nat.add Nat.mul]. field.
Qed.
(** The rule chosen for order 1 and, where the table has no rule, for order 4 (nine points on the triangle). *)
Example chosen : forall root, (forall a, (a <= 2)%nat -> jacobi_roots 3 a 0 (root 3%nat a 0%nat)) ->
  exact_on_simplex 2 (sr_points (simplexQuadratureRule root wv2_eg js_eg [] 2 4)) 4
  /\ sr_size (simplexQuadratureRule root wv2_eg js_eg [] 2 4) = 9%nat
  /\ sr_size (simplexQuadratureRule root wv2_eg js_eg [] 2 1) = 1%nat.
Proof.
  intros root Hr. destruct tables_good as (G2 & Gj & G3). split; [| split; reflexivity].
  apply (simplex_quadrature_rule_exact root wv2_eg js_eg [] 2 4); [exact Hr | exact G2 | exact Gj | exact G3 | lia].
Qed.
