(** Concrete cases of the theorems of BasisProps. *)
Require Import List Arith Lia Reals Lra.
Require Import Verif.LinAlg Verif.BasisModel Verif.BasisSpec Verif.BasisProps Verif.IntegralSpec.
Import ListNotations.
Local Open Scope R_scope.

(** P_2^(1,0): both the recursion and the series give (5 x^2 + 2 x - 1) / 2. *)
Example jacobi_two : forall x, JacobiP 2 1 0 x = (5 * x ^ 2 + 2 * x - 1) / 2 /\ jacobi 2 1 0 x = (5 * x ^ 2 + 2 * x - 1) / 2
  /\ JacobiPDerivative 2 1 0 x = 5 * x + 1.
Proof.
  intros x. rewrite <- (proj1 (jacobi_polynomial_and_derivative 2 1 0 x)).
  unfold JacobiPDerivative, JacobiP, jacobi_loop. cbn [INR Nat.add Nat.mul]. repeat split; field.
Qed.
(** The basis function (1, 1) of the triangle and its gradient at the vertex (0, 1), where the collapsed
    coordinates are not defined. *)
Example dubiner_at_vertex :
  DubinerP 2 [1; 1]%nat (pt 0 1 0) = 0
  /\ gradDubinerP 2 [1; 1]%nat (pt 0 1 0) 0 = 8 /\ gradDubinerP 2 [1; 1]%nat (pt 0 1 0) 1 = 4
  /\ partial_derivative (DubinerP 2 [1; 1]%nat) 0 (pt 0 1 0) 8
  /\ partial_derivative (DubinerP 2 [1; 1]%nat) 1 (pt 0 1 0) 4.
Proof.
  assert (G0 : gradDubinerP 2 [1; 1]%nat (pt 0 1 0) 0 = 8).
  { unfold gradDubinerP, gradTriDubinerP, SingularityFreeJacobiPAndDerivatives, SingularityFreeJacobiP, sfj_loop, sfjd_loop, pt. cbn [nth Nat.add Nat.mul INR j_v j_x j_y]. field. }
  assert (G1 : gradDubinerP 2 [1; 1]%nat (pt 0 1 0) 1 = 4).
  { unfold gradDubinerP, gradTriDubinerP, SingularityFreeJacobiPAndDerivatives, SingularityFreeJacobiP, sfj_loop, sfjd_loop, pt. cbn [nth Nat.add Nat.mul INR j_v j_x j_y]. field. }
  split; [| split; [exact G0 | split; [exact G1 |]]].
  - unfold DubinerP, TriDubinerP, SingularityFreeJacobiP, sfj_loop, pt. cbn [nth Nat.add Nat.mul INR]. field.
  - split; [rewrite <- G0 | rewrite <- G1]; apply dubiner_gradient; lia.
Qed.
(** A point at which the hypotheses of dubiner_basis hold, the centre of the tetrahedron. *)
Example dubiner_centre : DubinerP 3 [1; 0; 1]%nat (pt (1 / 4) (1 / 4) (1 / 4)) = dubiner_tetrahedron [1; 0; 1]%nat (pt (1 / 4) (1 / 4) (1 / 4)).
Proof. apply dubiner_basis; cbn; lra. Qed.
