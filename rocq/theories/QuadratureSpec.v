(** What a quadrature rule is for. *)
Require Import List Arith Reals.
Require Import Verif.LinAlg Verif.BasisSpec Verif.IntegralSpec.
Local Open Scope R_scope.

(** The sum the rule replaces the integral of f by. *)
Definition rule_sum (r : list ((nat -> R) * R)) (f : (nat -> R) -> R) : R :=
  fold_right (fun p s => snd p * f (fst p) + s) 0 r.
(** Every polynomial of total degree at most d is integrated exactly over the reference simplex. *)
Definition exact_on_simplex (D : nat) (r : list ((nat -> R) * R)) (d : nat) : Prop :=
  forall f, polynomial D d f -> is_simplex_integral D f (rule_sum r f).
(** The n zeros of the Jacobi polynomial P_n^(a,b). *)
Definition jacobi_roots (n a b : nat) (x : nat -> R) : Prop :=
  (forall i, (i < n)%nat -> jacobi n a b (x i) = 0)
  /\ (forall i j, (i < n)%nat -> (j < n)%nat -> x i = x j -> i = j).
