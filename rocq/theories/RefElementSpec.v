(** Nodes, nodal bases and their use. *)
Require Import List Arith Reals.
Require Import Verif.LinAlg Verif.BasisSpec Verif.IntegralSpec Verif.IntegralProofs.
Import ListNotations.
Local Open Scope R_scope.

(** Nodes that determine a polynomial of degree at most N: only zero vanishes at all of them. *)
Definition unisolvent (D N : nat) (nodes : list (nat -> R)) : Prop :=
  forall f, polynomial D N f -> (forall x, In x nodes -> f x = 0) -> forall xi, f xi = 0.
(** psi i are the polynomials of degree at most N that are one at node i and zero at the other nodes. *)
Definition nodal_basis (D N : nat) (nodes : list (nat -> R)) (psi : nat -> (nat -> R) -> R) : Prop :=
  (forall i, (i < length nodes)%nat -> polynomial D N (psi i))
  /\ forall i k, (i < length nodes)%nat -> (k < length nodes)%nat ->
       psi i (nth k nodes (fun _ => 0)) = if (i =? k)%nat then 1 else 0.
(** What is expected of a matrix inversion, without rounding errors. *)
Definition exact_inverse (inverse : nat -> (nat -> nat -> R) -> nat -> nat -> R) : Prop :=
  forall n A, nonsingular n A -> forall i j, (i < n)%nat -> (j < n)%nat ->
    rsum n (fun k => A i k * inverse n A k j) = if (i =? j)%nat then 1 else 0.
