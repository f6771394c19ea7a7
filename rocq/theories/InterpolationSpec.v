(** Finite element functions given by coefficients. *)
Require Import List Arith Reals.
Require Import Verif.LinAlg.
Local Open Scope R_scope.

(** The value at xi of quantity p in element g, of the function with coefficients x: elements after one another, within
    an element quantity after quantity, within a quantity one coefficient for each of nb basis functions b. *)
Definition fe_value (b : nat -> (nat -> R) -> R) (nb Q : nat) (x : nat -> R) (g p : nat) (xi : nat -> R) : R :=
  rsum nb (fun k => x (g * (nb * Q) + (p * nb + k))%nat * b k xi).
(** Coefficients x for the basis b and x' for the basis b' give the same function on all ne elements. *)
Definition same_function (ne Q : nat) (b : nat -> (nat -> R) -> R) (nb : nat) (x : nat -> R)
    (b' : nat -> (nat -> R) -> R) (nb' : nat) (x' : nat -> R) : Prop :=
  forall g p xi, (g < ne)%nat -> (p < Q)%nat -> fe_value b nb Q x g p xi = fe_value b' nb' Q x' g p xi.
(** y^T A x. *)
Definition bilinear (n : nat) (A : nat -> nat -> R) (y x : nat -> R) : R :=
  rsum n (fun i => y i * rsum n (fun j => A i j * x j)).
