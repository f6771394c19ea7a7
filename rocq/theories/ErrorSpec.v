(** Functions on elements, their gradients in physical coordinates, and error norms. *)
Require Import List Arith Reals.
Require Import Verif.LinAlg Verif.BasisSpec.
Local Open Scope R_scope.

(** The image of reference point xi for an element with nodes pos j: the nodes weighted by the nodal basis b. *)
Definition place (nb : nat) (b : nat -> (nat -> R) -> R) (pos : nat -> nat -> R) (xi : nat -> R) : nat -> R :=
  fun i => rsum nb (fun j => pos j i * b j xi).
(** g is the gradient of w at x: along every curve through x, w changes by the product of g and the velocity. *)
Definition gradient_at (D : nat) (w : (nat -> R) -> R) (x g : nat -> R) : Prop :=
  forall (c : R -> nat -> R) t0 v, c t0 = x -> (forall i, (i < D)%nat -> derivable_pt_lim (fun t => c t i) t0 (v i)) ->
  derivable_pt_lim (fun t => w (c t)) t0 (rsum D (fun i => g i * v i)).
(** P holds near xi. *)
Definition near (D : nat) (xi : nat -> R) (P : (nat -> R) -> Prop) : Prop :=
  exists eps, 0 < eps /\ forall xi', (forall d, (d < D)%nat -> Rabs (xi' d - xi d) < eps) -> P xi'.
(** J is the Jacobian of the map X at xi: J i e is the derivative of component i in direction e. *)
Definition jacobian_of (D : nat) (X : (nat -> R) -> nat -> R) (xi : nat -> R) (J : nat -> nat -> R) : Prop :=
  forall i e, (i < D)%nat -> (e < D)%nat -> partial_derivative (fun x => X x i) e xi (J i e).
