(** Integrals over intervals and the reference simplices, and polynomials. *)
Require Import List Arith Reals.
Require Import Verif.LinAlg.
Local Open Scope R_scope.

(** I is the integral of f from a to b: the difference of an antiderivative. *)
Definition is_integral (f : R -> R) (a b I : R) : Prop :=
  exists F, (forall x, a <= x <= b -> derivable_pt_lim F x (f x)) /\ I = F b - F a.

(** A point of dimension at most three. *)
Definition pt (x y z : R) : nat -> R := fun d => match d with 0%nat => x | 1%nat => y | 2%nat => z | _ => 0 end.

(** I is the integral of f over the reference simplex of dimension D = 1, 2, 3: the points with
    coordinates not negative and of sum at most one.  Innermost is the integral over coordinate 0. *)
Definition is_simplex_integral (D : nat) (f : (nat -> R) -> R) (I : R) : Prop :=
  match D with
  | 1%nat => is_integral (fun x => f (pt x 0 0)) 0 1 I
  | 2%nat => exists G,
      (forall y, 0 <= y <= 1 -> is_integral (fun x => f (pt x y 0)) 0 (1 - y) (G y))
      /\ is_integral G 0 1 I
  | _ => exists G H,
      (forall z y, 0 <= z <= 1 -> 0 <= y <= 1 - z ->
         is_integral (fun x => f (pt x y z)) 0 (1 - y - z) (G y z))
      /\ (forall z, 0 <= z <= 1 -> is_integral (fun y => G y z) 0 (1 - z) (H z))
      /\ is_integral H 0 1 I
  end.

(** f is a polynomial in the coordinates 0 .. D - 1, of total degree at most d. *)
Inductive polynomial (D : nat) : nat -> ((nat -> R) -> R) -> Prop :=
| poly_const : forall c d, polynomial D d (fun _ => c)
| poly_coord : forall e, (e < D)%nat -> polynomial D 1 (fun xi => xi e)
| poly_plus : forall d f g, polynomial D d f -> polynomial D d g -> polynomial D d (fun xi => f xi + g xi)
| poly_mult : forall d d' f g, polynomial D d f -> polynomial D d' g ->
    polynomial D (d + d') (fun xi => f xi * g xi)
| poly_le : forall d d' f, (d <= d')%nat -> polynomial D d f -> polynomial D d' f
| poly_eq : forall d f g, (forall xi, f xi = g xi) -> polynomial D d f -> polynomial D d g.

(** f is a polynomial in one variable of degree at most d. *)
Definition polynomial1 (d : nat) (f : R -> R) : Prop :=
  exists c : nat -> R, forall x, f x = rsum (S d) (fun k => c k * x ^ k).
