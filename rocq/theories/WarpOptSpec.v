(** Specification of the search, the random points and the Lebesgue function (C94). *)
Require Import List Arith Reals.
Require Import Verif.IntegralSpec.
Import ListNotations.
Local Open Scope R_scope.

(** f falls up to m and rises from there. *)
Definition unimodal (f : R -> R) (a b m : R) : Prop :=
  a <= m <= b /\ (forall x y, a <= x -> x < y -> y <= m -> f y < f x) /\ (forall x y, m <= x -> x < y -> y <= b -> f x < f y).

(** Affine maps of the plane and of space: rows of the matrix with the offset last. *)
Definition affine2 := ((R * R * R) * (R * R * R))%type.
Definition apply2 (F : affine2) (p : R * R) : R * R :=
  let '((a, b, c), (d, e, g)) := F in let '(x, y) := p in (a * x + b * y + c, d * x + e * y + g).
Definition det2 (F : affine2) : R := let '((a, b, _), (d, e, _)) := F in a * e - b * d.
Definition affine3 := ((R * R * R * R) * (R * R * R * R) * (R * R * R * R))%type.
Definition apply3 (F : affine3) (p : R * R * R) : R * R * R :=
  let '((a, b, c, t), (d, e, g, u), (h, i, j, v)) := F in let '(x, y, z) := p in
  (a * x + b * y + c * z + t, d * x + e * y + g * z + u, h * x + i * y + j * z + v).
Definition det3 (F : affine3) : R :=
  let '((a, b, c, _), (d, e, g, _), (h, i, j, _)) := F in a * (e * j - g * i) - b * (d * j - g * h) + c * (d * i - e * h).
(** The unit square and cube, the simplices and their interiors. *)
Definition square (c : R * R) : Prop := let '(x, y) := c in 0 <= x <= 1 /\ 0 <= y <= 1.
Definition cube (c : R * R * R) : Prop := let '(x, y, z) := c in 0 <= x <= 1 /\ 0 <= y <= 1 /\ 0 <= z <= 1.
Definition triangle (p : R * R) : Prop := let '(x, y) := p in 0 <= x /\ 0 <= y /\ x + y <= 1.
Definition tetrahedron (p : R * R * R) : Prop := let '(x, y, z) := p in 0 <= x /\ 0 <= y /\ 0 <= z /\ x + y + z <= 1.
Definition triangle_inside (p : R * R) : Prop := let '(x, y) := p in 0 < x /\ 0 < y /\ x + y < 1.
Definition tetrahedron_inside (p : R * R * R) : Prop := let '(x, y, z) := p in 0 < x /\ 0 < y /\ 0 < z /\ x + y + z < 1.
(** A map from a body to another is k to one and keeps volume: through every point inside go exactly k
    affine maps back, all of determinant 1 or -1.  Uniformly distributed points are mapped to such. *)
Definition folds {P A : Type} (apply : A -> P -> P) (det : A -> R) (from inside : P -> Prop) (s : P -> P) (k : nat) : Prop :=
  exists Fs, length Fs = k /\ (forall F, In F Fs -> Rabs (det F) = 1) /\
    forall p, inside p -> NoDup (map (fun F => apply F p) Fs) /\
      forall c, (from c /\ s c = p) <-> In c (map (fun F => apply F p) Fs).

(** L is the largest value that a polynomial of degree N can have at xi, if its values at the nodes are
    between -1 and 1. *)
Definition lebesgue_value (D N : nat) (nodes : list (nat -> R)) (xi : nat -> R) (L : R) : Prop :=
  (forall f, polynomial D N f -> (forall x, In x nodes -> Rabs (f x) <= 1) -> Rabs (f xi) <= L) /\
  (exists f, polynomial D N f /\ (forall x, In x nodes -> Rabs (f x) <= 1) /\ f xi = L).
