(** Specification for C28 and C29: simplices and distances in D-dimensional space. *)
Require Import Reals.
From Verif Require Import LinAlg.
Local Open Scope R_scope.

(** sum_i mu_i v_i. *)
Definition weighted (V : nat) (vertices : nat -> nat -> R) (mu : nat -> R) (d : nat) : R :=
  rsum V (fun i => mu i * vertices i d).
(** mu are barycentric coordinates of y: non-negative, with sum one, and y = sum_i mu_i v_i. *)
Definition convex_coords (D V : nat) (vertices : nat -> nat -> R) (mu y : nat -> R) : Prop :=
  (forall i, (i < V)%nat -> 0 <= mu i) /\ rsum V mu = 1 /\
  forall d, (d < D)%nat -> y d = weighted V vertices mu d.
Definition in_simplex (D V : nat) (vertices : nat -> nat -> R) (y : nat -> R) : Prop :=
  exists mu, convex_coords D V vertices mu y.
(** The simplex is not degenerate. *)
Definition affinely_independent (D V : nat) (vertices : nat -> nat -> R) : Prop :=
  forall c, rsum V c = 0 -> (forall d, (d < D)%nat -> weighted V vertices c d = 0) ->
  forall i, (i < V)%nat -> c i = 0.
Definition distance2 (D : nat) (x y : nat -> R) : R := rsum D (fun d => (x d - y d) * (x d - y d)).
Definition distance (D : nat) (x y : nat -> R) : R := sqrt (distance2 D x y).
