(** Models src/mesh/Simplex.h.  A simplex is the list of its vertex numbers (uint64_t, modelled as
    natural numbers: no arithmetic is done on them). *)
Require Import List Arith.
Require Import Verif.Base Verif.CombinatoricsModel.
Import ListNotations.
Local Open Scope opt_scope.

(** std::sort on integers, modelled by insertion sort. *)
Fixpoint insert_nat (x : nat) (l : list nat) : list nat :=
  match l with [] => [x] | y :: t => if x <=? y then x :: l else y :: insert_nat x t end.
Fixpoint sort_nat (l : list nat) : list nat :=
  match l with [] => [] | x :: t => insert_nat x (sort_nat t) end.

(** src/mesh/Simplex.h:21-27, constructors of SimplexBase. *)
Definition mk_simplex (vertices : list nat) : list nat := sort_nat vertices.

(** src/mesh/Simplex.h:76-98 [Downward<DD,D>::operator()], with k = DD+1 and n = D+1; the array
    access plex[c] is checked.  [None]: out of bounds or more than n^k iterations.
    The specialisation Downward<0,D> (:100-110) is [downward0]. *)
Fixpoint pick (plex c : list nat) : option (list nat) :=
  match c with
  | [] => Some []
  | i :: t => do v <- nth_error plex i; do r <- pick plex t; Some (v :: r)
  end.
Fixpoint pick_all (plex : list nat) (cs : list (list nat)) : option (list (list nat)) :=
  match cs with
  | [] => Some []
  | c :: t => do v <- pick plex c; do r <- pick_all plex t; Some (v :: r)
  end.
Definition downward (k : nat) (plex : list nat) : option (list (list nat)) :=
  let n := length plex in
  do cs <- choose_all (n ^ k) n (choose_begin k);
  pick_all plex cs.
(** src/mesh/Simplex.h:100-110 [Downward<0,D>]. *)
Definition downward0 (plex : list nat) : list (list nat) := map (fun v => [v]) plex.

(** src/mesh/Simplex.h:45-49 [referenceSimplex]. *)
Definition referenceSimplex (D : nat) : list nat := seq 0 (D + 1).
