(** Models src/util/MultiIndex.h.  Arrays are lists of the same length D; arithmetic on the index
    type is unbounded (the product of the extents is assumed to be representable). *)
Require Import List Arith Lia Bool.
Require Import Verif.Base.
Import ListNotations.
Local Open Scope opt_scope.

(** src/util/MultiIndex.h:11-19 [flatten]: d = D-1, ..., 0. *)
Definition flatten (idx shape : list nat) : nat :=
  fold_left (fun flat p => flat * snd p + fst p) (rev (combine idx shape)) 0.

(** src/util/MultiIndex.h:21-29 [unflatten]; [None]: division by zero. *)
Fixpoint unflatten (idx : nat) (shape : list nat) : option (list nat) :=
  match shape with
  | [] => Some []
  | s :: ss => if s =? 0 then None
               else do r <- unflatten (idx / s) ss; Some (idx mod s :: r)
  end.

(** src/util/MultiIndex.h:36-44 [permute]; [None]: index out of bounds. *)
Fixpoint permute {U} (perm : list nat) (index : list U) : option (list U) :=
  match perm with
  | [] => Some []
  | p :: ps => do x <- nth_error index p; do r <- permute ps index; Some (x :: r)
  end.

(** src/util/MultiIndex.h:78-86 operator++: increment entry d and carry while the entry has
    reached its extent and d < D-1. *)
Fixpoint mi_incr (i shape : list nat) : list nat :=
  match i, shape with
  | a :: t, s :: ss =>
      if (s <=? a + 1) && negb (length t =? 0) then 0 :: mi_incr t ss else (a + 1) :: t
  | _, _ => i
  end.

(** src/util/MultiIndex.h:104-109 begin and end of [product]. *)
Definition mi_begin (shape : list nat) : list nat := repeat 0 (length shape).
Definition mi_end (shape : list nat) : list nat := repeat 0 (length shape - 1) ++ [last shape 0].

(** Range-based for loop over product(shape); [None]: more than [fuel] iterations. *)
Fixpoint mi_loop (fuel : nat) (it stop shape : list nat) : option (list (list nat)) :=
  if list_eq_dec Nat.eq_dec it stop then Some []
  else match fuel with
       | O => None
       | S f => do r <- mi_loop f (mi_incr it shape) stop shape; Some (it :: r)
       end.
