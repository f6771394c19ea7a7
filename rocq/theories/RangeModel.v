(** Models src/util/Range.h and src/util/Enumerate.h for unsigned numbers of 64 bits (std::size_t), with a loop
    "for (auto&& x : range)" over them. *)
Require Import List ZArith Bool Arith.
Require Import Verif.Base.
Import ListNotations.
Local Open Scope Z_scope.
Local Open Scope opt_scope.

(** The numbers of std::size_t. *)
Definition modulus : Z := 2 ^ 64.
Definition is_size_t (x : Z) : Prop := 0 <= x < modulus.

(** Range.h:12-23. *)
Record Range := { from : Z; to : Z }.
Definition size (r : Range) : Z := (to r - from r) mod modulus.
Definition isElement (r : Range) (number : Z) : bool := (from r <=? number) && (number <? to r).
(** Range.h:39-42, operator++ of RangeIterator. *)
Definition increment (pos : Z) : Z := (pos + 1) mod modulus.
(** Range.h:59-75: arithmetic of iterators; a difference_type n is converted to std::size_t. *)
Definition advance (pos n : Z) : Z := (pos + n) mod modulus.

Section Loop.
  Variables It V : Type.
  Variable next : It -> It.
  Variable deref : It -> V.
  Variable differs : It -> It -> bool.
  (** A range-based for loop: the values it visits; [None]: it needs more than [fuel] steps. *)
  Fixpoint for_loop (fuel : nat) (i stop : It) : option (list V) :=
    if differs i stop then
      match fuel with
      | O => None
      | S n => do r <- for_loop n (next i) stop; Some (deref i :: r)
      end
    else Some [].
End Loop.
Arguments for_loop {It V}.

(** Range.h:18-19, 37 and 57: the loop over a range. *)
Definition range_loop (fuel : nat) (r : Range) : option (list Z) :=
  for_loop increment (fun p => p) (fun p q => negb (p =? q)) fuel (from r) (to r).

(** Enumerate.h:11-51: an iterator with a counter, compared by the iterator only; the counter starts with
    [beginCount] and does not overflow here. *)
Definition enumerate_loop {It V} (next : It -> It) (deref : It -> V) (differs : It -> It -> bool) (fuel : nat)
  (i stop : It) (beginCount : nat) : option (list (nat * V)) :=
  for_loop (fun e => (next (fst e), S (snd e))) (fun e => (snd e, deref (fst e)))
    (fun e f => differs (fst e) (fst f)) fuel (i, beginCount) (stop, 0%nat).
