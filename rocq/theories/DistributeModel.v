(** Models src/parallel/Distribute.h and src/parallel/SortedDistribution.{h,cpp}. *)
Require Import ZArith List Lia.
Require Import Verif.Base.
Import ListNotations.
Local Open Scope Z_scope.

(** src/parallel/Distribute.h:8-13 [distribute]; [range] is (from,to), the result is the
    pair (from,to) of the returned Range (src/util/Range.h:11-23).  C++ integer division is
    truncating, hence [Z.quot].  Simplification: no wrap-around (all values are between
    from and to when from <= to). *)
Definition distribute (from to rank size : Z) : Z * Z :=
  let length := to - from in
  let perRank := Z.quot length size in
  let extras := length - perRank * size in
  let f := from + rank * perRank + (if rank <? extras then rank else extras) in
  (f, f + perRank + (if rank <? extras then 1 else 0)).

(** Unsigned 64-bit wrap-around of std::size_t. *)
Definition wrap64 (x : Z) : Z := x mod 2 ^ 64.

(** src/parallel/SortedDistribution.cpp:8-20 [makeSortedDistribution]; [counts] is what
    MPI_Allgather collects, one [num] per rank (first argument of makeSortedDistribution on
    each rank).  dist[0]=0, dist[p] += dist[p-1]. *)
Fixpoint prefix_from (acc : Z) (counts : list Z) : list Z :=
  match counts with
  | [] => [acc]
  | c :: cs => acc :: prefix_from (wrap64 (c + acc)) cs
  end.
Definition makeSortedDistribution (counts : list Z) : list Z := prefix_from 0 counts.

(** src/parallel/SortedDistribution.h:14-15, constructor: guessSize, in size_t arithmetic
    (so [dist.back() - 1] wraps when the total is zero). *)
Definition guessSize (dist : list Z) : Z :=
  wrap64 (1 + Z.quot (wrap64 (last dist 0 - 1)) (Z.of_nat (length dist) - 1)).

(** src/parallel/SortedDistribution.cpp:26-28, first while loop. [None]: dist[guess] out of
    bounds. *)
Fixpoint walk_down (dist : list Z) (id : Z) (guess : nat) : option nat :=
  match guess with
  | O => Some O
  | S g => match nth_error dist guess with
           | None => None
           | Some d => if id <? d then walk_down dist id g else Some guess
           end
  end.

(** src/parallel/SortedDistribution.cpp:29-31, second while loop; the first argument is
    procs - guess, which bounds the number of iterations. *)
Fixpoint walk_up (room : nat) (dist : list Z) (id : Z) (guess : nat) : option nat :=
  match room with
  | O => Some guess            (* guess < procs is false *)
  | S r => match nth_error dist (guess + 1) with
           | None => None
           | Some d => if id >=? d then walk_up r dist id (guess + 1) else Some guess
           end
  end.

(** src/parallel/SortedDistribution.cpp:22-33 [SortedDistributionToRank::operator()].
    [None]: undefined behaviour (division by zero or out-of-bounds read).  Simplification:
    the cast of the quotient to int is exact (process counts are ints). *)
Definition rank_of (dist : list Z) (id : Z) : option nat :=
  if guessSize dist =? 0 then None else
  let guess := Z.to_nat (Z.quot id (guessSize dist)) in
  let procs := (length dist - 1)%nat in
  match walk_down dist id guess with
  | None => None
  | Some g => walk_up (procs - g) dist id g
  end.
