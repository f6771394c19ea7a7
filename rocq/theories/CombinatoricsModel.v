(** Models src/util/Combinatorics.h: binomial coefficients, k-subsets, integer sums. *)
Require Import List Arith Lia Bool.
Require Import Verif.Base.
Import ListNotations.
Local Open Scope opt_scope.

(** src/util/Combinatorics.h:15-19 [binom].  Arithmetic is unbounded; [None] stands for the
    cases k > n in which the recursion leaves the domain of the function. *)
Fixpoint binom (n k : nat) : option nat :=
  if (k =? 0) || (k =? n) then Some 1
  else match n with
       | O => None
       | S m =>
           if (k =? 1) || (k =? n - 1) then Some n
           else do a <- binom m (k - 1); do b <- binom m k; Some (a + b)
       end.

(** src/util/Combinatorics.h:23-26, constructor of Choose<k>: iota. *)
Definition choose_begin (k : nat) : list nat := seq 0 k.

(** src/util/Combinatorics.h:30-39 [next] of Choose; the loop over i = m-1, ..., 0.
    [None]: returns false. *)
Fixpoint choose_scan (n k m : nat) (c : list nat) : option (list nat) :=
  match m with
  | O => None
  | S i =>
      let ci := nth i c 0 in
      if ci <? n - (k - i)
      then Some (firstn i c ++ (ci + 1) :: seq (ci + 2) (k - (i + 1)))
      else choose_scan n k i c
  end.
Definition choose_next (n : nat) (c : list nat) : option (list nat) :=
  choose_scan n (length c) (length c) c.

(** The client loop  do { use(choose.current()); } while (choose.next());
    (e.g. src/mesh/Simplex.h:76-98).  [None]: more than [fuel] iterations. *)
Fixpoint choose_all (fuel n : nat) (c : list nat) : option (list (list nat)) :=
  match fuel with
  | O => None
  | S f => match choose_next n c with
           | None => Some [c]
           | Some c' => do r <- choose_all f n c'; Some (c :: r)
           end
  end.

(** src/util/Combinatorics.h:55-60, iterator constructor. *)
Definition sums_iter (D : nat) (less : bool) (f maxSum : nat) : list nat :=
  if less then repeat f D else repeat f (D - 1) ++ [maxSum].

(** src/util/Combinatorics.h:66-68, the while loop of operator++: final value of d. *)
Fixpoint sums_d (m : list nat) : nat :=
  match m with
  | a :: ((b :: _) as t) => if a =? b then S (sums_d t) else 0
  | _ => 0
  end.

(** src/util/Combinatorics.h:65-73 operator++.  unsigned overflow is not modelled
    (maxSum < 2^32 - 1). *)
Definition sums_incr (m : list nat) : list nat :=
  let d := sums_d m in repeat 0 d ++ (nth d m 0 + 1) :: skipn (d + 1) m.

(** src/util/Combinatorics.h:80-84 operator*: adjacent differences written backwards. *)
Fixpoint adjacent_difference (prev : nat) (m : list nat) : list nat :=
  match m with [] => [] | a :: t => (a - prev) :: adjacent_difference a t end.
Definition sums_deref (m : list nat) : list nat := rev (adjacent_difference 0 m).

(** src/util/Combinatorics.h:106-107, begin and end. *)
Definition sums_begin (D : nat) (less : bool) (N : nat) : list nat := sums_iter D less 0 N.
Definition sums_end (D : nat) (less : bool) (N : nat) : list nat := sums_incr (sums_iter D less N N).

(** Range-based for loop over [it, last): the values produced.
    [None]: more than [fuel] iterations. *)
Fixpoint sums_loop (fuel : nat) (it last : list nat) : option (list (list nat)) :=
  if list_eq_dec Nat.eq_dec it last then Some []
  else match fuel with
       | O => None
       | S f => do r <- sums_loop f (sums_incr it) last; Some (sums_deref it :: r)
       end.
