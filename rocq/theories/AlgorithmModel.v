(** Models src/util/Algorithm.h: in-place permutation and detection of consecutive blocks. *)
Require Import List Arith ZArith Lia Bool.
Require Import Verif.Base Verif.DistributeModel.
Import ListNotations.
Local Open Scope opt_scope.

Section ApplyPermutation.
  Context {S : Type} (swap : nat -> nat -> S -> option S).

  (** src/util/Algorithm.h:63-69, the while loop for a fixed [i] and the store after it.
      [None]: out-of-bounds access, or more than [fuel] iterations. *)
  Fixpoint cycle (fuel i cur : nat) (idx : list nat) (s : S) : option (list nat * S) :=
    do next <- nth_error idx cur;
    if i =? next then
      do idx' <- upd idx cur cur; Some (idx', s)
    else
      match fuel with
      | O => None
      | Datatypes.S f =>
          do s' <- swap cur next s;
          do idx' <- upd idx cur cur;
          cycle f i next idx' s'
      end.

  (** src/util/Algorithm.h:60-71, the for loop from [i] with [todo] iterations left. *)
  Fixpoint cycles (todo i fuel : nat) (idx : list nat) (s : S) : option (list nat * S) :=
    match todo with
    | O => Some (idx, s)
    | Datatypes.S t =>
        do r <- cycle fuel i i idx s;
        cycles t (i + 1) fuel (fst r) (snd r)
    end.

  (** src/util/Algorithm.h:60-71 [detail::apply_permutation].  The fuel of the inner loop is
      the number of indices. *)
  Definition apply_permutation (idx : list nat) (s : S) : option S :=
    do r <- cycles (length idx) 0 (length idx) idx s; Some (snd r).
End ApplyPermutation.

(** src/util/Algorithm.h:16-23 [SwapArray]. *)
Definition swap_array {A} (i j : nat) (a : list A) : option (list A) :=
  do x <- nth_error a i; do y <- nth_error a j;
  do a1 <- upd a i y; upd a1 j x.

(** src/util/Algorithm.h:90-94, apply_permutation on a vector. *)
Definition apply_permutation_vec {A} (v : list A) (idx : list nat) : option (list A) :=
  apply_permutation swap_array idx v.

Section FindBlocks.
Local Open Scope Z_scope.
(** src/util/Algorithm.h:126-147 [find_blocks] with std::size_t indices.  The vectors of block
    lengths and displacements are kept as one list of (displacement, length) pairs in reverse
    order (head = back()). *)
Fixpoint find_blocks_loop (indices : list Z) (acc : list (Z * Z)) : list (Z * Z) :=
  match indices with
  | [] => rev acc
  | idx :: rest =>
      match acc with
      | (d, len) :: acc' =>
          if wrap64 (idx - d) =? len
          then find_blocks_loop rest ((d, wrap64 (len + 1)) :: acc')
          else find_blocks_loop rest ((idx, 1) :: acc)
      | [] => find_blocks_loop rest [(idx, 1)]
      end
  end.
(** The result: (block_lengths, displacements). *)
Definition find_blocks (indices : list Z) : list Z * list Z :=
  let b := find_blocks_loop indices [] in (map snd b, map fst b).
End FindBlocks.
