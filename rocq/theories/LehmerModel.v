(** Models src/util/Permutation.h. *)
Require Import List Arith ZArith Lia Bool.
Require Import Verif.Base.
Import ListNotations.

(** src/util/Permutation.h:22-32 [permutation_to_Lehmer].  The bitset [seen] is a list of the
    positions set so far; (seen << (N-k)).count() is the number of set positions below k (a bit i
    is shifted to i+N-k, which stays inside the bitset iff i < k). *)
Definition seen_bit (seen : list nat) (i : nat) : bool := existsb (Nat.eqb i) seen.
Definition count_below (seen : list nat) (k : nat) : nat := length (filter (seen_bit seen) (seq 0 k)).
Fixpoint lehmer_loop (p seen : list nat) : list nat :=
  match p with
  | [] => []
  | k :: ps => let seen' := k :: seen in (k - count_below seen' k) :: lehmer_loop ps seen'
  end.
Definition permutation_to_Lehmer (p : list nat) : list nat := lehmer_loop p [].

(** src/util/Permutation.h:43-53 [Lehmer_to_integer] with 32-bit unsigned arithmetic. *)
Local Open Scope Z_scope.
Definition wrap32 (x : Z) : Z := x mod 2^32.
Fixpoint lehmer_int_loop (rl : list nat) (a f i : Z) : Z :=
  match rl with
  | [] => a
  | l :: t => lehmer_int_loop t (wrap32 (a + wrap32 (Z.of_nat l * f))) (wrap32 (f * i)) (wrap32 (i + 1))
  end.
Definition Lehmer_to_integer (L : list nat) : Z := lehmer_int_loop (rev L) 0 1 1.
