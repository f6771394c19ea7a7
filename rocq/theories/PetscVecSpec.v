(** What block vectors should hold. *)
Require Import Reals Arith List.
Require Import Verif.Base Verif.PetscVecModel.
Import ListNotations.
Local Open Scope nat_scope.

(** What the calls add to entry [k] of block [i] of process [r]. *)
Fixpoint added (r i k : nat) (l : list (nat * nat * (nat -> R))) : R :=
  match l with
  | [] => 0%R
  | (r', i', v) :: t => ((if ((r' =? r) && (i' =? i))%bool%nat then v k else 0) + added r i k t)%R
  end.
(** The sizes of a vector on the processes. *)
Definition sizes_of (v : vec) : list nat := map (@length R) v.
