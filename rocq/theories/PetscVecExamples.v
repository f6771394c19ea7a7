(** Cases that meet the hypotheses of the theorems in PetscVecProps. *)
Require Import Reals Lia Lra Arith List Permutation.
Require Import Verif.Base Verif.PetscVecModel Verif.PetscVecSpec Verif.PetscVecProps.
Import ListNotations.
Local Open Scope nat_scope.

(** Three processes, the second without elements; blocks of two. *)
Definition three (p : nat) : nat := match p with 0 => 2 | 1 => 0 | 2 => 3 | _ => 0 end.
Example three_numbers : psum three 3 = 5 /\ l2g three 0 1 = 1 /\ l2g three 2 0 = 2 /\ l2g three 2 2 = 4.
Proof. repeat split. Qed.
Definition calls : list (nat * nat * (nat -> R)) := [(2, 1, fun k => INR k); (0, 0, fun _ => 1%R); (2, 1, fun _ => 3%R)].
Example three_added : exists x', add_blocks three 2 calls (fun _ => 0%R) = Some x' /\
  begin_access three 2 2 x' 1 1 = 4%R /\ begin_access three 2 2 x' 1 0 = 0%R.
Proof.
  destruct (blocks_added three 2 calls (fun _ => 0%R)) as (x' & E & K).
  - lia.
  - repeat constructor.
  - exists x'. split; [exact E|]. rewrite !K by (cbn; lia). unfold begin_access. cbn. split; lra.
Qed.
Example calls_reversed : Permutation calls (rev calls).
Proof. apply Permutation_rev. Qed.

(** A nested vector of two parts on two processes. *)
Definition state : list vec := [[[1; 2]; [3]]; [[]; [4]]]%R.
Example state_saved : VecLoad_Nest Binary [[2; 1]; [0; 1]] (VecView_Nest Binary state [] ++ [Size 7]) = Some (state, [Size 7]).
Proof. reflexivity. Qed.
Example state_other : VecLoad_Nest Binary [[3]; [1]] (VecView_Nest Binary state []) = Some ([[[1; 2; 3]]; [[4]]]%R, []) /\
  VecLoad_Nest Binary [[2]; [2]] (VecView_Nest Binary state []) = None.
Proof. split; reflexivity. Qed.
