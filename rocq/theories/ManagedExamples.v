(** Cases that meet the hypotheses of the theorems in ManagedProps. *)
Require Import ZArith Reals Lia Arith List.
Require Import Verif.Base Verif.ManagedModel Verif.ManagedSpec Verif.ManagedProps.
Import ListNotations.

(** Five doubles aligned to 32 bytes. *)
Example five_doubles : (8 * 5 + 2 ^ 5 <= 2 ^ 64)%Z /\ storage_bytes 8 5 32 = 64%Z /\ storage_bytes 8 0 16 = 0%Z /\ storage_bytes 8 4 32 = 32%Z.
Proof. vm_compute. repeat split; discriminate. Qed.

(** Moves in a cycle through three variables, one of them moved to itself; the overwritten value is freed. *)
Definition swapping : list action :=
  [New 0 2 (fun _ => 0%R); New 1 3 (fun _ => 1%R); Write 0 1 5%R; Write 1 2 7%R; MoveNew 2 0; MoveAssign 0 1; MoveAssign 1 2; MoveAssign 1 1;
   Read 0 2; Read 1 1; Default 3; MoveAssign 3 0; Read 3 0; MoveAssign 1 3; Read 1 2; Destroy 0; Destroy 1; Destroy 2; Destroy 3].
Example swapping_case : exists A, does_all nothing swapping = Some (A, [7; 5; 1; 7]%R) /\ forall v, A v = None.
Proof.
  eexists. split; [reflexivity|]. intros v. cbn. unfold set, nothing. destruct v as [|[|[|[|v]]]]; reflexivity.
Qed.
Example swapping_runs : exists s, act_all initial swapping = Some (s, [7; 5; 1; 7]%R) /\ forall p, heap s p = None.
Proof. destruct swapping_case as (A & H & E). exact (tensors_do_not_leak swapping A _ H E). Qed.
