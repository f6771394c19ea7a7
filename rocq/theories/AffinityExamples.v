(** Cases for C92: two ranks with two threads each on a node with 24 CPUs, and what x86 does with 33. *)
Require Import Ascii String List Arith NArith Lia Bool.
Require Import Verif.AffinityModel Verif.AffinitySpec Verif.AffinityProofs Verif.AffinityProps.
Import ListNotations.
Local Open Scope nat_scope.
(** The shift of x86 takes its count modulo 32. *)
Definition x86 (k : nat) : N := if k mod 32 =? 31 then (2 ^ 64 - 2 ^ 31)%N else (2 ^ N.of_nat (k mod 32))%N.
Example x86_shifts : shift_of_int x86.
Proof.
  split; [|split; [reflexivity|]].
  - intros k Hk. unfold x86. rewrite Nat.mod_small by lia. destruct (Nat.eqb_spec k 31); [lia|reflexivity].
  - intro k. unfold x86. destruct (Nat.eqb_spec (k mod 32) 31) as [E|E]; [reflexivity|]. pose proof (Nat.mod_upper_bound k 32 ltac:(lia)). apply N.pow_lt_mono_r; lia.
Qed.
Definition bound_to (l : list nat) : cpu_set := fun c => existsb (Nat.eqb c) l.
Definition two_ranks := [[bound_to [0]; bound_to [1]]; [bound_to [12]; bound_to [23; 12]]].
Example two_ranks_shown : option_map string_of_list_ascii (to_string 24 (worker_mask_on_node x86 two_ranks)) = Some "01--------|--2-------|---3"%string.
Proof. vm_compute. reflexivity. Qed.
Example two_ranks_meet : forall threads t c, In threads two_ranks -> In t threads -> t c = true -> c < 24.
Proof.
  assert (K : forall l, Forall (fun c => c < 24) l -> forall c, bound_to l c = true -> c < 24).
  { intros l F c H. apply existsb_exists in H as (x & Hx & E). apply Nat.eqb_eq in E. subst x. rewrite Forall_forall in F. auto. }
  intros threads t c [<-|[<-|[]]] [<-|[<-|[]]]; apply K; repeat constructor.
Qed.
Example two_ranks_printed : exists str, to_string 24 (worker_mask_on_node x86 two_ranks) = Some str /\
    forall c, c < 24 -> nth_error str (c + c / 10) = Some "-"%char <-> ~ exists threads t, In threads two_ranks /\ In t threads /\ t c = true.
Proof. apply node_mask_printed; [apply x86_shifts|lia|left; discriminate|apply two_ranks_meet]. Qed.
(** A rank on CPU 0 is shown on CPU 32 too. *)
Example cpu_zero_x86 : worker_mask_on_node x86 [[bound_to [0]]] 32 = true.
Proof. vm_compute. reflexivity. Qed.
Example eleven : option_map string_of_list_ascii (to_string 11 (bound_to [10])) = Some "----------0-"%string.
Proof. reflexivity. Qed.
(** A mask of 100 CPUs on lines of 66 characters. *)
Example hundred : exists str own node, to_string 100 (bound_to [3; 99]) = Some str /\ print_affinity 75 str str = Some (own, node) /\
  List.length own = 2 /\ lines_of 75 str own.
Proof.
  destruct (mask_text_safe 100 (bound_to [3; 99]) ltac:(lia)) as (str & E & L).
  assert (str <> []) by (intros ->; discriminate L). destruct (affinity_lines 75 str str ltac:(lia) H eq_refl) as (own & node & P & K & _). exists str, own, node. split; [exact E|]. split; [exact P|]. split; [|exact K].
  vm_compute in E. injection E as <-. vm_compute in P. injection P as <- _. reflexivity.
Qed.
