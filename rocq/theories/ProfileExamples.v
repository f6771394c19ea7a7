(** Cases that meet the hypotheses of the theorems in ProfileProps. *)
Require Import ZArith Reals Lra Lia Ascii String List Arith Permutation Sorted.
Require Import Verif.Base Verif.ProfileModel Verif.ProfileSpec Verif.ProfileProps.
Import ListNotations.
Local Open Scope R_scope.

(** Two regions that overlap; the first is entered twice. *)
Definition at_ (s n : Z) : timespec := {| tv_sec := s; tv_nsec := n |}.
Definition run : list event :=
  [Begin 0 (at_ 1 999999990); Begin 1 (at_ 2 5); End 0 (at_ 2 10) 7; End 1 (at_ 3 5) 100; Begin 0 (at_ 4 0); End 0 (at_ 4 30) 5]%Z.
Example run_pairs : Forall (fun e => (event_region e < 2)%nat) run /\ (forall i, (i < 2)%nat -> paired i false run) /\
  spent 0 None run = 50%Z /\ spent 1 None run = 1000000000%Z /\ reported 0 run = 12%Z.
Proof.
  split; [repeat constructor|]. split; [|vm_compute; auto].
  intros [|[|i]] Hi; cbn; auto; lia.
Qed.
Example run_times : exists l, do_events (repeat (new_region (at_ 0 0)) 2) run = Some l /\
  r_time (nth 1 l (new_region (at_ 0 0))) = 1 /\ r_flops (nth 0 l (new_region (at_ 0 0))) = 12%Z.
Proof.
  destruct run_pairs as (A & B & C & D & E). destruct (profile_times (at_ 0 0) 2 run A B) as (l & H & _ & K).
  exists l. split; [exact H|]. split.
  - rewrite (proj1 (K 1%nat ltac:(lia))), D. simpl. lra.
  - rewrite (proj2 (K 0%nat ltac:(lia))), E. reflexivity.
Qed.

(** Insertion sort. *)
Fixpoint insert (x : R) (l : list R) : list R :=
  match l with [] => [x] | y :: t => if Rle_dec x y then x :: l else y :: insert x t end.
Definition isort (l : list R) : list R := fold_right insert [] l.
Lemma insert_perm : forall x l, Permutation (x :: l) (insert x l).
Proof.
  induction l as [|y l IH]; cbn; [auto|]. destruct (Rle_dec x y); [auto|].
  apply (perm_trans (perm_swap y x l)). constructor. exact IH.
Qed.
Example isort_sorts : sorts isort.
Proof.
  intros l. split.
  - induction l as [|x l IH]; cbn; [constructor|]. apply (perm_trans (perm_skip x IH)). apply insert_perm.
  - induction l as [|x l IH]; cbn; [constructor|]. fold (isort l) in *. induction IH as [|y t S IHS F]; cbn; [repeat constructor|].
    destruct (Rle_dec x y) as [L|N].
    + constructor; [constructor; assumption|]. constructor; [exact L|]. rewrite Forall_forall in *. intros z Hz. pose proof (F z Hz). lra.
    + constructor; [exact IHS|]. rewrite Forall_forall in *. intros z Hz. apply (Permutation_in z (Permutation_sym (insert_perm x t))) in Hz.
      destruct Hz as [<-|Hz]; [lra|]. exact (F z Hz).
Qed.
Example four_processes : s_median (Summary isort [4; 1; 8; 3]) = 7 / 2 /\ s_max (Summary isort [4; 1; 8; 3]) = 8.
Proof.
  assert (E : isort [4; 1; 8; 3] = [1; 3; 4; 8]).
  { unfold isort. cbn. repeat (match goal with |- context [Rle_dec ?a ?b] => destruct (Rle_dec a b); try lra end; cbn). reflexivity. }
  unfold Summary. rewrite E. cbn. split; [lra|reflexivity].
Qed.
Example total_row_case : let t := fun p r => match p, r with O, O => 3 | O, S _ => 1 | S _, O => 1 | S _, S _ => 4 end in
  s_mean (nth 2 (printed_rows isort 2 2 t) {| s_min := 0; s_median := 0; s_mean := 0; s_max := 0 |}) =
  total (map s_mean (firstn 2 (printed_rows isort 2 2 t))).
Proof. intros t. apply (total_row isort 2 2 t isort_sorts). lia. Qed.

(** The header of the table of times. *)
Local Open Scope string_scope.
Definition tx (s : string) : text := list_ascii_of_string s.
Definition head : list text := map tx ["Region"; "t_min"; "t_median"; "t_mean"; "t_max"; "TFLOP"; "GFLOP/s"].
Definition head_result : option (list nat * list text) := TablePrinter (fun _ => tx "0") [5%nat; 10%nat] head.
Example head_case : match head_result with
  | Some (ws, [line; below]) => ws = [7; 10; 10; 10; 10; 10; 10]%nat /\
      string_of_list_ascii (firstn 27 line) = " Region     t_min  t_median" /\ below = repeat "-"%char 67
  | _ => False
  end.
Proof. vm_compute. repeat split; reflexivity. Qed.
Example row_case : Forall (fun row => Forall2 (fun i w => (List.length i <= w)%nat) row [7; 10]%nat) [[tx "apply"; tx "1.000e-03"]; [tx "Total"; tx "2.000e+01"]].
Proof. repeat (constructor; try (vm_compute; lia)). Qed.
Definition eqb_text (a b : text) : bool := if list_eq_dec ascii_dec a b then true else false.
Example get_case : (forall a b, eqb_text a b = true <-> a = b) /\
  get eqb_text (tx "init") (map tx ["apply"; "init"; "init"]) = 1%nat /\ get eqb_text (tx "none") (map tx ["apply"; "init"]) = 2%nat.
Proof.
  split; [|split; vm_compute; reflexivity]. intros a b. unfold eqb_text. destruct (list_eq_dec ascii_dec a b); split; congruence.
Qed.
