(** Property theorems: in-place permutation (C04) and block detection (C05). *)
Require Import List Arith ZArith Lia Permutation.
Require Import Verif.Base Verif.DistributeModel Verif.AlgorithmModel Verif.AlgorithmProofs.
Import ListNotations.

(** C04: for every permutation and every vector of the same length the call terminates without
    an out-of-bounds access and entry i of the result is entry p[i] of the argument. *)
Theorem apply_permutation_correct : forall {A} (v : list A) (p : list nat),
  Permutation p (seq 0 (length v)) ->
  exists v', apply_permutation_vec v p = Some v' /\ length v' = length v /\
    forall i pi, nth_error p i = Some pi -> nth_error v' i = nth_error v pi.
Proof.
  intros A v p P. pose proof (Permutation_length P) as L. rewrite seq_length in L.
  destruct (apply_permutation_spec (K := unit) (length v) swap_array
     (fun s : list A => length s = length v) (fun s i _ => nth_error s i)) with (idx := p) (s := v)
     as (v' & E & Lv & H); auto.
  { intros s i j Hs Hi Hj _. destruct (swap_array_law s i j) as (s' & E & L' & N); try lia.
    exists s'. repeat split; auto; lia. }
  exists v'. repeat split; auto. intros i pi Hi.
  assert (i < length v) by (rewrite <- L; apply nth_error_Some; congruence).
  rewrite (H i tt) by auto. f_equal. apply nth_error_nth; auto.
Qed.
Print Assumptions apply_permutation_correct.

Example apply_permutation_ex :
  Permutation [2; 0; 1; 4; 3] (seq 0 5) /\
  apply_permutation_vec [10; 11; 12; 13; 14] [2; 0; 1; 4; 3] = Some [12; 10; 11; 14; 13].
Proof.
  split; [|reflexivity]. apply NoDup_Permutation_bis; [|simpl; lia|].
  - repeat constructor; simpl; lia.
  - intros x H; simpl in *; lia.
Qed.

Local Open Scope Z_scope.
(** C05: the (displacement, length) pairs found by find_blocks.  Each block stands for the
    consecutive integers d, d+1, ..., d+len-1; concatenated they give back the input, and no two
    successive blocks could be joined. *)
Definition blocks_of (r : list Z * list Z) : list (Z * Z) := combine (snd r) (fst r).
Definition expand (b : Z * Z) : list Z :=
  map (fun k => fst b + Z.of_nat k) (seq 0 (Z.to_nat (snd b))).

Theorem find_blocks_correct : forall indices,
  Forall (fun x => 0 <= x < 2^64 - 1) indices ->
  let r := find_blocks indices in
  length (fst r) = length (snd r) /\
  Forall (fun len => 1 <= len) (fst r) /\
  concat (map expand (blocks_of r)) = indices /\
  (forall i b c, nth_error (blocks_of r) i = Some b -> nth_error (blocks_of r) (S i) = Some c ->
     fst c <> fst b + snd b).
Proof.
  intros indices HF. cbn zeta. unfold find_blocks, blocks_of; cbn [fst snd].
  destruct (blocks_loop indices HF [] (Forall_nil _) I) as (A & B & C). cbn zeta in *.
  set (bl := find_blocks_loop indices []) in *.
  assert (Cm : combine (map fst bl) (map snd bl) = bl).
  { clearbody bl. clear. induction bl as [|[a b] t IH]; simpl; congruence. }
  rewrite Cm. split; [rewrite !map_length; auto|]. split; [|split].
  - apply Forall_map. eapply Forall_impl; [|exact A]. intros b Hb; apply Hb.
  - exact B.
  - intros i b c Hb Hc.
    assert (Hi : (S i < length bl)%nat) by (apply nth_error_Some; congruence).
    apply (chain_nth (rev bl) C (length bl - 2 - i)).
    + rewrite <- Hb.
      rewrite (nth_error_nth' (rev bl) (0,0)) by (rewrite rev_length; lia).
      rewrite (nth_error_nth' bl (0,0)) by lia. f_equal.
      rewrite rev_nth by lia. f_equal. lia.
    + rewrite <- Hc.
      rewrite (nth_error_nth' (rev bl) (0,0)) by (rewrite rev_length; lia).
      rewrite (nth_error_nth' bl (0,0)) by lia. f_equal.
      rewrite rev_nth by lia. f_equal. lia.
Qed.
Print Assumptions find_blocks_correct.

Example find_blocks_ex : find_blocks [4; 5; 6; 2; 9; 10] = ([3; 1; 2], [4; 2; 9]).
Proof. reflexivity. Qed.

(** The largest std::size_t value must be excluded: the difference wraps. *)
Theorem find_blocks_wrap_refuted : exists indices,
  Forall (fun x => 0 <= x < 2^64) indices /\
  concat (map expand (blocks_of (find_blocks indices))) <> indices.
Proof.
  exists [2^64 - 1; 0]. split; [repeat constructor; lia|]. vm_compute. discriminate.
Qed.
Close Scope Z_scope.
