(** C01 and C02. *)
Require Import ZArith List Lia.
Require Import Verif.Base Verif.DistributeModel Verif.DistributeProofs.
Import ListNotations.
Local Open Scope Z_scope.

(** C01: the chunks tile [from,to) ... *)
Theorem distribute_partition : forall from to size, from <= to -> 0 < size ->
  fst (distribute from to 0 size) = from /\
  snd (distribute from to (size - 1) size) = to /\
  (forall r, 0 <= r -> r + 1 < size ->
     fst (distribute from to (r + 1) size) = snd (distribute from to r size)) /\
  (forall i, from <= i < to <->
     exists r, 0 <= r < size /\
       fst (distribute from to r size) <= i < snd (distribute from to r size)) /\
  (forall i r s, 0 <= r < size -> 0 <= s < size ->
     fst (distribute from to r size) <= i < snd (distribute from to r size) ->
     fst (distribute from to s size) <= i < snd (distribute from to s size) -> r = s).
Proof.
  intros from to size H Hs. split; [|split; [|split; [|split]]].
  - apply distribute_lo0; auto.
  - apply distribute_last; auto.
  - intros; apply distribute_next; auto.
  - intro i; split; [apply distribute_cover; auto|].
    intros (r & Hr & A). apply (distribute_inside from to size r i) in A; lia.
  - intros i r s Hr Hs' A B. eapply distribute_unique; eauto.
Qed.

(** ... and their lengths differ by at most one, longer ones first. *)
Theorem distribute_balanced : forall from to size r s, from <= to -> 0 < size ->
  0 <= r -> r <= s -> s < size ->
  let len k := snd (distribute from to k size) - fst (distribute from to k size) in
  0 <= len s <= len r /\ len r <= len s + 1.
Proof.
  intros from to size r s H Hs Hr Hrs Hs2 len. unfold len.
  rewrite !distribute_len by lia.
  assert (0 <= (to - from) / size) by (apply Z.div_pos; lia).
  destruct (Z.ltb_spec r ((to - from) mod size)), (Z.ltb_spec s ((to - from) mod size)); lia.
Qed.

Example distribute_ex : map (fun r => distribute 3 14 r 4) [0;1;2;3] = [(3,6);(6,9);(9,12);(12,14)].
Proof. reflexivity. Qed.

(** C02: [counts] are the numbers of items of ranks 0,1,...; the ids of rank r are
    sum of counts before r  <=  id  <  that + counts[r]. *)
Definition owns (counts : list Z) (r : nat) (id : Z) : Prop :=
  (r < length counts)%nat /\
  fold_right Z.add 0 (firstn r counts) <= id < fold_right Z.add 0 (firstn (S r) counts).

Theorem sorted_lookup_correct : forall counts id,
  Forall (fun c => 0 <= c) counts ->
  fold_right Z.add 0 counts < 2 ^ 64 ->
  0 <= id < fold_right Z.add 0 counts ->
  exists r, rank_of (makeSortedDistribution counts) id = Some r /\ owns counts r id /\
            (forall r', owns counts r' id -> r' = r).
Proof.
  intros counts id Hnn Hlt Hid.
  assert (Hl : (0 < length counts)%nat) by (destruct counts; simpl in *; lia).
  destruct (guess_ok counts Hnn Hlt id Hl ltac:(unfold zsum; lia)) as [_ Hg].
  destruct (lookup_gen counts Hnn Hlt id Hl ltac:(unfold zsum; lia) ltac:(lia) (Hg Hid))
    as (g & E & L & B & C).
  assert (g <> length counts).
  { intros ->. unfold zsum in B. rewrite firstn_all in B. lia. }
  destruct C as [C|C]; [contradiction|].
  exists g. split; auto. split; [split; [lia|split; auto]|].
  intros r' (Hr' & A1 & A2).
  destruct (Nat.lt_trichotomy r' g) as [K|[K|K]]; auto; exfalso.
  - pose proof (zsum_firstn_mono counts Hnn (S r') g K). unfold zsum in *. lia.
  - pose proof (zsum_firstn_mono counts Hnn (S g) r' K). unfold zsum in *. lia.
Qed.

(** The array itself is the array of partial sums. *)
Theorem sorted_distribution_prefix_sums : forall counts,
  Forall (fun c => 0 <= c) counts -> fold_right Z.add 0 counts < 2 ^ 64 ->
  length (makeSortedDistribution counts) = S (length counts) /\
  forall i, (i <= length counts)%nat ->
    nth_error (makeSortedDistribution counts) i = Some (fold_right Z.add 0 (firstn i counts)).
Proof.
  intros counts Hnn Hlt. split; [apply dist_len|].
  intros i Hi. apply (dist_nth counts Hnn Hlt i Hi).
Qed.

(** Ids past the end: the answer, if the first guess is inside the array, is the number of
    ranks, which is not a rank. *)
Theorem sorted_lookup_past_end : forall counts id,
  Forall (fun c => 0 <= c) counts -> 0 < fold_right Z.add 0 counts < 2 ^ 64 ->
  fold_right Z.add 0 counts <= id ->
  id < guessSize (makeSortedDistribution counts) * (Z.of_nat (length counts) + 1) ->
  rank_of (makeSortedDistribution counts) id = Some (length counts).
Proof.
  intros counts id Hnn Hlt Hid Hg.
  assert (Hl : (0 < length counts)%nat) by (destruct counts; simpl in *; lia).
  destruct (guess_ok counts Hnn (proj2 Hlt) id Hl ltac:(unfold zsum; lia)) as [Hp _].
  destruct (lookup_gen counts Hnn (proj2 Hlt) id Hl ltac:(unfold zsum; lia) ltac:(lia))
    as (g & E & L & B & C).
  { rewrite Z.quot_div_nonneg by lia.
    assert (id / guessSize (makeSortedDistribution counts) < Z.of_nat (length counts) + 1)
      by (apply Z.div_lt_upper_bound; lia). lia. }
  destruct C as [C|C]; [subst; auto|]. exfalso.
  pose proof (zsum_firstn_mono counts Hnn (S g) (length counts)).
  destruct (Nat.eq_dec g (length counts)) as [->|N].
  - rewrite firstn_all2 in C by lia. unfold zsum in C. lia.
  - specialize (H ltac:(lia)). rewrite firstn_all in H. unfold zsum in *. lia.
Qed.

(** Finding: with one rank and no items at all the guess size wraps to zero and any lookup
    divides by zero. *)
Theorem sorted_lookup_empty_refuted :
  guessSize (makeSortedDistribution [0]) = 0 /\
  rank_of (makeSortedDistribution [0]) 0 = None.
Proof. split; reflexivity. Qed.

Example sorted_lookup_ex :
  map (fun i => rank_of (makeSortedDistribution [4;0;1;7]) i) [0;3;4;5;11]
  = [Some 0; Some 0; Some 2; Some 3; Some 3]%nat.
Proof. reflexivity. Qed.

Print Assumptions distribute_partition.
Print Assumptions distribute_balanced.
Print Assumptions sorted_lookup_correct.
Print Assumptions sorted_distribution_prefix_sums.
Print Assumptions sorted_lookup_past_end.
Print Assumptions sorted_lookup_empty_refuted.
