Require Import ZArith List Lia.
Require Import Verif.Base Verif.DistributeModel.
Import ListNotations.
Local Open Scope Z_scope.
Ltac Zify.zify_post_hook ::= Z.div_mod_to_equations.

Lemma distribute_closed from to size rank :
  from <= to -> 0 < size -> 0 <= rank < size ->
  let q := (to - from) / size in let r := (to - from) mod size in
  distribute from to rank size
  = (from + rank * q + Z.min rank r, from + (rank + 1) * q + Z.min (rank + 1) r).
Proof.
  intros H Hs Hr q r. unfold distribute.
  rewrite Z.quot_div_nonneg by lia. fold q.
  assert (E : to - from - q * size = r) by (unfold q, r; lia). rewrite E.
  assert (0 <= r < size) by (apply Z.mod_pos_bound; lia).
  destruct (Z.ltb_spec rank r); f_equal; lia.
Qed.

Lemma distribute_lo0 from to size :
  from <= to -> 0 < size -> fst (distribute from to 0 size) = from.
Proof.
  intros. rewrite distribute_closed by lia. simpl.
  pose proof (Z.mod_pos_bound (to - from) size). lia.
Qed.

Lemma distribute_last from to size :
  from <= to -> 0 < size -> snd (distribute from to (size - 1) size) = to.
Proof.
  intros. rewrite distribute_closed by lia. simpl.
  pose proof (Z.mod_pos_bound (to - from) size).
  pose proof (Z.div_mod (to - from) size). nia.
Qed.

Lemma distribute_next from to size rank :
  from <= to -> 0 < size -> 0 <= rank -> rank + 1 < size ->
  fst (distribute from to (rank + 1) size) = snd (distribute from to rank size).
Proof. intros. rewrite !distribute_closed by lia. reflexivity. Qed.

Lemma distribute_len from to size rank :
  from <= to -> 0 < size -> 0 <= rank < size ->
  snd (distribute from to rank size) - fst (distribute from to rank size)
  = (to - from) / size + (if rank <? (to - from) mod size then 1 else 0).
Proof.
  intros. rewrite distribute_closed by lia. cbn [fst snd].
  destruct (Z.ltb_spec rank ((to - from) mod size)); lia.
Qed.

Lemma distribute_cover from to size i :
  from <= to -> 0 < size -> from <= i < to ->
  exists r, 0 <= r < size /\ fst (distribute from to r size) <= i < snd (distribute from to r size).
Proof.
  intros H Hs Hi.
  assert (K : forall n : nat, Z.of_nat n < size ->
     i < snd (distribute from to (Z.of_nat n) size) ->
     exists r, 0 <= r < size /\
       fst (distribute from to r size) <= i < snd (distribute from to r size)).
  { induction n as [|n IH]; intros Hn Hlt.
    - exists 0. split; [lia|]. split; auto. rewrite distribute_lo0; lia.
    - destruct (Z_lt_le_dec i (fst (distribute from to (Z.of_nat (S n)) size))) as [L|L].
      + apply IH; [lia|].
        replace (Z.of_nat (S n)) with (Z.of_nat n + 1) in L by lia.
        rewrite distribute_next in L by lia. exact L.
      + exists (Z.of_nat (S n)). split; [lia|]. lia. }
  apply (K (Z.to_nat (size - 1))); [lia|].
  rewrite Z2Nat.id by lia. rewrite distribute_last; lia.
Qed.

Lemma distribute_mono from to size r s :
  from <= to -> 0 < size -> 0 <= r -> r < s -> s < size ->
  snd (distribute from to r size) <= fst (distribute from to s size).
Proof.
  intros. rewrite !distribute_closed by lia. cbn [fst snd].
  pose proof (Z.mod_pos_bound (to - from) size).
  assert (0 <= (to - from) / size) by (apply Z.div_pos; lia). nia.
Qed.

Lemma distribute_unique from to size r s i :
  from <= to -> 0 < size -> 0 <= r < size -> 0 <= s < size ->
  fst (distribute from to r size) <= i < snd (distribute from to r size) ->
  fst (distribute from to s size) <= i < snd (distribute from to s size) -> r = s.
Proof.
  intros H Hs Hr Hs' A B.
  destruct (Z.lt_trichotomy r s) as [L|[E|L]]; auto; exfalso.
  - pose proof (distribute_mono from to size r s); lia.
  - pose proof (distribute_mono from to size s r); lia.
Qed.

Lemma distribute_inside from to size r i :
  from <= to -> 0 < size -> 0 <= r < size ->
  fst (distribute from to r size) <= i < snd (distribute from to r size) -> from <= i < to.
Proof.
  intros H Hs Hr A. rewrite distribute_closed in A by lia. cbn [fst snd] in A.
  pose proof (Z.mod_pos_bound (to - from) size).
  pose proof (Z.div_mod (to - from) size).
  assert (0 <= (to - from) / size) by (apply Z.div_pos; lia). nia.
Qed.

(** ---- sorted distribution ---- *)

(** total of a list of counts *)
Definition zsum (l : list Z) : Z := fold_right Z.add 0 l.

Lemma zsum_nonneg l : Forall (fun c => 0 <= c) l -> 0 <= zsum l.
Proof. induction 1; simpl; lia. Qed.

Lemma prefix_len acc l : length (prefix_from acc l) = S (length l).
Proof. revert acc; induction l; simpl; auto. Qed.

Lemma prefix_nth l : forall acc,
  Forall (fun c => 0 <= c) l -> 0 <= acc -> acc + zsum l < 2 ^ 64 ->
  forall i, (i <= length l)%nat ->
  nth_error (prefix_from acc l) i = Some (acc + zsum (firstn i l)).
Proof.
  induction l as [|c l IH]; intros acc F Ha Hb i Hi; simpl in *.
  - assert (i = 0%nat) by lia; subst. simpl. f_equal; lia.
  - inversion F; subst. pose proof (zsum_nonneg _ H2).
    destruct i as [|i]; simpl; [f_equal; lia|].
    unfold wrap64. rewrite Z.mod_small by lia.
    rewrite IH; auto; try lia. f_equal; lia.
Qed.

Lemma firstn_all2' {A} (l : list A) : firstn (length l) l = l.
Proof. apply firstn_all. Qed.

Lemma last_nth_error {A} (l : list A) d x :
  nth_error l (length l - 1) = Some x -> last l d = x.
Proof.
  induction l as [|a l IH]; simpl; [discriminate|].
  destruct l as [|b l]; simpl in *; [congruence|].
  intro H. apply IH. simpl. rewrite Nat.sub_0_r. exact H.
Qed.

Lemma prefix_last acc l :
  Forall (fun c => 0 <= c) l -> 0 <= acc -> acc + zsum l < 2 ^ 64 ->
  last (prefix_from acc l) 0 = acc + zsum l.
Proof.
  intros F Ha Hb. apply last_nth_error. rewrite prefix_len.
  replace (S (length l) - 1)%nat with (length l) by lia.
  rewrite prefix_nth; auto. rewrite firstn_all. reflexivity.
Qed.

Lemma zsum_firstn_mono l : Forall (fun c => 0 <= c) l ->
  forall i j, (i <= j)%nat -> zsum (firstn i l) <= zsum (firstn j l).
Proof.
  induction 1; intros i j Hij; destruct i, j; simpl; try lia.
  - pose proof (zsum_nonneg (firstn j l)). assert (Forall (fun c => 0 <= c) (firstn j l)).
    { apply Forall_forall. intros y Hy. rewrite Forall_forall in H0. apply H0.
      rewrite <- (firstn_skipn j l). apply in_or_app; auto. }
    specialize (H1 H2). lia.
  - specialize (IHForall i j ltac:(lia)). lia.
Qed.

Section Lookup.
  Variable counts : list Z.
  Hypothesis Hnn : Forall (fun c => 0 <= c) counts.
  Hypothesis Hlt : zsum counts < 2 ^ 64.
  Let dist := makeSortedDistribution counts.
  Let P i := zsum (firstn i counts).

  Lemma dist_nth i : (i <= length counts)%nat -> nth_error dist i = Some (P i).
  Proof.
    intro. unfold dist, makeSortedDistribution. rewrite prefix_nth; auto; try lia.
  Qed.
  Lemma dist_len : length dist = S (length counts).
  Proof. apply prefix_len. Qed.
  Lemma P_mono i j : (i <= j)%nat -> P i <= P j.
  Proof. apply zsum_firstn_mono; auto. Qed.

  Lemma walk_down_spec id : forall g, (g <= length counts)%nat -> 0 <= id ->
    exists g', walk_down dist id g = Some g' /\ (g' <= g)%nat /\ P g' <= id.
  Proof.
    induction g as [|g IH]; intros Hg Hid.
    - exists 0%nat. simpl. unfold P; simpl. split; auto; split; lia.
    - cbn [walk_down]. rewrite dist_nth by auto.
      destruct (Z.ltb_spec id (P (S g))).
      + destruct (IH ltac:(lia) Hid) as (g' & E & L & B). exists g'. auto with arith.
      + exists (S g). auto with zarith.
  Qed.

  Lemma walk_up_spec id : forall room g, (g + room = length counts)%nat -> P g <= id ->
    exists g', walk_up room dist id g = Some g' /\ (g <= g' <= length counts)%nat /\
      P g' <= id /\ (g' = length counts \/ id < P (S g')).
  Proof.
    induction room as [|r IH]; intros g Hg Hb; simpl.
    - exists g. repeat split; auto; lia.
    - replace (g + 1)%nat with (S g) by lia.
      rewrite dist_nth by lia. rewrite Z.geb_leb.
      destruct (Z.leb_spec (P (S g)) id).
      + destruct (IH (S g) ltac:(lia) H) as (g' & E & L & B & C).
        exists g'. repeat split; auto; lia.
      + exists g. repeat split; auto; try lia.
  Qed.

  Lemma guess_ok id : (0 < length counts)%nat -> 0 < zsum counts ->
    0 < guessSize dist /\
    (0 <= id < zsum counts ->
     (Z.to_nat (Z.quot id (guessSize dist)) <= length counts)%nat).
  Proof.
    intros Hl Ht.
    assert (Hg : guessSize dist = 1 + (zsum counts - 1) / Z.of_nat (length counts)).
    { unfold guessSize, dist, makeSortedDistribution.
      rewrite prefix_last by (auto; lia). rewrite prefix_len.
      unfold wrap64. rewrite (Z.mod_small (0 + zsum counts - 1)) by lia.
      replace (Z.of_nat (S (length counts)) - 1) with (Z.of_nat (length counts)) by lia.
      rewrite Z.quot_div_nonneg by lia.
      replace (0 + zsum counts - 1) with (zsum counts - 1) by lia.
      apply Z.mod_small.
      assert (0 <= (zsum counts - 1) / Z.of_nat (length counts)) by (apply Z.div_pos; lia).
      assert ((zsum counts - 1) / Z.of_nat (length counts) <= zsum counts - 1)
        by (apply Z.div_le_upper_bound; nia). lia. }
    assert (0 <= (zsum counts - 1) / Z.of_nat (length counts)) by (apply Z.div_pos; lia).
    split; [lia|]. intros Hid.
    rewrite Z.quot_div_nonneg by lia.
    assert (id / guessSize dist <= Z.of_nat (length counts)).
    { apply Z.div_le_upper_bound; [lia|]. rewrite Hg.
      pose proof (Z.div_mod (zsum counts - 1) (Z.of_nat (length counts)) ltac:(lia)).
      pose proof (Z.mod_pos_bound (zsum counts - 1) (Z.of_nat (length counts)) ltac:(lia)).
      nia. }
    lia.
  Qed.

  Lemma lookup_gen id : (0 < length counts)%nat -> 0 < zsum counts -> 0 <= id ->
    (Z.to_nat (Z.quot id (guessSize dist)) <= length counts)%nat ->
    exists g, rank_of dist id = Some g /\ (g <= length counts)%nat /\ P g <= id /\
      (g = length counts \/ id < P (S g)).
  Proof.
    intros Hl Ht Hid Hg. unfold rank_of.
    destruct (guess_ok id Hl Ht) as [Hp _].
    rewrite (proj2 (Z.eqb_neq _ _)) by lia.
    destruct (walk_down_spec id _ Hg Hid) as (g' & -> & L & B).
    rewrite dist_len.
    destruct (walk_up_spec id (S (length counts) - 1 - g') g' ltac:(lia) B)
      as (g & E & L2 & B2 & C).
    exists g. repeat split; auto; lia.
  Qed.
End Lookup.
