Require Import List Arith Lia Sorted Permutation.
Require Import Verif.Base Verif.CombinatoricsModel Verif.CombinatoricsProofs Verif.CombinatoricsProps
  Verif.SimplexModel.
Import ListNotations.
Local Open Scope opt_scope.

Lemma insert_perm x l : Permutation (x :: l) (insert_nat x l).
Proof.
  induction l as [|y t IH]; cbn; auto. destruct (x <=? y); auto.
  rewrite perm_swap. auto.
Qed.
Lemma sort_perm l : Permutation l (sort_nat l).
Proof. induction l as [|x t IH]; cbn; auto. rewrite <- insert_perm. auto. Qed.
Lemma insert_sorted x l : StronglySorted le l -> StronglySorted le (insert_nat x l).
Proof.
  induction 1 as [|y t S IH F]; cbn; [repeat constructor|].
  destruct (Nat.leb_spec x y).
  - constructor; [constructor; auto|]. constructor; auto.
    eapply Forall_impl; [|exact F]. cbn; intros; lia.
  - constructor; auto. eapply Permutation_Forall; [apply insert_perm|]. constructor; auto. lia.
Qed.
Lemma sort_sorted l : StronglySorted le (sort_nat l).
Proof. induction l; cbn; [constructor|]. apply insert_sorted; auto. Qed.

Lemma sorted_unique l : StronglySorted le l -> forall m, StronglySorted le m -> Permutation l m -> l = m.
Proof.
  induction 1 as [|a t S IH F]; intros m Sm P.
  - apply Permutation_nil in P. auto.
  - destruct m as [|b u]; [symmetry in P; apply Permutation_nil in P; discriminate|].
    inversion Sm as [|? ? Su Fu]; subst. rewrite Forall_forall in F, Fu.
    assert (a = b).
    { assert (Ia : In a (b :: u)) by (eapply Permutation_in; [exact P|left; auto]).
      assert (Ib : In b (a :: t)) by (eapply Permutation_in; [symmetry; exact P|left; auto]).
      destruct Ia as [|Ia], Ib as [|Ib]; auto. specialize (Fu _ Ia). specialize (F _ Ib). lia. }
    subst. f_equal. apply IH; auto. eapply Permutation_cons_inv; eauto.
Qed.
Lemma sorted_lt_le l : StronglySorted lt l -> StronglySorted le l.
Proof.
  induction 1 as [|a t S IH F]; constructor; auto. eapply Forall_impl; [|exact F]. cbn; intros; lia.
Qed.
Lemma sorted_lt_NoDup l : StronglySorted lt l -> NoDup l.
Proof.
  induction 1 as [|a t S IH F]; constructor; auto. intro H. rewrite Forall_forall in F. apply F in H. lia.
Qed.
Lemma sorted_le_NoDup_lt l : StronglySorted le l -> NoDup l -> StronglySorted lt l.
Proof.
  induction 1 as [|a t S IH F]; intro N; inversion N; subst; constructor; auto.
  rewrite Forall_forall in *. intros x Hx. specialize (F x Hx). assert (x <> a) by congruence. lia.
Qed.
Lemma sorted_lt_set l m : StronglySorted lt l -> StronglySorted lt m -> (forall x, In x l <-> In x m) -> l = m.
Proof.
  intros Sl Sm H. apply sorted_unique; auto using sorted_lt_le.
  apply NoDup_Permutation; auto using sorted_lt_NoDup.
Qed.

(** ** picking vertices *)
Lemma pick_spec plex c : (forall x, In x c -> x < length plex) ->
  pick plex c = Some (map (fun i => nth i plex 0) c).
Proof.
  induction c as [|i t IH]; intro H; cbn; auto.
  destruct (nth_error_lt plex i) as [v E]; [apply H; left; auto|]. rewrite E. cbn.
  rewrite IH by (intros; apply H; right; auto). cbn. f_equal. f_equal.
  symmetry. apply nth_error_nth. auto.
Qed.
Lemma pick_all_spec plex cs : (forall c, In c cs -> forall x, In x c -> x < length plex) ->
  pick_all plex cs = Some (map (map (fun i => nth i plex 0)) cs).
Proof.
  induction cs as [|c t IH]; intro H; cbn; auto.
  rewrite pick_spec by (apply H; left; auto). cbn. rewrite IH; auto. intros; eapply H; eauto. right; auto.
Qed.

Lemma nth_sorted_lt l : StronglySorted lt l -> forall i j, i < j -> j < length l -> nth i l 0 < nth j l 0.
Proof.
  induction 1 as [|a t S IH F]; intros i j Hij Hj; cbn in *; [lia|].
  rewrite Forall_forall in F.
  destruct j as [|j]; [lia|]. destruct i as [|i].
  - apply F. apply nth_In. lia.
  - apply IH; lia.
Qed.
Lemma map_nth_sorted l : StronglySorted lt l -> forall c, StronglySorted lt c -> (forall x, In x c -> x < length l) ->
  StronglySorted lt (map (fun i => nth i l 0) c).
Proof.
  intro S. induction 1 as [|a t St IH F]; intro H; cbn; constructor.
  - apply IH. intros; apply H; right; auto.
  - rewrite Forall_forall in *. intros x Hx. apply in_map_iff in Hx. destruct Hx as (i & <- & Hi).
    apply nth_sorted_lt; auto. apply H; right; auto.
Qed.

(** The choice of positions for a sorted sublist. *)
Fixpoint index_of (x : nat) (l : list nat) : nat :=
  match l with [] => 0 | y :: t => if x =? y then 0 else S (index_of x t) end.
Lemma index_of_spec x l : In x l -> index_of x l < length l /\ nth (index_of x l) l 0 = x.
Proof.
  induction l as [|y t IH]; cbn; [tauto|]. intros H. destruct (Nat.eqb_spec x y); subst.
  - split; auto. lia.
  - destruct IH; [destruct H; congruence|]. split; auto. lia.
Qed.
Lemma index_sorted l : StronglySorted lt l -> forall x y, In x l -> In y l -> x < y -> index_of x l < index_of y l.
Proof.
  intros S x y Hx Hy H. destruct (index_of_spec x l Hx) as [Lx Ex], (index_of_spec y l Hy) as [Ly Ey].
  destruct (lt_eq_lt_dec (index_of x l) (index_of y l)) as [[?|E]|G]; auto.
  - rewrite E in Ex. lia.
  - pose proof (nth_sorted_lt l S _ _ G Lx). lia.
Qed.

Lemma downward_spec k plex : k <= length plex -> StronglySorted lt plex ->
  exists l, downward k plex = Some l /\
    (forall f, In f l <-> length f = k /\ StronglySorted lt f /\ incl f plex) /\ NoDup l /\
    binom (length plex) k = Some (length l).
Proof.
  intros Hk S. unfold downward. destruct (choose_enum_spec (length plex) k Hk _ (le_n _)) as (cs0 & E0 & _).
  destruct (choose_enumerates (length plex) k Hk) as (fuel & cs & E & I & N & _ & B).
  assert (cs0 = cs).
  { assert (Mono : forall f n c l, choose_all f n c = Some l -> forall g, f <= g -> choose_all g n c = Some l).
    { clear. induction f as [|f IH]; intros n c l H g Hg; [discriminate|].
      destruct g as [|g]; [lia|]. cbn in *. destruct (choose_next n c); auto.
      destruct (choose_all f n l0) eqn:Q; [|discriminate]. rewrite (IH _ _ _ Q g) by lia. auto. }
    pose proof (Mono _ _ _ _ E0 (Nat.max fuel (length plex ^ k)) ltac:(lia)).
    pose proof (Mono _ _ _ _ E (Nat.max fuel (length plex ^ k)) ltac:(lia)). congruence. }
  subst cs0. rewrite E0. cbn [bind].
  assert (R : forall c, In c cs -> forall x, In x c -> x < length plex).
  { intros c Hc. apply I in Hc. destruct Hc as (_ & H & _). auto. }
  rewrite pick_all_spec by auto. eexists. split; [reflexivity|].
  split; [|split].
  - intro f. rewrite in_map_iff. split.
    + intros (c & <- & Hc). pose proof (R c Hc) as Rc. apply I in Hc. destruct Hc as (Lc & _ & Sc).
      split; [rewrite map_length; auto|]. split; [apply map_nth_sorted; auto|].
      intros x Hx. apply in_map_iff in Hx. destruct Hx as (i & <- & Hi). apply nth_In. auto.
    + intros (Lf & Sf & Inc). exists (map (fun x => index_of x plex) f). split.
      * rewrite map_map. rewrite <- (map_id f) at 2. apply map_ext_in. intros x Hx.
        apply index_of_spec. auto.
      * apply I. split; [rewrite map_length; auto|]. split.
        -- intros x Hx. apply in_map_iff in Hx. destruct Hx as (y & <- & Hy). apply index_of_spec; auto.
        -- clear - S Sf Inc. induction Sf as [|a t St IH F]; cbn; constructor.
           ++ apply IH. intros x Hx. apply Inc. right; auto.
           ++ rewrite Forall_forall in *. intros x Hx. apply in_map_iff in Hx. destruct Hx as (y & <- & Hy).
              apply index_sorted; auto; apply Inc; [left|right]; auto.
  - apply NoDup_map_inj; auto. intros c c' Hc Hc' Eq.
    assert (Inj : forall c c', (forall x, In x c -> x < length plex) -> (forall x, In x c' -> x < length plex) ->
      map (fun i => nth i plex 0) c = map (fun i => nth i plex 0) c' -> c = c').
    { clear - S. induction c as [|i c IH]; intros [|j c'] Hc Hc' Eq; try discriminate; auto.
      cbn in Eq. injection Eq as E1 E2. f_equal.
      - pose proof (sorted_lt_NoDup _ S) as N. rewrite (NoDup_nth plex 0) in N. apply N; auto.
        + apply Hc; left; auto.
        + apply Hc'; left; auto.
      - apply IH; auto; intros; [apply Hc|apply Hc']; right; auto. }
    apply Inj; auto; apply R; auto.
  - rewrite map_length. auto.
Qed.

Lemma lexlt_irrefl a : ~ lexlt a a.
Proof. induction a; intro H; inversion H; subst; [lia|auto]. Qed.
Lemma lexlt_trans a : forall b c, lexlt a b -> lexlt b c -> lexlt a c.
Proof.
  induction a as [|x t IH]; intros b c H1 H2; inversion H1; subst; inversion H2; subst;
    try (apply lex_here; lia); try (apply lex_there; eapply IH; eauto); auto.
Qed.
Lemma lex_sorted_unique l : StronglySorted lexlt l -> forall m, StronglySorted lexlt m ->
  (forall x, In x l <-> In x m) -> l = m.
Proof.
  induction 1 as [|a t S IH F]; intros m Sm H.
  - destruct m as [|b u]; auto. destruct (proj2 (H b) (or_introl eq_refl)).
  - destruct m as [|b u]; [destruct (proj1 (H a) (or_introl eq_refl))|].
    inversion Sm as [|? ? Su Fu]; subst. rewrite Forall_forall in F, Fu.
    assert (a = b).
    { destruct (proj1 (H a) (or_introl eq_refl)) as [|Ia]; auto.
      destruct (proj2 (H b) (or_introl eq_refl)) as [|Ib]; auto.
      exfalso. apply (lexlt_irrefl a). eapply lexlt_trans; [apply F|apply Fu]; eauto. }
    subst b. f_equal. apply IH; auto. intro x. split; intro Hx.
    + destruct (proj1 (H x) (or_intror Hx)); auto. subst. exfalso. apply (lexlt_irrefl x). auto.
    + destruct (proj2 (H x) (or_intror Hx)); auto. subst. exfalso. apply (lexlt_irrefl x). auto.
Qed.

(** [0..k] without k-i *)
Definition omit (k i : nat) : list nat := seq 0 (k - i) ++ seq (k - i + 1) i.

Lemma omit_in k i x : i <= k -> (In x (omit k i) <-> x <= k /\ x <> k - i).
Proof. intro H. unfold omit. rewrite in_app_iff, !in_seq. lia. Qed.

Lemma seq_app_sorted a n b m : a + n <= b -> StronglySorted lt (seq a n ++ seq b m).
Proof.
  revert a. induction n as [|n IH]; intros a H; cbn.
  - clear H. revert b. induction m as [|m IH]; intro b; cbn; constructor; auto.
    apply Forall_forall. intros x Hx. apply in_seq in Hx. lia.
  - constructor; [apply IH; lia|]. apply Forall_forall. intros x Hx.
    apply in_app_iff in Hx. rewrite !in_seq in Hx. lia.
Qed.

Lemma lexlt_app p : forall a b, lexlt a b -> lexlt (p ++ a) (p ++ b).
Proof. induction p; intros; cbn; auto. apply lex_there; auto. Qed.

Lemma omit_lex k i j : i < j -> j <= k -> lexlt (omit k i) (omit k j).
Proof.
  intros Hij Hj. unfold omit.
  replace (k - i) with (k - j + S (j - i - 1)) by lia.
  rewrite seq_app, <- app_assoc. apply lexlt_app.
  cbn [plus seq]. cbn. destruct j as [|j]; [lia|]. cbn [seq].
  apply lex_here. lia.
Qed.

Lemma subset_omit k c : is_subset (S k) k c <-> exists i, i <= k /\ c = omit k i.
Proof.
  split.
  - intros (L & B & S).
    assert (Ex : exists m, m <= k /\ ~ In m c).
    { destruct (Exists_dec (fun m => ~ In m c) (seq 0 (Datatypes.S k))) as [E|E].
      - intro x. destruct (in_dec Nat.eq_dec x c); [right; tauto|left; auto].
      - apply Exists_exists in E. destruct E as (m & Hm & Hn). apply in_seq in Hm. exists m. split; [lia|auto].
      - exfalso. assert (incl (seq 0 (Datatypes.S k)) c).
        { intros x Hx. destruct (in_dec Nat.eq_dec x c); auto. exfalso. apply E. apply Exists_exists. eauto. }
        apply NoDup_incl_length in H; [rewrite seq_length in H; lia|apply seq_NoDup]. }
    destruct Ex as (m & Hm & Hn). exists (k - m). split; [lia|].
    apply sorted_lt_set; auto; [apply seq_app_sorted; lia|].
    assert (Inc : incl c (omit k (k - m))).
    { intros x Hx. apply omit_in; [lia|]. pose proof (B x Hx). split; [lia|].
      intro. replace (k - (k - m)) with m in * by lia. congruence. }
    intro x. split; [apply Inc|]. intro Hx.
    assert (Inc' : incl (omit k (k - m)) c).
    { apply NoDup_length_incl; auto using sorted_lt_NoDup.
      unfold omit. rewrite app_length, !seq_length. lia. }
    auto.
  - intros (i & Hi & ->). split; [unfold omit; rewrite app_length, !seq_length; lia|].
    split; [intros x Hx; apply omit_in in Hx; lia|]. apply seq_app_sorted. lia.
Qed.

Lemma facets_choose k : choose_all (S k ^ k) (S k) (choose_begin k) = Some (map (omit k) (seq 0 (S k))).
Proof.
  destruct (choose_enumerates (S k) k ltac:(lia)) as (fuel & l & E & I & N & So & B).
  destruct (choose_enum_spec (S k) k ltac:(lia) _ (le_n _)) as (l0 & E0 & _).
  assert (l0 = l).
  { assert (Mono : forall f n c l, choose_all f n c = Some l -> forall g, f <= g -> choose_all g n c = Some l).
    { clear. induction f as [|f IH]; intros n c l H g Hg; [discriminate|].
      destruct g as [|g]; [lia|]. cbn in *. destruct (choose_next n c); auto.
      destruct (choose_all f n l0) eqn:Q; [|discriminate]. rewrite (IH _ _ _ Q g) by lia. auto. }
    pose proof (Mono _ _ _ _ E0 (Nat.max fuel (S k ^ k)) ltac:(lia)).
    pose proof (Mono _ _ _ _ E (Nat.max fuel (S k ^ k)) ltac:(lia)). congruence. }
  subst l0. rewrite E0. f_equal. apply lex_sorted_unique; auto.
  - assert (G : forall n a, a + n <= S k -> StronglySorted lexlt (map (omit k) (seq a n))).
    { induction n as [|n IH]; intros a H; cbn; constructor; [apply IH; lia|].
      apply Forall_forall. intros x Hx. apply in_map_iff in Hx. destruct Hx as (j & <- & Hj).
      apply in_seq in Hj. apply omit_lex; lia. }
    apply G. lia.
  - intro c. rewrite I, subset_omit, in_map_iff. split.
    + intros (i & Hi & ->). exists i. split; auto. apply in_seq. lia.
    + intros (i & <- & Hi). apply in_seq in Hi. exists i. split; auto. lia.
Qed.

Lemma map_nth_seq (l : list nat) : forall a n, a + n <= length l ->
  map (fun i => nth i l 0) (seq a n) = firstn n (skipn a l).
Proof.
  intros a n; revert a. induction n as [|n IH]; intros a H; cbn; auto.
  assert (E : skipn a l = nth a l 0 :: skipn (S a) l).
  { clear - H. revert a H. induction l as [|x l IH]; intros [|a] H; cbn in *; try lia; auto. apply IH. lia. }
  rewrite E. cbn. f_equal. apply IH. lia.
Qed.

Lemma facets_spec plex : plex <> [] ->
  downward (length plex - 1) plex =
    Some (map (fun i => firstn (length plex - 1 - i) plex ++ skipn (length plex - i) plex) (seq 0 (length plex))).
Proof.
  intro H. unfold downward. destruct plex as [|v t]; [congruence|]. set (plex := v :: t) in *.
  replace (length plex) with (S (length t)) by reflexivity.
  replace (S (length t) - 1) with (length t) by lia. rewrite facets_choose. cbn [bind].
  rewrite pick_all_spec.
  - f_equal. rewrite map_map. apply map_ext_in. intros i Hi. apply in_seq in Hi.
    unfold omit. rewrite map_app, !map_nth_seq by (cbn; lia). f_equal.
    rewrite firstn_all2 by (rewrite skipn_length; unfold plex; simpl length; lia). f_equal. lia.
  - intros c Hc x Hx. apply in_map_iff in Hc. destruct Hc as (i & <- & Hi). apply in_seq in Hi.
    apply omit_in in Hx; cbn; lia.
Qed.
