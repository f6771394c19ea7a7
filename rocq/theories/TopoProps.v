(** Property theorems: facet and neighbour tables (C23). *)
Require Import List Arith Lia Bool Sorted Permutation.
Require Import Verif.Base Verif.CombinatoricsModel Verif.CombinatoricsProofs Verif.SimplexModel
  Verif.SimplexProofs Verif.LocalMeshModel Verif.LocalMeshProofs Verif.LocalMeshProps Verif.TopoModel
  Verif.TopoSpec Verif.TopoProofs.
Import ListNotations.
Local Open Scope opt_scope.

(** C23a: the facet table exists and every local facet's record describes the elements that meet there. *)
Theorem facet_table_correct : forall k m, topo_ok k m ->
  exists fi, facet_table k m = Some fi /\ length fi = tm_num_local_facets m /\
    forall i, i < tm_num_local_facets m -> exists x, nth_error fi i = Some x /\ facet_record_ok k m i x.
Proof.
  intros k m O. destruct (facet_upward_spec k m O) as (um & E & _). unfold facet_table. rewrite E. cbn [bind].
  destruct (map_opt_spec (facet_info_of k m um) (seq 0 (tm_num_local_facets m))) as (fi & Efi & L & H).
  { intros i Hi. apply in_seq in Hi. destruct (facet_info_spec k m um i O E ltac:(lia)) as (x & Ex & _). eauto. }
  exists fi. split; auto. rewrite seq_length in L. split; auto. intros i Hi.
  destruct (H i i) as (x & Ex & Nx).
  { rewrite (nth_error_nth' _ 0) by (rewrite seq_length; auto). rewrite seq_nth; auto. }
  destruct (facet_info_spec k m um i O E Hi) as (y & Ey & Oy). assert (y = x) by congruence. subst. eauto.
Qed.
Print Assumptions facet_table_correct.

Lemma all_writes_nth k fi i x : nth_error fi i = Some x -> nth_error (all_side_writes k fi) i = Some (side_writes k i x).
Proof.
  intro E. unfold all_side_writes. rewrite (map_nth_error _ i _ (d := (i, x))); [reflexivity|].
  assert (i < length fi) by (apply nth_error_Some; congruence).
  rewrite (nth_error_nth' _ (0, x)) by (rewrite combine_length, seq_length; lia).
  rewrite combine_nth by apply seq_length. rewrite seq_nth by auto. f_equal. f_equal. apply nth_error_nth. auto.
Qed.

Lemma slot_inj k a b c d : b <= k -> d <= k -> a * (k + 1) + b = c * (k + 1) + d -> a = c /\ b = d.
Proof. intros. assert (a = c) by nia. subst. split; lia. Qed.

(** C23b: whatever order the threads' writes happen in, the table of the neighbours is complete and
    every slot of every local element describes what is behind the facet. *)
Theorem neighbour_table_correct : forall k m fi w, topo_ok k m -> facet_table k m = Some fi ->
  interleaving (all_side_writes k fi) w ->
  exists t, do_writes (fresh_sides k m) w = Some t /\ length t = tm_num_local m * (k + 1) /\
    forall e l, e < tm_num_local m -> l <= k ->
      exists s i, nth_error t (e * (k + 1) + l) = Some s /\ facet_at k m e l i /\ slot_ok k m e l i s.
Proof.
  intros k m fi w O Efi Iw. destruct (facet_table_correct k m O) as (fi' & E' & Lfi & Hfi).
  assert (fi' = fi) by congruence. subst fi'.
  assert (Rec : forall i x, nth_error fi i = Some x -> facet_record_ok k m i x).
  { intros i x E. destruct (Hfi i) as (y & Ey & Oy); [rewrite <- Lfi; apply nth_error_Some; congruence|].
    assert (y = x) by congruence. subst; auto. }
  assert (InW : forall p, In p (all_side_writes k fi) -> exists i x, nth_error fi i = Some x /\ p = side_writes k i x).
  { intros p Hp. apply In_nth_error in Hp. destruct Hp as [i Ei].
    assert (Hi : i < length fi).
    { assert (i < length (all_side_writes k fi)) by (apply nth_error_Some; congruence).
      unfold all_side_writes in H. rewrite map_length, combine_length, seq_length in H. lia. }
    destruct (nth_error_lt _ _ Hi) as [x Ex]. rewrite (all_writes_nth k fi i x Ex) in Ei. exists i, x. split; congruence. }
  assert (Shape : forall i x j s, nth_error fi i = Some x -> In (j, s) (side_writes k i x) ->
    exists e l, e < tm_num_local m /\ l <= k /\ j = e * (k + 1) + l /\ facet_at k m e l i).
  { intros i x j s Ex Hin. destruct (Rec i x Ex) as [Up Ord F0 F1 _ _ I0 I1 _ _].
    unfold side_writes in Hin. apply in_app_or in Hin.
    destruct (facet_at_contains k m O _ _ _ F0) as [_ B0]. destruct (facet_at_contains k m O _ _ _ F1) as [_ B1].
    destruct Hin as [Hin|Hin].
    - destruct (fi_inside0 x) eqn:Q; [|destruct Hin]. destruct Hin as [Hin|[]]. injection Hin as <- <-.
      exists (fi_up0 x), (fi_local0 x). symmetry in I0. apply Nat.ltb_lt in I0. auto.
    - destruct (fi_inside1 x) eqn:Q; [|destruct Hin]. destruct Hin as [Hin|[]]. injection Hin as <- <-.
      exists (fi_up1 x), (fi_local1 x). symmetry in I1. apply Nat.ltb_lt in I1. auto. }
  destruct (do_writes_spec w (fresh_sides k m)) as (t & Et & Lt & Ht).
  { intros j s Hin. apply (il_in _ _ Iw) in Hin. destruct Hin as (p & Hp & Hin).
    destruct (InW p Hp) as (i & x & Ex & ->). destruct (Shape i x j s Ex Hin) as (e & l & He & Hl & -> & _).
    unfold fresh_sides. rewrite repeat_length. nia. }
  exists t. split; auto. unfold fresh_sides in Lt at 1. rewrite repeat_length in Lt. split; auto.
  intros e l He Hl.
  assert (Hel : e < length (tm_elems m)) by (pose proof (to_local_le _ _ O); lia).
  destruct (nth_error_lt _ _ Hel) as [plex Ep]. destruct (facet_list k m O e plex Ep) as (d & Ed & Ld & Nd & Id).
  destruct (nth_error_lt d l) as [i Ei]; [lia|].
  assert (FA : facet_at k m e l i) by (exists plex, d; auto).
  destruct (facet_at_contains k m O _ _ _ FA) as [C _].
  assert (Hi : i < tm_num_local_facets m).
  { apply (to_local_facets _ _ O); [apply (contains_lt m e i C)|eauto]. }
  destruct (Hfi i Hi) as (x & Ex & Ox).
  assert (Elast : nth_error t (e * (k + 1) + l) = Some (last_write (e * (k + 1) + l) (side_writes k i x) no_side)).
  { rewrite (Ht _ no_side).
    - f_equal. unfold last_write.
      erewrite (il_filter _ _ _ Iw i); [reflexivity|apply all_writes_nth; auto|].
      intros j p Hj Ej. destruct (InW p) as (j' & y & Ey & Hp); [eapply nth_error_In; eauto|].
      assert (Hj2 : j < length fi).
      { assert (j < length (all_side_writes k fi)) by (apply nth_error_Some; congruence).
        unfold all_side_writes in H. rewrite map_length, combine_length, seq_length in H. lia. }
      destruct (nth_error_lt _ _ Hj2) as [z Ez]. rewrite (all_writes_nth k fi j z Ez) in Ej. injection Ej as Ej. subst p.
      destruct (filter _ (side_writes k j z)) as [|[a b] r] eqn:Ef; auto. exfalso.
      assert (Hin : In (a, b) (filter (fun p => fst p =? e * (k + 1) + l) (side_writes k j z))) by (rewrite Ef; left; auto).
      apply filter_In in Hin. destruct Hin as [Hin Ha]. cbn in Ha. apply Nat.eqb_eq in Ha.
      destruct (Shape j z a b Ez Hin) as (e2 & l2 & _ & Hl2 & E2 & F2).
      rewrite Ha in E2. destruct (slot_inj k e l e2 l2 Hl Hl2 E2) as [A B]. subst e2 l2.
      apply Hj. eapply facet_at_fun; eauto.
    - unfold fresh_sides. apply nth_error_repeat. nia. }
  eexists. exists i. split; [exact Elast|]. split; auto.
  destruct Ox as [Up Ord F0 F1 _ _ I0 I1 Fi Bc].
  destruct (facet_at_contains k m O _ _ _ F0) as [_ B0]. destruct (facet_at_contains k m O _ _ _ F1) as [_ B1].
  assert (Hup := proj1 (Up e) C). unfold last_write, side_writes. rewrite Fi.
  destruct (Nat.eq_dec (fi_up0 x) (fi_up1 x)) as [Heq|Hne].
  - assert (e = fi_up0 x) by (destruct Hup; congruence). subst e.
    assert (l = fi_local0 x) by (eapply facet_at_inj; eauto). subst l.
    assert (fi_local1 x = fi_local0 x) as El1 by (rewrite <- Heq in F1; eapply facet_at_inj; eauto).
    assert (fi_inside1 x = true) as Q by (rewrite I1, <- Heq, <- I0; auto). rewrite Q, <- Heq, El1.
    cbn [app filter fst]. rewrite Nat.eqb_refl. cbn [map snd last].
    constructor; cbn [si_fct si_side si_lid si_local si_bc]; auto.
    + intro e'. rewrite Up. rewrite <- Heq. tauto.
    + rewrite Nat.ltb_irrefl. auto.
  - destruct Hup as [-> | ->].
    + assert (l = fi_local0 x) by (eapply facet_at_inj; eauto). subst l.
      cbn [app filter fst]. rewrite Nat.eqb_refl.
      assert (Rest : filter (fun p : nat * side_info => fst p =? fi_up0 x * (k + 1) + fi_local0 x)
        (if fi_inside1 x then [(fi_up1 x * (k + 1) + fi_local1 x,
          {| si_fct := i; si_side := 1; si_lid := fi_up0 x; si_local := fi_local0 x; si_bc := fi_bc x |})] else []) = []).
      { destruct (fi_inside1 x); auto. cbn [filter fst].
        destruct (Nat.eqb_spec (fi_up1 x * (k + 1) + fi_local1 x) (fi_up0 x * (k + 1) + fi_local0 x)) as [E|]; auto.
        destruct (slot_inj k _ _ _ _ B1 B0 E). congruence. }
      rewrite Rest. cbn [map snd last]. constructor; cbn [si_fct si_side si_lid si_local si_bc]; auto.
      assert (fi_up0 x < fi_up1 x) by lia. destruct (Nat.ltb_spec (fi_up0 x) (fi_up1 x)); auto; lia.
    + assert (l = fi_local1 x) by (eapply facet_at_inj; eauto). subst l.
      assert (fi_inside1 x = true) as Q by (rewrite I1; apply Nat.ltb_lt; auto). rewrite Q.
      cbn [app filter fst].
      destruct (Nat.eqb_spec (fi_up0 x * (k + 1) + fi_local0 x) (fi_up1 x * (k + 1) + fi_local1 x)) as [E|].
      { destruct (slot_inj k _ _ _ _ B0 B1 E). congruence. }
      rewrite Nat.eqb_refl. cbn [map snd last]. constructor; cbn [si_fct si_side si_lid si_local si_bc]; auto.
      * intro e'. rewrite Up. tauto.
      * destruct (Nat.ltb_spec (fi_up1 x) (fi_up0 x)); auto; lia.
Qed.
Print Assumptions neighbour_table_correct.

(** C23c: the table is symmetric: if the neighbour across a facet is a local element, its slot leads
    back to the same facet of the first element, and the two are on opposite sides. *)
Theorem neighbour_table_symmetric : forall k m fi w t, topo_ok k m -> facet_table k m = Some fi ->
  interleaving (all_side_writes k fi) w -> do_writes (fresh_sides k m) w = Some t ->
  forall e l s, e < tm_num_local m -> l <= k -> nth_error t (e * (k + 1) + l) = Some s ->
    si_lid s < tm_num_local m -> si_lid s <> e ->
    exists s', nth_error t (si_lid s * (k + 1) + si_local s) = Some s' /\
      si_lid s' = e /\ si_local s' = l /\ si_fct s' = si_fct s /\ si_bc s' = si_bc s /\ si_side s' + si_side s = 1.
Proof.
  intros k m fi w t O Efi Iw Et e l s He Hl Es Ho Hne.
  destruct (neighbour_table_correct k m fi w O Efi Iw) as (t' & Et' & _ & H). assert (t' = t) by congruence. subst t'.
  destruct (H e l He Hl) as (s0 & i & Es0 & FA & Ok). assert (s0 = s) by congruence. subst s0.
  destruct Ok as [Fc Bc Oth Loc Sd]. destruct (facet_at_contains k m O _ _ _ Loc) as [_ Bl].
  destruct (H (si_lid s) (si_local s) Ho Bl) as (s' & i' & Es' & FA' & Ok').
  assert (i' = i) by (eapply facet_at_fun; eauto). subst i'. destruct Ok' as [Fc' Bc' Oth' Loc' Sd'].
  exists s'. split; auto.
  assert (Le : si_lid s' = e).
  { assert (C : contains m e i) by (apply Oth; auto). apply Oth' in C. destruct C; congruence. }
  split; auto. rewrite Le in Loc'. split; [eapply facet_at_inj; eauto|]. split; [congruence|].
  split.
  - destruct Bc as (b & Eb & Nb), Bc' as (b' & Eb' & Nb'). congruence.
  - rewrite Sd, Sd', Le. destruct (Nat.ltb_spec e (si_lid s)), (Nat.ltb_spec (si_lid s) e); lia.
Qed.
Print Assumptions neighbour_table_symmetric.

(** ** neighbour counts *)
Lemma share_one_facet k m : topo_ok k m -> forall e e' i j,
  contains m e i -> contains m e' i -> contains m e j -> contains m e' j -> e <> e' -> i = j.
Proof.
  intros O e e' i j (p & f & Ep & Ef & If) (p' & f2 & Ep' & Ef2 & If') (p2 & g & Ep2 & Eg & Ig) (p3 & g2 & Ep3 & Eg2 & Ig') Hne.
  assert (p2 = p) by congruence. assert (p3 = p') by congruence. assert (f2 = f) by congruence. assert (g2 = g) by congruence. subst.
  destruct (to_elems _ _ O) as [Ne Se]. destruct (to_facets _ _ O) as [Nf Sf].
  destruct (Se p) as [Lp Sp]; [eapply nth_error_In; eauto|]. destruct (Se p') as [Lp' Sp']; [eapply nth_error_In; eauto|].
  destruct (Sf f) as [Lf Ssf]; [eapply nth_error_In; eauto|]. destruct (Sf g) as [Lg Ssg]; [eapply nth_error_In; eauto|].
  assert (G : f = g).
  { destruct (list_eq_dec Nat.eq_dec f g) as [|D]; auto. exfalso. apply Hne.
    apply (proj1 (NoDup_nth_error _) Ne); [apply nth_error_Some; congruence|]. rewrite Ep, Ep'. f_equal.
    assert (Inc : incl p p').
    { intros x Hx. destruct (in_dec Nat.eq_dec x p') as [|Nx]; auto. exfalso. apply D.
      assert (Set1 : forall h, length h = k -> StronglySorted lt h -> incl h p -> incl h p' -> forall y, In y h <-> In y (remove Nat.eq_dec x p)).
      { intros h Lh Sh Ih Ih'. assert (I1 : incl h (remove Nat.eq_dec x p)).
        { intros y Hy. apply in_in_remove; [intros ->; apply Nx; auto|auto]. }
        assert (Lr : length (remove Nat.eq_dec x p) <= k).
        { pose proof (remove_length_lt Nat.eq_dec p x Hx). lia. }
        assert (I2 : incl (remove Nat.eq_dec x p) h).
        { apply NoDup_length_incl; auto; [apply sorted_lt_NoDup; auto|lia]. }
        intro y; split; auto. }
      apply sorted_lt_set; auto. intro y. rewrite (Set1 f), (Set1 g); auto. tauto. }
    apply sorted_lt_set; auto. intro y. split; auto.
    assert (incl p' p) as I2 by (apply NoDup_length_incl; auto; [apply sorted_lt_NoDup; auto|lia]). auto. }
  subst. apply (proj1 (NoDup_nth_error _) Nf); [apply nth_error_Some; congruence|congruence].
Qed.

Definition other_than (el : nat) (us : list nat) : list nat := filter (fun u => negb (u =? el)) us.
Definition owned_by (rank : nat) (owner : list nat) (b : bool) (l : list nat) : list nat :=
  filter (fun u => Bool.eqb (nth u owner 0 =? rank) b) l.

Lemma count_up_spec rank el owner us : (forall u, In u us -> u < length owner) -> forall c,
  count_up rank el owner us c =
    Some (fst c + length (owned_by rank owner true (other_than el us)),
          snd c + length (owned_by rank owner false (other_than el us))).
Proof.
  induction us as [|u t IH]; intros H c; cbn [count_up].
  - cbn. rewrite !Nat.add_0_r. destruct c; auto.
  - unfold other_than. cbn [filter]. destruct (u =? el); cbn [negb].
    + apply IH. intros; apply H; right; auto.
    + destruct (nth_error_lt owner u) as [o Eo]; [apply H; left; auto|]. rewrite Eo. cbn [bind].
      rewrite IH by (intros; apply H; right; auto). unfold owned_by. cbn [filter].
      rewrite (nth_error_nth _ _ 0 Eo). fold (other_than el t).
      destruct (o =? rank); cbn [Bool.eqb fst snd length]; f_equal; f_equal; lia.
Qed.

Lemma owned_by_app rank owner b l l' : owned_by rank owner b (l ++ l') = owned_by rank owner b l ++ owned_by rank owner b l'.
Proof. apply filter_app. Qed.

Lemma count_down_spec rank el owner um dws :
  (forall d us, In d dws -> nth_error um d = Some us -> forall u, In u us -> u < length owner) ->
  (forall d, In d dws -> d < length um) -> forall c,
  let nb := concat (map (fun d => other_than el (nth d um [])) dws) in
  count_down rank el owner um dws c =
    Some (fst c + length (owned_by rank owner true nb), snd c + length (owned_by rank owner false nb)).
Proof.
  induction dws as [|d t IH]; intros H Hd c; cbn [count_down map concat].
  - cbn. rewrite !Nat.add_0_r. destruct c; auto.
  - destruct (nth_error_lt um d) as [us Eus]; [apply Hd; left; auto|]. rewrite Eus. cbn [bind].
    rewrite count_up_spec by (eapply H; [left|]; eauto). cbn [bind].
    rewrite IH; [|intros d' us' Hd'; apply H; right; auto|intros; apply Hd; right; auto].
    rewrite (nth_error_nth _ _ [] Eus). rewrite !owned_by_app, !app_length. cbn [fst snd]. f_equal. f_equal; lia.
Qed.

Lemma filter_length_perm {A} (f : A -> bool) l l' : Permutation l l' -> length (filter f l) = length (filter f l').
Proof.
  induction 1; cbn; auto; try congruence.
  - destruct (f x); cbn; auto.
  - destruct (f x), (f y); auto.
Qed.

(** C23d: the counts used to preallocate the rows of an element: one more than its neighbours owned
    by this rank, and its neighbours owned by other ranks. *)
Theorem neighbour_counts_correct : forall k rank m e nb, topo_ok k m -> e < length (tm_elems m) ->
  NoDup nb -> (forall e', In e' nb <-> adjacent m e e') ->
  neighbour_counts k rank m e =
    Some (1 + length (filter (fun u => nth u (tm_owner m) 0 =? rank) nb),
          length (filter (fun u => negb (nth u (tm_owner m) 0 =? rank)) nb)).
Proof.
  intros k rank m e nb O He Nnb Hnb. destruct (nth_error_lt _ _ He) as [plex Ep].
  destruct (facet_list k m O e plex Ep) as (d & Ed & Ld & Nd & Id).
  destruct (facet_upward_spec k m O) as (um & Eum & Lum & Hum).
  unfold neighbour_counts. rewrite Eum. cbn [bind]. rewrite Ep. cbn [bind]. rewrite Ed. cbn [bind].
  assert (Hd : forall i, In i d -> i < length um).
  { intros i Hi. rewrite Lum. apply (contains_lt m e i). apply Id; auto. }
  assert (Hu : forall i, i < length um -> StronglySorted lt (nth i um []) /\ forall x, In x (nth i um []) <-> contains m x i).
  { intros i Hi. destruct (Hum i) as (u & Eu & Su & H); [lia|]. rewrite (nth_error_nth _ _ [] Eu). auto. }
  rewrite count_down_spec; auto.
  2:{ intros i us Hi Eus u Hu'. rewrite (to_owner _ _ O). destruct (Hu i (Hd i Hi)) as [_ H].
      rewrite (nth_error_nth _ _ [] Eus) in H. apply (contains_lt m u i). apply H; auto. }
  cbn [fst snd]. set (nb' := concat _).
  assert (P : Permutation nb' nb).
  { apply NoDup_Permutation; auto.
    - unfold nb'. assert (G : forall ds, NoDup ds -> incl ds d ->
        NoDup (concat (map (fun i => other_than e (nth i um [])) ds))).
      { induction ds as [|i ds IH]; intros Nds Ids; cbn; [constructor|]. inversion Nds; subst.
        assert (Hi : In i d) by (apply Ids; left; auto).
        apply NoDup_app_intro; [apply NoDup_filter, sorted_lt_NoDup, Hu; auto| |].
        - apply IH; auto. intros z Hz; apply Ids; right; auto.
        - intros x Hx Hx'. apply filter_In in Hx. destruct Hx as [Hx Hne].
          apply in_concat in Hx'. destruct Hx' as (l & Hl & Hx'). apply in_map_iff in Hl. destruct Hl as (j & <- & Hj).
          apply filter_In in Hx'. destruct Hx' as [Hx' _].
          assert (Hjd : In j d) by (apply Ids; right; auto).
          apply Hu in Hx; auto. apply Hu in Hx'; auto. apply negb_true_iff, Nat.eqb_neq in Hne.
          assert (i = j); [|subst; auto].
          eapply (share_one_facet k m O e x); eauto; apply Id; auto. }
      apply G; auto. apply incl_refl.
    - intro x. rewrite Hnb. unfold nb'. rewrite in_concat. split.
      + intros (l & Hl & Hx). apply in_map_iff in Hl. destruct Hl as (i & <- & Hi).
        apply filter_In in Hx. destruct Hx as [Hx Hne]. apply negb_true_iff, Nat.eqb_neq in Hne.
        split; auto. exists i. split; [apply Id; auto|]. apply Hu in Hx; auto.
      + intros [Hne (i & C1 & C2)]. assert (Hi : In i d) by (apply Id; auto).
        exists (other_than e (nth i um [])). split; [apply in_map_iff; eauto|].
        apply filter_In. split; [apply Hu; auto|]. apply negb_true_iff, Nat.eqb_neq; auto. }
  f_equal. f_equal.
  - f_equal. unfold owned_by. rewrite (filter_length_perm _ _ _ P). f_equal. apply filter_ext. intro u.
    destruct (_ =? rank); auto.
  - rewrite Nat.add_0_l. unfold owned_by. rewrite (filter_length_perm _ _ _ P). f_equal.
Qed.
Print Assumptions neighbour_counts_correct.

(** ** interior elements *)
Definition interior (rank : nat) (m : topo_mesh) (e : nat) : Prop :=
  nth_error (tm_owner m) e = Some rank /\ nth_error (tm_shared m) e = Some [].

Lemma count_interior_spec rank ow : forall sh el n last, length ow = length sh ->
  let '(n', last') := count_interior rank el ow sh n last in
  exists c, n' = n + c /\ c <= length ow /\ (c = 0 -> last' = last) /\
    (0 < c -> el <= last' /\ last' < el + length ow /\
        nth_error ow (last' - el) = Some rank /\ nth_error sh (last' - el) = Some []) /\
    (forall i, nth_error ow i = Some rank -> nth_error sh i = Some [] -> 0 < c /\ el + i <= last') /\
    (last' + 1 = el + c -> forall i, i < c -> nth_error ow i = Some rank /\ nth_error sh i = Some []) /\
    (0 < c -> el + c <= last' + 1) /\
    ((forall i, i < c -> nth_error ow i = Some rank /\ nth_error sh i = Some []) -> 0 < c -> last' + 1 = el + c).
Proof.
  induction ow as [|o ot IH]; intros [|s st] el n last L; cbn in L; try discriminate; cbn [count_interior].
  - exists 0. cbn. split; [lia|]. split; [lia|]. split; auto. split; [lia|].
    split; [intros [|i]; discriminate|]. split; [intros _ i; lia|]. split; lia.
  - destruct ((o =? rank) && (length s =? 0)) eqn:Q.
    + apply andb_true_iff in Q. destruct Q as [Q1 Q2]. apply Nat.eqb_eq in Q1, Q2. subst o.
      destruct s; [|discriminate]. specialize (IH st (el + 1) (n + 1) el ltac:(lia)).
      destruct (count_interior rank (el + 1) ot st (n + 1) el) as [n' last'].
      destruct IH as (c & En & Lc & H0 & H1 & H2 & H3 & H4 & H5). exists (S c). split; [lia|]. split; [cbn; lia|].
      split; [lia|]. split; [|split; [|split; [|split]]].
      * intros _. destruct (Nat.eq_dec c 0) as [Hc|Hc].
        -- rewrite H0 by auto. rewrite Nat.sub_diag. cbn. repeat split; auto; lia.
        -- destruct (H1 ltac:(lia)) as (A & B & C & D). replace (last' - el) with (S (last' - (el + 1))) by lia.
           cbn. repeat split; auto; lia.
      * intros [|i] E1 E2; split; try lia; cbn in E1, E2.
        specialize (H2 i E1 E2). lia.
      * intros E [|i] Hi; cbn; [auto|]. apply H3; lia.
      * intros _. destruct (Nat.eq_dec c 0) as [Hc|Hc]; [rewrite H0; lia|]. specialize (H4 ltac:(lia)). lia.
      * intros F _. destruct (Nat.eq_dec c 0) as [Hc|Hc]; [rewrite H0; lia|].
        rewrite H5; [lia| |lia]. intros i Hi. apply (F (S i)). lia.
    + specialize (IH st (el + 1) n last ltac:(lia)). destruct (count_interior rank (el + 1) ot st n last) as [n' last'].
      destruct IH as (c & En & Lc & H0 & H1 & H2 & H3 & H4 & H5). exists c. split; auto. split; [cbn; lia|].
      split; auto.
      assert (NotI : ~ (Some o = Some rank /\ Some s = Some [])).
      { intros [A B]. injection A as ->. injection B as ->. rewrite Nat.eqb_refl in Q. discriminate. }
      split; [|split; [|split; [|split]]].
      * intro Hc. destruct (H1 Hc) as (A & B & C & D). replace (last' - el) with (S (last' - (el + 1))) by lia.
        cbn. repeat split; auto; lia.
      * intros [|i] E1 E2; cbn in E1, E2; [tauto|]. specialize (H2 i E1 E2). split; lia.
      * intros E i Hi. specialize (H4 ltac:(lia)). lia.
      * intro Hc. specialize (H4 Hc). lia.
      * intros F Hc. exfalso. apply NotI. apply (F 0 Hc).
Qed.

(** C23e: if the constructor accepts the mesh, the interior elements (own and unknown to every other
    rank) are exactly the first numInteriorElements ones; it accepts every mesh ordered that way. *)
Theorem interior_elements_first : forall k rank m, topo_ok k m ->
  (forall n, num_interior rank m = Some n -> forall e, e < n <-> interior rank m e) /\
  ((forall a b, a <= b -> interior rank m b -> interior rank m a) -> exists n, num_interior rank m = Some n).
Proof.
  intros k rank m O. unfold num_interior.
  pose proof (count_interior_spec rank (tm_owner m) (tm_shared m) 0 0 0) as S.
  rewrite (to_owner _ _ O), (to_shared _ _ O) in S. specialize (S eq_refl).
  destruct (count_interior rank 0 (tm_owner m) (tm_shared m) 0 0) as [n last].
  destruct S as (c & En & Lc & H0 & H1 & H2 & H3 & H4 & H5). cbn in En. subst c. split.
  - intros n'. destruct (Nat.ltb_spec 0 n) as [Hn|Hn]; cbn [andb].
    + destruct (Nat.eqb_spec (last + 1) n) as [E|]; cbn [negb]; [|discriminate].
      intros [= <-] e. split; [intro He; apply H3; auto|]. intros [A B]. specialize (H2 e A B). lia.
    + intros [= <-] e. split; [lia|]. intros [A B]. specialize (H2 e A B). lia.
  - intros F. destruct (Nat.ltb_spec 0 n) as [Hn|Hn]; cbn [andb]; [|eauto].
    destruct (Nat.eqb_spec (last + 1) n) as [E|Ne]; cbn [negb]; [eauto|]. exfalso. apply Ne. apply H5; auto.
    intros i Hi. destruct (H1 Hn) as (_ & _ & A & B). rewrite Nat.sub_0_r in A, B.
    apply (F i last); [specialize (H4 Hn); lia|split; auto].
Qed.
Print Assumptions interior_elements_first.

(** Two local triangles and a ghost, joined in a strip; rank 0 owns the first two. *)
Definition ex_mesh : topo_mesh :=
  {| tm_elems := [[0;1;2]; [1;2;3]; [2;3;4]]; tm_num_local := 2;
     tm_facets := [[0;1]; [0;2]; [1;2]; [1;3]; [2;3]; [2;4]; [3;4]]; tm_num_local_facets := 5;
     tm_owner := [0;0;1]; tm_l2cg := [10;11;12]; tm_shared := [[]; [1]; [0]];
     tm_bc := Some [1;5;0;5;0;5;5] |}.
Lemma ex_mesh_ok : topo_ok 2 ex_mesh.
Proof.
  constructor; cbn [ex_mesh tm_elems tm_num_local tm_facets tm_num_local_facets tm_owner tm_l2cg tm_shared tm_bc]; auto; try (cbn; lia).
  - split; [repeat constructor; cbn; intuition congruence|].
    intros s H. cbn in H. intuition; subst; auto; repeat constructor.
  - split; [repeat constructor; cbn; intuition congruence|].
    intros s H. cbn in H. intuition; subst; auto; repeat constructor.
  - intros e f He Lf Sf Inc.
    destruct f as [|a [|b [|]]]; cbn in Lf; try lia. inversion Sf as [|? ? _ F]; subst.
    inversion F as [|? ? Hab _]; subst.
    assert (Ia : In a e) by (apply Inc; left; auto). assert (Ib : In b e) by (apply Inc; right; left; auto).
    destruct He as [<-|[<-|[<-|[]]]]; cbn in Ia, Ib; destruct Ia as [<-|[<-|[<-|[]]]]; destruct Ib as [<-|[<-|[<-|[]]]]; try lia; cbn; auto 8.
  - intros i Hi. cbn in Hi. split.
    + intro H. assert (i <= 1 \/ i = 2 \/ i = 3 \/ i = 4) as [?|[?|[?|?]]] by lia.
      * exists 0. split; [lia|]. destruct i as [|[|i]]; [| |lia]; eexists; eexists; repeat split; try reflexivity; intros z; cbn; tauto.
      * subst. exists 0. split; [lia|]. eexists; eexists; repeat split; try reflexivity; intros z; cbn; tauto.
      * subst. exists 1. split; [lia|]. eexists; eexists; repeat split; try reflexivity; intros z; cbn; tauto.
      * subst. exists 1. split; [lia|]. eexists; eexists; repeat split; try reflexivity; intros z; cbn; tauto.
    + intros (e & He & p & f & Ep & Ef & I). destruct (Nat.lt_ge_cases i 5); auto. exfalso.
      assert (In 4 f) by (destruct i as [|[|[|[|[|[|[|i]]]]]]]; try lia; cbn in Ef; injection Ef as <-; cbn; auto).
      apply I in H0. destruct e as [|[|e]]; try lia; cbn in Ep; injection Ep as <-; cbn in H0; lia.
  - assert (G : forall i e, contains ex_mesh e i -> e < 3 /\ i < 7 /\ forall v, In v (nth i (tm_facets ex_mesh) []) -> In v (nth e (tm_elems ex_mesh) [])).
    { intros i e C. pose proof (contains_lt _ _ _ C) as [A B]. cbn in A, B. destruct C as (p & f & Ep & Ef & I).
      rewrite (nth_error_nth _ _ [] Ep), (nth_error_nth _ _ [] Ef). auto. }
    intros i a b c Ca Cb Cc. apply G in Ca, Cb, Cc.
    destruct Ca as (A1 & A2 & A3), Cb as (B1 & _ & B3), Cc as (C1 & _ & C3).
    destruct a as [|[|[|a]]], b as [|[|[|b]]], c as [|[|[|c]]]; try lia; exfalso.
    all: destruct i as [|[|[|[|[|[|[|i]]]]]]]; try lia; cbn in A3, B3, C3;
         (assert (X0 := A3 0); assert (X1 := A3 1); assert (X2 := A3 2); assert (X3 := A3 3); assert (X4 := A3 4);
          assert (Y0 := B3 0); assert (Y1 := B3 1); assert (Y2 := B3 2); assert (Y3 := B3 3); assert (Y4 := B3 4);
          assert (Z0 := C3 0); assert (Z1 := C3 1); assert (Z2 := C3 2); assert (Z3 := C3 3); assert (Z4 := C3 4); lia).
  - eexists; split; reflexivity.
Qed.
Example topo_ex : exists fi w t, facet_table 2 ex_mesh = Some fi /\ interleaving (all_side_writes 2 fi) w /\
  do_writes (fresh_sides 2 ex_mesh) w = Some t /\
  map (fun s => (si_lid s, si_local s, si_side s)) t =
    [(0,0,1); (0,1,1); (1,0,0);  (0,2,1); (1,1,1); (2,0,0)] /\
  neighbour_counts 2 0 ex_mesh 1 = Some (2, 1) /\ num_interior 0 ex_mesh = Some 1.
Proof.
  eexists. exists (concat (rev (all_side_writes 2 (match facet_table 2 ex_mesh with Some f => f | None => [] end)))).
  eexists. split; [vm_compute; reflexivity|]. split; [|split; [vm_compute; reflexivity|split; [reflexivity|split; reflexivity]]].
  cbn. repeat match goal with
  | |- interleaving ?ps (?x :: ?w) =>
      let rec find pre l := match l with
        | (x :: ?p) :: ?t => apply (il_step (rev pre) x p t)
        | ?a :: ?t => find (a :: pre) t end in find (@nil (list (nat * side_info))) ps; cbn
  end. apply il_nil. cbn. intuition.
Qed.
