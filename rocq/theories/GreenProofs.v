(** Proofs about the discrete Green's function: layout, assembly, checkpoints. *)
Require Import List Arith Bool Reals Lia Lra.
Require Import Verif.Base Verif.VecModel Verif.GreenModel.
Import ListNotations.

Lemma nth_map_seq0 : forall A (d : A) f n i, i < n -> nth i (map f (seq 0 n)) d = f i.
Proof.
  intros A d f n i Hi. rewrite (nth_indep _ d (f 0)) by (rewrite map_length, seq_length; auto).
  rewrite map_nth with (d := 0). rewrite seq_nth; auto.
Qed.
Lemma map_seq_nth : forall A (d : A) l, map (fun i => nth i l d) (seq 0 (length l)) = l.
Proof. intros. apply nth_ext with (d := d) (d' := d); rewrite map_length, seq_length; auto. intros i Hi. apply nth_map_seq0; auto. Qed.
Lemma list_sum_firstn_S : forall l r, list_sum (firstn (S r) l) = list_sum (firstn r l) + nth r l 0.
Proof.
  induction l as [|x l IH]; intros [|r]; [reflexivity|reflexivity|cbn; lia|].
  specialize (IH r). change (x + list_sum (firstn (S r) l) = x + list_sum (firstn r l) + nth r l 0). lia.
Qed.

Section Layout.
  Variable l : list nat.
  Notation off r := (list_sum (firstn (r + 1) l) - nth r l 0).
  Lemma offset_eq : forall r, off r = list_sum (firstn r l).
  Proof. intros r. rewrite Nat.add_1_r, list_sum_firstn_S. lia. Qed.
  Lemma seq_glue : forall a b, seq 0 a ++ map (fun f => a + f) (seq 0 b) = seq 0 (a + b).
  Proof.
    intros a b. rewrite seq_app. f_equal. cbn. clear. revert a. induction b as [|b IH]; intros a; auto.
    rewrite !seq_S, map_app, IH. reflexivity.
  Qed.
  Lemma global_numbers_prefix : forall k, k <= length l ->
    flat_map (fun r => map (fun f => off r + f) (seq 0 (nth r l 0))) (seq 0 k) = seq 0 (list_sum (firstn k l)).
  Proof.
    induction k as [|k IH]; intros Hk; [reflexivity|]. rewrite seq_S, flat_map_app, IH by lia. cbn [Nat.add flat_map]. rewrite app_nil_r.
    rewrite list_sum_firstn_S, <- seq_glue. rewrite offset_eq. reflexivity.
  Qed.
  Lemma global_numbers : flat_map (fun r => map (fun f => off r + f) (seq 0 (nth r l 0))) (seq 0 (length l)) = seq 0 (list_sum l).
  Proof. rewrite global_numbers_prefix by auto. rewrite firstn_all. reflexivity. Qed.
  Lemma scaled_prefix : forall k r, list_sum (map (fun r => nth r l 0 * k) (seq 0 r)) = list_sum (firstn r l) * k.
  Proof.
    intros k. induction r as [|r IH]; auto. rewrite seq_S, map_app. unfold list_sum at 1. rewrite fold_right_app. cbn [map fold_right Nat.add].
    rewrite list_sum_firstn_S, Nat.mul_add_distr_r, <- IH. clear. induction (map _ (seq 0 r)); cbn [fold_right list_sum] in *; [lia|]. unfold list_sum in *. lia.
  Qed.
  (** Every number below the sum belongs to a position. *)
  Lemma owner : forall g, g < list_sum l -> exists r, r < length l /\ off r <= g < off r + nth r l 0.
  Proof.
    intros g Hg. assert (Hi : In g (seq 0 (list_sum l))) by (apply in_seq; lia). rewrite <- global_numbers in Hi.
    apply in_flat_map in Hi as (r & Hr & Hf). apply in_seq in Hr. apply in_map_iff in Hf as (f & <- & Hf). apply in_seq in Hf. exists r. split; lia.
  Qed.
End Layout.

Lemma fold_nested : forall A B C S (g : A -> list B) (h : A -> B -> C) (f : S -> C -> S) l s,
  fold_left (fun s a => fold_left (fun s b => f s (h a b)) (g a) s) l s = fold_left f (flat_map (fun a => map (h a) (g a)) l) s.
Proof.
  intros A B C S g h f. induction l as [|a l IH]; intros s; cbn [fold_left flat_map]; auto. rewrite fold_left_app, IH. f_equal.
  revert s. induction (g a) as [|b t IHt]; intros s; cbn; auto.
Qed.

Definition unit_vec (n i : nat) : list R := map (fun j => if j =? i then 1%R else 0%R) (seq 0 n).

Section Green.
  Variables sbs mbs : nat.
  Variable numel : nat -> list nat.
  Variable facets : nat -> list label.
  Variable traction : nat -> option R -> list R -> list R.
  Variable p : nat.
  Hypothesis Hbs : sbs <= mbs.
  Notation N := (N sbs numel p).
  Notation M := (M mbs numel p).
  Notation E := (num_elements numel p).

  Lemma N_eq : N = E * sbs.
  Proof. unfold GreenModel.N, n_local, num_elements. rewrite scaled_prefix, firstn_all. reflexivity. Qed.
  Lemma M_eq : M = E * mbs.
  Proof. unfold GreenModel.M, m_local, num_elements. rewrite scaled_prefix, firstn_all. reflexivity. Qed.
  Lemma nb_eq : forall r, nb_offset sbs numel p r = list_sum (firstn r (numel p)) * sbs.
  Proof.
    intros r. unfold nb_offset, n_local. rewrite scaled_prefix, Nat.add_1_r, list_sum_firstn_S. lia.
  Qed.

  Lemma set_nth_length : forall i x l, i < length l -> length (set_nth i x l) = length l.
  Proof. intros. unfold set_nth. rewrite app_length. cbn [length]. rewrite firstn_length, skipn_length. lia. Qed.
  Lemma set_nth_spec : forall i x l j d, i < length l -> nth j (set_nth i x l) d = if j =? i then x else nth j l d.
  Proof.
    intros i x l j d Hi. unfold set_nth. destruct (Nat.eqb_spec j i) as [-> |Hj].
    - rewrite app_nth2; rewrite firstn_length, Nat.min_l by lia; auto. rewrite Nat.sub_diag. reflexivity.
    - destruct (Nat.lt_ge_cases j i).
      + rewrite app_nth1 by (rewrite firstn_length; lia). rewrite <- (firstn_skipn i l) at 2. rewrite app_nth1; auto. rewrite firstn_length. lia.
      + rewrite app_nth2; rewrite firstn_length, Nat.min_l by lia; auto. destruct (j - i) as [|k] eqn:Ek; [lia|]. cbn [nth].
        rewrite <- (firstn_skipn (i + 1) l) at 2. rewrite app_nth2; rewrite firstn_length, Nat.min_l by lia; [|lia]. f_equal. lia.
  Qed.

  Lemma unit_slip_spec : forall i, i < N -> unit_slip sbs mbs numel p i = unit_vec N i.
  Proof.
    intros i Hi. unfold unit_slip.
    set (test := fun r => (nb_offset sbs numel p r <=? i) && (i <? nb_offset sbs numel p r + m_local mbs numel p r)).
    assert (Hf : forall rs, length (fold_left (fun S r => if test r then set_nth i 1%R S else S) rs (repeat 0%R N)) = N /\
      forall j, nth j (fold_left (fun S r => if test r then set_nth i 1%R S else S) rs (repeat 0%R N)) 0%R =
        if existsb test rs then (if j =? i then 1%R else 0%R) else 0%R).
    { induction rs as [|r rs [L IH]] using rev_ind.
      - cbn [fold_left existsb]. rewrite repeat_length. split; auto. intros j. apply nth_repeat.
      - rewrite fold_left_app. cbn [fold_left]. rewrite existsb_app. cbn [existsb]. rewrite orb_false_r.
        destruct (test r) eqn:Er.
        + rewrite set_nth_length by (rewrite L; auto). split; auto. intros j. rewrite set_nth_spec by (rewrite L; auto). rewrite IH.
          rewrite orb_true_r. destruct (j =? i); auto. destruct (existsb test rs); auto.
        + rewrite orb_false_r. auto. }
    change (fun (S : list R) (r : nat) => if (nb_offset sbs numel p r <=? i) && (i <? nb_offset sbs numel p r + m_local mbs numel p r) then set_nth i 1%R S else S)
      with (fun (S : list R) r => if test r then set_nth i 1%R S else S).
    destruct (Hf (seq 0 (length (numel p)))) as [L H].
    assert (Ht : existsb test (seq 0 (length (numel p))) = true).
    { rewrite N_eq in Hi. apply existsb_exists.
      assert (Hs : 0 < sbs) by (destruct sbs; lia).
      destruct (owner (numel p) (i / sbs)) as (r & Hr & Ho).
      { apply Nat.div_lt_upper_bound; [lia|]. unfold num_elements in Hi. lia. }
      exists r. split; [apply in_seq; lia|]. unfold test. rewrite nb_eq. unfold m_local.
      rewrite offset_eq in Ho. pose proof (Nat.div_mod i sbs ltac:(lia)) as Hd. pose proof (Nat.mod_upper_bound i sbs ltac:(lia)).
      apply andb_true_iff. rewrite Nat.leb_le, Nat.ltb_lt.
      set (o := list_sum (firstn r (numel p))) in *. set (q := i / sbs) in *. set (m := nth r (numel p) 0) in *.
      split; nia. }
    rewrite Ht in H. apply nth_ext with (d := 0%R) (d' := 0%R).
    - rewrite L. unfold unit_vec. rewrite map_length, seq_length. reflexivity.
    - rewrite L. intros j Hj. rewrite H. unfold unit_vec. rewrite nth_map_seq0; auto.
  Qed.

  (** One pass of the loop replaces a column. *)
  Definition set_col (i : nat) (c : list R) (G : matrix) : matrix := map (fun j => if j =? i then c else nth j G []) (seq 0 (length G)).

  Lemma add_column_spec : forall G i, length (nth i G []) = M -> length (traction p None (unit_slip sbs mbs numel p i)) = M ->
    add_column sbs mbs numel traction p G i = set_col i (traction p None (unit_slip sbs mbs numel p i)) G.
  Proof.
    intros G i Lc Lt. unfold add_column. set (t := traction p None (unit_slip sbs mbs numel p i)) in *. clearbody t.
    unfold traction_block.
    rewrite (fold_nested nat nat nat matrix (fun r => seq 0 (nth r (numel p) 0)) (fun r f => mb_offset numel p r + f)
      (fun G g => set_block mbs g i (firstn mbs (skipn (g * mbs) t)) G)).
    unfold mb_offset. rewrite global_numbers. fold E.
    assert (Hk : forall k, k <= E -> fold_left (fun G g => set_block mbs g i (firstn mbs (skipn (g * mbs) t)) G) (seq 0 k) G =
      set_col i (firstn (k * mbs) t ++ skipn (k * mbs) (nth i G [])) G).
    { induction k as [|k IH]; intros Hk.
      - cbn [seq fold_left Nat.mul firstn app skipn]. unfold set_col. rewrite <- (map_seq_nth _ [] G) at 1. apply map_ext_in. intros j _.
        destruct (Nat.eqb_spec j i) as [-> |]; auto.
      - rewrite seq_S, fold_left_app, IH by lia. cbn [fold_left Nat.add]. unfold set_block, set_col. rewrite map_length, seq_length.
        apply map_ext_in. intros j Hj. apply in_seq in Hj. rewrite nth_map_seq0 by lia. destruct (Nat.eqb_spec j i) as [-> |]; auto.
        assert (Hb : k * mbs + mbs <= M) by (rewrite M_eq; nia).
        set (c := nth i G []) in *. rewrite firstn_app. rewrite firstn_length, Nat.min_l by lia. rewrite Nat.sub_diag. cbn [firstn]. rewrite app_nil_r.
        rewrite firstn_firstn, Nat.min_id. rewrite skipn_app. rewrite firstn_length, Nat.min_l by lia.
        rewrite (skipn_all2 (firstn (k * mbs) t)) by (rewrite firstn_length; lia). cbn [app].
        replace (k * mbs + mbs - k * mbs) with mbs by lia.
        replace (S k * mbs) with (k * mbs + mbs) by lia.
        assert (Hs : forall a b (x : list R), skipn a (skipn b x) = skipn (b + a) x).
        { clear. intros a b. induction b as [|b IHb]; intros x; auto. destruct x; cbn; [apply skipn_nil|]. apply IHb. }
        rewrite Hs. rewrite app_assoc. f_equal.
        rewrite <- (firstn_skipn (k * mbs) t) at 3. rewrite firstn_app. rewrite firstn_firstn, firstn_length, !Nat.min_r, Nat.min_l by lia.
        f_equal. f_equal. lia. }
    rewrite Hk by auto. f_equal. rewrite <- M_eq. rewrite firstn_all2, skipn_all2 by lia. apply app_nil_r.
  Qed.

  Hypothesis Hlen : forall o S, length S = N -> length (traction p o S) = M.

  (** The first k columns. *)
  Definition green_column (i : nat) : list R := traction p None (unit_vec N i).
  Definition partial (k : nat) : matrix := map (fun i => if i <? k then green_column i else repeat 0%R M) (seq 0 N).
  Definition exact : matrix := map green_column (seq 0 N).

  Lemma unit_vec_length : forall n i, length (unit_vec n i) = n.
  Proof. intros. unfold unit_vec. rewrite map_length, seq_length. auto. Qed.
  Lemma partial_length : forall k, length (partial k) = N.
  Proof. intros. unfold partial. rewrite map_length, seq_length. auto. Qed.
  Lemma partial_col : forall k i, i < N -> length (nth i (partial k) []) = M.
  Proof.
    intros k i Hi. unfold partial. rewrite nth_map_seq0 by auto. destruct (i <? k); [|apply repeat_length].
    apply Hlen. apply unit_vec_length.
  Qed.
  Lemma partial_0 : partial 0 = create_matrix sbs mbs numel p.
  Proof.
    unfold partial, create_matrix. apply nth_ext with (d := []) (d' := []).
    - rewrite map_length, seq_length, repeat_length. auto.
    - rewrite map_length, seq_length. intros i Hi. rewrite nth_map_seq0 by auto. cbn.
      rewrite (nth_indep (repeat (repeat 0%R M) N) [] (repeat 0%R M)) by (rewrite repeat_length; auto). rewrite nth_repeat. reflexivity.
  Qed.
  Lemma partial_full : partial N = exact.
  Proof. unfold partial, exact. apply map_ext_in. intros i Hi. apply in_seq in Hi. destruct (Nat.ltb_spec i N); auto. lia. Qed.
  Lemma add_column_partial : forall k, k < N -> add_column sbs mbs numel traction p (partial k) k = partial (k + 1).
  Proof.
    intros k Hk. rewrite add_column_spec.
    - unfold set_col. rewrite partial_length. rewrite unit_slip_spec by auto. unfold partial at 2. apply map_ext_in. intros j Hj. apply in_seq in Hj.
      unfold partial. rewrite nth_map_seq0 by lia. unfold green_column.
      destruct (Nat.eqb_spec j k), (Nat.ltb_spec j k), (Nat.ltb_spec j (k + 1)); subst; auto; lia.
    - apply partial_col; auto.
    - apply Hlen. rewrite unit_slip_spec by auto. apply unit_vec_length.
  Qed.
  Lemma columns_done : forall j k, k + j <= N -> fold_left (add_column sbs mbs numel traction p) (seq k j) (partial k) = partial (k + j).
  Proof.
    induction j as [|j IH]; intros k H; cbn [seq fold_left]; [rewrite Nat.add_0_r; auto|].
    rewrite add_column_partial by lia. rewrite Nat.add_1_r, IH by lia. f_equal. lia.
  Qed.

  (** ** Checkpoints *)
  Definition file_ok {A} (P : A -> Prop) (f : option (file A)) : Prop :=
    match f with None => True | Some Torn => False | Some (Whole x) => P x end.
  Definition op_ok (x : nat * nat * matrix) : Prop := exists k, k <= N /\ x = (p, k, partial k).
  Definition ok (d : disk) : Prop :=
    file_ok op_ok (main (op_file d)) /\ file_ok (fun fs => fs = facets p) (main (facet_file d)) /\
    (vec_file d <> None -> vec_file d = Some Torn \/ vec_file d = Some (Whole (boundary_traction sbs numel traction p))).

  Lemma write_file_states : forall A (x : A) s s', In s' (write_file x s) ->
    main s' = main s \/ main s' = None \/ main s' = Some (Whole x).
  Proof.
    intros A x [m t b] s' H. unfold write_file in H. cbn [main tmp bu] in *.
    destruct m as [f|]; [destruct b|]; cbn in H; repeat destruct H as [<- |H]; cbn; auto; contradiction.
  Qed.
  Lemma write_file_last : forall A (x : A) s d, main (last (write_file x s) d) = Some (Whole x) /\ write_file x s <> [].
  Proof.
    intros A x [m t b] d. unfold write_file. cbn [main tmp bu]. destruct m as [f|]; [destruct b|]; cbn; split; auto; discriminate.
  Qed.

  Lemma last_map : forall A B (f : A -> B) l d d', l <> [] -> last (map f l) d' = f (last l d).
  Proof.
    intros A B f. induction l as [|x l IH]; intros d d' H; [congruence|]. destruct l as [|y l]; [reflexivity|].
    cbn [map last] in *. apply (IH d d'). discriminate.
  Qed.
  Lemma last_app2 : forall A (l l' : list A) d, l' <> [] -> last (l ++ l') d = last l' d.
  Proof.
    intros A l l' d H. induction l as [|x l IH]; auto. cbn [app last]. destruct (l ++ l') eqn:El; auto.
    apply app_eq_nil in El as [_ ->]. congruence.
  Qed.

  Lemma write_operator_states : forall k G d d', In d' (write_operator facets p k G d) ->
    (main (op_file d') = main (op_file d) \/ main (op_file d') = None \/ main (op_file d') = Some (Whole (p, k, G))) /\
    (main (facet_file d') = main (facet_file d) \/ main (facet_file d') = None \/ main (facet_file d') = Some (Whole (facets p))) /\
    vec_file d' = vec_file d.
  Proof.
    intros k G d d' H. unfold write_operator in H. apply in_app_iff in H as [H|H].
    - apply in_map_iff in H as (s & <- & H). cbn. split; [eapply write_file_states; eauto|auto].
    - apply in_map_iff in H as (s & <- & H). cbn. split; [|split; [eapply write_file_states; eauto|auto]].
      right. right. rewrite (last_map _ _ _ _ (op_file d)) by apply (write_file_last _ _ _ (op_file d)). cbn. apply write_file_last.
  Qed.
  Lemma write_operator_last : forall k G d d0, 
    let d' := last (write_operator facets p k G d) d0 in
    main (op_file d') = Some (Whole (p, k, G)) /\ main (facet_file d') = Some (Whole (facets p)) /\ vec_file d' = vec_file d /\
    write_operator facets p k G d <> [].
  Proof.
    intros k G d d0. cbn zeta. unfold write_operator.
    assert (Hn : forall A (x : A) s, write_file x s <> []) by (intros A x s; apply (write_file_last A x s s)).
    rewrite last_app2.
    - rewrite (last_map _ _ _ _ (facet_file d)) by apply Hn. cbn.
      rewrite (last_map _ _ _ _ (op_file d)) by apply Hn. cbn. split; [apply write_file_last|]. split; [apply write_file_last|]. split; auto.
      intros H. apply app_eq_nil in H as [H _]. apply map_eq_nil in H. eapply Hn; eauto.
    - intros H. apply map_eq_nil in H. eapply Hn; eauto.
  Qed.
  Lemma write_ok : forall k d, k <= N -> ok d -> forall d', In d' (write_operator facets p k (partial k) d) -> ok d'.
  Proof.
    intros k d Hk (O1 & O2 & O3) d' H. apply write_operator_states in H as (H1 & H2 & H3). split; [|split].
    - destruct H1 as [-> |[-> | ->]]; cbn; auto. exists k. auto.
    - destruct H2 as [-> |[-> | ->]]; cbn; auto.
    - rewrite H3. auto.
  Qed.

  Lemma loop_ok : forall sched j k d, k + j <= N -> ok d ->
    exists tr d', assemble_loop sbs mbs numel facets traction p sched (seq k j) (partial k) d = (tr, partial (k + j), d') /\
      (forall x, In x tr -> ok x) /\ ok d' /\ vec_file d' = vec_file d /\ (j = 0 -> tr = [] /\ d' = d) /\
      (forall x, In x tr -> vec_file x = vec_file d).
  Proof.
    intros sched. induction j as [|j IH]; intros k d Hk Hd; cbn [seq assemble_loop].
    - exists [], d. rewrite Nat.add_0_r. split; auto. split; [intros ? []|]. split; auto. split; auto. split; auto. intros ? [].
    - rewrite add_column_partial by lia. rewrite Nat.add_1_r.
      set (ds := if sched k then write_operator facets p (S k) (partial (S k)) d else []).
      assert (Hds : (forall x, In x ds -> ok x /\ vec_file x = vec_file d) /\ ok (last ds d) /\ vec_file (last ds d) = vec_file d).
      { unfold ds. destruct (sched k); [|split; [intros ? []|cbn; auto]].
        assert (Hin : forall x, In x (write_operator facets p (S k) (partial (S k)) d) -> ok x /\ vec_file x = vec_file d).
        { intros x Hx. split; [eapply write_ok; [| |exact Hx]; auto; lia|]. apply write_operator_states in Hx. tauto. }
        split; auto. destruct (write_operator_last (S k) (partial (S k)) d d) as (_ & _ & L3 & L4). split; auto.
        apply (write_ok (S k) d); auto; [lia|]. destruct (exists_last L4) as (l & x & El). rewrite El, last_last. apply in_app_iff. right. left. auto. }
      destruct Hds as (H1 & H2 & H3). destruct (IH (S k) (last ds d)) as (tr & d' & T1 & T2 & T3 & T4 & _ & T6); auto; [lia|].
      rewrite T1. exists (ds ++ tr), d'. replace (S k + j) with (k + S j) by lia. split; auto. split.
      { intros x Hx. apply in_app_iff in Hx as [Hx|Hx]; auto. apply H1; auto. }
      split; auto. split; [congruence|]. split; [lia|]. intros x Hx. apply in_app_iff in Hx as [Hx|Hx]; [apply H1; auto|]. rewrite T6 by auto. auto.
  Qed.

  Lemma get_operator_ok : forall sched d, 0 < N -> ok d ->
    exists tr d', get_operator sbs mbs numel facets traction p sched d = (tr, Some (exact, d', None)) /\
      (forall x, In x tr -> ok x) /\ ok d' /\ vec_file d' = vec_file d /\ main (op_file d') = Some (Whole (p, N, exact)) /\
      (forall x, In x tr -> vec_file x = vec_file d).
  Proof.
    intros sched d HN Hd. pose proof Hd as (O1 & _). unfold get_operator.
    assert (Hl : exists k, k <= N /\ (match main (op_file d) with None => Some (0, create_matrix sbs mbs numel p, None) | Some _ => load_operator sbs mbs numel facets p d end)
        = Some (k, partial k, None) /\ (k = N -> main (op_file d) = Some (Whole (p, N, exact)))).
    { unfold load_operator. destruct (main (op_file d)) as [[|[[c k] G]]|]; cbn in O1.
      - contradiction.
      - destruct O1 as (k' & Hk & [= -> -> ->]). rewrite Nat.eqb_refl. exists k'. split; auto. split; auto. intros ->. rewrite partial_full. auto.
      - exists 0. split; [lia|]. rewrite partial_0. split; auto. lia. }
    destruct Hl as (k & Hk & -> & Hfull).
    destruct (loop_ok sched (N - k) k d) as (tr & d1 & T1 & T2 & T3 & T4 & T5 & T6); auto; [lia|]. rewrite T1.
    replace (k + (N - k)) with N by lia. rewrite partial_full. destruct (Nat.eqb_spec k N) as [-> |Hne].
    - destruct (T5 ltac:(lia)) as [-> ->]. exists [], d. split; auto. split; [intros ? []|]. split; auto.
    - exists (tr ++ write_operator facets p N exact d1), (last (write_operator facets p N exact d1) d1).
      pose proof (write_operator_last N exact d1 d1) as (L1 & L2 & L3 & L4). split; auto.
      assert (Hw : forall x, In x (write_operator facets p N exact d1) -> ok x).
      { rewrite <- partial_full. apply (write_ok N d1); auto. }
      split; [intros x Hx; apply in_app_iff in Hx as [Hx|Hx]; auto|]. split.
      { apply Hw. destruct (exists_last L4) as (l & x & El). rewrite El, last_last. apply in_app_iff. right. left. auto. }
      split; [congruence|]. split; auto. intros x Hx. apply in_app_iff in Hx as [Hx|Hx]; auto. apply write_operator_states in Hx as (_ & _ & ->). auto.
  Qed.
End Green.
