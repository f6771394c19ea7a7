(** Faces of the tetrahedra of a PUMGen file, proofs. *)
Require Import List Arith ZArith Bool Lia Permutation Sorting.Sorted.
Require Import Verif.Base Verif.GmshModel Verif.BuilderModel Verif.H5MeshModel.
Import ListNotations.

Lemma insert_Z_perm : forall x l, Permutation (x :: l) (insert_Z x l).
Proof.
  intros x. induction l as [|y l IH]; cbn; auto. destruct (x <=? y)%Z; auto.
  eapply perm_trans; [apply perm_swap|]. auto.
Qed.
Lemma sort_Z_perm : forall l, Permutation l (sort_Z l).
Proof. induction l as [|x l IH]; cbn; auto. eapply perm_trans; [|apply insert_Z_perm]. auto. Qed.
Lemma insert_Z_sorted : forall x l, StronglySorted Z.le l -> StronglySorted Z.le (insert_Z x l).
Proof.
  intros x. induction l as [|y l IH]; intros H; cbn; [repeat constructor|].
  inversion H as [|y' l' Hl Hf]; subst. destruct (Z.leb_spec x y).
  - constructor; auto. constructor; auto. rewrite Forall_forall in *. intros z Hz. specialize (Hf z Hz). lia.
  - constructor; auto. rewrite Forall_forall in *. intros z Hz.
    apply (Permutation_in _ (Permutation_sym (insert_Z_perm x l))) in Hz as [<-|Hz]; [lia|]. auto.
Qed.
Lemma sort_Z_sorted : forall l, StronglySorted Z.le (sort_Z l).
Proof. induction l; cbn; [constructor|]. apply insert_Z_sorted; auto. Qed.
Lemma sorted_Z_unique : forall a b, StronglySorted Z.le a -> StronglySorted Z.le b -> Permutation a b -> a = b.
Proof.
  induction a as [|x a IH]; intros b Ha Hb P.
  - apply Permutation_nil in P. auto.
  - destruct b as [|y b]; [apply Permutation_sym, Permutation_nil in P; discriminate|].
    inversion Ha as [|? ? Ha1 Ha2]; inversion Hb as [|? ? Hb1 Hb2]; subst. rewrite Forall_forall in *.
    assert (x = y).
    { assert (H1 : In y (x :: a)) by (eapply Permutation_in; [apply Permutation_sym; eauto|left; auto]).
      assert (H2 : In x (y :: b)) by (eapply Permutation_in; [eauto|left; auto]).
      destruct H1 as [H1|H1]; auto. destruct H2 as [H2|H2]; auto. specialize (Ha2 _ H1). specialize (Hb2 _ H2). lia. }
    subst. f_equal. apply IH; auto. eapply Permutation_cons_inv; eauto.
Qed.
Lemma sort_Z_key : forall a b, sort_Z a = sort_Z b <-> Permutation a b.
Proof.
  intros a b. split.
  - intros E. eapply perm_trans; [apply sort_Z_perm|]. rewrite E. apply Permutation_sym, sort_Z_perm.
  - intros P. apply sorted_Z_unique; try apply sort_Z_sorted.
    eapply perm_trans; [apply Permutation_sym, sort_Z_perm|]. eapply perm_trans; [exact P|]. apply sort_Z_perm.
Qed.

(** The two nested loops are one loop over all faces with their tags. *)
Definition step (st : found) (x : list Z * Z) : found :=
  if in_dec (list_eq_dec Z.eq_dec) (sort_Z (fst x)) (seen st) then st
  else {| seen := sort_Z (fst x) :: seen st; lower := lower st ++ [fst x]; tags := tags st ++ [snd x] |}.
Definition tet_faces (tw : list Z * Z) : list (list Z * Z) :=
  map (fun face => (map (fun j => nth j (fst tw) 0%Z) (nth face SVERT_SEISSOL []), faceTag (snd tw) face)) (seq 0 4).
Definition all_faces (tets : list (list Z)) (words : list Z) : list (list Z * Z) := flat_map tet_faces (combine tets words).

Lemma fold_flat_map : forall A B S (g : A -> list B) (f : S -> B -> S) l s,
  fold_left f (flat_map g l) s = fold_left (fun s a => fold_left f (g a) s) l s.
Proof. intros A B S g f. induction l as [|x l IH]; intros s; cbn; auto. rewrite fold_left_app. auto. Qed.
Lemma retrieve_all : forall tets words,
  retrieve tets words = fold_left step (all_faces tets words) {| seen := []; lower := []; tags := [] |}.
Proof.
  intros. unfold retrieve, all_faces. rewrite fold_flat_map. generalize {| seen := []; lower := []; tags := [] |}.
  induction (combine tets words) as [|tw l IH]; intros s; cbn [fold_left]; auto.
Qed.

(** fs lists the first occurrence of every set of vertices in occs. *)
Definition first_occurrences (occs fs : list (list Z * Z)) : Prop :=
  (forall i f t, nth_error fs i = Some (f, t) -> exists k, nth_error occs k = Some (f, t) /\
     forall k' f' t', nth_error occs k' = Some (f', t') -> Permutation f' f -> k <= k') /\
  (forall f' t', In (f', t') occs -> exists f t, In (f, t) fs /\ Permutation f' f) /\
  (forall i j f t f' t', nth_error fs i = Some (f, t) -> nth_error fs j = Some (f', t') -> Permutation f f' -> i = j).

Lemma steps_first : forall occs st, st = fold_left step occs {| seen := []; lower := []; tags := [] |} ->
  length (lower st) = length (tags st) /\
  (forall key, In key (seen st) <-> exists f t, In (f, t) occs /\ key = sort_Z f) /\
  first_occurrences occs (combine (lower st) (tags st)).
Proof.
  induction occs as [|[f t] occs IH] using rev_ind; intros st E.
  - subst. cbn. split; auto. split.
    + intros key. split; [intros []|intros (? & ? & [] & _)].
    + split; [|split].
      * intros [|i] ? ?; discriminate.
      * intros ? ? [].
      * intros [|i]; discriminate.
  - rewrite fold_left_app in E. cbn [fold_left] in E.
    destruct (IH _ eq_refl) as (L & S & F1 & F2 & F3). clear IH.
    set (s0 := fold_left step occs {| seen := []; lower := []; tags := [] |}) in *. clearbody s0.
    unfold step in E. cbn [fst snd] in E. destruct (in_dec _ _ _) as [Hin|Hin]; subst st.
    + split; auto. split; [|split; [|split]].
      * intros key. rewrite S. split.
        -- intros (f' & t' & H & ->). exists f', t'. split; auto. apply in_app_iff. auto.
        -- intros (f' & t' & H & ->). apply in_app_iff in H as [H|[[= <- <-]|[]]]; [eauto|]. apply S. auto.
      * intros i g u Hi. destruct (F1 i g u Hi) as (k & K1 & K2). exists k.
        assert (Hk : k < length occs) by (apply nth_error_Some; congruence).
        split; [rewrite nth_error_app1; auto|]. intros k' f' t' Hk' P.
        destruct (Nat.lt_ge_cases k' (length occs)); [|lia]. rewrite nth_error_app1 in Hk' by auto. eauto.
      * intros f' t' H. apply in_app_iff in H as [H|[[= <- <-]|[]]]; [eauto|].
        apply S in Hin as (f2 & t2 & H2 & E2). destruct (F2 _ _ H2) as (g & u & Hg & P). exists g, u. split; auto.
        eapply perm_trans; [apply sort_Z_key; exact E2|auto].
      * exact F3.
    + cbn [lower tags seen]. rewrite !app_length. cbn [length]. split; [lia|].
      assert (Ec : combine (lower s0 ++ [f]) (tags s0 ++ [t]) = combine (lower s0) (tags s0) ++ [(f, t)]).
      { clear - L. revert L. generalize (lower s0) (tags s0). induction l as [|x l IH]; intros [|y l']; try discriminate; cbn; auto.
        intros [= H]. f_equal. auto. }
      rewrite Ec. set (fs := combine (lower s0) (tags s0)) in *.
      assert (Hnew : forall f' t', In (f', t') occs -> ~ Permutation f' f).
      { intros f' t' H P. apply Hin. apply S. exists f', t'. split; auto. apply sort_Z_key, Permutation_sym; auto. }
      assert (Hfs : forall f' t', In (f', t') fs -> In (f', t') occs).
      { intros f' t' H. apply In_nth_error in H as (i & Hi). destruct (F1 _ _ _ Hi) as (k & Hk & _). eapply nth_error_In; eauto. }
      clearbody fs. split; [|split; [|split]].
      * intros key. cbn [In]. rewrite S. split.
        -- intros [<- |(f' & t' & H & ->)]; [exists f, t|exists f', t']; (split; auto; apply in_app_iff; auto). right. left. auto.
        -- intros (f' & t' & H & ->). apply in_app_iff in H as [H|[[= <- <-]|[]]]; eauto.
      * intros i g u Hi. destruct (Nat.lt_ge_cases i (length fs)) as [Li|Li].
        -- rewrite nth_error_app1 in Hi by auto. destruct (F1 i g u Hi) as (k & K1 & K2). exists k.
           assert (Hk : k < length occs) by (apply nth_error_Some; congruence).
           split; [rewrite nth_error_app1; auto|]. intros k' f' t' Hk' P.
           destruct (Nat.lt_ge_cases k' (length occs)); [|lia]. rewrite nth_error_app1 in Hk' by auto. eauto.
        -- rewrite nth_error_app2 in Hi by auto. destruct (i - length fs) as [|d]; [|destruct d; discriminate]. injection Hi as <- <-.
           exists (length occs). split; [rewrite nth_error_app2, Nat.sub_diag; auto|].
           intros k' f' t' Hk' P. destruct (Nat.lt_ge_cases k' (length occs)); [|lia].
           rewrite nth_error_app1 in Hk' by auto. exfalso. apply nth_error_In in Hk'. eapply Hnew; eauto.
      * intros f' t' H. apply in_app_iff in H as [H|[[= <- <-]|[]]].
        -- destruct (F2 _ _ H) as (g & u & Hg & P). exists g, u. split; auto. apply in_app_iff; auto.
        -- exists f, t. split; auto. apply in_app_iff. right. left. auto.
      * intros i j g u g' u' Hi Hj P.
        assert (Hcase : forall i g u, nth_error (fs ++ [(f, t)]) i = Some (g, u) ->
          (i < length fs /\ nth_error fs i = Some (g, u)) \/ (i = length fs /\ g = f)).
        { clear. intros i g u Hi. destruct (Nat.lt_ge_cases i (length fs)) as [Li|Li].
          - rewrite nth_error_app1 in Hi by auto. auto.
          - rewrite nth_error_app2 in Hi by auto. destruct (i - length fs) as [|d] eqn:Ed; [|destruct d; discriminate]. injection Hi as <- <-.
            right. split; auto. lia. }
        apply Hcase in Hi as [[Li Hi]|[-> ->]]; apply Hcase in Hj as [[Lj Hj]|[-> ->]]; eauto.
        -- exfalso. apply nth_error_In in Hi. eapply Hnew; eauto.
        -- exfalso. apply nth_error_In in Hj. apply Permutation_sym in P. eapply Hnew; eauto.
Qed.

(** ** Chunks *)
Lemma chunk_concat : forall A (d : A) k ls, Forall (fun l => length l = k) ls ->
  forall i, i < length ls -> chunk d k (concat ls) i = nth i ls [].
Proof.
  intros A d k. induction ls as [|l ls IH]; intros F i Hi; cbn in Hi; [lia|].
  pose proof (Forall_inv F) as Hl. apply Forall_inv_tail in F. cbn beta in Hl. cbn [concat]. destruct i as [|i]; cbn [nth].
  - unfold chunk. apply nth_ext with (d := d) (d' := d); rewrite map_length, seq_length; auto.
    intros j Hj. rewrite (nth_indep _ d (nth (0 * k + 0) (l ++ concat ls) d)) by (rewrite map_length, seq_length; auto).
    rewrite map_nth with (d := 0). rewrite seq_nth by auto. cbn. apply app_nth1. lia.
  - rewrite <- (IH F i) by lia. unfold chunk. apply map_ext_in. intros j Hj. apply in_seq in Hj.
    rewrite app_nth2 by (cbn; lia). f_equal. cbn. lia.
Qed.
Lemma concat_length : forall A k (ls : list (list A)), Forall (fun l => length l = k) ls -> length (concat ls) = length ls * k.
Proof. intros A k. induction ls; intros F; cbn; auto. rewrite app_length, IHls by (apply Forall_inv_tail in F; auto). rewrite (Forall_inv F). lia. Qed.
Lemma chunks_concat : forall A (d : A) k ls, 0 < k -> Forall (fun l => length l = k) ls ->
  map (chunk d k (concat ls)) (seq 0 (length (concat ls) / k)) = ls.
Proof.
  intros A d k ls Hk F. rewrite (concat_length _ k), Nat.div_mul by (auto; lia).
  apply nth_ext with (d := []) (d' := []); rewrite map_length, seq_length; auto.
  intros i Hi. rewrite (nth_indep _ [] (chunk d k (concat ls) 0)) by (rewrite map_length, seq_length; auto).
  rewrite map_nth with (d := 0). rewrite seq_nth by auto. apply chunk_concat; auto.
Qed.

Lemma faceTag_byte : forall b0 b1 b2 b3, (0 <= b0 < 256 -> 0 <= b1 < 256 -> 0 <= b2 < 256 -> 0 <= b3 < 256 ->
  map (faceTag (b0 + 2 ^ 8 * b1 + 2 ^ 16 * b2 + 2 ^ 24 * b3)) (seq 0 4) = [b0; b1; b2; b3])%Z.
Proof.
  intros. unfold faceTag. cbn [seq map].
  change 255%Z with (Z.ones 8). rewrite !Z.land_ones by lia. rewrite !Z.shiftr_div_pow2 by lia.
  change (8 * Z.of_nat 0)%Z with 0%Z. change (8 * Z.of_nat 1)%Z with 8%Z. change (8 * Z.of_nat 2)%Z with 16%Z. change (8 * Z.of_nat 3)%Z with 24%Z.
  change (2 ^ 8)%Z with 256%Z. change (2 ^ 16)%Z with 65536%Z. change (2 ^ 24)%Z with 16777216%Z. change (2 ^ 0)%Z with 1%Z.
  repeat f_equal; Z.div_mod_to_equations; lia.
Qed.
