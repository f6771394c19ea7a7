Require Import List Arith Lia Bool Sorted Permutation.
Require Import Verif.Base Verif.CombinatoricsModel Verif.CombinatoricsProofs Verif.SimplexModel
  Verif.SimplexProofs Verif.AlgorithmModel Verif.LocalMeshModel.
Import ListNotations.
Local Open Scope opt_scope.

Lemma simplex_eqb_spec a b : simplex_eqb a b = true <-> a = b.
Proof. unfold simplex_eqb. destruct (list_eq_dec _ a b); split; congruence. Qed.

Lemma g2l_loop_spec faces : forall n m f,
  map_at (g2l_loop n faces m) f =
    match find (fun i => simplex_eqb f (nth i faces [])) (rev (seq 0 (length faces))) with
    | Some i => Some (n + i)
    | None => map_at m f
    end.
Proof.
  induction faces as [|g t IH]; intros n m f; auto.
  cbn [g2l_loop length]. rewrite IH.
  replace (rev (seq 0 (S (length t)))) with (rev (map S (seq 0 (length t))) ++ [0])
    by (cbn; rewrite seq_shift; auto).
  rewrite <- map_rev.
  assert (F : forall l, find (fun i => simplex_eqb f (nth i (g :: t) [])) (map S l ++ [0]) =
    match find (fun i => simplex_eqb f (nth i t [])) l with
    | Some i => Some (S i)
    | None => if simplex_eqb f g then Some 0 else None
    end).
  { induction l as [|i l IHl]; cbn; [destruct (simplex_eqb f g); auto|].
    destruct (simplex_eqb f (nth i t [])); auto. }
  rewrite F. destruct (find _ (rev _)); [f_equal; lia|].
  cbn. destruct (simplex_eqb f g); auto; f_equal; lia.
Qed.

Lemma g2l_some faces f i : NoDup faces -> (map_at (makeG2LMap faces) f = Some i <-> nth_error faces i = Some f).
Proof.
  intro N. unfold makeG2LMap. rewrite g2l_loop_spec. cbn.
  assert (U : forall i j, nth_error faces i = Some f -> nth_error faces j = Some f -> i = j).
  { intros a b Ha Hb. apply (proj1 (NoDup_nth_error faces) N); [|congruence].
    apply nth_error_Some. congruence. }
  split.
  - destruct (find _ _) as [j|] eqn:E; [|discriminate]. intros [= <-].
    apply find_some in E. destruct E as [Hj E]. apply simplex_eqb_spec in E.
    apply in_rev, in_seq in Hj. rewrite E. apply nth_error_nth'. lia.
  - intro H. destruct (find _ _) as [j|] eqn:E.
    + apply find_some in E. destruct E as [Hj E]. apply simplex_eqb_spec in E.
      apply in_rev, in_seq in Hj. f_equal. apply U; auto. rewrite E. apply nth_error_nth'. lia.
    + assert (Hi : i < length faces) by (apply nth_error_Some; congruence).
      eapply find_none with (x := i) in E.
      * cbn in E. rewrite (nth_error_nth _ _ [] H) in E.
        assert (simplex_eqb f f = true) by (apply simplex_eqb_spec; auto). congruence.
      * apply -> in_rev. apply in_seq. lia.
Qed.
Lemma g2l_total faces f : NoDup faces -> In f faces -> exists i, map_at (makeG2LMap faces) f = Some i /\ nth_error faces i = Some f.
Proof.
  intros N H. apply In_nth_error in H. destruct H as [i H]. exists i. split; auto. apply g2l_some; auto.
Qed.

(** ** shared ranks *)
Lemma displacements_nth counts : forall acc i, i <= length counts ->
  nth i (displacements acc counts) 0 = acc + list_sum (firstn i counts).
Proof.
  induction counts as [|c t IH]; intros acc [|i] H; cbn in *; try lia.
  rewrite IH by lia. unfold list_sum. lia.
Qed.

Definition blocks_ok (bs : list (list nat)) (ranks displs : list nat) : Prop :=
  ranks = concat bs /\ displs = displacements 0 (map (@length nat) bs).

Lemma concat_firstn {A} (bs : list (list A)) i :
  length (concat (firstn i bs)) = list_sum (firstn i (map (@length A) bs)).
Proof.
  revert i; induction bs as [|b t IH]; intros [|i]; cbn; auto. rewrite app_length, IH. auto.
Qed.

Lemma list_sum_firstn_S l i : i < length l -> list_sum (firstn (S i) l) = list_sum (firstn i l) + nth i l 0.
Proof.
  revert i; induction l as [|a t IH]; intros [|i] H; cbn [length] in H; try lia.
  - cbn. lia.
  - specialize (IH i ltac:(lia)).
    change (a + list_sum (firstn (S i) t) = a + list_sum (firstn i t) + nth i t 0). lia.
Qed.

Lemma blocks_count bs ranks displs i : blocks_ok bs ranks displs -> i < length bs ->
  nth i displs 0 = length (concat (firstn i bs)) /\ displ_count displs i = length (nth i bs []).
Proof.
  intros [_ ->] H. unfold displ_count.
  rewrite !displacements_nth by (rewrite map_length; lia). cbn.
  replace (i + 1) with (S i) by lia. rewrite list_sum_firstn_S by (rewrite map_length; auto).
  rewrite concat_firstn. split; auto.
  replace 0 with (length (@nil nat)) at 1 by auto. rewrite map_nth. lia.
Qed.

Lemma blocks_shared bs ranks displs i : blocks_ok bs ranks displs -> i < length bs ->
  shared_ranks ranks displs i = nth i bs [].
Proof.
  intros B H. destruct (blocks_count _ _ _ _ B H) as [E1 E2]. destruct B as [-> _].
  unfold shared_ranks. rewrite E1, E2.
  assert (E : concat bs = concat (firstn i bs) ++ nth i bs [] ++ concat (skipn (S i) bs)).
  { rewrite <- (firstn_skipn i bs) at 1. rewrite concat_app. f_equal.
    clear - H. revert i H. induction bs as [|b t IH]; intros [|i] H; cbn in *; try lia; auto. apply IH. lia. }
  rewrite E. rewrite skipn_app, skipn_all, Nat.sub_diag. cbn.
  rewrite firstn_app, firstn_all, Nat.sub_diag. cbn. apply app_nil_r.
Qed.

Lemma permute_shared_spec bs ranks displs perm : blocks_ok bs ranks displs ->
  (forall p, In p perm -> p < length bs) ->
  blocks_ok (map (fun p => nth p bs []) perm) (fst (permute_shared perm ranks displs)) (snd (permute_shared perm ranks displs)).
Proof.
  intros B H. unfold permute_shared.
  assert (G : forall perm out counts, (forall p, In p perm -> p < length bs) ->
    permute_shared_loop perm ranks displs out counts =
      (out ++ concat (map (fun p => nth p bs []) perm), counts ++ map (fun p => length (nth p bs [])) perm)).
  { clear perm H. induction perm as [|p t IH]; intros out counts H; cbn.
    - rewrite !app_nil_r. auto.
    - assert (Hp : p < length bs) by (apply H; left; auto).
      rewrite IH by (intros; apply H; right; auto).
      rewrite (blocks_shared bs) by auto. destruct (blocks_count _ _ _ _ B Hp) as [_ ->].
      rewrite <- !app_assoc. auto. }
  rewrite G by auto. cbn. split; auto. rewrite map_map. auto.
Qed.

(** ** upward *)
Lemma lids_of_spec faces ds : NoDup faces -> incl ds faces ->
  exists l, lids_of (makeG2LMap faces) ds = Some l /\ length l = length ds /\
    forall i d, nth_error ds i = Some d -> exists j, nth_error l i = Some j /\ nth_error faces j = Some d.
Proof.
  intros N. induction ds as [|d t IH]; intro H.
  - exists []. cbn. repeat split; auto. intros [|i] d E; discriminate.
  - destruct (g2l_total faces d N) as (j & Ej & Nj); [apply H; left; auto|].
    destruct IH as (l & El & Ll & Hl); [intros x Hx; apply H; right; auto|].
    exists (j :: l). cbn. rewrite Ej. cbn. rewrite El. cbn. repeat split; auto.
    intros [|i] x E; cbn in *; [exists j; split; congruence|apply Hl; auto].
Qed.

Definition subsetb (f e : simplex) : bool := forallb (fun v => existsb (Nat.eqb v) e) f.
Lemma subsetb_spec f e : subsetb f e = true <-> incl f e.
Proof.
  unfold subsetb. rewrite forallb_forall. unfold incl. split; intros H x Hx; specialize (H x Hx).
  - apply existsb_exists in H. destruct H as (y & Hy & E). apply Nat.eqb_eq in E. congruence.
  - apply existsb_exists. exists x. split; auto. apply Nat.eqb_refl.
Qed.

Lemma push_faces_spec fs ds u : NoDup fs -> NoDup ds -> incl ds fs -> forall um, length um = length fs ->
  exists um', push_faces (makeG2LMap fs) ds u um = Some um' /\ length um' = length fs /\
    forall i f l, nth_error fs i = Some f -> nth_error um i = Some l ->
      nth_error um' i = Some (if existsb (simplex_eqb f) ds then l ++ [u] else l).
Proof.
  intros Nf. induction ds as [|d t IH]; intros Nd H um L.
  - exists um. cbn. auto.
  - inversion Nd; subst.
    destruct (g2l_total fs d Nf) as (j & Ej & Nj); [apply H; left; auto|].
    cbn [push_faces]. rewrite Ej. cbn [bind]. unfold push_at.
    assert (Hj : j < length um) by (rewrite L; apply nth_error_Some; congruence).
    destruct (nth_error_lt um j Hj) as [l0 El0]. rewrite El0. cbn [bind].
    destruct (upd_ok um j (l0 ++ [u]) Hj) as [um1 E1]. rewrite E1. cbn [bind].
    destruct (upd_spec _ _ _ _ E1) as (L1 & _ & N1).
    destruct (IH H3 (fun x Hx => H x (or_intror Hx)) um1 ltac:(lia)) as (um2 & E2 & L2 & P2).
    exists um2. split; auto. split; auto. intros i f l Ef El. cbn [existsb].
    destruct (Nat.eq_dec i j) as [->|Hij].
    + assert (f = d) by congruence. subst d.
      replace (simplex_eqb f f) with true by (symmetry; apply simplex_eqb_spec; auto). cbn [orb].
      rewrite (P2 j f (l0 ++ [u])); auto.
      * replace (existsb (simplex_eqb f) t) with false; [congruence|].
        symmetry. apply not_true_iff_false. intro Q. apply existsb_exists in Q.
        destruct Q as (y & Hy & Ey). apply simplex_eqb_spec in Ey. congruence.
      * rewrite N1, Nat.eqb_refl. auto.
    + replace (simplex_eqb f d) with false.
      * cbn [orb]. apply P2; auto. rewrite N1. rewrite (proj2 (Nat.eqb_neq i j)); auto.
      * symmetry. apply not_true_iff_false. rewrite simplex_eqb_spec. intros ->.
        apply Hij. apply (proj1 (NoDup_nth_error fs) Nf); [|congruence].
        apply nth_error_Some. congruence.
Qed.

Section Upward.
  Variable k : nat.
  Variable es fs : list simplex.
  Hypothesis Hes : NoDup es.
  Hypothesis Hfs : NoDup fs.
  Hypothesis Esort : forall e, In e es -> k <= length e /\ StronglySorted lt e.
  Hypothesis Fsort : forall f, In f fs -> length f = k /\ StronglySorted lt f.
  Hypothesis Closed : forall e f, In e es -> length f = k -> StronglySorted lt f -> incl f e -> In f fs.

  Definition up_of (f : simplex) (n : nat) : list nat := filter (fun i => subsetb f (nth i es [])) (seq 0 n).

  Lemma upward_loop_spec : forall post pre um, es = pre ++ post -> length um = length fs ->
    (forall i f, nth_error fs i = Some f -> nth_error um i = Some (up_of f (length pre))) ->
    exists um', upward_loop k (makeG2LMap es) (makeG2LMap fs) post um = Some um' /\ length um' = length fs /\
      forall i f, nth_error fs i = Some f -> nth_error um' i = Some (up_of f (length es)).
  Proof.
    induction post as [|e post IH]; intros pre um E L H.
    - exists um. rewrite app_nil_r in E. subst. auto.
    - assert (Ie : In e es) by (rewrite E; apply in_app_iff; right; left; auto).
      assert (Ne : nth_error es (length pre) = Some e) by (rewrite E, nth_error_app2, Nat.sub_diag; auto).
      cbn [upward_loop]. rewrite (proj2 (g2l_some es e (length pre) Hes) Ne). cbn [bind].
      destruct (Esort e Ie) as [Ek Es].
      destruct (downward_spec k e Ek Es) as (ds & Eds & Ids & Nds & _). rewrite Eds. cbn [bind].
      assert (Inc : incl ds fs).
      { intros f Hf. apply Ids in Hf. destruct Hf as (A & B & C). eapply Closed; eauto. }
      destruct (push_faces_spec fs ds (length pre) Hfs Nds Inc um L) as (um1 & E1 & L1 & P1).
      rewrite E1. cbn [bind]. apply (IH (pre ++ [e])); auto.
      + rewrite <- app_assoc. auto.
      + intros i f Ef. rewrite (P1 i f _ Ef (H i f Ef)). rewrite app_length. cbn [length].
        replace (length pre + 1) with (S (length pre)) by lia.
        unfold up_of. rewrite seq_S, filter_app. cbn [filter plus].
        rewrite (nth_error_nth _ _ [] Ne).
        replace (existsb (simplex_eqb f) ds) with (subsetb f e); [destruct (subsetb f e); rewrite ?app_nil_r; auto|].
        destruct (Fsort f ltac:(eapply nth_error_In; eauto)) as [F1 F2].
        apply eq_true_iff_eq. rewrite subsetb_spec, existsb_exists. split.
        * intro Q. exists f. split; [apply Ids; auto|apply simplex_eqb_spec; auto].
        * intros (y & Hy & Ey). apply simplex_eqb_spec in Ey. subst y. apply Ids in Hy. tauto.
  Qed.

  Lemma upward_spec : exists um, makeUpwardMap k es fs = Some um /\ length um = length fs /\
    forall i f, nth_error fs i = Some f -> nth_error um i = Some (up_of f (length es)).
  Proof.
    apply (upward_loop_spec es []); auto.
    - apply repeat_length.
    - intros i f Ef. cbn. assert (i < length fs) by (apply nth_error_Some; congruence).
      rewrite nth_error_repeat; auto.
  Qed.
End Upward.
