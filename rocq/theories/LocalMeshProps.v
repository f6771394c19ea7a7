(** Property theorems: adjacency in a local mesh (C21) and reordering of faces (C49). *)
Require Import List Arith Lia Bool Sorted Permutation.
Require Import Verif.Base Verif.CombinatoricsModel Verif.CombinatoricsProofs Verif.SimplexModel
  Verif.SimplexProofs Verif.AlgorithmModel Verif.AlgorithmProps Verif.LocalMeshModel Verif.LocalMeshProofs.
Import ListNotations.
Local Open Scope opt_scope.

(** A list of simplices as a local mesh stores them: no repetition, each with n distinct vertices
    in increasing order. *)
Definition plex_list (n : nat) (l : list simplex) : Prop :=
  NoDup l /\ forall s, In s l -> length s = n /\ StronglySorted lt s.
(** The faces with k vertices of all elements are present. *)
Definition has_all_faces (k : nat) (es fs : list simplex) : Prop :=
  forall e f, In e es -> length f = k -> StronglySorted lt f -> incl f e -> In f fs.

(** C21a: upward(f) lists exactly the elements that contain f, in increasing order. *)
Theorem upward_lists_elements : forall k es fs,
  plex_list (k + 1) es -> plex_list k fs -> has_all_faces k es fs ->
  exists um, makeUpwardMap k es fs = Some um /\ length um = length fs /\
    forall i f, nth_error fs i = Some f ->
      exists u, nth_error um i = Some u /\ StronglySorted lt u /\
        forall e, In e u <-> exists plex, nth_error es e = Some plex /\ incl f plex.
Proof.
  intros k es fs [Ne Se] [Nf Sf] Cl.
  destruct (upward_spec k es fs Ne Nf) as (um & E & L & H); auto.
  { intros e He. destruct (Se e He). split; auto. lia. }
  exists um. split; auto. split; auto. intros i f Ef. exists (up_of es f (length es)).
  split; [apply H; auto|]. unfold up_of. split.
  - assert (G : forall n a, StronglySorted lt (filter (fun i => subsetb f (nth i es [])) (seq a n))).
    { induction n as [|n IH]; intro a; cbn; [constructor|]. destruct (subsetb f (nth a es [])); auto.
      constructor; auto. apply Forall_forall. intros x Hx. apply filter_In in Hx. destruct Hx as [Hx _].
      apply in_seq in Hx. lia. }
    apply G.
  - intro e. rewrite filter_In, in_seq, subsetb_spec. split.
    + intros [He Hi]. exists (nth e es []). split; auto. apply nth_error_nth'. lia.
    + intros (p & Ep & Hi). rewrite (nth_error_nth _ _ [] Ep). split; auto.
      split; [lia|]. apply nth_error_Some. congruence.
Qed.
Print Assumptions upward_lists_elements.

(** C21b: upward and downward are dual. *)
Theorem upward_downward_dual : forall k es fs um,
  plex_list (k + 1) es -> plex_list k fs -> has_all_faces k es fs ->
  makeUpwardMap k es fs = Some um ->
  forall i e f plex, nth_error fs i = Some f -> nth_error es e = Some plex ->
    exists d u, mesh_downward k fs plex = Some d /\ nth_error um i = Some u /\ length d = k + 1 /\
      (In e u <-> In i d).
Proof.
  intros k es fs um Pe Pf Cl E i e f plex Ef Ep.
  destruct (upward_lists_elements k es fs Pe Pf Cl) as (um' & E' & L & H).
  assert (um' = um) by congruence. subst um'. destruct (H i f Ef) as (u & Eu & _ & Hu).
  destruct Pe as [Ne Se], Pf as [Nf Sf].
  assert (Ip : In plex es) by (eapply nth_error_In; eauto).
  destruct (Se plex Ip) as [Lp Sp].
  destruct (downward_spec k plex ltac:(lia) Sp) as (ds & Eds & Ids & Nds & B).
  assert (Inc : incl ds fs).
  { intros x Hx. apply Ids in Hx. destruct Hx as (A & C & D). eapply Cl; eauto. }
  destruct (lids_of_spec fs ds Nf Inc) as (d & Ed & Ld & Hd).
  exists d, u. unfold mesh_downward. rewrite Eds. cbn [bind]. split; auto. split; auto. split.
  - destruct (binom_spec (k + 1) k ltac:(lia)) as (b & Eb & Hb). rewrite Lp in B.
    rewrite Ld. assert (b = length ds) by congruence. subst b.
    replace (k + 1 - k) with 1 in Hb by lia. replace (k + 1) with (S k) in Hb by lia.
    cbn [Factorial.fact] in Hb. rewrite Nat.mul_1_r in Hb.
    apply (Nat.mul_cancel_r _ _ (Factorial.fact k)); [apply Factorial.fact_neq_0|]. cbn in Hb. lia.
  - assert (Key : In i d <-> In f ds).
    { split; intro Q; apply In_nth_error in Q; destruct Q as [m Q].
      - assert (m < length ds) by (rewrite <- Ld; apply nth_error_Some; congruence).
        destruct (nth_error_lt ds m H0) as [x Ex]. destruct (Hd m x Ex) as (j & Ej & Fj).
        assert (j = i) by congruence. subst. assert (x = f) by congruence. subst.
        eapply nth_error_In; eauto.
      - destruct (Hd m f Q) as (j & Ej & Fj). assert (j = i); [|subst; eapply nth_error_In; eauto].
        apply (proj1 (NoDup_nth_error fs) Nf); [|congruence]. apply nth_error_Some; congruence. }
    rewrite Key, Ids, Hu. destruct (Sf f ltac:(eapply nth_error_In; eauto)). split.
    + intros (p & Ep' & Hi). assert (p = plex) by congruence. subst. auto.
    + intros (_ & _ & Hi). eauto.
Qed.
Print Assumptions upward_downward_dual.

(** Two triangles sharing an edge. *)
Example upward_ex :
  let es := [[0;1;2]; [1;2;3]] in let fs := [[1;2]; [0;1]; [2;3]; [0;2]; [1;3]] in
  plex_list 3 es /\ plex_list 2 fs /\ has_all_faces 2 es fs /\
  makeUpwardMap 2 es fs = Some [[0;1]; [0]; [1]; [0]; [1]] /\ mesh_downward 2 fs [1;2;3] = Some [0; 4; 2].
Proof.
  cbv zeta. split; [|split; [|split; [|split; reflexivity]]].
  - split; [repeat constructor; cbn; intuition congruence|].
    intros s [<-|[<-|[]]]; split; auto; repeat constructor.
  - split; [repeat constructor; cbn; intuition congruence|].
    intros s H. cbn in H. intuition; subst; auto; repeat constructor.
  - intros e f He Lf Sf Inc.
    destruct f as [|a [|b [|]]]; cbn in Lf; try lia. inversion Sf as [|? ? _ F]; subst.
    inversion F as [|? ? Hab _]; subst.
    assert (Ia : In a e) by (apply Inc; left; auto). assert (Ib : In b e) by (apply Inc; right; left; auto).
    destruct He as [<-|[<-|[]]]; cbn in Ia, Ib; destruct Ia as [<-|[<-|[<-|[]]]]; destruct Ib as [<-|[<-|[<-|[]]]]; try lia; cbn; auto 6.
Qed.

(** Everything LocalFaces knows about the face with local number i. *)
Definition face_record {A} (x : local_faces A) (i : nat) :=
  (nth_error (lf_faces x) i, nth_error (lf_owner x) i, nth_error (lf_l2cg x) i,
   shared_ranks (lf_ranks x) (lf_displs x) i,
   option_map (fun d => nth_error d i) (lf_data x)).
(** A consistent LocalFaces: all arrays have one entry per face; the shared ranks are stored as
    consecutive blocks, one per face. *)
Definition faces_consistent {A} (x : local_faces A) : Prop :=
  NoDup (lf_faces x) /\ length (lf_owner x) = length (lf_faces x) /\
  length (lf_l2cg x) = length (lf_faces x) /\
  (forall d, lf_data x = Some d -> length d = length (lf_faces x)) /\
  exists counts, length counts = length (lf_faces x) /\ lf_displs x = displacements 0 counts /\
    length (lf_ranks x) = list_sum counts.

Lemma split_blocks counts : forall ranks : list nat, length ranks = list_sum counts ->
  exists bs, ranks = concat bs /\ map (@length nat) bs = counts.
Proof.
  induction counts as [|c t IH]; intros ranks H.
  - exists []. destruct ranks; [auto|discriminate].
  - destruct (IH (skipn c ranks)) as (bs & E & M).
    { rewrite skipn_length, H. cbn. unfold list_sum. lia. }
    exists (firstn c ranks :: bs). cbn. rewrite <- E, firstn_skipn, M. split; auto. f_equal.
    apply firstn_length_le. rewrite H. cbn. lia.
Qed.

(** C49: permute(p) puts everything known about face p[i] (vertices, owner, global number, shared
    ranks, attached data) at position i, and the global-to-local map follows. *)
Theorem permute_faces_correct : forall A (x : local_faces A) (p : list nat),
  faces_consistent x -> Permutation p (seq 0 (length (lf_faces x))) ->
  exists y, permute_faces x p = Some y /\ faces_consistent y /\
    lf_local_size y = lf_local_size x /\ length (lf_faces y) = length (lf_faces x) /\
    (lf_data y = None <-> lf_data x = None) /\
    (forall i, i < length p -> face_record y i = face_record x (nth i p 0)) /\
    (forall f i, map_at (lf_g2l y) f = Some i <-> nth_error (lf_faces y) i = Some f).
Proof.
  intros A x p (N & Lo & Lc & Ld & counts & Lk & Ed & Er) P.
  pose proof (Permutation_length P) as Lp. rewrite seq_length in Lp.
  assert (Pr : forall q, In q p -> q < length (lf_faces x)).
  { intros q Hq. eapply Permutation_in in Hq; [|exact P]. apply in_seq in Hq. lia. }
  destruct (split_blocks counts (lf_ranks x) Er) as (bs & Eb & Mb).
  assert (Lb : length bs = length (lf_faces x)) by (rewrite <- Lk, <- Mb, map_length; auto).
  assert (B : blocks_ok bs (lf_ranks x) (lf_displs x)) by (split; auto; congruence).
  assert (B' := permute_shared_spec bs _ _ p B (fun q Hq => eq_ind_r (fun n => q < n) (Pr q Hq) Lb)).
  assert (AP : forall {T} (v : list T), length v = length (lf_faces x) ->
    exists v', apply_permutation_vec v p = Some v' /\ length v' = length v /\
      forall i, i < length p -> nth_error v' i = nth_error v (nth i p 0)).
  { intros T v Lv. destruct (apply_permutation_correct v p) as (v' & E & L' & H); [rewrite Lv; auto|].
    exists v'. split; auto. split; auto. intros i Hi. apply H. apply nth_error_nth'. auto. }
  destruct (AP _ (lf_faces x) eq_refl) as (fs & Ef & Lf & Hf).
  destruct (AP _ (lf_owner x) Lo) as (ow & Eo & Low & Ho).
  destruct (AP _ (lf_l2cg x) Lc) as (cg & Ec & Lcg & Hc).
  assert (Nfs : NoDup fs).
  { assert (Pf : Permutation fs (lf_faces x)).
    { assert (fs = map (fun i => nth i (lf_faces x) []) p).
      { apply nth_ext with (d := []) (d' := []); [rewrite map_length; lia|].
        intros i Hi. rewrite (nth_map_lt _ p i [] 0) by lia.
        specialize (Hf i ltac:(lia)). rewrite (nth_error_nth' fs []) in Hf by auto.
        symmetry. apply nth_error_nth. auto. }
      rewrite H. rewrite (Permutation_map _ P).
      replace (map (fun i => nth i (lf_faces x) []) (seq 0 (length (lf_faces x)))) with (lf_faces x); auto.
      clear. induction (lf_faces x) as [|a l IH]; cbn; auto. f_equal.
      rewrite <- seq_shift, map_map. auto. }
    eapply Permutation_NoDup; [symmetry; exact Pf|auto]. }
  unfold permute_faces. rewrite Ef, Eo, Ec. cbn [bind].
  destruct (permute_shared p (lf_ranks x) (lf_displs x)) as [rk ds] eqn:Ep. cbn [fst snd] in B'.
  assert (Sh : forall i, i < length p -> shared_ranks rk ds i = shared_ranks (lf_ranks x) (lf_displs x) (nth i p 0)).
  { intros i Hi. rewrite (blocks_shared _ _ _ i B') by (rewrite map_length; auto).
    rewrite (blocks_shared bs) by (auto; rewrite Lb; apply Pr, nth_In; auto).
    rewrite (nth_map_lt _ p i [] 0) by auto. auto. }
  assert (Dat : exists da, match lf_data x with
           | None => Some None
           | Some d => do d' <- apply_permutation_vec d p; Some (Some d')
           end = Some da /\ (da = None <-> lf_data x = None) /\ (forall d, da = Some d -> length d = length fs) /\
     forall i, i < length p -> option_map (fun d => nth_error d i) da = option_map (fun d => nth_error d (nth i p 0)) (lf_data x)).
  { destruct (lf_data x) as [d|] eqn:Q.
    - destruct (AP _ d (Ld d eq_refl)) as (d' & E' & L' & H'). rewrite E'. cbn [bind]. exists (Some d').
      split; auto. split; [split; discriminate|]. split; [intros ? [= <-]; rewrite L', Lf; auto|]. intros i Hi. cbn. rewrite H'; auto.
    - exists None. repeat split; auto. discriminate. }
  destruct Dat as (da & Eda & Nda & Lda & Hda). rewrite Eda. cbn [bind].
  eexists. split; [reflexivity|]. split; [|split; [|split; [|split; [|split]]]].
  - split; [auto|]. cbn. repeat split; try congruence; auto.
    destruct B' as [B1 B2]. exists (map (@length nat) (map (fun p => nth p bs []) p)).
    split; [rewrite !map_length; lia|]. split; auto. rewrite B1.
    clear. induction p; cbn; auto. rewrite app_length, IHp. auto.
  - reflexivity.
  - exact Lf.
  - exact Nda.
  - intros i Hi. unfold face_record. cbn [lf_faces lf_owner lf_l2cg lf_ranks lf_displs lf_data]. rewrite Hf, Ho, Hc, Sh, Hda by auto. auto.
  - intros f i. cbn. apply g2l_some; auto.
Qed.
Print Assumptions permute_faces_correct.

Definition ex_faces : local_faces nat :=
  {| lf_faces := [[0;1]; [1;2]; [0;2]]; lf_owner := [0;1;0]; lf_l2cg := [5;6;7]; lf_local_size := 2;
     lf_g2l := makeG2LMap [[0;1]; [1;2]; [0;2]]; lf_ranks := [4; 8; 9]; lf_displs := [0;1;1;3];
     lf_data := Some [50;60;70]; lf_tags := Some [1;2;3] |}.
Example permute_faces_ex : faces_consistent ex_faces /\
  option_map (fun y => (lf_faces y, lf_ranks y, lf_displs y, lf_data y)) (permute_faces ex_faces [2;0;1])
    = Some ([[0;2]; [0;1]; [1;2]], [8; 9; 4], [0;2;3;3], Some [70;50;60]).
Proof.
  split; [|reflexivity]. split; [repeat constructor; cbn; intuition congruence|].
  split; auto. split; auto. split; [intros d [= <-]; auto|]. exists [1;0;2]. auto.
Qed.

(** The volume tags do not follow the permutation. *)
Theorem permute_volume_tags_refuted : exists (x y : local_faces nat) p i,
  faces_consistent x /\ Permutation p (seq 0 (length (lf_faces x))) /\ permute_faces x p = Some y /\
  i < length p /\
  option_map (fun d => nth_error d i) (lf_tags y) <> option_map (fun d => nth_error d (nth i p 0)) (lf_tags x).
Proof.
  exists ex_faces. eexists. exists [2;0;1], 0. split; [apply permute_faces_ex|].
  split; [|split; [reflexivity|split; [cbn; lia|cbn; congruence]]].
  cbn. apply NoDup_Permutation_bis; [repeat constructor; cbn; intuition congruence|cbn; lia|].
  intros z Hz; cbn in *; lia.
Qed.
