(** A decision procedure for [topo_ok], used to show that the hypotheses of theorems about local
    meshes are met by concrete meshes. *)
Require Import List Arith Lia Bool Sorted.
Require Import Verif.Base Verif.SimplexModel Verif.SimplexProofs Verif.LocalMeshModel Verif.LocalMeshProofs
  Verif.LocalMeshProps Verif.TopoModel Verif.TopoSpec Verif.TopoProofs.
Import ListNotations.

Fixpoint nodupb {A} (eqb : A -> A -> bool) (l : list A) : bool :=
  match l with [] => true | a :: t => negb (existsb (eqb a) t) && nodupb eqb t end.
Lemma nodupb_spec {A} (eqb : A -> A -> bool) l : (forall a b, eqb a b = true <-> a = b) -> nodupb eqb l = true -> NoDup l.
Proof.
  intro E. induction l as [|a t IH]; cbn; [constructor|]. rewrite andb_true_iff, negb_true_iff. intros [H1 H2].
  constructor; auto. intro Hi. assert (existsb (eqb a) t = true) by (apply existsb_exists; exists a; split; auto; apply E; auto).
  congruence.
Qed.
Fixpoint sortedb (l : list nat) : bool :=
  match l with [] => true | a :: t => forallb (fun b => a <? b) t && sortedb t end.
Lemma sortedb_spec l : sortedb l = true -> StronglySorted lt l.
Proof.
  induction l as [|a t IH]; cbn [sortedb]; [constructor|]. rewrite andb_true_iff. intros [H1 H2]. constructor; auto.
  apply Forall_forall. intros x Hx. rewrite forallb_forall in H1. apply Nat.ltb_lt, H1; auto.
Qed.
Definition plex_listb (n : nat) (l : list simplex) : bool :=
  nodupb simplex_eqb l && forallb (fun s => (length s =? n) && sortedb s) l.
Lemma plex_listb_spec n l : plex_listb n l = true -> plex_list n l.
Proof.
  unfold plex_listb. rewrite andb_true_iff. intros [H1 H2]. split; [apply (nodupb_spec simplex_eqb); auto; apply simplex_eqb_spec|].
  intros s Hs. rewrite forallb_forall in H2. specialize (H2 s Hs). apply andb_true_iff in H2 as [H2 H3].
  apply Nat.eqb_eq in H2. split; auto. apply sortedb_spec; auto.
Qed.
Definition all_facesb (k : nat) (es fs : list simplex) : bool :=
  forallb (fun e => match downward k e with Some ds => forallb (fun d => existsb (simplex_eqb d) fs) ds | None => false end) es.
Definition containsb (m : topo_mesh) (e i : nat) : bool :=
  subsetb (nth i (tm_facets m) []) (nth e (tm_elems m) []).
Lemma containsb_spec m e i : contains m e i <->
  e < length (tm_elems m) /\ i < length (tm_facets m) /\ containsb m e i = true.
Proof.
  unfold containsb. rewrite subsetb_spec. split.
  - intro C. destruct (contains_lt m e i C) as [He Hi]. destruct C as (p & f & Ep & Ef & I).
    rewrite (nth_error_nth _ _ [] Ep), (nth_error_nth _ _ [] Ef). auto.
  - intros (He & Hi & I). exists (nth e (tm_elems m) []), (nth i (tm_facets m) []).
    split; [apply nth_error_nth'; auto|]. split; [apply nth_error_nth'; auto|auto].
Qed.
Definition topo_okb (k : nat) (m : topo_mesh) : bool :=
  plex_listb (k + 1) (tm_elems m) && plex_listb k (tm_facets m) && all_facesb k (tm_elems m) (tm_facets m) &&
  forallb (fun i => Bool.eqb (i <? tm_num_local_facets m) (existsb (fun e => containsb m e i) (seq 0 (tm_num_local m)))
                    && (length (filter (fun e => containsb m e i) (seq 0 (length (tm_elems m)))) <=? 2))
          (seq 0 (length (tm_facets m))) &&
  (tm_num_local m <=? length (tm_elems m)) && (tm_num_local_facets m <=? length (tm_facets m)) &&
  (length (tm_owner m) =? length (tm_elems m)) && (length (tm_l2cg m) =? length (tm_elems m)) &&
  (length (tm_shared m) =? length (tm_elems m)) &&
  match tm_bc m with Some b => length b =? length (tm_facets m) | None => false end.
Lemma topo_okb_spec k m : topo_okb k m = true -> topo_ok k m.
Proof.
  unfold topo_okb. rewrite !andb_true_iff. intros [[[[[[[[[H1 H2] H3] H4] H5] H6] H7] H8] H9] H10].
  apply plex_listb_spec in H1, H2. apply Nat.leb_le in H5, H6. apply Nat.eqb_eq in H7, H8, H9.
  rewrite forallb_forall in H4. constructor; auto.
  - intros e f He Lf Sf Inc. unfold all_facesb in H3. rewrite forallb_forall in H3. specialize (H3 e He).
    destruct H1 as [_ Se]. destruct (Se e He) as [Le Sse].
    destruct (downward_spec k e ltac:(lia) Sse) as (ds & Eds & Ids & _). rewrite Eds in H3. rewrite forallb_forall in H3.
    assert (In f ds) by (apply Ids; auto). apply H3 in H. apply existsb_exists in H as (x & Hx & E).
    apply simplex_eqb_spec in E. subst; auto.
  - intros i Hi. specialize (H4 i ltac:(apply in_seq; lia)). apply andb_true_iff in H4 as [H4 _].
    apply eqb_prop in H4. rewrite <- Nat.ltb_lt, H4, existsb_exists. split.
    + intros (e & He & C). apply in_seq in He. exists e. split; [lia|]. apply containsb_spec. repeat split; auto; lia.
    + intros (e & He & C). apply containsb_spec in C as (_ & _ & C). exists e. split; [apply in_seq; lia|auto].
  - intros i a b c Ca Cb Cc. destruct (contains_lt m a i Ca) as [_ Hi].
    specialize (H4 i ltac:(apply in_seq; lia)). apply andb_true_iff in H4 as [_ H4]. apply Nat.leb_le in H4.
    destruct (Nat.eq_dec a b), (Nat.eq_dec a c), (Nat.eq_dec b c); auto. exfalso.
    assert (I : incl [a; b; c] (filter (fun e => containsb m e i) (seq 0 (length (tm_elems m))))).
    { apply containsb_spec in Ca, Cb, Cc. intros x [<-|[<-|[<-|[]]]]; apply filter_In; rewrite in_seq; intuition lia. }
    apply NoDup_incl_length in I; [cbn in I; lia|]. repeat constructor; cbn; intuition.
  - destruct (tm_bc m) as [b|]; [|discriminate]. apply Nat.eqb_eq in H10. eauto.
Qed.
