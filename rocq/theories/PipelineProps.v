(** Property theorems: the parts of the mesh the ranks build fit together (C60). *)
Require Import List Arith Bool ZArith Lia Permutation Sorted.
Require Import Verif.Base Verif.CommModel Verif.CommProofs Verif.CommBlocks Verif.DistributeModel Verif.SimplexModel Verif.SimplexProofs
  Verif.AlgorithmModel Verif.LocalMeshModel Verif.LocalMeshProofs Verif.LocalMeshProps
  Verif.PartitionModel Verif.PartitionProofs Verif.PartitionProps Verif.FacesModel Verif.FacesProofs Verif.FacesProps
  Verif.GhostModel Verif.GhostSpec Verif.GhostProofs Verif.GhostProps Verif.TopoModel Verif.TopoSpec Verif.TopoProofs Verif.ScatterModel Verif.ScatterProps Verif.ApplyModel Verif.ApplyProps
  Verif.AssembleModel Verif.AssembleSpec Verif.PipelineModel.
Import ListNotations.
Local Open Scope opt_scope.

(** * Specification *)
(** The boundary condition of facet f: the one given for it, 0 (BC::None) if there is none. *)
Definition bc_given (procs : nat) (belems : nat -> list (list nat)) (bdata : nat -> list nat) (bc : list nat -> nat) : Prop :=
  (forall p j f b, p < procs -> nth_error (belems p) j = Some f -> nth_error (bdata p) j = Some b -> bc f = b) /\
  (forall f, (forall p, p < procs -> ~ In f (belems p)) -> bc f = 0).

(** What is read: a conforming mesh with fewer than 2^64 elements and facets with boundary conditions,
    no facet given twice, on any ranks. *)
Record mesh_given (procs k : nat) (elems belems : nat -> list (list nat)) (bdata : nat -> list nat) : Prop := {
  mg_mesh : global_mesh procs k elems;
  mg_size : (Z.of_nat (length (concat (map elems (seq 0 procs)))) < 2 ^ 64)%Z;
  mg_tags : NoDup (concat (map belems (seq 0 procs)));
  mg_bc : forall p, p < procs -> length (bdata p) = length (belems p) }.
(** What the program does not decide: the hash of a facet, ParMETIS' vector, the outcomes of unstable
    sorts, the iteration orders of hash sets and the orders of arrival. *)
Record outcomes (procs : nat) (plex2rank : list nat -> nat) (elems : nat -> list (list nat)) (part enum : nat -> list nat) (oe : list nat)
    (belems : nat -> list (list nat)) (benum : nat -> list nat) (ob : list nat)
    (sh : nat -> nat -> list simplex -> list simplex) (si : nat -> nat -> list up_item -> list up_item)
    (og : nat -> nat -> list nat) (off : nat -> list nat) : Prop := {
  oc_hash : forall f, plex2rank f < procs;
  oc_part : forall p, p < procs -> length (elems p) = length (part p) /\ sort_outcome (part p) (enum p) /\ forall x, In x (part p) -> x < procs;
  oc_bsort : forall p, p < procs -> sort_outcome (map plex2rank (belems p)) (benum p);
  oc_oe : Permutation oe (seq 0 procs);
  oc_ob : Permutation ob (seq 0 procs);
  oc_sh : forall i q l, Permutation (sh i q l) l;
  oc_si : forall i q l, Permutation (si i q l) l;
  oc_og : forall i j, Permutation (og i j) (seq 0 procs);
  oc_off : forall i, Permutation (off i) (seq 0 procs) }.

(** * Redistribution *)
Lemma in_combine_nth {A B} (a : list A) (b : list B) x y : In (x, y) (combine a b) <-> exists i, nth_error a i = Some x /\ nth_error b i = Some y.
Proof.
  revert b. induction a as [|u a IH]; intros [|v b]; cbn; try (split; [tauto|intros ([|i] & H1 & H2); discriminate]).
  rewrite IH. split.
  - intros [[= <- <-]|(i & Hi)]; [exists 0; auto|exists (S i); auto].
  - intros ([|i] & H1 & H2); cbn in *; [left; congruence|right; eauto].
Qed.
Lemma redistribute_ok {A} (dA : A) procs part enum elems data o1 o2 :
  0 < procs ->
  (forall p, p < procs -> length (elems p) = length (part p) /\ length (data p) = length (part p) /\
     sort_outcome (part p) (enum p) /\ (forall x, In x (part p) -> x < procs)) ->
  Permutation o1 (seq 0 procs) -> Permutation o2 (seq 0 procs) ->
  exists es ds, redistribute dA procs part enum elems data o1 o2 = Some (es, ds) /\
    (forall q, q < procs -> length (es q) = length (ds q)) /\
    Permutation (concat (map (fun q => combine (es q) (ds q)) (seq 0 procs))) (concat (map (fun p => combine (elems p) (data p)) (seq 0 procs))) /\
    (forall q e, q < procs -> In e (es q) -> exists p i, p < procs /\ nth_error (elems p) i = Some e /\ nth_error (part p) i = Some q).
Proof.
  intros H0 H P1 P2.
  pose proof (doPartition_spec [] dA procs part enum elems data o1 o2 H0 H P1 P2) as S.
  eexists; eexists. split; [unfold redistribute; rewrite (all_ranks_ok procs (fun q => doPartition [] dA procs part enum elems data o1 o2 q) _ S); reflexivity|]. cbv beta.
  split; [|split].
  - intros q Hq. rewrite (S q Hq). cbn. clear. induction (seq 0 procs); auto. cbn. rewrite !app_length, !map_length. lia.
  - apply (redistribution_conserves [] dA procs part enum elems data o1 o2 _ _ H0 H P1 P2).
    intros q Hq. cbv beta. rewrite (S q Hq). reflexivity.
  - intros q e Hq He. rewrite (S q Hq) in He. cbn [fst get] in He. apply in_concat in He as (l & Hl & He). apply in_map_iff in Hl as (p & <- & Hp). apply in_seq in Hp.
    apply in_map_iff in He as (i & <- & Hi). apply filter_In in Hi as [Hi Hv]. destruct (H p ltac:(lia)) as (L & _ & [Pe _] & _).
    apply (Permutation_in _ Pe) in Hi. apply in_seq in Hi. apply Nat.eqb_eq in Hv. exists p, i. split; [lia|].
    split; [apply nth_error_nth'; lia|rewrite <- Hv; apply nth_error_nth'; lia].
Qed.
Lemma concat_fst {A B} (f : nat -> list A) (g : nat -> list B) l : (forall p, In p l -> length (f p) = length (g p)) ->
  map fst (concat (map (fun p => combine (f p) (g p)) l)) = concat (map f l).
Proof.
  intro H. rewrite concat_map, map_map. f_equal. apply map_ext_in. intros p Hp. specialize (H p Hp). revert H. generalize (g p).
  induction (f p) as [|a t IH]; intros [|b u] L; cbn in *; try lia; auto. f_equal. apply IH. lia.
Qed.

Lemma in_firstn_nth {A} n (l : list A) x : In x (firstn n l) <-> exists i, i < n /\ nth_error l i = Some x.
Proof.
  revert l. induction n as [|n IH]; intros [|a l]; cbn; try (split; [tauto|intros (i & Hi & H); lia || (destruct i; discriminate)]).
  rewrite IH. split.
  - intros [<-|(i & Hi & H)]; [exists 0; split; [lia|auto]|exists (S i); split; [lia|auto]].
  - intros ([|i] & Hi & H); cbn in H; [left; congruence|right; exists i; split; [lia|auto]].
Qed.

(** * The mesh as a whole *)
Section Whole.
Variables (procs k : nat) (es : nat -> list simplex) (lf : nat -> local_faces nat) (gid : simplex -> nat).
Hypothesis GM : global_mesh procs k es.
Hypothesis PG : Permutation (map gid (concat (map es (seq 0 procs)))) (seq 0 (length (concat (map es (seq 0 procs))))).
Hypothesis GL : forall q, q < procs ->
  map gid (firstn (length (es q)) (lf_faces (lf q))) = seq (length (concat (map es (seq 0 q)))) (length (es q)) /\
  ghost_layer procs k es None None gid lf q /\ faces_consistent (lf q).
Local Notation all := (concat (map es (seq 0 procs))).
(** The elements by global number. *)
Definition by_number : list simplex := concat (map (fun q => firstn (length (es q)) (lf_faces (lf q))) (seq 0 procs)).

Lemma in_all e : In e all <-> exists p, p < procs /\ In e (es p).
Proof. apply (in_layout procs es). Qed.
Lemma own_layer q : q < procs -> Permutation (firstn (length (es q)) (lf_faces (lf q))) (es q).
Proof. intro Hq. apply (gl_local _ _ _ _ _ _ _ _ (proj1 (proj2 (GL q Hq)))). Qed.
Lemma own_le q : q < procs -> length (es q) <= length (lf_faces (lf q)).
Proof. intro Hq. pose proof (Permutation_length (own_layer q Hq)) as L. rewrite firstn_length in L. lia. Qed.
Lemma by_number_perm : Permutation by_number all.
Proof.
  unfold by_number. assert (G : forall l, (forall q, In q l -> q < procs) -> Permutation (concat (map (fun q => firstn (length (es q)) (lf_faces (lf q))) l)) (concat (map es l))).
  { induction l as [|q l IH]; intro Hl; cbn; auto. apply Permutation_app; [apply own_layer, Hl; cbn; auto|apply IH; intros; apply Hl; cbn; auto]. }
  apply G. intros q Hq. apply in_seq in Hq. lia.
Qed.
Lemma by_number_gid : map gid by_number = seq 0 (length by_number).
Proof.
  rewrite (Permutation_length by_number_perm). unfold by_number.
  assert (G : forall n, n <= procs -> map gid (concat (map (fun q => firstn (length (es q)) (lf_faces (lf q))) (seq 0 n))) = seq 0 (length (concat (map es (seq 0 n))))).
  { induction n as [|n IH]; intro Hn; auto. rewrite seq_S, !map_app, !concat_app, map_app, app_length, seq_app. cbn [map concat Nat.add]. rewrite !app_nil_r.
    rewrite IH by lia. f_equal. apply (proj1 (GL n ltac:(lia))). }
  apply G. auto.
Qed.
Lemma number_of e g : nth_error by_number g = Some e <-> In e all /\ gid e = g.
Proof.
  assert (N : forall i x, nth_error by_number i = Some x -> gid x = i).
  { intros i x Hx. assert (Li : i < length by_number) by (apply nth_error_Some; congruence).
    assert (X : nth_error (map gid by_number) i = Some (gid x)) by (rewrite nth_error_map, Hx; auto).
    rewrite by_number_gid, (nth_error_nth' (seq _ _) 0) in X by (rewrite seq_length; auto). rewrite seq_nth in X by auto. cbn in X. congruence. }
  split.
  - intro H. split; [apply (Permutation_in _ by_number_perm); eapply nth_error_In; eauto|auto].
  - intros [He Hg]. apply (Permutation_in _ (Permutation_sym by_number_perm)) in He. apply In_nth_error in He as [i Hi].
    rewrite <- Hg, (N i e Hi). auto.
Qed.
Lemma gid_inj a b : In a all -> In b all -> gid a = gid b -> a = b.
Proof.
  intros Ha Hb E. assert (Xa := proj2 (number_of a (gid a)) (conj Ha eq_refl)). assert (Xb := proj2 (number_of b (gid b)) (conj Hb eq_refl)).
  rewrite E in Xa. congruence.
Qed.
Lemma es_disjoint p q e : p < procs -> q < procs -> In e (es p) -> In e (es q) -> p = q.
Proof. intros Hp Hq. apply (nodup_layout_inv procs es (gm_distinct _ _ _ GM)); auto. Qed.
(** An entry of a rank's list: its own element, or a ghost. *)
Lemma layer_entry q e : q < procs -> In e (lf_faces (lf q)) <->
  In e (es q) \/ exists p e', p < procs /\ p <> q /\ In e (es p) /\ In e' (es q) /\ touches k e e'.
Proof.
  intro Hq. destruct (GL q Hq) as (_ & G & _). rewrite <- (firstn_skipn (length (es q)) (lf_faces (lf q))) at 1. rewrite in_app_iff, (gl_ghosts _ _ _ _ _ _ _ _ G).
  split; intros [H|H]; auto; left; [apply (Permutation_in _ (own_layer q Hq)); auto|apply (Permutation_in _ (Permutation_sym (own_layer q Hq))); auto].
Qed.
Lemma layer_all q e : q < procs -> In e (lf_faces (lf q)) -> In e all.
Proof. intros Hq He. apply in_all. apply (layer_entry q e Hq) in He as [He|(p & e' & Hp & _ & He & _)]; eauto. Qed.
Lemma layer_unique q i j e : q < procs -> nth_error (lf_faces (lf q)) i = Some e -> nth_error (lf_faces (lf q)) j = Some e -> i = j.
Proof.
  intros Hq Hi Hj. destruct (GL q Hq) as (_ & G & _).
  apply (proj1 (NoDup_nth_error _) (gl_nodup _ _ _ _ _ _ _ _ G)); [apply nth_error_Some; congruence|congruence].
Qed.
Lemma layer_own q i e : q < procs -> nth_error (lf_faces (lf q)) i = Some e -> (i < length (es q) <-> In e (es q)).
Proof.
  intros Hq Hi. split; intro H.
  - apply (Permutation_in _ (own_layer q Hq)), in_firstn_nth. eauto.
  - apply (Permutation_in _ (Permutation_sym (own_layer q Hq))), in_firstn_nth in H as (j & Hj & Ej). rewrite (layer_unique q i j e); auto.
Qed.
Lemma layer_owner q i e p : q < procs -> nth_error (lf_faces (lf q)) i = Some e -> (nth_error (lf_owner (lf q)) i = Some p <-> p < procs /\ In e (es p)).
Proof.
  intros Hq Hi. destruct (GL q Hq) as (_ & G & _). destruct (gl_owner _ _ _ _ _ _ _ _ G) as [_ O]. destruct (O i e Hi) as (p' & Ep & Hp' & He).
  rewrite Ep. split; [intros [= <-]; auto|]. intros [Hp Hi']. f_equal. apply (es_disjoint p' p e); auto.
Qed.
Lemma layer_number q i g : q < procs -> nth_error (lf_l2cg (lf q)) i = Some g <-> exists e, nth_error (lf_faces (lf q)) i = Some e /\ gid e = g.
Proof.
  intro Hq. destruct (GL q Hq) as (_ & G & _). rewrite (gl_gid _ _ _ _ _ _ _ _ G), nth_error_map. destruct (nth_error _ i) as [e|]; cbn.
  - split; [intros [= <-]; eauto|intros (e' & [= ->] & <-); auto].
  - split; [discriminate|intros (e' & H & _); discriminate].
Qed.
Lemma layer_has_number q e g : q < procs -> nth_error by_number g = Some e -> (In g (lf_l2cg (lf q)) <-> In e (lf_faces (lf q))).
Proof.
  intros Hq Hg. apply number_of in Hg as [He <-]. split; intro H.
  - apply In_nth_error in H as [i Hi]. apply (layer_number q i _ Hq) in Hi as (e' & Hi & Eg). apply nth_error_In in Hi.
    rewrite (gid_inj e e'); auto. eapply layer_all; eauto.
  - apply In_nth_error in H as [i Hi]. apply (nth_error_In _ i), (layer_number q i _ Hq). eauto.
Qed.
End Whole.

(** * The number of interior elements *)
Lemma count_interior_prefix rank : forall owner shared el n last c,
  length owner = length shared ->
  (forall i o s, nth_error owner i = Some o -> nth_error shared i = Some s -> ((o =? rank) && (length s =? 0) = true <-> i < c)) ->
  c <= length owner ->
  count_interior rank el owner shared n last = (n + c, if c =? 0 then last else el + c - 1).
Proof.
  induction owner as [|o owner IH]; intros [|s shared] el n last c L H Hc; cbn [length] in *; try lia.
  - replace c with 0 by lia. cbn. f_equal. lia.
  - cbn [count_interior]. pose proof (H 0 o s eq_refl eq_refl) as H0. destruct ((o =? rank) && (length s =? 0)).
    + assert (0 < c) by (apply H0; auto). rewrite (IH shared (el + 1) (n + 1) el (c - 1)); [|lia| |lia].
      * destruct (Nat.eqb_spec (c - 1) 0), (Nat.eqb_spec c 0); f_equal; lia.
      * intros i o' s' Ho Hs. rewrite (H (S i) o' s' Ho Hs). lia.
    + assert (c = 0) by (destruct c; auto; assert (false = true) by (apply H0; lia); discriminate). subst c. cbn [Nat.eqb].
      rewrite (IH shared (el + 1) n last 0); [cbn; auto|lia| |lia].
      intros i o' s' Ho Hs. rewrite (H (S i) o' s' Ho Hs). lia.
Qed.

(** * Main theorem *)
Lemma has_face_facet k e es f : In e es -> facet_of k f e -> has_face k es f.
Proof. intros He (L & S & I). split; auto. split; eauto. Qed.
Lemma sorted_nodup (l : list nat) : StronglySorted lt l -> NoDup l.
Proof. apply sorted_lt_NoDup. Qed.

(** C60.  Whatever the placement of elements and tagged facets on the ranks when read, the partition
    ParMETIS chooses, the outcomes of unstable sorts, the iteration orders of hash sets and the
    orders in which messages arrive: the ranks get parts of one mesh with the given elements and
    boundary conditions, they can be numbered and exchanged, and the interior elements come first. *)
Theorem local_meshes_fit_together : forall procs k plex2rank elems part enum oe belems bdata benum ob sh si og off,
  0 < procs -> 0 < k -> mesh_given procs k elems belems bdata ->
  outcomes procs plex2rank elems part enum oe belems benum ob sh si og off ->
  exists m E F bc,
    local_topology procs k plex2rank elems part enum oe belems bdata benum ob sh si og off = Some m /\
    Permutation E (concat (map elems (seq 0 procs))) /\ bc_given procs belems bdata bc /\
    mesh_parts k procs E F bc m /\ dist_mesh k procs m /\
    (forall p j x, p < procs -> nth_error (elems p) j = Some x -> exists q e, nth_error (part p) j = Some q /\
       e < tm_num_local (m q) /\ nth_error (tm_elems (m q)) e = Some x) /\
    (forall p, p < procs -> exists n, num_interior p (m p) = Some n /\ n <= tm_num_local (m p) /\
       forall e x, e < tm_num_local (m p) -> nth_error (tm_elems (m p)) e = Some x ->
         (n <= e <-> exists y q i, In y E /\ touches k x y /\ q < procs /\ q <> p /\ i < tm_num_local (m q) /\ nth_error (tm_elems (m q)) i = Some y)).
Proof.
  intros procs k p2r elems part enum oe belems bdata benum ob sh si og off H0 Hk [GM0 HB NDb HBl] [HP HPart HBs Poe Pob HSh HSi HOg HOf].
  assert (HBd : forall p, p < procs -> length (bdata p) = length (belems p) /\ sort_outcome (map p2r (belems p)) (benum p)) by auto.
  (* elements *)
  destruct (redistribute_ok [] procs part enum elems elems oe oe H0) as (es & ds & E1 & L1 & C1 & Loc1); auto.
  { intros p Hp. destruct (HPart p Hp) as (A1 & A2 & A3). auto. }
  assert (PE : Permutation (concat (map es (seq 0 procs))) (concat (map elems (seq 0 procs)))).
  { apply (Permutation_map fst) in C1. rewrite !concat_fst in C1; auto. intros p Hp. apply in_seq in Hp. apply L1. lia. }
  assert (InE : forall q e, q < procs -> In e (es q) -> exists p, p < procs /\ In e (elems p)).
  { intros q e Hq He. destruct (Loc1 q e Hq He) as (p & i & Hp & Hi & _). exists p. split; auto. eapply nth_error_In; eauto. }
  assert (GM : global_mesh procs k es).
  { constructor.
    - intros q e Hq He. destruct (InE q e Hq He) as (p & Hp & He'). apply (gm_elem _ _ _ GM0 p); auto.
    - eapply Permutation_NoDup; [apply Permutation_sym; exact PE|apply (gm_distinct _ _ _ GM0)].
    - intros f a b c Ha Hb Hc. apply (gm_two _ _ _ GM0 f a b c); eapply Permutation_in; eauto. }
  destruct (ghosts_correct (A := nat) 0 procs k p2r es None None sh si og H0 GM) as (el & gid & E2 & PG & GL); auto.
  { rewrite (Permutation_length PE). auto. }
  { intros d0 q [X|X]; discriminate. }
  (* tagged facets *)
  destruct (redistribute_ok 0 procs (fun q => map p2r (belems q)) benum belems bdata ob ob H0) as (be & bd & E3 & L3 & C3 & Loc3); auto.
  { intros p Hp. destruct (HBd p Hp) as [A1 A2]. rewrite map_length. split; auto. split; auto. split; auto.
    intros x Hx. apply in_map_iff in Hx as (f & <- & _). auto. }
  assert (PB : Permutation (concat (map be (seq 0 procs))) (concat (map belems (seq 0 procs)))).
  { apply (Permutation_map fst) in C3. rewrite !concat_fst in C3; auto.
    - intros p Hp. apply in_seq in Hp. symmetry. apply HBd. lia.
    - intros p Hp. apply in_seq in Hp. apply L3. lia. }
  assert (NDbe : NoDup (concat (map be (seq 0 procs)))) by (eapply Permutation_NoDup; [apply Permutation_sym; exact PB|auto]).
  destruct (nodup_layout_inv procs be NDbe) as [NDb1 _]. destruct (nodup_layout_inv procs belems NDb) as [NDb0 DJb].
  assert (OnR : forall q f, q < procs -> In f (be q) -> p2r f = q).
  { intros q f Hq Hf. destruct (Loc3 q f Hq Hf) as (p & i & Hp & Hi & Ei). rewrite nth_error_map, Hi in Ei. cbn in Ei. congruence. }
  assert (Tag : forall f b, (exists p j, p < procs /\ nth_error (belems p) j = Some f /\ nth_error (bdata p) j = Some b) <->
                            exists j, nth_error (be (p2r f)) j = Some f /\ nth_error (bd (p2r f)) j = Some b).
  { intros f b.
    assert (X : forall (u : nat -> list simplex) (v : nat -> list nat), In (f, b) (concat (map (fun p => combine (u p) (v p)) (seq 0 procs))) <->
       exists p j, p < procs /\ nth_error (u p) j = Some f /\ nth_error (v p) j = Some b).
    { intros u v. rewrite in_concat. split.
      - intros (l & Hl & Hx). apply in_map_iff in Hl as (p & <- & Hp). apply in_seq in Hp. apply in_combine_nth in Hx as (j & Hj). exists p, j. split; [lia|auto].
      - intros (p & j & Hp & Hj). exists (combine (u p) (v p)). split; [apply in_map_iff; exists p; split; auto; apply in_seq; lia|apply in_combine_nth; eauto]. }
    rewrite <- X. split.
    - intro H. apply (Permutation_in _ (Permutation_sym C3)), X in H as (p & j & Hp & Hj & Hv). exists j.
      rewrite (OnR p f Hp) by (eapply nth_error_In; eauto). auto.
    - intros (j & Hj & Hv). apply (Permutation_in _ C3), X. exists (p2r f), j. auto. }
  assert (Untag : forall f, (forall p, p < procs -> ~ In f (belems p)) <-> ~ In f (be (p2r f))).
  { intro f. split.
    - intros H Hf. assert (X : In f (concat (map be (seq 0 procs)))) by (apply (in_layout procs be); exists (p2r f); auto).
      apply (Permutation_in _ PB), (in_layout procs belems) in X as (p & Hp & Hx). apply (H p Hp Hx).
    - intros H p Hp Hx. apply H. assert (X : In f (concat (map belems (seq 0 procs)))) by (apply (in_layout procs belems); eauto).
      apply (Permutation_in _ (Permutation_sym PB)), (in_layout procs be) in X as (q & Hq & Hx'). rewrite (OnR q f Hq Hx'). auto. }
  set (lk := boundary_lookup 0 be bd).
  set (bc := fun f => get 0 (lk (p2r f) f)).
  assert (LK : forall f, lk (p2r f) f = Some (bc f) /\ (forall j b, nth_error (be (p2r f)) j = Some f -> nth_error (bd (p2r f)) j = Some b -> bc f = b) /\
     (~ In f (be (p2r f)) -> bc f = 0)).
  { intro f. unfold bc, lk, boundary_lookup. pose proof (NDb1 (p2r f) (HP f)) as ND. destruct (map_at (makeG2LMap (be (p2r f))) f) as [j|] eqn:M.
    - apply (g2l_some _ f j ND) in M. destruct (nth_error_lt (bd (p2r f)) j) as [b Eb]; [rewrite <- L3 by auto; apply nth_error_Some; congruence|].
      rewrite Eb. split; auto. split.
      + intros j' b' Hj' Hb'. assert (j' = j) by (apply (proj1 (NoDup_nth_error _) ND); [apply nth_error_Some; congruence|congruence]). subst. cbn. congruence.
      + intro N. exfalso. apply N. eapply nth_error_In; eauto.
    - split; auto. split; auto. intros j b Hj _. exfalso. apply (g2l_some _ f j ND) in Hj. congruence. }
  (* facets *)
  assert (GLe : forall q e, q < procs -> In e (lf_faces (el q)) -> length e = k + 1 /\ StronglySorted lt e).
  { intros q e Hq He. apply (layer_all procs k es el gid GL q e Hq), (in_all procs es) in He as (p & Hp & He). apply (gm_elem _ _ _ GM p); auto. }
  assert (NL : forall q, q < procs -> lf_local_size (el q) = length (es q)) by (intros q Hq; apply (gl_num _ _ _ _ _ _ _ _ (proj1 (proj2 (GL q Hq))))).
  destruct (faces_correct (A := nat) 0 procs k (k + 1) p2r (fun q => lf_faces (el q)) (fun q => lf_local_size (el q)) (Some lk) off) as
    (fc & fgid & F & E4 & NF & IF & _ & _ & FC); auto; [lia| | |].
  { intros q Hq. rewrite NL by auto. apply (own_le procs k es el gid GL q Hq). }
  { intros lk' f p [= <-] Hp Hf. exists (bc f). apply LK. }
  set (m := fun q => topo_of (el q) (fc q)). set (E := by_number procs es el).
  exists m, E, F, bc.
  assert (Num := number_of procs k es el gid GL). fold E in Num.
  assert (HasN := layer_has_number procs k es el gid GL). fold E in HasN.
  assert (Con : forall q e i plex f, q < procs -> nth_error (lf_faces (el q)) e = Some plex -> nth_error (lf_faces (fc q)) i = Some f -> (contains (m q) e i <-> incl f plex)).
  { intros q e i plex f Hq He Hf. unfold contains. cbn. split; [intros (pl & f' & A1 & A2 & A3); assert (pl = plex) by congruence; assert (f' = f) by congruence; subst; auto|intro I; exists plex, f; auto]. }
  assert (Fac : forall q i f, q < procs -> nth_error (lf_faces (fc q)) i = Some f -> length f = k /\ StronglySorted lt f).
  { intros q i f Hq Hf. destruct (FC q Hq) as (_ & _ & _ & I & _). apply nth_error_In, I in Hf. destruct Hf as (A1 & A2 & _). auto. }
  assert (TO : forall q, q < procs -> topo_ok k (m q)).
  { intros q Hq. destruct (FC q Hq) as (ND & CN & DN & I & Ls & Loc & P & _). destruct (GL q Hq) as (_ & G & Ce).
    assert (Own := own_le procs k es el gid GL q Hq).
    constructor; cbn.
    - split; [apply (gl_nodup _ _ _ _ _ _ _ _ G)|intros s Hs; apply (GLe q); auto].
    - split; auto. intros s Hs. apply In_nth_error in Hs as [i Hi]. apply (Fac q i s); auto.
    - intros e f He Lf Sf If. apply I. split; auto. split; eauto.
    - intros i Hi. destruct (nth_error_lt (lf_faces (fc q)) i Hi) as [f Ef]. rewrite NL by auto. split.
      + intro Hl. assert (X : In f (firstn (lf_local_size (fc q)) (lf_faces (fc q)))) by (apply (proj2 (in_firstn_nth _ _ _)); eauto).
        apply Loc in X as (_ & _ & e & He & If). apply (proj1 (in_firstn_nth _ _ _)) in He as (j & Hj & Ej). exists j. split; [rewrite <- NL; auto|]. apply (Con q j i e f); auto.
      + intros (j & Hj & Cj). destruct (nth_error_lt (lf_faces (el q)) j ltac:(lia)) as [e Ee]. apply (Con q j i e f Hq Ee Ef) in Cj.
        assert (X : In f (firstn (lf_local_size (fc q)) (lf_faces (fc q)))).
        { apply Loc. destruct (Fac q i f Hq Ef) as [A1 A2]. split; auto. split; auto. exists e. split; auto. apply (proj2 (in_firstn_nth _ _ _)). exists j. rewrite NL by auto. auto. }
        apply (proj1 (in_firstn_nth _ _ _)) in X as (i' & Hi' & Ei'). replace i with i'; auto.
        apply (proj1 (NoDup_nth_error _) ND); [apply nth_error_Some; congruence|congruence].
    - intros i a b c (pa & f & Ea & Ef & Ia) (pb & f2 & Eb & Ef2 & Ib) (pc & f3 & Ec & Ef3 & Ic). cbn in *. assert (f2 = f) by congruence. assert (f3 = f) by congruence. subst f2 f3.
      destruct (Fac q i f Hq Ef) as [A1 A2].
      assert (All : forall j pj, nth_error (lf_faces (el q)) j = Some pj -> In pj (concat (map es (seq 0 procs)))).
      { intros j pj Hj. apply (layer_all procs k es el gid GL q pj Hq). eapply nth_error_In; eauto. }
      destruct (gm_two _ _ _ GM f pa pb pc) as [X|[X|X]]; eauto; try (split; auto; fail).
      + left. rewrite <- X in Eb. apply (layer_unique procs k es el gid GL q a b pa); auto.
      + right. left. rewrite <- X in Ec. apply (layer_unique procs k es el gid GL q a c pa); auto.
      + right. right. rewrite <- X in Ec. apply (layer_unique procs k es el gid GL q b c pb); auto.
    - rewrite NL by auto. auto.
    - auto.
    - exact (proj1 (proj2 Ce)).
    - exact (proj1 (proj2 (proj2 Ce))).
    - rewrite map_length, seq_length. auto.
    - destruct (lf_data (fc q)) as [b|] eqn:Ed; [|apply proj1 in DN; specialize (DN eq_refl); discriminate].
      exists b. split; auto. apply (proj1 (proj2 (proj2 (proj2 CN))) b Ed). }
  assert (OwnIn : forall p e g, p < procs -> e < length (es p) -> nth_error (lf_l2cg (el p)) e = Some g -> exists plex, nth_error E g = Some plex /\ In plex (es p) /\ nth_error (lf_faces (el p)) e = Some plex).
  { intros p e g Hp He Eg. apply (layer_number procs k es el gid GL p e g Hp) in Eg as (plex & Ee & Eg). exists plex.
    assert (In plex (es p)) by (apply (layer_own procs k es el gid GL p e plex); auto). split; auto. apply Num. split; auto. apply (in_all procs es). eauto. }
  assert (Halo : forall p e f plex pe, p < procs -> In pe (es p) -> nth_error (lf_faces (el p)) e = Some pe -> length f = k -> StronglySorted lt f -> incl f pe ->
     In plex (concat (map es (seq 0 procs))) -> incl f plex -> In plex (lf_faces (el p))).
  { intros p e f plex pe Hp Ie Ee Lf Sf If Hx Ix. apply (layer_entry procs k es el gid GL p plex Hp). apply (in_all procs es) in Hx as (q & Hq & Hx).
    destruct (Nat.eq_dec q p) as [->|Hne]; auto. right. exists q, pe. split; auto. split; auto. split; auto. split; auto. split.
    - intro X. subst plex. apply Hne. apply (es_disjoint procs k es GM q p pe); auto.
    - exists f. split; split; auto. }
  assert (MPs : mesh_parts k procs E F bc m).
  { constructor.
    - exact TO.
    - intros p e g Hp Eg. cbn in *. apply (layer_number procs k es el gid GL p e g Hp) in Eg as (plex & Ee & Eg).
      assert (X : nth_error E g = Some plex) by (apply Num; split; auto; apply (layer_all procs k es el gid GL p plex Hp); eapply nth_error_In; eauto).
      split; [apply nth_error_Some; congruence|congruence].
    - intros p Hp. cbn. destruct (GL p Hp) as (_ & G & _). rewrite (gl_gid _ _ _ _ _ _ _ _ G). apply nodup_map_inj; [|apply (gl_nodup _ _ _ _ _ _ _ _ G)].
      intros x y Hx Hy. apply (gid_inj procs k es el gid GL); eapply layer_all; eauto.
    - intros g Hg. destruct (nth_error_lt E g Hg) as [plex Eg]. pose proof (proj1 (Num plex g) Eg) as [Ha Hgid].
      apply (in_all procs es) in Ha as (p & Hp & He). pose proof (proj2 (layer_entry procs k es el gid GL p plex Hp) (or_introl He)) as Hl.
      apply In_nth_error in Hl as [e Ee]. exists p, e. split; auto. cbn. rewrite NL by auto. split; [apply (layer_own procs k es el gid GL p e plex); auto|].
      apply (layer_number procs k es el gid GL p e g Hp). eauto.
    - intros p q e e' g Hp Hq He He' Eg Eg'. cbn in *. rewrite NL in He, He' by auto.
      destruct (OwnIn p e g Hp He Eg) as (x & Ex & Ix & _). destruct (OwnIn q e' g Hq He' Eg') as (y & Ey & Iy & _).
      assert (x = y) by congruence. subst y. apply (es_disjoint procs k es GM p q x); auto.
    - intros p e i f g plex Hp He Ce Ef Eg If. cbn in He, Ef. rewrite NL in He by auto. pose proof (own_le procs k es el gid GL p Hp).
      destruct (nth_error_lt (lf_faces (el p)) e ltac:(lia)) as [pe Ee]. apply (Con p e i pe f Hp Ee Ef) in Ce. destruct (Fac p i f Hp Ef) as [A1 A2].
      apply (HasN p plex g Hp Eg). apply (Halo p e f plex pe); auto; [apply (layer_own procs k es el gid GL p e pe); auto|apply (Num plex g); auto].
    - intros p b i f Hp Eb Ef. cbn in Eb, Ef. destruct (FC p Hp) as (_ & _ & _ & _ & _ & _ & P & _). destruct (P i f Ef) as (sd & FI & _).
      unfold face_info in FI. rewrite Eb in FI. cbn [option_map] in FI. inversion FI as [[R1 R2 R3 R4 R5]]. rewrite R5. apply LK.
    - split; auto. intros s Hs. apply IF in Hs as (p & Hp & A1 & A2 & _). auto.
    - intro f. rewrite IF. split.
      + intros (p & Hp & A1 & A2 & e & He & Ie). split; auto. split; auto. exists e. split; auto.
        apply (Permutation_in _ (Permutation_sym (by_number_perm procs k es el gid GL))). eapply layer_all; eauto.
      + intros (A1 & A2 & e & He & Ie). apply (Permutation_in _ (by_number_perm procs k es el gid GL)), (in_all procs es) in He as (p & Hp & He).
        exists p. split; auto. split; auto. split; auto. exists e. split; auto. apply (layer_entry procs k es el gid GL p e Hp). auto. }
  assert (Shn : forall p i, p < procs -> i < length (lf_faces (el p)) -> nth i (tm_shared (m p)) [] = shared_ranks (lf_ranks (el p)) (lf_displs (el p)) i).
  { intros p i Hp Hi. cbn. apply nth_error_nth. rewrite nth_error_map, (nth_error_nth' (seq _ _) 0) by (rewrite seq_length; auto). rewrite seq_nth by auto. reflexivity. }
  split; [|split; [|split; [|split; [auto|split; [|split]]]]].
  - unfold local_topology. rewrite E1. cbn [bind fst]. rewrite E2. cbn [bind]. rewrite E3. cbn [bind fst snd]. fold lk. rewrite E4. reflexivity.
  - eapply perm_trans; [apply (by_number_perm procs k es el gid GL)|auto].
  - split.
    + intros p j f b Hp Hj Hb. destruct (proj1 (Tag f b)) as (j' & X1 & X2); [eauto|]. destruct (LK f) as (_ & L & _). eapply L; eauto.
    + intros f N. apply LK, Untag. auto.
  - constructor; [exact TO| |].
    + constructor; cbn -[tm_shared].
      * intros p Hp. destruct (GL p Hp) as (_ & _ & Ce). pose proof (to_shared _ _ (TO p Hp)) as Lsh. pose proof (own_le procs k es el gid GL p Hp). 
        rewrite NL by auto. destruct Ce as (_ & CA & CB & _). rewrite CA, CB. split; [auto|split; [exact Lsh|lia]].
      * intros p Hp. apply (mp_nodup _ _ _ _ _ _ MPs p Hp).
      * intros p q i j g Hp Hq Hi Hj. apply (layer_number procs k es el gid GL p i g Hp) in Hi as (x & Ex & Gx). apply (layer_number procs k es el gid GL q j g Hq) in Hj as (y & Ey & Gy).
        assert (x = y) by (apply (gid_inj procs k es el gid GL); [apply (layer_all procs k es el gid GL p x Hp), (nth_error_In _ _ Ex)|apply (layer_all procs k es el gid GL q y Hq), (nth_error_In _ _ Ey)|congruence]). subst y.
        destruct (GL p Hp) as (_ & G & _). destruct (gl_owner _ _ _ _ _ _ _ _ G) as [_ O]. destruct (O i x Ex) as (o & Eo & Ho & Io). rewrite Eo. symmetry.
        apply (layer_owner procs k es el gid GM GL q j x o Hq Ey). auto.
      * intros p i g o Hp Hi Ho. apply (layer_number procs k es el gid GL p i g Hp) in Hi as (x & Ex & Gx).
        apply (layer_owner procs k es el gid GM GL p i x o Hp Ex) in Ho as [Ho Io]. split; auto.
        apply (HasN o x g Ho); [apply Num; split; auto; apply (in_all procs es); eauto|]. apply (layer_entry procs k es el gid GL o x Ho). auto.
      * intros p i Hp Hi. rewrite NL by auto. destruct (GL p Hp) as (_ & G & _). rewrite (gl_gid _ _ _ _ _ _ _ _ G), map_length in Hi.
        destruct (nth_error_lt _ i Hi) as [x Ex]. rewrite (layer_own procs k es el gid GL p i x Hp Ex), (layer_owner procs k es el gid GM GL p i x p Hp Ex). tauto.
      * intros p i g r Hp Hi. apply (layer_number procs k es el gid GL p i g Hp) in Hi as (x & Ex & Gx).
        rewrite (Shn p i Hp) by (apply nth_error_Some; congruence). destruct (GL p Hp) as (_ & G & _). rewrite (proj2 (gl_shared _ _ _ _ _ _ _ _ G i x Ex) r).
        assert (XE : nth_error E g = Some x) by (apply Num; split; auto; apply (layer_all procs k es el gid GL p x Hp), (nth_error_In _ _ Ex)).
        split; intros (A1 & A2 & A3); split; auto; split; auto; apply (HasN r x g A1 XE); auto.
      * intros p i Hp. destruct (lt_dec i (length (lf_faces (el p)))) as [Hi|Hi].
        -- rewrite (Shn p i Hp Hi). destruct (nth_error_lt _ i Hi) as [x Ex]. destruct (GL p Hp) as (_ & G & _). apply sorted_nodup, (proj1 (gl_shared _ _ _ _ _ _ _ _ G i x Ex)).
        -- rewrite nth_overflow; [constructor|]. rewrite (to_shared _ _ (TO p Hp)). cbn. lia.
      * intros p i j g h o Hp Hij Hi Hj Oi Oj. destruct (GL p Hp) as (Nn & G & _).
        apply (layer_number procs k es el gid GL p i g Hp) in Hi as (x & Ex & Gx). apply (layer_number procs k es el gid GL p j h Hp) in Hj as (y & Ey & Gy).
        apply (layer_owner procs k es el gid GM GL p i x o Hp Ex) in Oi as [Ho Ix]. apply (layer_owner procs k es el gid GM GL p j y o Hp Ey) in Oj as [_ Iy].
        assert (C : i < length (es p) <-> j < length (es p)).
        { rewrite (layer_own procs k es el gid GL p i x Hp Ex), (layer_own procs k es el gid GL p j y Hp Ey).
          split; intro X; [assert (o = p) by (eapply (es_disjoint procs k es GM o p x); eauto)|assert (o = p) by (eapply (es_disjoint procs k es GM o p y); eauto)]; subst; auto. }
        destruct (lt_dec i (length (es p))) as [Li|Li].
        -- assert (X : forall a z, a < length (es p) -> nth_error (lf_faces (el p)) a = Some z -> gid z = length (concat (map es (seq 0 p))) + a).
           { intros a z Ha Ea. assert (Y : nth_error (map gid (firstn (length (es p)) (lf_faces (el p)))) a = Some (gid z)).
             { rewrite nth_error_map. replace (nth_error (firstn _ _) a) with (Some z); auto. rewrite <- Ea. symmetry.
               rewrite <- (firstn_skipn (length (es p)) (lf_faces (el p))) at 2. rewrite nth_error_app1; auto.
               rewrite firstn_length. pose proof (own_le procs k es el gid GL p Hp). lia. }
             rewrite Nn, (nth_error_nth' (seq _ _) 0), seq_nth in Y by (rewrite ?seq_length; auto). congruence. }
           rewrite <- Gx, <- Gy, (X i x), (X j y); auto; [lia|apply C; auto].
        -- assert (Srt := gl_order _ _ _ _ _ _ _ _ G). set (n := length (es p)) in *.
           assert (X : forall a, n <= a -> nth_error (skipn n (lf_l2cg (el p))) (a - n) = nth_error (lf_l2cg (el p)) a).
           { intros a Ha. rewrite <- (firstn_skipn n (lf_l2cg (el p))) at 2. rewrite nth_error_app2; rewrite firstn_length.
             - f_equal. pose proof (own_le procs k es el gid GL p Hp). rewrite (gl_gid _ _ _ _ _ _ _ _ G), map_length. unfold n. lia.
             - lia. }
           assert (Xi : nth_error (skipn n (lf_l2cg (el p))) (i - n) = Some g) by (rewrite X by lia; apply (layer_number procs k es el gid GL p i g Hp); eauto).
           assert (Xj : nth_error (skipn n (lf_l2cg (el p))) (j - n) = Some h) by (rewrite X by lia; apply (layer_number procs k es el gid GL p j h Hp); eauto).
           assert (GS : forall l a b u v, StronglySorted lt l -> a < b -> nth_error l a = Some u -> nth_error l b = Some v -> u < v).
           { clear. induction l as [|w l IH]; intros [|a] [|b] u v S Hab Ha Hb; cbn in *; try discriminate; try lia; inversion S as [|? ? S' Fw]; subst.
             - injection Ha as <-. rewrite Forall_forall in Fw. apply Fw. eapply nth_error_In; eauto.
             - apply (IH a b u v); auto. lia. }
           apply (GS _ (i - n) (j - n) g h Srt); auto. lia.
    + intros p e e' r g Hp He (Hne & i & C1' & C2') Or Eg. cbn in He, Or, Eg. rewrite NL in He by auto.
      destruct C1' as (pe & f & Ee & Ef & Ie). destruct C2' as (pe' & f' & Ee' & Ef' & Ie'). assert (f' = f) by congruence. subst f'. cbn in Ee, Ee', Ef.
      apply (layer_owner procs k es el gid GM GL p e' pe' r Hp Ee') in Or as [Hr Ir].
      destruct (OwnIn p e g Hp He Eg) as (x & Ex & Ix & Ex'). assert (x = pe) by congruence. subst x.
      cbn. apply (HasN r pe g Hr Ex). destruct (Fac p i f Hp Ef) as [A1 A2].
      pose proof (proj2 (layer_entry procs k es el gid GL r pe' Hr) (or_introl Ir)) as Hl. apply In_nth_error in Hl as [e2 Ee2].
      apply (Halo r e2 f pe pe'); auto. apply (in_all procs es). eauto.
  - intros p j x Hp Hj. assert (X : In x (concat (map es (seq 0 procs)))).
    { apply (Permutation_in _ (Permutation_sym PE)), (in_layout procs elems). exists p. split; auto. eapply nth_error_In; eauto. }
    apply (in_all procs es) in X as (q & Hq & Hx). destruct (Loc1 q x Hq Hx) as (p' & i & Hp' & Hi & Ei).
    destruct (nodup_layout_inv procs elems (gm_distinct _ _ _ GM0)) as [NDe DJe].
    assert (p' = p) by (apply (DJe p' p x); auto; eapply nth_error_In; eauto). subst p'.
    assert (i = j) by (apply (proj1 (NoDup_nth_error _) (NDe p Hp)); [apply nth_error_Some; congruence|congruence]). subst i.
    pose proof (proj2 (layer_entry procs k es el gid GL q x Hq) (or_introl Hx)) as Hl. apply In_nth_error in Hl as [e Ee]. exists q, e. split; auto. cbn. rewrite NL by auto.
    split; auto. apply (layer_own procs k es el gid GL q e x); auto.
  - intros p Hp. destruct (GL p Hp) as (_ & G & Ce). destruct (gl_interior _ _ _ _ _ _ _ _ G) as (c & Hc & HI). pose proof (own_le procs k es el gid GL p Hp) as Le.
    assert (CS : count_interior p 0 (tm_owner (m p)) (tm_shared (m p)) 0 0 = (0 + c, if c =? 0 then 0 else 0 + c - 1)).
    { apply count_interior_prefix.
      - rewrite (to_shared _ _ (TO p Hp)), (to_owner _ _ (TO p Hp)). auto.
      - intros i o s Ho Hs. assert (Hi : i < length (lf_faces (el p))).
        { pose proof (to_owner _ _ (TO p Hp)) as Lo. cbn in Lo, Ho. rewrite <- Lo. apply nth_error_Some. congruence. }
        destruct (nth_error_lt _ i Hi) as [x Ex]. pose proof (Shn p i Hp Hi) as Sx. rewrite (nth_error_nth _ _ _ Hs) in Sx. subst s.
        cbn in Ho. apply (layer_owner procs k es el gid GM GL p i x o Hp Ex) in Ho as [Ho Io].
        pose proof (proj2 (gl_shared _ _ _ _ _ _ _ _ G i x Ex)) as SR. set (s := shared_ranks _ _ i) in *. rewrite andb_true_iff, !Nat.eqb_eq. split.
        + intros [-> Ls]. apply (layer_own procs k es el gid GL p i x Hp Ex) in Io.
          destruct (le_lt_dec c i) as [Hci|]; auto. exfalso. apply (HI i x Ex Io) in Hci as (q & y & Hq & Hqp & Hy & T).
          assert (X : In q s); [|destruct s; [destruct X|cbn in Ls; lia]]. apply SR. split; auto. split; auto.
          apply (layer_entry procs k es el gid GL q x Hq). right. exists p, y. split; auto. split; auto. split; auto. apply (layer_own procs k es el gid GL p i x); auto.
        + intro Hic. assert (Io' : In x (es p)) by (apply (layer_own procs k es el gid GL p i x Hp Ex); lia). split; [eapply (es_disjoint procs k es GM o p x); eauto|].
          destruct s as [|q s'] eqn:Es; auto. exfalso. destruct (proj1 (SR q) (or_introl eq_refl)) as (Hq & Hqp & Hx).
          apply (layer_entry procs k es el gid GL q x Hq) in Hx as [Hx|(p' & y & Hp' & Hp'q & Hxp & Hy & T)]; [apply Hqp; eapply (es_disjoint procs k es GM q p x); eauto|].
          assert (c <= i); [|lia]. apply (HI i x Ex ltac:(lia)). exists q, y. auto.
      - rewrite (to_owner _ _ (TO p Hp)). cbn. lia. }
    exists c. split; [|split].
    + unfold num_interior. rewrite CS. cbn [Nat.add]. destruct (Nat.eqb_spec c 0) as [->|]; auto. replace (c - 1 + 1) with c by lia. rewrite Nat.eqb_refl, andb_false_r. auto.
    + cbn. rewrite NL by auto. auto.
    + intros e x He Ex. cbn in He, Ex. rewrite NL in He by auto. rewrite (HI e x Ex He). split.
      * intros (q & y & Hq & Hqp & Hy & T). exists y, q. pose proof (proj2 (layer_entry procs k es el gid GL q y Hq) (or_introl Hy)) as Hl. apply In_nth_error in Hl as [i Ei].
        exists i. split; [apply (Permutation_in _ (Permutation_sym (by_number_perm procs k es el gid GL))), (in_all procs es); eauto|]. cbn. rewrite NL by auto.
        split; auto. split; auto. split; auto. split; auto. apply (layer_own procs k es el gid GL q i y); auto.
      * intros (y & q & i & _ & T & Hq & Hqp & Hi & Ei). cbn in Hi, Ei. rewrite NL in Hi by auto. exists q, y. split; auto. split; auto. split; auto.
        apply (layer_own procs k es el gid GL q i y); auto.
Qed.
Print Assumptions local_meshes_fit_together.
