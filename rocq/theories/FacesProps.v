(** Property theorems: faces of a distributed mesh (C19). *)
Require Import List Arith Bool ZArith Lia Permutation Sorted.
Require Import Verif.Base Verif.CommModel Verif.CommProofs Verif.CommBlocks Verif.DistributeModel Verif.DistributeProps Verif.SimplexModel
  Verif.SimplexProofs Verif.AlgorithmModel Verif.LocalMeshModel Verif.LocalMeshProofs Verif.LocalMeshProps
  Verif.PartitionModel Verif.PartitionProofs Verif.FacesModel Verif.FacesProofs Verif.FacesShared.
Import ListNotations.
Local Open Scope opt_scope.

(** f is a face with k vertices of one of the elements [es]. *)
Definition has_face (k : nat) (es : list simplex) (f : simplex) : Prop :=
  length f = k /\ StronglySorted lt f /\ exists e, In e es /\ incl f e.

Lemma concat_nth {A} (l : list (list A)) : concat l = layout (seq 0 (length l)) (fun r => nth r l []).
Proof.
  unfold layout. f_equal. apply nth_error_ext. intro i. rewrite nth_error_map.
  destruct (lt_dec i (length l)) as [H|H].
  - rewrite (nth_error_nth' (seq _ _) 0) by (rewrite seq_length; auto). rewrite seq_nth by auto.
    cbn. apply nth_error_nth'; auto.
  - rewrite !(proj2 (nth_error_None _ _)); auto; try lia. rewrite seq_length; lia.
Qed.

Lemma in_layout {A} procs (blk : nat -> list A) x :
  In x (layout (seq 0 procs) blk) <-> exists p, p < procs /\ In x (blk p).
Proof.
  unfold layout. rewrite in_concat. split.
  - intros (l & Hl & Hx). apply in_map_iff in Hl. destruct Hl as (p & <- & Hp). apply in_seq in Hp.
    exists p. split; [lia|auto].
  - intros (p & Hp & Hx). exists (blk p). split; auto. apply in_map_iff. exists p. split; auto. apply in_seq. lia.
Qed.

Lemma NoDup_layout {A} procs (blk : nat -> list A) :
  (forall p, p < procs -> NoDup (blk p)) ->
  (forall p q x, p < procs -> q < procs -> In x (blk p) -> In x (blk q) -> p = q) ->
  NoDup (layout (seq 0 procs) blk).
Proof.
  intros N D. unfold layout.
  assert (G : forall l, NoDup l -> (forall p, In p l -> p < procs) -> NoDup (concat (map blk l))).
  { induction l as [|p l IH]; intros Nl Hl; [constructor|]. inversion Nl; subst. cbn.
    assert (X : forall (a b : list A), NoDup a -> NoDup b -> (forall x, In x a -> ~ In x b) -> NoDup (a ++ b)).
    { clear. induction a; intros b Na Nb H; auto. inversion Na; subst. simpl. constructor.
      - rewrite in_app_iff. intros [K|K]; [auto|]. apply (H a); [left; auto|auto].
      - apply IHa; auto. intros x Hx. apply H. right; auto. }
    apply X.
    - apply N, Hl. left; auto.
    - apply IH; auto. intros; apply Hl; right; auto.
    - intros x Hx Hy. apply in_concat in Hy. destruct Hy as (m & Hm & Hy). apply in_map_iff in Hm.
      destruct Hm as (q & <- & Hq). assert (p = q).
      { eapply D; eauto; apply Hl; [left|right]; auto. }
      subst; auto. }
  apply G; [apply seq_NoDup|]. intros p Hp. apply in_seq in Hp. lia.
Qed.

(** Position of a simplex in a list. *)
Fixpoint pos (f : simplex) (l : list simplex) : nat :=
  match l with [] => 0 | g :: t => if simplex_eqb f g then 0 else S (pos f t) end.

Lemma pos_nth l i f : NoDup l -> nth_error l i = Some f -> pos f l = i.
Proof.
  intros N. revert i. induction l as [|g t IH]; intros [|i] H; try discriminate; inversion N; subst; simpl in *.
  - inversion H; subst. rewrite (proj2 (simplex_eqb_spec f f) eq_refl). auto.
  - destruct (simplex_eqb f g) eqn:E; [|f_equal; auto].
    apply simplex_eqb_spec in E. subst. apply nth_error_In in H. contradiction.
Qed.

Lemma number_from_at ks f : forall n, In f ks -> map_at (number_from n ks) f = Some (n + pos f ks).
Proof.
  induction ks as [|g t IH]; intros n H; [contradiction|]. cbn [number_from map_at pos].
  destruct (simplex_eqb f g) eqn:E; [f_equal; lia|].
  destruct H as [->|H]; [rewrite (proj2 (simplex_eqb_spec f f) eq_refl) in E; discriminate|].
  rewrite IH by auto. f_equal. lia.
Qed.

Lemma lookup_all_spec m fs g : (forall f, In f fs -> map_at m f = Some (g f)) -> lookup_all m fs = Some (map g fs).
Proof.
  induction fs as [|f t IH]; intro H; auto. cbn [lookup_all]. rewrite H by (left; auto). cbn [bind].
  rewrite IH by (intros; apply H; right; auto). auto.
Qed.
Lemma heads_spec fs : (forall f, In f fs -> length f = 1) -> heads fs = Some (map (fun f => nth 0 f 0) fs).
Proof.
  induction fs as [|f t IH]; intro H; auto. cbn [heads].
  rewrite (nth_error_nth' f 0) by (rewrite H by (left; auto); lia). cbn [bind].
  rewrite IH by (intros; apply H; right; auto). auto.
Qed.
Lemma lookup_data_spec {A} (look : simplex -> option A) d fs : (forall f, In f fs -> exists x, look f = Some x) ->
  lookup_data look fs = Some (map (fun f => get d (look f)) fs).
Proof.
  induction fs as [|f t IH]; intro H; auto. cbn [lookup_data map]. destruct (H f (or_introl eq_refl)) as [x ->].
  cbn [bind get]. rewrite IH by (intros; apply H; right; auto). auto.
Qed.

(** What every rank gets to know about the i-th of its faces: the face, its owner, its global
    number, the ranks it is shared with and the attached data. *)
Definition face_info {A} (lf : local_faces A) (i : nat) :=
  (nth_error (lf_faces lf) i, nth_error (lf_owner lf) i, nth_error (lf_l2cg lf) i,
   shared_ranks (lf_ranks lf) (lf_displs lf) i,
   option_map (fun d => nth_error d i) (lf_data lf)).

(** C19. *)
Theorem faces_correct : forall {A} (dA : A) procs k n plex2rank elems localElems look o,
  0 < procs -> 0 < k <= n ->
  (forall q e, q < procs -> In e (elems q) -> length e = n /\ StronglySorted lt e) ->
  (forall q, q < procs -> localElems q <= length (elems q)) ->
  (forall f p, p < procs -> has_face k (elems p) f -> plex2rank f < procs) ->
  (forall i, Permutation (o i) (seq 0 procs)) ->
  (forall lk f p, look = Some lk -> p < procs -> has_face k (elems p) f -> exists x, lk (plex2rank f) f = Some x) ->
  exists (lf : nat -> local_faces A) (gid : simplex -> nat) (all : list simplex),
    getFaces dA procs k plex2rank elems localElems look o = Some lf /\
    (* the faces of the whole mesh, their numbers *)
    NoDup all /\ (forall f, In f all <-> exists p, p < procs /\ has_face k (elems p) f) /\
    (forall f g, In f all -> In g all -> gid f = gid g -> f = g) /\
    (if k =? 1 then forall v, gid [v] = v else Permutation (map gid all) (seq 0 (length all))) /\
    forall q, q < procs ->
      NoDup (lf_faces (lf q)) /\ faces_consistent (lf q) /\ (lf_data (lf q) = None <-> look = None) /\
      (forall f, In f (lf_faces (lf q)) <-> has_face k (elems q) f) /\
      lf_local_size (lf q) <= length (lf_faces (lf q)) /\
      (forall f, In f (firstn (lf_local_size (lf q)) (lf_faces (lf q)))
                 <-> has_face k (firstn (localElems q) (elems q)) f) /\
      (forall i f, nth_error (lf_faces (lf q)) i = Some f ->
         exists shared, face_info (lf q) i =
           (Some f, Some (plex2rank f), Some (gid f), shared,
            match look with None => None | Some lk => Some (lk (plex2rank f) f) end) /\
           StronglySorted lt shared /\
           forall p, In p shared <-> p < procs /\ p <> q /\ has_face k (elems p) f) /\
      (forall f i, map_at (lf_g2l (lf q)) f = Some i <-> nth_error (lf_faces (lf q)) i = Some f).
Proof.
  intros A dA procs k n p2r elems nl look o H0 Hk HE HN HP HO HL.
  (* faces of one element *)
  assert (DW : forall q e, q < procs -> In e (elems q) ->
     downward k e = Some (faces_of k e) /\
     forall f, In f (faces_of k e) <-> length f = k /\ StronglySorted lt f /\ incl f e).
  { intros q e Hq He. destruct (HE q e Hq He) as [Le Se].
    destruct (downward_spec k e ltac:(lia) Se) as (l & E & I & _). unfold faces_of. rewrite E. auto. }
  assert (FM : forall q es f, q < procs -> incl es (elems q) ->
     (In f (flat_map (faces_of k) es) <-> has_face k es f)).
  { intros q es f Hq Hi. rewrite in_flat_map. unfold has_face. split.
    - intros (e & He & Hf). apply (DW q e Hq (Hi e He)) in Hf. destruct Hf as (? & ? & ?). eauto 6.
    - intros (L & S & e & He & Hf). exists e. split; auto. apply (DW q e Hq (Hi e He)). auto. }
  set (S_ := fun q => flat_map (faces_of k) (elems q)).
  assert (SF : forall q f, q < procs -> (In f (S_ q) <-> has_face k (elems q) f)).
  { intros q f Hq. apply (FM q); auto. apply incl_refl. }
  set (st := fun q => get (scan_init 0) (scan_elems p2r k (nl q) 0 (elems q) (scan_init procs))).
  assert (SC : forall q, q < procs ->
     scan_elems p2r k (nl q) 0 (elems q) (scan_init procs) = Some (st q) /\
     scan_inv procs p2r (S_ q) (st q) /\
     sc_local (st q) = length (firsts (flat_map (faces_of k) (firstn (nl q) (elems q))))).
  { intros q Hq. destruct (scan_spec procs p2r k (nl q) (elems q)) as (s & E & I & L).
    - intros e He. exists (faces_of k e). split; [apply (DW q e Hq He)|]. intros f Hf.
      apply (HP f q Hq). apply SF; auto. apply in_flat_map. eauto.
    - auto.
    - unfold st. rewrite E. auto. }
  set (F := fun p r => nth r (sc_req (st p)) []).
  assert (FI : forall p r f, p < procs -> r < procs -> (In f (F p r) <-> has_face k (elems p) f /\ p2r f = r)).
  { intros p r f Hp Hr. destruct (SC p Hp) as (_ & (_ & R & _) & _). destruct (R r Hr) as [_ I].
    unfold F. rewrite I, SF by auto. tauto. }
  assert (FN : forall p r, p < procs -> r < procs -> NoDup (F p r)).
  { intros p r Hp Hr. destruct (SC p Hp) as (_ & (_ & R & _) & _). apply lex_sorted_NoDup, R. auto. }
  unfold getFaces.
  destruct (collective_ok (scan_init 0) procs (fun q => scan_elems p2r k (nl q) 0 (elems q) (scan_init procs)) st
     (fun q Hq => proj1 (SC q Hq))) as (sc & E1 & Hsc).
  rewrite E1. cbn [bind]. cbv zeta.
  assert (LR : forall q, q < procs -> length (sc_req (st q)) = procs) by (intros q Hq; apply (SC q Hq)).
  set (faces := fun q => concat (sc_req (sc q))).
  assert (HF : forall q, q < procs -> faces q = layout (seq 0 procs) (F q)).
  { intros q Hq. unfold faces. rewrite Hsc, concat_nth, LR by auto. auto. }
  set (counts := fun q => map (@length simplex) (sc_req (sc q))).
  assert (HC : forall q, q < procs -> counts q = map (fun r => length (F q r)) (seq 0 procs)).
  { intros q Hq. unfold counts. rewrite Hsc by auto. apply nth_error_ext. intro i. rewrite !nth_error_map.
    destruct (lt_dec i procs) as [Hi|Hi].
    - rewrite (nth_error_nth' (seq _ _) 0) by (rewrite seq_length; auto). rewrite seq_nth by auto.
      rewrite (nth_error_nth' (sc_req (st q)) []) by (rewrite LR; auto). auto.
    - rewrite !(proj2 (nth_error_None _ _)); auto; rewrite ?seq_length, ?LR by auto; lia. }
  destruct (mk_pat_blocks procs (fun p r => length (F p r)) H0) as (pb & Ep & PB).
  assert (Em : forall q, q < procs -> mk_alltoallv procs counts q = Some (pb q)).
  { intros q Hq. rewrite <- Ep by auto. apply mk_all_ext; auto. }
  destruct (collective_ok no_pattern procs (mk_alltoallv procs counts) pb Em) as (pat0 & E2 & Hpat0).
  rewrite E2. cbn [bind].
  assert (PB0 : pat_blocks procs (fun p r => length (F p r)) (fun _ => seq 0 procs) pat0).
  { eapply pat_blocks_ext; [|exact PB]. intros; symmetry; auto. }
  set (reqF := fun r => layout (seq 0 procs) (fun p => F p r)).
  assert (X1 : forall q, q < procs -> exchange [] pat0 faces (o 0) q = Some (reqF q)).
  { intros q Hq. apply (exchange_blocks [] procs _ _ pat0 F faces (o 0) q H0 PB0); auto. }
  destruct (collective_ok [] procs (exchange [] pat0 faces (o 0)) reqF X1) as (req & E3 & Hreq).
  rewrite E3. cbn [bind].
  set (pat := fun q => swap_pattern (pat0 q)).
  pose proof (pat_blocks_swap _ _ _ _ PB0) as PS. fold pat in PS. cbv beta in PS.
  assert (RI : forall r f, r < procs -> (In f (reqF r) <-> (exists p, p < procs /\ has_face k (elems p) f) /\ p2r f = r)).
  { intros r f Hr. unfold reqF. rewrite in_layout. split.
    - intros (p & Hp & Hf). apply FI in Hf; auto. intuition eauto.
    - intros ((p & Hp & Hf) & E). exists p. split; auto. apply FI; auto. }
  (* global ids *)
  set (own := fun r => owned_set (reqF r)).
  set (off := fun r => sumn (fun p => length (own p)) r).
  set (gid := fun f => if k =? 1 then nth 0 f 0 else off (p2r f) + pos f (own (p2r f))).
  assert (OS : forall q, q < procs -> scan_offset (fun p => length (owned_set (req p))) q = off q).
  { intros q Hq. unfold scan_offset, off. simpl sumn.
    rewrite (sumn_ext (fun p => length (owned_set (req p))) (fun p => length (own p)) q).
    - lia.
    - intros p Hp. unfold own. rewrite Hreq by lia. auto. }
  assert (G1 : forall q, q < procs ->
     gids_local (k =? 1) (scan_offset (fun p => length (owned_set (req p))) q) (req q) = Some (map gid (reqF q))).
  { intros q Hq. rewrite OS, Hreq by auto. unfold gids_local, gid. destruct (Nat.eqb_spec k 1) as [K|K].
    - apply heads_spec. intros f Hf. apply RI in Hf; auto. destruct Hf as ((p & Hp & Lf & _) & _). lia.
    - rewrite (lookup_all_spec _ _ (fun f => off q + pos f (own q))).
      + f_equal. apply map_ext_in. intros f Hf. apply RI in Hf; auto. destruct Hf as (_ & ->). auto.
      + intros f Hf. apply number_from_at. apply (proj2 (owned_set_spec (reqF q))). auto. }
  destruct (collective_ok [] procs _ _ G1) as (g & E4 & Hg). rewrite E4. cbn [bind].
  assert (X2 : forall q, q < procs -> exchange 0 pat g (o 1) q = Some (layout (seq 0 procs) (fun r => map gid (F q r)))).
  { intros q Hq. apply (exchange_blocks 0 procs _ _ pat (fun r p => map gid (F p r)) g (o 1) q H0 PS); auto.
    - intros. apply map_length.
    - intros p Hp. rewrite Hg by auto. apply layout_map. }
  destruct (collective_ok [] procs (exchange 0 pat g (o 1)) _ X2) as (gids & E5 & Hgids).
  rewrite E5. cbn [bind].
  (* data *)
  assert (DT : exists dat : nat -> option (list A),
     match look with
     | None => Some (fun _ : nat => None)
     | Some lk => do d <- collective [] procs (fun q => lookup_data (lk q) (req q));
                  do r <- collective [] procs (exchange dA pat d (o 2));
                  Some (fun q => Some (r q))
     end = Some dat /\
     forall q, q < procs -> dat q = match look with None => None
        | Some lk => Some (layout (seq 0 procs) (fun r => map (fun f => get dA (lk r f)) (F q r))) end).
  { destruct look as [lk|]; [|eexists; split; [reflexivity|auto]].
    assert (D1 : forall q, q < procs -> lookup_data (lk q) (req q) = Some (map (fun f => get dA (lk q f)) (reqF q))).
    { intros q Hq. rewrite Hreq by auto. apply lookup_data_spec. intros f Hf. apply RI in Hf; auto.
      destruct Hf as ((p & Hp & Hf) & E). destruct (HL lk f p eq_refl Hp Hf) as [x Ex]. rewrite <- E. eauto. }
    destruct (collective_ok [] procs _ _ D1) as (d & Ed & Hd). rewrite Ed. cbn [bind].
    assert (D2 : forall q, q < procs -> exchange dA pat d (o 2) q
        = Some (layout (seq 0 procs) (fun r => map (fun f => get dA (lk r f)) (F q r)))).
    { intros q Hq. apply (exchange_blocks dA procs _ _ pat (fun r p => map (fun f => get dA (lk r f)) (F p r)) d (o 2) q H0 PS); auto.
      - intros. apply map_length.
      - intros p Hp. rewrite Hd by auto. apply layout_map. }
    destruct (collective_ok [] procs (exchange dA pat d (o 2)) _ D2) as (r & Er & Hr). rewrite Er. cbn [bind].
    eexists. split; [reflexivity|]. intros q Hq. cbn. rewrite Hr by auto. auto. }
  destruct DT as (dat & E6 & Hdat). rewrite E6. cbn [bind]. clear E6.
  destruct (getSharedRanks_spec procs F (fun _ => seq 0 procs) pat0 req None (o 3) (o 4) H0 PB0 FN) as (sh & E7 & Hsh); auto.
  fold pat in E7. rewrite E7. cbn [bind].
  (* assembling the local faces *)
  set (fs := fun q => layout (seq 0 procs) (F q)).
  set (ow := fun q => layout (seq 0 procs) (fun r => map p2r (F q r))).
  set (key := fun q i => match map_at (sc_order (st q)) (nth i (fs q) []) with Some n => n | None => 0 end).
  set (perm := fun q => sort_by (key q) (seq 0 (length (fs q)))).
  set (bs := fun q => layout (seq 0 procs) (fun r => map (fun f => filter (fun s => negb (s =? q)) (sharers procs F r f)) (F q r))).
  set (lfp := fun q => {| lf_faces := fs q; lf_owner := ow q; lf_l2cg := map gid (fs q);
     lf_local_size := sc_local (st q); lf_g2l := makeG2LMap (fs q); lf_ranks := concat (bs q);
     lf_displs := displacements 0 (map (@length nat) (bs q)); lf_data := dat q; lf_tags := @None (list A) |}).
  assert (Nfs : forall q, q < procs -> NoDup (fs q)).
  { intros q Hq. apply NoDup_layout; [intros; apply FN; auto|].
    intros p r x Hp Hr Hx Hy. apply FI in Hx; auto. apply FI in Hy; auto. destruct Hx, Hy. congruence. }
  assert (Ifs : forall q f, q < procs -> (In f (fs q) <-> has_face k (elems q) f)).
  { intros q f Hq. unfold fs. rewrite in_layout. split.
    - intros (p & Hp & Hf). apply FI in Hf; tauto.
    - intro Hf. exists (p2r f). pose proof (HP f q Hq Hf). split; auto. apply FI; auto. }
  assert (Lbs : forall q, length (bs q) = length (fs q)).
  { intro q. unfold bs, fs. rewrite !layout_length. f_equal. apply map_ext. intro. apply map_length. }
  assert (Low : forall q, q < procs -> ow q = map p2r (fs q)).
  { intros q Hq. unfold ow, fs. rewrite layout_map. auto. }
  assert (Ldat : forall q d, q < procs -> dat q = Some d -> exists lk, look = Some lk /\ d = map (fun f => get dA (lk (p2r f) f)) (fs q)).
  { intros q d Hq Ed. rewrite Hdat in Ed by auto. destruct look as [lk|]; [|discriminate].
    exists lk. split; auto. inversion Ed. unfold fs. rewrite layout_map.
    apply (layout_ext _ procs); [apply Permutation_refl|]. intros r Hr. apply map_ext_in. intros f Hf.
    apply FI in Hf; auto. destruct Hf as (_ & <-). auto. }
  assert (CON : forall q, q < procs -> faces_consistent (lfp q)).
  { intros q Hq. unfold faces_consistent, lfp. cbn [lf_faces lf_owner lf_l2cg lf_data lf_displs lf_ranks].
    split; [apply Nfs; auto|]. split; [rewrite Low, map_length; auto|]. split; [apply map_length|].
    split.
    - intros d Ed. destruct (Ldat q d Hq Ed) as (lk & _ & ->). apply map_length.
    - exists (map (@length nat) (bs q)). split; [rewrite map_length; apply Lbs|]. split; [auto|].
      clear. induction (bs q); auto. simpl. rewrite app_length. unfold list_sum in *. simpl. lia. }
  assert (PP : forall q, Permutation (perm q) (seq 0 (length (fs q)))) by (intro; apply sort_by_perm).
  set (res := fun q => get no_faces (permute_faces (lfp q) (perm q))).
  assert (PF : forall q, q < procs -> permute_faces (lfp q) (perm q) = Some (res q) /\
     faces_consistent (res q) /\ lf_local_size (res q) = sc_local (st q) /\ length (lf_faces (res q)) = length (fs q) /\
     (lf_data (res q) = None <-> dat q = None) /\
     (forall i, i < length (perm q) -> face_record (res q) i = face_record (lfp q) (nth i (perm q) 0)) /\
     (forall f i, map_at (lf_g2l (res q)) f = Some i <-> nth_error (lf_faces (res q)) i = Some f)).
  { intros q Hq. destruct (permute_faces_correct A (lfp q) (perm q) (CON q Hq) (PP q)) as (y & E & C & Ls & Ll & Nd & R & G).
    unfold res. rewrite E. cbn [get]. split; [reflexivity|]. split; [exact C|]. split; [exact Ls|]. split; [exact Ll|]. split; [exact Nd|]. split; [exact R|exact G]. }
  assert (LAST : forall q, q < procs ->
    permute_faces {| lf_faces := faces q;
        lf_owner := concat (map (fun p => repeat p (length (nth p (sc_req (sc q)) []))) (seq 0 procs));
        lf_l2cg := gids q; lf_local_size := sc_local (sc q); lf_g2l := makeG2LMap (faces q);
        lf_ranks := fst (sh q); lf_displs := snd (sh q); lf_data := dat q; lf_tags := None |}
      (sort_by (fun i => match map_at (sc_order (sc q)) (nth i (faces q) []) with Some n => n | None => 0 end)
         (seq 0 (length (faces q)))) = Some (res q)).
  { intros q Hq. rewrite <- (proj1 (PF q Hq)). rewrite (Hsh q Hq), HF, Hsc, Hgids by auto.
    fold (fs q). cbn [fst snd]. unfold lfp, perm. fold (bs q). f_equal. f_equal.
    - unfold ow, layout. f_equal. apply map_ext_in. intros p Hp. apply in_seq in Hp. fold (F q p).
      assert (GG : forall l, (forall f, In f l -> p2r f = p) -> repeat p (length l) = map p2r l).
      { induction l as [|a l IH]; intro Ha; auto. simpl. rewrite Ha by (left; auto). f_equal. apply IH.
        intros; apply Ha; right; auto. }
      apply GG. intros f Hf. apply FI in Hf; [tauto|auto|lia].
    - unfold fs. rewrite layout_map. auto. }
  destruct (collective_ok no_faces procs _ _ LAST) as (lf & E8 & Hlf).
  exists lf, gid, (layout (seq 0 procs) own).
  split; [exact E8|].
  assert (OI : forall r f, r < procs -> (In f (own r) <-> (exists p, p < procs /\ has_face k (elems p) f) /\ p2r f = r)).
  { intros r f Hr. unfold own. rewrite (proj2 (owned_set_spec _)). apply RI; auto. }
  assert (ON : forall r, NoDup (own r)) by (intro; apply lex_sorted_NoDup, owned_set_spec).
  assert (NA : NoDup (layout (seq 0 procs) own)).
  { apply NoDup_layout; [auto|]. intros p q x Hp Hq Hx Hy. apply OI in Hx; auto. apply OI in Hy; auto.
    destruct Hx, Hy; congruence. }
  assert (IA : forall f, In f (layout (seq 0 procs) own) <-> exists p, p < procs /\ has_face k (elems p) f).
  { intro f. rewrite in_layout. split.
    - intros (r & Hr & Hf). apply OI in Hf; tauto.
    - intros (p & Hp & Hf). exists (p2r f). pose proof (HP f p Hp Hf). split; auto. apply OI; eauto. }
  (* numbering of all faces *)
  assert (GID : k <> 1 -> map gid (layout (seq 0 procs) own) = seq 0 (length (layout (seq 0 procs) own))).
  { intro K.
    assert (GG : forall m, m <= procs -> map gid (layout (seq 0 m) own) = seq 0 (off m)).
    { induction m as [|m IH]; intro Hm; [reflexivity|].
      unfold layout in *. rewrite seq_S, map_app, concat_app, map_app, IH by lia. cbn [map concat Nat.add].
      rewrite app_nil_r. change (off (S m)) with (off m + length (own m)). rewrite seq_app. f_equal.
      apply nth_error_ext. intro i. rewrite nth_error_map. destruct (lt_dec i (length (own m))) as [Hi|Hi].
      - rewrite (nth_error_nth' (seq _ _) 0) by (rewrite seq_length; auto). rewrite seq_nth by auto.
        destruct (nth_error_lt (own m) i Hi) as [f Ef]. rewrite Ef. cbn [option_map].
        pose proof (nth_error_In _ _ Ef) as If. apply OI in If; [|lia]. destruct If as (_ & Er).
        unfold gid. rewrite (proj2 (Nat.eqb_neq k 1) K). rewrite Er. rewrite (pos_nth _ _ _ (ON m) Ef). auto.
      - rewrite !(proj2 (nth_error_None _ _)); auto; rewrite ?seq_length; lia. }
    rewrite GG by auto. f_equal. rewrite layout_length. unfold off. rewrite sumn_list. auto. }
  split; [exact NA|]. split; [exact IA|].
  split.
  { intros f g0 Hf Hg0 Egid. destruct (Nat.eq_dec k 1) as [K|K].
    - unfold gid in Egid. rewrite (proj2 (Nat.eqb_eq k 1) K) in Egid.
      apply IA in Hf. apply IA in Hg0. destruct Hf as (_ & _ & Lf & _), Hg0 as (_ & _ & Lg & _).
      destruct f as [|a [|]]; simpl in Lf; try lia. destruct g0 as [|b [|]]; simpl in Lg; try lia. simpl in Egid. congruence.
    - specialize (GID K). apply In_nth_error in Hf. destruct Hf as [i Hi]. apply In_nth_error in Hg0. destruct Hg0 as [j Hj].
      assert (N2 : NoDup (map gid (layout (seq 0 procs) own))) by (rewrite GID; apply seq_NoDup).
      assert (i = j).
      { apply (proj1 (NoDup_nth_error _) N2).
        - rewrite map_length. apply nth_error_Some. congruence.
        - rewrite !nth_error_map, Hi, Hj. cbn. congruence. }
      subst. congruence. }
  split.
  { destruct (Nat.eqb_spec k 1) as [K|K]; [unfold gid|rewrite GID by auto; apply Permutation_refl].
    intro v. destruct (Nat.eqb_spec k 1); [reflexivity|contradiction]. }
  intros q Hq. rewrite Hlf by auto. destruct (PF q Hq) as (_ & CN & LS & LL & ND' & REC & G2).
  assert (LP : length (perm q) = length (fs q)) by (rewrite (Permutation_length (PP q)), seq_length; auto).
  destruct (SC q Hq) as (_ & (_ & _ & ORD & _) & LOC).
  assert (LF : lf_faces (res q) = firsts (S_ q)).
  { transitivity (map (fun i => nth i (fs q) []) (perm q)).
    - apply nth_error_ext. intro i. rewrite nth_error_map. destruct (lt_dec i (length (perm q))) as [Hi|Hi].
      + specialize (REC i Hi). unfold face_record in REC. inversion REC as [[R1 R2 R3 R4 R5]]. rewrite R1.
        rewrite (nth_error_nth' (perm q) 0) by auto. cbn [option_map lfp lf_faces].
        apply nth_error_nth'. assert (In (nth i (perm q) 0) (seq 0 (length (fs q)))).
        { apply (Permutation_in _ (PP q)), nth_In; auto. }
        apply in_seq in H. lia.
      + rewrite !(proj2 (nth_error_None _ _)); auto; try lia.
    - apply sort_by_order; [apply Nfs; auto|apply firsts_NoDup| |].
      + intro f. rewrite firsts_in, SF, Ifs by auto. tauto.
      + intros i f Hf. unfold key. rewrite (nth_of_nth_error _ _ _ _ Hf).
        assert (If : In f (firsts (S_ q))).
        { apply firsts_in, SF; auto. apply Ifs; auto. eapply nth_error_In; eauto. }
        apply In_nth_error in If. destruct If as [j Hj]. pose proof (proj2 (ORD f j) Hj) as M. rewrite M. auto. }
  assert (BO : blocks_ok (bs q) (concat (bs q)) (displacements 0 (map (@length nat) (bs q)))) by (split; auto).
  split; [rewrite LF; apply firsts_NoDup|]. split; [exact CN|].
  split; [rewrite ND', Hdat by auto; destruct look; split; congruence|].
  split; [intro f; rewrite LF, firsts_in; apply SF; auto|].
  assert (PRE : firstn (lf_local_size (res q)) (lf_faces (res q)) = firsts (flat_map (faces_of k) (firstn (nl q) (elems q)))).
  { rewrite LS, LOC, LF. unfold S_. rewrite <- (firstn_skipn (nl q) (elems q)) at 2.
    rewrite flat_map_app. apply firsts_app. }
  split.
  { rewrite LS, LOC, <- PRE, firstn_length. lia. }
  split.
  { intro f. rewrite PRE, firsts_in. apply (FM q); auto. intros e He.
    rewrite <- (firstn_skipn (nl q) (elems q)). apply in_or_app. auto. }
  split; [|exact G2].
  intros i f Hf.
  assert (Hi : i < length (perm q)).
  { rewrite LP, <- LL. apply nth_error_Some. congruence. }
  specialize (REC i Hi). unfold face_record in REC.
  set (j := nth i (perm q) 0) in *.
  assert (Hj : j < length (fs q)).
  { assert (In j (seq 0 (length (fs q)))) by (apply (Permutation_in _ (PP q)), nth_In; auto). apply in_seq in H. lia. }
  inversion REC as [[R1 R2 R3 R4 R5]]. cbn [lfp lf_faces] in R1. rewrite Hf in R1. symmetry in R1.
  exists (filter (fun s => negb (s =? q)) (sharers procs F (p2r f) f)).
  assert (Hff : has_face k (elems q) f) by (apply Ifs; auto; eapply nth_error_In; eauto).
  pose proof (HP f q Hq Hff) as Hr.
  split.
  - unfold face_info. rewrite Hf, R2, R3, R4, R5. cbn [lfp lf_owner lf_l2cg lf_ranks lf_displs lf_data].
    rewrite Low by auto. rewrite !nth_error_map, R1. cbn [option_map].
    rewrite (blocks_shared (bs q)) by (auto; rewrite Lbs; auto).
    assert (EB : nth j (bs q) [] = filter (fun s => negb (s =? q)) (sharers procs F (p2r f) f)).
    { assert (BM : bs q = map (fun f => filter (fun s => negb (s =? q)) (sharers procs F (p2r f) f)) (fs q)).
      { unfold bs, fs. rewrite layout_map. apply (layout_ext _ procs); [apply Permutation_refl|].
        intros r Hrr. apply map_ext_in. intros g0 Hg0. apply FI in Hg0; auto. destruct Hg0 as (_ & <-). auto. }
      rewrite BM. apply nth_of_nth_error. rewrite nth_error_map, R1. auto. }
    rewrite EB. f_equal.
    destruct (dat q) as [d|] eqn:Ed.
    + destruct (Ldat q d Hq Ed) as (lk & Elk & ->). rewrite Elk. cbn [option_map].
      rewrite nth_error_map, R1. cbn [option_map]. destruct (HL lk f q Elk Hq Hff) as [x ->]. auto.
    + rewrite Hdat in Ed by auto. destruct look; [discriminate|]. auto.
  - split.
    + assert (GS : forall P l, StronglySorted lt l -> StronglySorted lt (filter P l)).
      { intros P l S. induction S as [|a l S IH FF]; simpl; [constructor|]. destruct (P a); auto.
        constructor; auto. rewrite Forall_forall in *. intros x Hx. apply filter_In in Hx. apply FF. tauto. }
      apply GS. unfold sharers. apply GS. clear. generalize 0. induction procs; intro a; simpl; constructor; auto.
      apply Forall_forall. intros x Hx. apply in_seq in Hx. lia.
    + intro p. unfold sharers. rewrite !filter_In, in_seq, mem_spec, negb_true_iff, Nat.eqb_neq.
      split.
      * intros ((Hp & Hm) & Hne). apply FI in Hm; [|lia|auto]. split; [lia|]. tauto.
      * intros (Hp & Hne & Hh). split; [split; [lia|]|auto]. apply FI; auto.
Qed.
Print Assumptions faces_correct.

(** Two triangles on two ranks, edges (k = 2). *)
Definition ex_elems (q : nat) : list simplex := match q with 0 => [[0; 1; 2]] | 1 => [[1; 2; 3]] | _ => [] end.
Definition ex_rank (f : simplex) : nat := nth 0 f 0 mod 2.
Example faces_example :
  match getFaces 0 2 2 ex_rank ex_elems (fun _ => 1) (Some (fun q f => Some (10 * nth 0 f 0 + nth 1 f 0))) (fun _ => [1; 0]) with
  | None => False
  | Some lf => lf_faces (lf 0) = [[0; 1]; [0; 2]; [1; 2]] /\ lf_l2cg (lf 0) = [0; 1; 3] /\
      lf_faces (lf 1) = [[1; 2]; [1; 3]; [2; 3]] /\ lf_l2cg (lf 1) = [3; 4; 2] /\
      shared_ranks (lf_ranks (lf 0)) (lf_displs (lf 0)) 2 = [1] /\
      shared_ranks (lf_ranks (lf 1)) (lf_displs (lf 1)) 1 = [] /\
      lf_data (lf 1) = Some [12; 13; 23]
  end.
Proof. vm_compute. repeat split; reflexivity. Qed.

(** The owner of a face need not have the face: edge {2,3} above belongs to rank 0, which does not
    hold it.  (Only element ownership is used for communication.) *)
Theorem owner_has_face_refuted : exists procs k plex2rank elems lf q f i,
  getFaces 0 procs k plex2rank elems (fun q => length (elems q)) None (fun _ => seq 0 procs) = Some lf /\
  q < procs /\ nth_error (lf_faces (lf q)) i = Some f /\
  exists r, nth_error (lf_owner (lf q)) i = Some r /\ r < procs /\ ~ In f (lf_faces (lf r)).
Proof.
  exists 2, 2, ex_rank, ex_elems. eexists. exists 1, [2; 3], 2.
  split; [vm_compute; reflexivity|]. split; [lia|]. split; [reflexivity|].
  exists 0. split; [reflexivity|]. split; [lia|]. vm_compute. intuition discriminate.
Qed.
Print Assumptions owner_has_face_refuted.

(** C19, data: vertex coordinates.  [vdata q] are the coordinates rank q read; the vertex with
    number v is the v-th of all of them in rank order. *)
Lemma vertex_lookup_spec {A} procs (vdata : nat -> list A) v :
  (Z.of_nat (length (concat (map vdata (seq 0 procs)))) < 2 ^ 64)%Z ->
  v < length (concat (map vdata (seq 0 procs))) ->
  let dist := makeSortedDistribution (map (fun q => Z.of_nat (length (vdata q))) (seq 0 procs)) in
  vertex_rank dist [v] < procs /\
  vertex_lookup dist vdata (vertex_rank dist [v]) [v] = nth_error (concat (map vdata (seq 0 procs))) v.
Proof.
  intros HB Hv dist.
  set (counts := map (fun q => Z.of_nat (length (vdata q))) (seq 0 procs)) in *.
  assert (ZS : forall m, m <= procs -> fold_right Z.add 0%Z (firstn m counts) = Z.of_nat (length (concat (map vdata (seq 0 m))))).
  { intros m Hm. unfold counts. rewrite firstn_map.
    replace (firstn m (seq 0 procs)) with (seq 0 m).
    2:{ replace procs with (m + (procs - m)) by lia. rewrite seq_app, firstn_app, seq_length, Nat.sub_diag.
        rewrite firstn_all2 by (rewrite seq_length; lia). rewrite app_nil_r. auto. }
    clear. induction (seq 0 m); auto. cbn. rewrite app_length, Nat2Z.inj_add, IHl. auto. }
  assert (LC : length counts = procs) by (unfold counts; rewrite map_length, seq_length; auto).
  assert (NN : Forall (fun c => (0 <= c)%Z) counts).
  { apply Forall_forall. intros x Hx. apply in_map_iff in Hx. destruct Hx as (q & <- & _). lia. }
  assert (TOT : fold_right Z.add 0%Z counts = Z.of_nat (length (concat (map vdata (seq 0 procs))))).
  { rewrite <- (ZS procs (le_n _)). rewrite <- LC, firstn_all. auto. }
  destruct (sorted_lookup_correct counts (Z.of_nat v) NN ltac:(lia) ltac:(lia)) as (r & E & (Hr & O1 & O2) & _).
  fold dist in E. rewrite LC in Hr.
  destruct (sorted_distribution_prefix_sums counts NN ltac:(lia)) as [_ PS]. fold dist in PS.
  unfold vertex_rank. cbn [nth]. rewrite E. cbn [get]. split; [auto|].
  unfold vertex_lookup. rewrite (PS r) by lia. rewrite (PS (r + 1)) by lia. cbn [bind nth].
  rewrite (ZS r) in * by lia. replace (S r) with (r + 1) in * by lia. rewrite (ZS (r + 1)) in * by lia.
  replace ((_ <=? _) && (_ <? _))%Z with true.
  2:{ symmetry. apply andb_true_iff. split; [apply Z.leb_le|apply Z.ltb_lt]; lia. }
  replace (seq 0 procs) with (seq 0 r ++ r :: seq (S r) (procs - S r)).
  2:{ replace procs with (r + S (procs - S r)) at 2 by lia. rewrite seq_app. reflexivity. }
  rewrite map_app, concat_app. cbn [map concat].
  rewrite nth_error_app2 by lia. rewrite nth_error_app1.
  - f_equal. lia.
  - replace (r + 1) with (S r) in O2 by lia. rewrite seq_S, map_app, concat_app, app_length in O2.
    cbn [map concat Nat.add] in O2. rewrite app_nil_r in O2. lia.
Qed.

Theorem vertex_data_attached : forall {A} (dA : A) procs n elems localElems vdata o,
  0 < procs -> 0 < n ->
  (forall q e, q < procs -> In e (elems q) -> length e = n /\ StronglySorted lt e) ->
  (forall q, q < procs -> localElems q <= length (elems q)) ->
  (forall i, Permutation (o i) (seq 0 procs)) ->
  let all := concat (map vdata (seq 0 procs)) in
  (Z.of_nat (length all) < 2 ^ 64)%Z ->
  (forall q e v, q < procs -> In e (elems q) -> In v e -> v < length all) ->
  let dist := makeSortedDistribution (map (fun q => Z.of_nat (length (vdata q))) (seq 0 procs)) in
  exists lf : nat -> local_faces A,
    getFaces dA procs 1 (vertex_rank dist) elems localElems (Some (vertex_lookup dist vdata)) o = Some lf /\
    forall q, q < procs ->
      (forall v, In [v] (lf_faces (lf q)) <-> exists e, In e (elems q) /\ In v e) /\
      exists d, lf_data (lf q) = Some d /\
        forall i, i < length (lf_faces (lf q)) -> exists v, nth_error (lf_faces (lf q)) i = Some [v] /\
          nth_error (lf_l2cg (lf q)) i = Some v /\ nth_error d i = nth_error all v /\ v < length all.
Proof.
  intros A dA procs n elems nl vdata o H0 Hn HE HN HO all HB HV dist.
  assert (FV : forall f p, p < procs -> has_face 1 (elems p) f -> exists v, f = [v] /\ v < length all /\ exists e, In e (elems p) /\ In v e).
  { intros f p Hp (L & _ & e & He & Hi). destruct f as [|v [|]]; try discriminate. exists v.
    split; auto. assert (In v e) by (apply Hi; left; auto). eauto 6. }
  destruct (faces_correct dA procs 1 n (vertex_rank dist) elems nl (Some (vertex_lookup dist vdata)) o) as
    (lf & gid & af & E & _ & _ & _ & G1 & R); auto; try lia.
  { intros f p Hp Hf. destruct (FV f p Hp Hf) as (v & -> & Hv & _). apply (vertex_lookup_spec procs vdata v HB Hv). }
  { intros lk f p Elk Hp Hf. inversion Elk; subst lk. destruct (FV f p Hp Hf) as (v & -> & Hv & _).
    destruct (vertex_lookup_spec procs vdata v HB Hv) as (_ & L). fold dist in L. rewrite L.
    apply nth_error_lt. auto. }
  exists lf. split; auto. intros q Hq. destruct (R q Hq) as (ND & CN & DN & I & _ & _ & P & _). split.
  - intro v. rewrite I. split.
    + intro Hf. destruct (FV [v] q Hq Hf) as (w & Ew & _ & X). inversion Ew; subst. auto.
    + intros (e & He & Hv). split; auto. split; [repeat constructor|]. exists e. split; auto. intros x [<-|[]]. auto.
  - destruct (lf_data (lf q)) as [d|] eqn:Ed.
    + exists d. split; auto. intros i Hi. destruct (nth_error_lt _ i Hi) as [f Ef].
      destruct (P i f Ef) as (sh & FIq & _). unfold face_info in FIq. rewrite Ed in FIq. inversion FIq as [[R1 R2 R3 R4 R5]].
      destruct (FV f q Hq) as (v & -> & Hv & _); [apply I; eapply nth_error_In; eauto|].
      exists v. split; auto. cbn [Nat.eqb] in G1. rewrite R3, G1. split; auto. split; auto.
      rewrite R5. apply (vertex_lookup_spec procs vdata v HB Hv).
    + apply proj1 in DN. specialize (DN eq_refl). discriminate.
Qed.
Print Assumptions vertex_data_attached.

Example vertex_data_example :
  let elems q := match q with 0 => [[0; 2]] | 1 => [[2; 3]] | _ => [] end in
  let vdata q := match q with 0 => [100; 101; 102] | 1 => [103] | _ => [] end in
  let dist := makeSortedDistribution (map (fun q => Z.of_nat (length (vdata q))) (seq 0 2)) in
  match getFaces 0 2 1 (vertex_rank dist) elems (fun _ => 1) (Some (vertex_lookup dist vdata)) (fun _ => [0; 1]) with
  | Some lf => lf_faces (lf 0) = [[0]; [2]] /\ lf_data (lf 0) = Some [100; 102] /\
               lf_faces (lf 1) = [[2]; [3]] /\ lf_data (lf 1) = Some [102; 103]
  | None => False
  end.
Proof. vm_compute. repeat split; reflexivity. Qed.

(** C19, data: boundary conditions.  [belems q], [bdata q]: boundary elements with their conditions
    after repartitionByHash (partition_flag_truthful), globally without duplicates. *)
Theorem boundary_data_attached : forall {A} (dA bc_none : A) procs k n plex2rank elems localElems belems bdata o,
  0 < procs -> 0 < k <= n ->
  (forall q e, q < procs -> In e (elems q) -> length e = n /\ StronglySorted lt e) ->
  (forall q, q < procs -> localElems q <= length (elems q)) ->
  (forall f p, p < procs -> has_face k (elems p) f -> plex2rank f < procs) ->
  (forall i, Permutation (o i) (seq 0 procs)) ->
  (forall q, q < procs -> NoDup (belems q) /\ length (bdata q) = length (belems q) /\
     forall f, In f (belems q) -> plex2rank f = q) ->
  exists lf : nat -> local_faces A,
    getFaces dA procs k plex2rank elems localElems (Some (boundary_lookup bc_none belems bdata)) o = Some lf /\
    forall q, q < procs ->
      (forall f, In f (lf_faces (lf q)) <-> has_face k (elems q) f) /\
      exists d, lf_data (lf q) = Some d /\ length d = length (lf_faces (lf q)) /\
        forall i f, nth_error (lf_faces (lf q)) i = Some f ->
          (forall p j, p < procs -> nth_error (belems p) j = Some f -> nth_error d i = nth_error (bdata p) j) /\
          ((forall p, p < procs -> ~ In f (belems p)) -> nth_error d i = Some bc_none).
Proof.
  intros A dA bcn procs k n p2r elems nl belems bdata o H0 Hk HE HN HP HO HBE.
  assert (LK : forall f, p2r f < procs ->
     (forall j, nth_error (belems (p2r f)) j = Some f -> boundary_lookup bcn belems bdata (p2r f) f = nth_error (bdata (p2r f)) j) /\
     (~ In f (belems (p2r f)) -> boundary_lookup bcn belems bdata (p2r f) f = Some bcn) /\
     exists x, boundary_lookup bcn belems bdata (p2r f) f = Some x).
  { intros f Hf. destruct (HBE _ Hf) as (ND & L & _). unfold boundary_lookup. split; [|split].
    - intros j Hj. apply (g2l_some _ f j ND) in Hj. rewrite Hj. auto.
    - intro Hn. destruct (map_at (makeG2LMap (belems (p2r f))) f) as [j|] eqn:M; auto.
      apply (g2l_some _ f j ND) in M. apply nth_error_In in M. contradiction.
    - destruct (map_at (makeG2LMap (belems (p2r f))) f) as [j|] eqn:M; [|eauto].
      apply (g2l_some _ f j ND) in M. apply nth_error_lt. rewrite L. apply nth_error_Some. congruence. }
  destruct (faces_correct dA procs k n p2r elems nl (Some (boundary_lookup bcn belems bdata)) o) as
    (lf & gid & af & E & _ & _ & _ & _ & R); auto.
  { intros lk f p Elk Hp Hf. inversion Elk; subst lk. apply LK. eauto. }
  exists lf. split; auto. intros q Hq. destruct (R q Hq) as (ND & CN & DN & I & _ & _ & P & _). split; auto.
  destruct (lf_data (lf q)) as [d|] eqn:Ed; [|apply proj1 in DN; specialize (DN eq_refl); discriminate].
  exists d. split; auto. split; [apply CN; auto|]. intros i f Ef.
  destruct (P i f Ef) as (sh & FIq & _). unfold face_info in FIq. rewrite Ed in FIq. inversion FIq as [[R1 R2 R3 R4 R5]].
  assert (Hf : has_face k (elems q) f) by (apply I; eapply nth_error_In; eauto).
  pose proof (HP f q Hq Hf) as Hr. destruct (LK f Hr) as (L1 & L2 & _). split.
  - intros p j Hp Hj. rewrite ?Ef in Hj. rewrite R5. destruct (HBE p Hp) as (_ & _ & Hpr).
    assert (Ep : p2r f = p) by (apply Hpr; eapply nth_error_In; exact Hj). rewrite <- Ep. apply L1. rewrite Ep. exact Hj.
  - intro Hn. rewrite R5. apply L2. auto.
Qed.
Print Assumptions boundary_data_attached.

Example boundary_data_example :
  let belems q := match q with 0 => [[0; 2]; [0; 1]] | 1 => [[1; 3]] | _ => [] end in
  let bdata q := match q with 0 => [5; 1] | 1 => [3] | _ => [] end in
  match getFaces 0 2 2 ex_rank ex_elems (fun _ => 1) (Some (boundary_lookup 0 belems bdata)) (fun _ => [1; 0]) with
  | Some lf => lf_faces (lf 0) = [[0; 1]; [0; 2]; [1; 2]] /\ lf_data (lf 0) = Some [1; 5; 0] /\
               lf_faces (lf 1) = [[1; 2]; [1; 3]; [2; 3]] /\ lf_data (lf 1) = Some [0; 3; 0]
  | None => False
  end.
Proof. vm_compute. repeat split; reflexivity. Qed.
