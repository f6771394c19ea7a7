(** getSharedRanks in terms of blocks. *)
Require Import List Arith Bool Lia Permutation Sorted.
Require Import Verif.Base Verif.CommModel Verif.CommProofs Verif.CommBlocks Verif.SimplexModel
  Verif.SimplexProofs Verif.AlgorithmModel Verif.LocalMeshModel Verif.LocalMeshProofs
  Verif.PartitionModel Verif.PartitionProofs Verif.FacesModel Verif.FacesProofs.
Import ListNotations.
Local Open Scope opt_scope.

(** Reading the block of rank p out of a buffer laid out in blocks. *)
Lemma block_range {A} procs counts perm ds (blk : nat -> list A) p :
  Permutation perm (seq 0 procs) -> length counts = procs -> p < procs ->
  (forall r, r < procs -> nth r counts 0 = length (blk r)) ->
  displs_of counts perm ds ->
  map (nth_error (layout perm blk)) (seq (nth p ds 0) (nth p counts 0)) = map Some (blk p).
Proof.
  intros P Lc Hp Hb [D1 D2].
  pose proof (perm_seq_is_perm _ _ P) as IP.
  destruct (is_perm_surj _ _ IP p Hp) as (i & Hi & Ei).
  apply nth_error_ext. intro j. rewrite !nth_error_map.
  destruct (lt_dec j (length (blk p))) as [Hj|Hj].
  - rewrite (nth_error_nth' (seq _ _) 0) by (rewrite seq_length, Hb; auto).
    rewrite seq_nth by (rewrite Hb; auto). cbn [option_map].
    rewrite <- Ei. rewrite D2 by lia. unfold psum.
    rewrite (sumn_ext _ (fun j => length (blk (nth j perm 0)))).
    2:{ intros a Ha. apply Hb. apply IP. lia. }
    rewrite layout_nth; [|rewrite (perm_seq_len _ _ P); auto|rewrite Ei; auto].
    rewrite Ei. destruct (nth_error_lt (blk p) j Hj) as [x ->]. auto.
  - rewrite (proj2 (nth_error_None (seq _ _) j)) by (rewrite seq_length, Hb; auto; lia).
    rewrite (proj2 (nth_error_None (blk p) j)) by lia. auto.
Qed.

Lemma info_range_spec req p is fs : map (nth_error req) is = map Some fs ->
  info_range req p is = Some (map (fun f => (f, p)) fs).
Proof.
  revert fs. induction is as [|i t IH]; intros [|f fs] H; try discriminate; auto.
  inversion H as [[H1 H2]]. cbn [info_range]. rewrite H1. cbn [bind]. rewrite (IH fs H2). auto.
Qed.
Lemma shared_range_spec info req pp is fs : map (nth_error req) is = map Some fs ->
  shared_range info req pp is = Some (concat (map (fun f => filter (fun s => negb (s =? pp)) (info_get info f)) fs)).
Proof.
  revert fs. induction is as [|i t IH]; intros [|f fs] H; try discriminate; auto.
  inversion H as [[H1 H2]]. cbn [shared_range]. rewrite H1. cbn [bind]. rewrite (IH fs H2). auto.
Qed.

Definition sharers (procs : nat) (F : nat -> nat -> list (list nat)) (r : nat) (f : list nat) : list nat :=
  filter (fun p => mem f (F p r)) (seq 0 procs).

Lemma info_get_blocks (F : nat -> list (list nat)) f l : (forall p, In p l -> NoDup (F p)) ->
  info_get (concat (map (fun p => map (fun f => (f, p)) (F p)) l)) f = filter (fun p => mem f (F p)) l.
Proof.
  unfold info_get. induction l as [|p l IH]; intro H; auto. simpl. rewrite filter_app, map_app.
  rewrite IH by (intros; apply H; right; auto).
  assert (N := H p (or_introl eq_refl)).
  assert (E : map snd (filter (fun kv : list nat * nat => simplex_eqb (fst kv) f) (map (fun f => (f, p)) (F p)))
     = if mem f (F p) then [p] else []).
  { clear -N. induction (F p) as [|g t IHt]; auto. inversion N; subst. specialize (IHt H2).
    simpl. destruct (simplex_eqb g f) eqn:E.
    - apply simplex_eqb_spec in E. subst g. rewrite (proj2 (simplex_eqb_spec f f) eq_refl). simpl.
      rewrite IHt. rewrite (proj2 (mem_false f t) H1). auto.
    - replace (simplex_eqb f g) with false; [exact IHt|]. symmetry.
      destruct (simplex_eqb f g) eqn:E'; auto. apply simplex_eqb_spec in E'. subst.
      rewrite (proj2 (simplex_eqb_spec g g) eq_refl) in E. discriminate. }
  rewrite E. destruct (mem f (F p)); auto.
Qed.

Lemma filter_remove_length p l : NoDup l -> In p l -> length (filter (fun s => negb (s =? p)) l) = length l - 1.
Proof.
  induction l as [|a l IH]; intros N H; [contradiction|]. inversion N; subst. simpl.
  destruct (Nat.eqb_spec a p) as [->|Hne]; simpl.
  - rewrite Nat.sub_0_r. f_equal. clear -H2. induction l as [|b l IH]; auto. simpl.
    destruct (Nat.eqb_spec b p); [subst; exfalso; apply H2; left; auto|]. simpl. f_equal.
    apply IH. intro; apply H2; right; auto.
  - destruct H as [->|H]; [congruence|]. rewrite IH by auto.
    destruct l; [contradiction|]. simpl. lia.
Qed.

Lemma layout_map {A B} (g : A -> B) perm (blk : nat -> list A) :
  map g (layout perm blk) = layout perm (fun p => map g (blk p)).
Proof. unfold layout. rewrite concat_map, map_map. auto. Qed.
Lemma layout_concat {A} perm (blk : nat -> list (list A)) :
  concat (layout perm blk) = layout perm (fun p => concat (blk p)).
Proof. unfold layout. induction perm; simpl; auto. rewrite concat_app, IHperm. auto. Qed.
Lemma layout_ext {A} perm procs (b b' : nat -> list A) : Permutation perm (seq 0 procs) ->
  (forall p, p < procs -> b p = b' p) -> layout perm b = layout perm b'.
Proof.
  intros P H. unfold layout. f_equal. apply map_ext_in. intros p Hp. apply H.
  apply (Permutation_in _ P) in Hp. apply in_seq in Hp. lia.
Qed.

Lemma range_sum_block procs counts perm ds (blk : nat -> list nat) p :
  Permutation perm (seq 0 procs) -> length counts = procs -> p < procs ->
  (forall r, r < procs -> nth r counts 0 = length (blk r)) ->
  displs_of counts perm ds ->
  range_sum (layout perm blk) (nth p ds 0, nth p ds 0 + nth p counts 0) = list_sum (blk p).
Proof.
  intros P Lc Hp Hb D. pose proof (block_range procs counts perm ds blk p P Lc Hp Hb D) as E.
  unfold range_sum, range. cbn [fst snd]. replace (_ + nth p counts 0 - _) with (nth p counts 0) by lia.
  f_equal. revert E. generalize (seq (nth p ds 0) (nth p counts 0)) (blk p). clear.
  induction l as [|i t IH]; intros [|x l0] E; try discriminate; auto.
  inversion E as [[E1 E2]]. simpl. f_equal; [apply nth_of_nth_error; auto|auto].
Qed.

Lemma mk2_pat_blocks procs cnt sc rc :
  0 < procs -> (forall q, q < procs -> sc q = map (cnt q) (seq 0 procs)) ->
  (forall q, q < procs -> rc q = map (fun p => cnt p q) (seq 0 procs)) ->
  exists pat, (forall q, q < procs -> mk_alltoallv2 (sc q) (rc q) = Some (pat q)) /\
    pat_blocks procs cnt (fun _ => seq 0 procs) pat.
Proof.
  intros H0 Hs Hr. destruct (mk_pat_blocks procs cnt H0) as (pat & E & PB).
  exists pat. split; auto. intros q Hq. specialize (E q Hq). unfold mk_alltoallv2, mk_alltoallv in *.
  rewrite Hs, Hr by auto.
  replace (map (fun p => cnt p q) (seq 0 procs))
    with (map (fun p => nth q (map (cnt p) (seq 0 procs)) 0) (seq 0 procs)); [exact E|].
  apply map_ext. intro p. apply (nth_map_seq (cnt p)); auto.
Qed.

(** [F p r]: what rank p requests from rank r, as laid out in p's buffer in the order [permq p]. *)
Lemma getSharedRanks_spec procs F permq pat0 req perms o1 o2 :
  0 < procs ->
  pat_blocks procs (fun p r => length (F p r)) permq pat0 ->
  (forall p r, p < procs -> r < procs -> NoDup (F p r)) ->
  (forall r, r < procs -> req r = layout (permq r) (fun p => F p r)) ->
  (match perms with None => forall q, q < procs -> permq q = seq 0 procs
   | Some pm => forall q, q < procs -> pm q = permq q end) ->
  Permutation o1 (seq 0 procs) -> Permutation o2 (seq 0 procs) ->
  exists sh, getSharedRanks procs (fun q => swap_pattern (pat0 q)) req perms o1 o2 = Some sh /\
    forall q, q < procs ->
      let bs := layout (permq q) (fun r => map (fun f => filter (fun s => negb (s =? q)) (sharers procs F r f)) (F q r)) in
      sh q = (concat bs, displacements 0 (map (@length nat) bs)).
Proof.
  intros H0 PB ND HR HP P1 P2.
  set (pat := fun q => swap_pattern (pat0 q)).
  pose proof (pat_blocks_swap _ _ _ _ PB) as PS. fold pat in PS. cbv beta in PS.
  (* info *)
  set (infoF := fun r => concat (map (fun p => map (fun f => (f, p)) (F p r)) (seq 0 procs))).
  assert (SR : forall r p, r < procs -> p < procs ->
     map (nth_error (req r)) (range (sendRange (pat r) p)) = map Some (F p r)).
  { intros r p Hr Hp. destruct (PS r Hr) as (P & S & _ & DS & _). rewrite HR by auto.
    unfold range, sendRange. cbn [fst snd]. replace (_ + nth p (sendcounts (pat r)) 0 - _) with (nth p (sendcounts (pat r)) 0) by lia.
    apply (block_range procs (sendcounts (pat r)) (permq r) (sdispls (pat r)) (fun p => F p r) p); auto.
    - rewrite S, map_length, seq_length. auto.
    - intros a Ha. rewrite S, (nth_map_seq (fun q => length (F q r))) by auto. auto. }
  assert (I1 : forall r, r < procs -> shared_info (req r) (pat r) (seq 0 procs) = Some (infoF r)).
  { intros r Hr. unfold infoF.
    assert (G : forall l, (forall p, In p l -> p < procs) -> shared_info (req r) (pat r) l
       = Some (concat (map (fun p => map (fun f => (f, p)) (F p r)) l))).
    { induction l as [|p l IH]; intro Hl; auto. cbn [shared_info].
      rewrite (info_range_spec _ _ _ _ (SR r p Hr (Hl p (or_introl eq_refl)))). cbn [bind].
      rewrite IH by (intros; apply Hl; right; auto). auto. }
    apply G. intros p Hp. apply in_seq in Hp. lia. }
  assert (IG : forall r f, r < procs -> info_get (infoF r) f = sharers procs F r f).
  { intros r f Hr. unfold infoF, sharers. apply info_get_blocks. intros p Hp. apply in_seq in Hp. apply ND; lia. }
  unfold getSharedRanks. fold pat.
  destruct (collective_ok [] procs (fun r => shared_info (req r) (pat r) (seq 0 procs)) infoF I1) as (info & E1 & HI).
  rewrite E1. cbn [bind]. cbv zeta.
  set (cnt1 := fun r f => length (sharers procs F r f) - 1).
  set (sendCount := fun r => map (fun f => length (info_get (info r) f) - 1) (req r)).
  assert (SC : forall r, r < procs -> sendCount r = layout (permq r) (fun p => map (cnt1 r) (F p r))).
  { intros r Hr. unfold sendCount. rewrite HR by auto. rewrite layout_map. apply (layout_ext _ procs).
    - apply (PB r Hr).
    - intros p Hp. apply map_ext. intro f. rewrite HI, IG by auto. auto. }
  assert (X1 : forall q, q < procs -> exchange 0 pat sendCount o1 q
     = Some (layout (permq q) (fun r => map (cnt1 r) (F q r)))).
  { intros q Hq. apply (exchange_blocks 0 procs _ _ pat (fun r p => map (cnt1 r) (F p r)) sendCount o1 q H0 PS); auto.
    intros. apply map_length. }
  destruct (collective_ok [] procs (exchange 0 pat sendCount o1) _ X1) as (recvCount & E2 & HC).
  rewrite E2. cbn [bind].
  set (pps := fun r => match perms with Some pm => map (fun p => nth p (pm r) 0) (seq 0 procs) | None => seq 0 procs end).
  assert (PP : forall r, r < procs -> pps r = permq r).
  { intros r Hr. unfold pps. destruct perms as [pm|]; [|symmetry; auto]. rewrite HP by auto.
    pose proof (perm_seq_len _ _ (proj1 (PB r Hr))) as L. rewrite <- L.
    apply nth_error_ext. intro i. rewrite nth_error_map. destruct (lt_dec i (length (permq r))) as [Hi|Hi].
    - rewrite (nth_error_nth' (seq _ _) 0) by (rewrite seq_length; auto). rewrite seq_nth by auto.
      cbn [option_map]. symmetry. apply nth_error_nth'. auto.
    - rewrite !(proj2 (nth_error_None _ _)); auto; try lia. rewrite seq_length. lia. }
  set (shl := fun r p f => filter (fun s => negb (s =? p)) (sharers procs F r f)).
  set (blk := fun r p => concat (map (shl r p) (F p r))).
  assert (R1 : forall r, r < procs -> shared_req (info r) (req r) (pat r) (pps r) = Some (layout (permq r) (blk r))).
  { intros r Hr. rewrite PP by auto. unfold layout.
    assert (G : forall l, (forall p, In p l -> p < procs) -> shared_req (info r) (req r) (pat r) l
       = Some (concat (map (blk r) l))).
    { induction l as [|p l IH]; intro Hl; auto. cbn [shared_req].
      rewrite (shared_range_spec _ _ _ _ _ (SR r p Hr (Hl p (or_introl eq_refl)))). cbn [bind].
      rewrite IH by (intros; apply Hl; right; auto). cbn [bind map concat]. f_equal. f_equal.
      unfold blk. f_equal. apply map_ext. intro f. unfold shl. rewrite HI, IG by auto. auto. }
    apply G. intros p Hp. apply (Permutation_in _ (proj1 (PB r Hr))) in Hp. apply in_seq in Hp. lia. }
  destruct (collective_ok [] procs (fun r => shared_req (info r) (req r) (pat r) (pps r)) _ R1) as (rq & E3 & HQ).
  unfold pps in E3; cbv beta in E3. rewrite E3. cbn [bind].
  assert (SH : forall r p f, r < procs -> p < procs -> In f (F p r) -> length (shl r p f) = cnt1 r f).
  { intros r p f Hr Hp Hf. unfold shl, cnt1. apply filter_remove_length.
    - apply NoDup_filter, seq_NoDup.
    - apply filter_In. split; [apply in_seq; lia|]. apply mem_spec. auto. }
  assert (BL : forall r p, r < procs -> p < procs -> list_sum (map (cnt1 r) (F p r)) = length (blk r p)).
  { intros r p Hr Hp. unfold blk. 
    assert (G : forall l, incl l (F p r) -> list_sum (map (cnt1 r) l) = length (concat (map (shl r p) l))).
    { induction l as [|f l IH]; intro Hl; auto. cbn [map concat]. rewrite app_length, <- IH, (SH r p f); auto.
      - apply Hl; left; auto.
      - intros x Hx; apply Hl; right; auto. }
    apply G, incl_refl. }
  set (sc := fun r => map (fun p => range_sum (sendCount r) (sendRange (pat r) p)) (seq 0 procs)).
  set (rc := fun r => map (fun p => range_sum (recvCount r) (recvRange (pat r) p)) (seq 0 procs)).
  assert (Hsc : forall q, q < procs -> sc q = map (fun p => length (blk q p)) (seq 0 procs)).
  { intros q Hq. apply map_ext_in. intros p Hp. apply in_seq in Hp. rewrite <- BL by lia.
    rewrite SC by auto. destruct (PS q Hq) as (P & S & _ & DS & _).
    apply (range_sum_block procs (sendcounts (pat q)) (permq q) (sdispls (pat q)) (fun p => map (cnt1 q) (F p q)) p); auto; try lia.
    - rewrite S, map_length, seq_length. auto.
    - intros a Ha. rewrite map_length, S, (nth_map_seq (fun q0 => length (F q0 q))) by auto. auto. }
  assert (Hrc : forall q, q < procs -> rc q = map (fun p => length (blk p q)) (seq 0 procs)).
  { intros q Hq. apply map_ext_in. intros p Hp. apply in_seq in Hp. rewrite <- BL by lia.
    rewrite HC by auto. destruct (PS q Hq) as (P & _ & S & _ & DS).
    apply (range_sum_block procs (recvcounts (pat q)) (permq q) (rdispls (pat q)) (fun p => map (cnt1 p) (F q p)) p); auto; try lia.
    - rewrite S, map_length, seq_length. auto.
    - intros a Ha. rewrite map_length, S, (nth_map_seq (fun p0 => length (F q p0))) by auto. auto. }
  destruct (mk2_pat_blocks procs (fun r p => length (blk r p)) sc rc H0 Hsc Hrc) as (p2 & Ep2 & PB2).
  assert (Pat2 : exists pt, (forall q, q < procs ->
      (do x <- mk_alltoallv2 (sc q) (rc q);
       match perms with Some pm => setRankPermutation x (pm q) | None => Some x end) = Some (pt q)) /\
      pat_blocks procs (fun r p => length (blk r p)) permq pt).
  { destruct perms as [pm|].
    - destruct (pat_blocks_setperm procs _ _ permq p2 H0 PB2) as (pt & Es & PBt).
      { intros q Hq. apply (PB q Hq). }
      exists pt. split; auto. intros q Hq. rewrite Ep2 by auto. cbn [bind]. rewrite HP by auto. auto.
    - exists p2. split; [intros q Hq; rewrite Ep2; auto|].
      intros q Hq. rewrite HP by auto. apply PB2; auto. }
  destruct Pat2 as (pt & Ept & PBt).
  destruct (collective_ok no_pattern procs _ _ Ept) as (pat2 & E4 & Hp2).
  match goal with |- context [bind (collective no_pattern procs ?f) _] => change (collective no_pattern procs f) with (collective no_pattern procs (fun q => do x <- mk_alltoallv2 (sc q) (rc q); match perms with Some pm => setRankPermutation x (pm q) | None => Some x end)) end.
  rewrite E4. cbn [bind].
  assert (PBf : pat_blocks procs (fun r p => length (blk r p)) permq pat2).
  { eapply pat_blocks_ext; [|exact PBt]. intros; symmetry; auto. }
  assert (X2 : forall q, q < procs -> exchange 0 pat2 rq o2 q = Some (layout (permq q) (fun r => blk r q))).
  { intros q Hq. apply (exchange_blocks 0 procs _ _ pat2 blk rq o2 q H0 PBf); auto. }
  destruct (collective_ok [] procs (exchange 0 pat2 rq o2) _ X2) as (sr & E5 & HSr).
  rewrite E5. cbn [bind]. eexists. split; [reflexivity|].
  intros q Hq. cbn. rewrite HSr, HC by auto. f_equal.
  - rewrite layout_concat. auto.
  - f_equal. rewrite layout_map. apply (layout_ext _ procs); [apply (PB q Hq)|].
    intros r Hr. rewrite map_map. apply map_ext_in. intros f Hf. symmetry. apply (SH r q f Hr Hq Hf).
Qed.
