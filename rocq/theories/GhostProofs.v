(** Lemmas about ghost construction: packing, boundary faces, copy elements, candidates. *)
Require Import List Arith Bool ZArith Lia Permutation Sorted.
Require Import Verif.Base Verif.CommModel Verif.CommProofs Verif.CommBlocks Verif.SimplexModel
  Verif.SimplexProofs Verif.AlgorithmModel Verif.AlgorithmProps Verif.LocalMeshModel Verif.LocalMeshProofs
  Verif.PartitionModel Verif.PartitionProofs Verif.FacesModel Verif.FacesProofs Verif.FacesShared Verif.FacesProps
  Verif.GhostModel Verif.GhostSpec.
Import ListNotations.
Local Open Scope opt_scope.

(** * Packing items by receiving rank *)
Lemma upd_map_seq {A} (c : nat -> A) n r x : r < n ->
  upd (map c (seq 0 n)) r x = Some (map (fun p => if p =? r then x else c p) (seq 0 n)).
Proof.
  intro H. destruct (upd_ok (map c (seq 0 n)) r x) as [l E]; [rewrite map_length, seq_length; auto|].
  rewrite E. f_equal. destruct (upd_spec _ _ _ _ E) as (L & _ & N). apply nth_error_ext. intro j.
  rewrite N, !nth_error_map. destruct (lt_dec j n) as [Hj|Hj].
  - rewrite (nth_error_nth' (seq 0 n) 0) by (rewrite seq_length; auto). rewrite seq_nth by auto. cbn [option_map Nat.add].
    destruct (j =? r); auto.
  - rewrite (proj2 (nth_error_None _ _)) by (rewrite seq_length; lia). destruct (Nat.eqb_spec j r); [lia|auto].
Qed.

Lemma count_ranks_spec {A} procs (rk : A -> nat) l : forall c, (forall a, In a l -> rk a < procs) ->
  count_ranks rk l (map c (seq 0 procs))
  = Some (map (fun p => c p + length (filter (fun a => rk a =? p) l)) (seq 0 procs)).
Proof.
  induction l as [|a t IH]; intros c H.
  - cbn. f_equal. apply map_ext. intro; lia.
  - cbn [count_ranks]. assert (Ha : rk a < procs) by (apply H; left; auto).
    rewrite (nth_error_nth' _ 0) by (rewrite map_length, seq_length; auto). cbn [bind].
    rewrite (nth_map_seq c) by auto. rewrite upd_map_seq by auto. cbn [bind].
    rewrite IH by (intros; apply H; right; auto). f_equal. apply map_ext_in. intros p Hp.
    cbn [filter]. rewrite (Nat.eqb_sym p (rk a)). destruct (Nat.eqb_spec (rk a) p); [subst|]; cbn [length]; lia.
Qed.

Lemma upd_mid {A} (pre mid post : list A) j a mid' : upd mid j a = Some mid' ->
  upd (pre ++ mid ++ post) (length pre + j) a = Some (pre ++ mid' ++ post).
Proof.
  intro H. induction pre as [|x pre IH]; cbn [app length Nat.add upd].
  - revert j mid' H. induction mid as [|b mid IHm]; intros [|j] mid' H; cbn in *; try discriminate.
    + inversion H. auto.
    + destruct (upd mid j a) as [m|] eqn:E; [|discriminate]. inversion H. rewrite (IHm _ _ E). auto.
  - rewrite IH. auto.
Qed.

Lemma seq_split n r : r < n -> seq 0 n = seq 0 r ++ r :: seq (S r) (n - S r).
Proof. intro H. replace n with (r + S (n - S r)) at 1 by lia. rewrite seq_app. reflexivity. Qed.

Lemma layout_upd {A} procs (B : nat -> list A) r j a b' : r < procs -> upd (B r) j a = Some b' ->
  upd (layout (seq 0 procs) B) (sumn (fun p => length (B p)) r + j) a
  = Some (layout (seq 0 procs) (fun p => if p =? r then b' else B p)).
Proof.
  intros H E. unfold layout. rewrite (seq_split procs r H), !map_app, !concat_app. cbn [map concat].
  assert (L : sumn (fun p => length (B p)) r = length (concat (map B (seq 0 r)))).
  { rewrite sumn_list. symmetry. apply (layout_length B). }
  rewrite L, (upd_mid _ _ _ _ _ _ E). rewrite Nat.eqb_refl. do 2 f_equal; [|f_equal]; f_equal; apply map_ext_in; intros p Hp; apply in_seq in Hp;
    destruct (Nat.eqb_spec p r); auto; lia.
Qed.

Lemma store_items_spec {A} (d : A) procs (rk : A -> nat) (cnt : nat -> nat) l :
  forall done offs,
  (forall a, In a l -> rk a < procs) ->
  (forall p, p < procs -> length (done p) + length (filter (fun a => rk a =? p) l) = cnt p) ->
  (forall p, p < procs -> nth_error offs p = Some (sumn cnt p + length (done p))) ->
  store_items rk l offs (layout (seq 0 procs) (fun p => done p ++ repeat d (cnt p - length (done p))))
  = Some (layout (seq 0 procs) (fun p => done p ++ filter (fun a => rk a =? p) l)).
Proof.
  induction l as [|a t IH]; intros done offs HR HC HO.
  - cbn [store_items]. f_equal. apply (layout_ext _ procs); [apply Permutation_refl|]. intros p Hp. cbn [filter].
    specialize (HC p Hp). cbn [filter length] in HC. replace (cnt p - length (done p)) with 0 by lia. auto.
  - cbn [store_items]. set (r := rk a) in *. assert (Hr : r < procs) by (apply HR; left; auto).
    rewrite HO by auto. cbn [bind].
    pose proof (HC r Hr) as Cr. cbn [filter] in Cr. fold r in Cr. rewrite Nat.eqb_refl in Cr. cbn [length] in Cr.
    set (B := fun p => done p ++ repeat d (cnt p - length (done p))).
    assert (LB : forall p, p < procs -> length (B p) = cnt p).
    { intros p Hp. unfold B. rewrite app_length, repeat_length. specialize (HC p Hp). lia. }
    set (m := cnt r - length (done r) - 1).
    assert (UB : upd (B r) (length (done r)) a = Some (done r ++ a :: repeat d m)).
    { unfold B. replace (cnt r - length (done r)) with (S m) by (unfold m; lia). cbn [repeat]. apply upd_app. }
    rewrite (sumn_ext cnt (fun p => length (B p))) by (intros; rewrite LB; auto; lia).
    rewrite (layout_upd procs B r _ a _ Hr UB). cbn [bind].
    destruct (upd_ok offs r (sumn (fun p => length (B p)) r + length (done r) + 1)) as [offs' E'].
    { apply nth_error_Some. rewrite HO by auto. congruence. }
    rewrite E'. cbn [bind].
    set (done' := fun p => if p =? r then done r ++ [a] else done p).
    destruct (upd_spec _ _ _ _ E') as (_ & _ & N).
    rewrite (layout_ext _ procs _ (fun p => done' p ++ repeat d (cnt p - length (done' p)))); [|apply Permutation_refl|].
    2:{ intros p Hp. unfold done'. destruct (Nat.eqb_spec p r); [subst p|reflexivity].
        rewrite app_length. cbn [length]. rewrite <- app_assoc. cbn [app]. do 2 f_equal. f_equal. unfold m. lia. }
    rewrite IH.
    + f_equal. apply (layout_ext _ procs); [apply Permutation_refl|]. intros p Hp. unfold done'. cbn [filter]. fold r.
      rewrite (Nat.eqb_sym r p). destruct (Nat.eqb_spec p r); [subst p|auto]. rewrite <- app_assoc. auto.
    + intros; apply HR; right; auto.
    + intros p Hp. unfold done'. specialize (HC p Hp). cbn [filter] in HC. fold r in HC. rewrite (Nat.eqb_sym r p) in HC.
      destruct (Nat.eqb_spec p r); [subst p|auto]. rewrite app_length. cbn [length] in *. lia.
    + intros p Hp. rewrite N. unfold done'. destruct (Nat.eqb_spec p r); [subst p|apply HO; auto].
      f_equal. rewrite app_length. cbn [length].
      rewrite (sumn_ext cnt (fun p => length (B p))) by (intros; rewrite LB; auto; lia). lia.
Qed.

Definition bkt {A} (rk : A -> nat) (l : list A) (p : nat) : list A := filter (fun a => rk a =? p) l.

Lemma pack_items_spec {A} (d : A) procs rk l : (forall a, In a l -> rk a < procs) ->
  pack_items d procs rk l = Some (map (fun p => length (bkt rk l p)) (seq 0 procs), layout (seq 0 procs) (bkt rk l)).
Proof.
  intro H. unfold pack_items.
  assert (R0 : repeat 0 procs = map (fun _ => 0) (seq 0 procs)).
  { clear. generalize 0 at 3. induction procs as [|n IH]; intro a; cbn; auto. f_equal. apply IH. }
  rewrite R0, count_ranks_spec by auto. cbn [bind]. cbn [Nat.add].
  set (cnt := fun p => length (filter (fun a => rk a =? p) l)).
  change (map (fun p => length (filter (fun a => rk a =? p) l)) (seq 0 procs)) with (map cnt (seq 0 procs)).
  assert (LD : forall acc c, length (displacements acc c) = S (length c)).
  { intros acc c. revert acc. induction c; intro acc; cbn; auto. }
  assert (DN : forall p, p <= procs -> nth_error (displacements 0 (map cnt (seq 0 procs))) p = Some (sumn cnt p)).
  { intros p Hp. rewrite (nth_error_nth' _ 0) by (rewrite LD, map_length, seq_length; lia). f_equal.
    rewrite displacements_nth by (rewrite map_length, seq_length; auto). rewrite firstn_map.
    replace (firstn p (seq 0 procs)) with (seq 0 p). { rewrite sumn_list. auto. }
    replace procs with (p + (procs - p)) by lia. rewrite seq_app, firstn_app, seq_length, Nat.sub_diag.
    rewrite firstn_all2 by (rewrite seq_length; lia). rewrite app_nil_r. auto. }
  assert (LT : last (displacements 0 (map cnt (seq 0 procs))) 0 = sumn cnt procs).
  { assert (G : forall (x : list nat), x <> [] -> last x 0 = nth (length x - 1) x 0).
    { induction x as [|a [|b x] IH]; intro Hx; [congruence|auto|]. change (last (a :: b :: x) 0) with (last (b :: x) 0). rewrite IH by congruence. cbn [length].
      replace (S (S (length x)) - 1) with (S (length x)) by lia. replace (S (length x) - 1) with (length x) by lia. reflexivity. }
    rewrite G. 2:{ intro E. apply (f_equal (@length nat)) in E. rewrite LD in E. discriminate. }
    rewrite LD, map_length, seq_length. apply nth_of_nth_error. replace (S procs - 1) with procs by lia. apply DN; auto. }
  rewrite LT.
  assert (RL : repeat d (sumn cnt procs) = layout (seq 0 procs) (fun p => [] ++ repeat d (cnt p - length (@nil A)))).
  { cbn [app length]. rewrite (layout_ext _ procs _ (fun p => repeat d (cnt p))); [|apply Permutation_refl|intros; f_equal; lia].
    clear. induction procs as [|n IH]; [auto|]. cbn [sumn]. rewrite repeat_app, IH. unfold layout.
    rewrite seq_S, map_app, concat_app. cbn. rewrite app_nil_r. auto. }
  rewrite RL, (store_items_spec d procs rk cnt l (fun _ => [])); auto.
  intros p Hp. rewrite DN by lia. cbn. f_equal. lia.
Qed.

Lemma bkt_layout_perm {A} procs (rk : A -> nat) l : (forall a, In a l -> rk a < procs) ->
  Permutation (layout (seq 0 procs) (bkt rk l)) l.
Proof.
  revert l. induction procs as [|n IH]; intros l H.
  - destruct l as [|a l]; [constructor|]. specialize (H a (or_introl eq_refl)). lia.
  - unfold layout. rewrite seq_S, map_app, concat_app. cbn [map concat Nat.add]. rewrite app_nil_r.
    set (l1 := filter (fun a => negb (rk a =? n)) l).
    replace (concat (map (bkt rk l) (seq 0 n))) with (layout (seq 0 n) (bkt rk l1)).
    2:{ apply (layout_ext _ n); [apply Permutation_refl|]. intros p Hp. unfold bkt, l1. rewrite filter_filter.
        apply filter_ext. intro a. destruct (Nat.eqb_spec (rk a) n), (Nat.eqb_spec (rk a) p); subst; cbn; auto; lia. }
    rewrite IH.
    + unfold l1, bkt. clear. induction l as [|a l IHl]; [constructor|]. cbn [filter].
      destruct (rk a =? n); cbn [negb].
      * rewrite <- Permutation_middle. constructor. auto.
      * cbn [app]. constructor. auto.
    + intros a Ha. apply filter_In in Ha. destruct Ha as [Ha Hn]. specialize (H a Ha).
      destruct (Nat.eqb_spec (rk a) n); [discriminate|lia].
Qed.

(** Every rank packs its items, and all are exchanged. *)
Lemma pack_exchange {A} (d : A) procs rk (L : nat -> list A) o (dp : list nat * list A) :
  0 < procs -> (forall q a, q < procs -> In a (L q) -> rk a < procs) -> Permutation o (seq 0 procs) ->
  exists pk pat rec,
    collective dp procs (fun q => pack_items d procs rk (L q)) = Some pk /\
    collective no_pattern procs (mk_alltoallv procs (fun q => fst (pk q))) = Some pat /\
    collective [] procs (exchange d pat (fun q => snd (pk q)) o) = Some rec /\
    (forall q, q < procs -> snd (pk q) = layout (seq 0 procs) (bkt rk (L q))) /\
    (forall q, q < procs -> rec q = layout (seq 0 procs) (fun p => bkt rk (L p) q)) /\
    pat_blocks procs (fun p r => length (bkt rk (L p) r)) (fun _ => seq 0 procs) pat.
Proof.
  intros H0 HR HO.
  destruct (collective_ok dp procs (fun q => pack_items d procs rk (L q)) _ (fun q Hq => pack_items_spec d procs rk (L q) (fun a => HR q a Hq)))
    as (pk & E1 & H1). cbv beta in H1.
  destruct (mk_pat_blocks procs (fun p r => length (bkt rk (L p) r)) H0) as (pb & Ep & PB).
  assert (Em : forall q, q < procs -> mk_alltoallv procs (fun q => fst (pk q)) q = Some (pb q)).
  { intros q Hq. rewrite <- Ep by auto. apply mk_all_ext; auto. intros p Hp. rewrite H1 by auto. auto. }
  destruct (collective_ok no_pattern procs (mk_alltoallv procs (fun q => fst (pk q))) pb Em) as (pat & E2 & H2).
  assert (PB0 : pat_blocks procs (fun p r => length (bkt rk (L p) r)) (fun _ => seq 0 procs) pat).
  { eapply pat_blocks_ext; [|exact PB]. intros; symmetry; auto. }
  assert (X1 : forall q, q < procs -> exchange d pat (fun q => snd (pk q)) o q = Some (layout (seq 0 procs) (fun p => bkt rk (L p) q))).
  { intros q Hq. apply (exchange_blocks d procs _ _ pat (fun p r => bkt rk (L p) r) _ o q H0 PB0); auto.
    intros p Hp. rewrite H1 by auto. auto. }
  destruct (collective_ok [] procs (exchange d pat (fun q => snd (pk q)) o) _ X1) as (rec & E3 & H3).
  exists pk, pat, rec. split; [exact E1|]. split; [exact E2|]. split; [exact E3|].
  split; [|split]; auto. intros q Hq. rewrite H1 by auto. auto.
Qed.

(** The answers travel back. *)
Lemma exchange_answers {A B} (d : B) procs rk (L : nat -> list A) pat rec (ans : nat -> A -> B) send o :
  0 < procs -> pat_blocks procs (fun p r => length (bkt rk (L p) r)) (fun _ => seq 0 procs) pat ->
  (forall q, q < procs -> rec q = layout (seq 0 procs) (fun p => bkt rk (L p) q)) ->
  (forall q, q < procs -> send q = map (ans q) (rec q)) -> Permutation o (seq 0 procs) ->
  exists r, collective [] procs (exchange d (fun q => swap_pattern (pat q)) send o) = Some r /\
    forall q, q < procs -> r q = map (fun a => ans (rk a) a) (layout (seq 0 procs) (bkt rk (L q))).
Proof.
  intros H0 PB HR HS HO. pose proof (pat_blocks_swap _ _ _ _ PB) as PS. cbv beta in PS.
  assert (X : forall q, q < procs -> exchange d (fun q => swap_pattern (pat q)) send o q
     = Some (layout (seq 0 procs) (fun r => map (ans r) (bkt rk (L q) r)))).
  { intros q Hq. apply (exchange_blocks d procs _ _ _ (fun r p => map (ans r) (bkt rk (L p) r)) send o q H0 PS); auto.
    - intros. apply map_length.
    - intros p Hp. rewrite HS, HR by auto. apply layout_map. }
  destruct (collective_ok [] procs (exchange d (fun q => swap_pattern (pat q)) send o) _ X) as (r & E & H).
  exists r. split; auto. intros q Hq. rewrite H, layout_map by auto. apply (layout_ext _ procs); [apply Permutation_refl|].
  intros p Hp. apply map_ext_in. intros a Ha. apply filter_In in Ha. destruct Ha as [_ Ha]. apply Nat.eqb_eq in Ha. subst. auto.
Qed.

(** * Facets *)
Definition good (k : nat) (e : simplex) : Prop := length e = k + 1 /\ StronglySorted lt e.

Lemma faces_of_spec k e : good k e ->
  downward k e = Some (faces_of k e) /\ (forall f, In f (faces_of k e) <-> facet_of k f e) /\ NoDup (faces_of k e).
Proof.
  intros [L S]. destruct (downward_spec k e ltac:(lia) S) as (l & E & I & N & _). unfold faces_of. rewrite E. auto.
Qed.

Definition holds (k : nat) (es : list simplex) (f : simplex) (i : nat) : bool := mem f (faces_of k (nth i es [])).
Definition holders (k : nat) (es : list simplex) (f : simplex) : list nat := filter (holds k es f) (seq 0 (length es)).

Lemma simplex_eqb_sym a b : simplex_eqb a b = simplex_eqb b a.
Proof.
  destruct (simplex_eqb a b) eqn:E; symmetry.
  - apply simplex_eqb_spec in E. subst. apply simplex_eqb_spec. auto.
  - destruct (simplex_eqb b a) eqn:E2; auto. apply simplex_eqb_spec in E2. subst.
    rewrite (proj2 (simplex_eqb_spec a a) eq_refl) in E. discriminate.
Qed.

Lemma filter_eqb_nodup f l : NoDup l -> filter (fun s => simplex_eqb s f) l = if mem f l then [f] else [].
Proof.
  induction l as [|g t IH]; intro N; auto. inversion N; subst. specialize (IH H2). cbn [filter mem existsb].
  rewrite (simplex_eqb_sym f g). destruct (simplex_eqb g f) eqn:E; cbn [orb].
  - apply simplex_eqb_spec in E. subst g. rewrite IH. change (existsb (simplex_eqb f) t) with (mem f t) in *.
    rewrite (proj2 (mem_false f t)) by auto. auto.
  - exact IH.
Qed.

Lemma up_entries_spec k es : forall n, (forall e, In e es -> good k e) ->
  exists um, up_entries k n es = Some um /\
    (forall f, up_get um f = map (fun i => n + i) (holders k es f)) /\
    (forall f i, In (f, i) um <-> exists j, i = n + j /\ In j (holders k es f)).
Proof.
  induction es as [|e es IH]; intros n G.
  - exists []. split; [reflexivity|]. split; [reflexivity|]. intros f i. split; [intros []|]. intros (j & _ & []).
  - destruct (faces_of_spec k e (G e (or_introl eq_refl))) as (D & I & N).
    destruct (IH (n + 1) (fun x Hx => G x (or_intror Hx))) as (um & E & U & M).
    cbn [up_entries]. rewrite D. cbn [bind]. rewrite E. cbn [bind]. eexists. split; [reflexivity|].
    assert (HH : forall f, holders k (e :: es) f = (if mem f (faces_of k e) then [0] else []) ++ map S (holders k es f)).
    { intro f. unfold holders. cbn [length seq filter]. unfold holds at 1. cbn [nth].
      assert (X : filter (holds k (e :: es) f) (seq 1 (length es)) = map S (filter (holds k es f) (seq 0 (length es)))).
      { rewrite <- seq_shift. generalize (seq 0 (length es)). induction l as [|a l IHl]; auto. cbn [map filter].
        rewrite IHl. change (holds k (e :: es) f (S a)) with (holds k es f a). destruct (holds k es f a); auto. }
      rewrite X. destruct (mem f (faces_of k e)); auto. }
    split.
    + intro f. unfold up_get in *. rewrite filter_app, map_app, U, HH, map_app, map_map. f_equal.
      * assert (Y : forall l, map snd (filter (fun x : simplex * nat => simplex_eqb (fst x) f) (map (fun s => (s, n)) l))
            = map (fun _ => n) (filter (fun s => simplex_eqb s f) l)).
        { induction l as [|a l IHl]; auto. cbn [map filter fst]. destruct (simplex_eqb a f); cbn [map snd]; rewrite IHl; auto. }
        rewrite Y, filter_eqb_nodup by auto. destruct (mem f (faces_of k e)); auto. cbn. f_equal. lia.
      * apply map_ext. intro; lia.
    + intros f i. rewrite in_app_iff, in_map_iff, M. split.
      * intros [(s & Es & Hs)|(j & -> & Hj)].
        -- inversion Es; subst. exists 0. split; [lia|]. rewrite HH, (proj2 (mem_spec f _)) by auto. left; auto.
        -- exists (S j). split; [lia|]. rewrite HH. apply in_or_app. right. apply in_map. auto.
      * intros (j & -> & Hj). rewrite HH in Hj. apply in_app_or in Hj. destruct Hj as [Hj|Hj].
        -- destruct (mem f (faces_of k e)) eqn:Em; [|destruct Hj]. destruct Hj as [<-|[]]. left. exists f. split; [f_equal; lia|].
           apply mem_spec. auto.
        -- apply in_map_iff in Hj as (j' & <- & Hj). right. exists j'. split; [lia|auto].
Qed.

Lemma holders_in k es f i : (forall e, In e es -> good k e) ->
  (In i (holders k es f) <-> exists e, nth_error es i = Some e /\ facet_of k f e).
Proof.
  intro G. unfold holders, holds. rewrite filter_In, in_seq, mem_spec. split.
  - intros [Hi Hf]. destruct (nth_error_lt es i ltac:(lia)) as [e E]. exists e. split; auto.
    rewrite (nth_of_nth_error _ _ _ _ E) in Hf. apply (faces_of_spec k e); auto. apply G. eapply nth_error_In; eauto.
  - intros (e & E & Hf). assert (i < length es) by (apply nth_error_Some; congruence). split; [lia|].
    rewrite (nth_of_nth_error _ _ _ _ E). apply (faces_of_spec k e); auto. apply G. eapply nth_error_In; eauto.
Qed.
Lemma holders_nodup k es f : NoDup (holders k es f).
Proof. apply NoDup_filter, seq_NoDup. Qed.

(** getBoundaryFaces *)
Lemma bfaces_loop_spec um : (forall f, length (up_get um f) <= 2) -> forall todo s,
  (forall x, In x todo -> In x um) -> StronglySorted lex_lt s ->
  exists s', bfaces_loop um todo s = Some s' /\ StronglySorted lex_lt s' /\
    forall f, In f s' <-> In f s \/ (exists i, In (f, i) todo) /\ length (up_get um f) = 1.
Proof.
  intro T. induction todo as [|[g i] t IH]; intros s I S.
  - exists s. split; auto. split; auto. intro f. split; auto. intros [?|[(? & []) _]]; auto.
  - cbn [bfaces_loop fst]. pose proof (T g) as Tg.
    assert (C1 : 1 <= length (up_get um g)).
    { specialize (I _ (or_introl eq_refl)). unfold up_get. rewrite map_length.
      assert (H : In (g, i) (filter (fun x => simplex_eqb (fst x) g) um)).
      { apply filter_In. split; auto. cbn. apply simplex_eqb_spec. auto. }
      destruct (filter _ um); [destruct H|cbn; lia]. }
    rewrite (proj2 (Nat.leb_le _ _) C1), (proj2 (Nat.leb_le _ _) Tg). cbn [andb].
    destruct (IH (if length (up_get um g) =? 1 then set_insert g s else s)) as (s' & E & S' & M).
    { intros; apply I; right; auto. }
    { destruct (_ =? 1); auto. apply set_insert_sorted; auto. }
    exists s'. split; auto. split; auto. intro f. rewrite M.
    destruct (Nat.eqb_spec (length (up_get um g)) 1) as [H1|H1]; [rewrite set_insert_in|]; split.
    + intros [[->|H]|[(j & Hj) H]]; auto; right; split; auto; [exists i; left; auto|exists j; right; auto].
    + intros [H|[(j & [Hj|Hj]) H]]; auto; [inversion Hj; auto|right; eauto].
    + intros [H|[(j & Hj) H]]; auto; right; split; auto; exists j; right; auto.
    + intros [H|[(j & [Hj|Hj]) H]]; auto; [inversion Hj; subst; lia|right; eauto].
Qed.

Lemma getBoundaryFaces_spec k es um : (forall e, In e es -> good k e) -> up_entries k 0 es = Some um ->
  (forall f, length (holders k es f) <= 2) ->
  exists s, getBoundaryFaces um = Some s /\ NoDup s /\ forall f, In f s <-> length (holders k es f) = 1.
Proof.
  intros G E T. destruct (up_entries_spec k es 0 G) as (um' & E' & U & M). rewrite E in E'. inversion E'; subst um'.
  assert (U' : forall f, length (up_get um f) = length (holders k es f)) by (intro; rewrite U, map_length; auto).
  destruct (bfaces_loop_spec um) with (todo := um) (s := @nil simplex) as (s & Es & S & I); auto.
  { intro f. rewrite U'. auto. } { constructor. }
  exists s. split; auto. split; [apply lex_sorted_NoDup; auto|]. intro f. rewrite I, U'. split.
  - intros [[]|[_ H]]; auto.
  - intro H. right. split; auto. destruct (holders k es f) as [|j t] eqn:Eh; [discriminate|]. exists j. apply M. exists j.
    split; auto. rewrite Eh. left; auto.
Qed.

(** * deleteDomainBoundaryFaces *)
Lemma count_face_perm f l l' : Permutation l l' -> count_face f l = count_face f l'.
Proof.
  intro P. unfold count_face. induction P; cbn; auto; try congruence.
  - destruct (simplex_eqb x f); cbn; auto.
  - destruct (simplex_eqb x f), (simplex_eqb y f); auto.
Qed.
Lemma count_face_nodup f l : NoDup l -> count_face f l = if mem f l then 1 else 0.
Proof. intro N. unfold count_face. rewrite filter_eqb_nodup by auto. destruct (mem f l); auto. Qed.
Lemma count_face_layout f procs (B : nat -> list simplex) :
  count_face f (layout (seq 0 procs) B) = sumn (fun p => count_face f (B p)) procs.
Proof.
  induction procs as [|n IH]; auto. unfold layout in *. rewrite seq_S, map_app, concat_app. cbn [map concat sumn Nat.add].
  rewrite app_nil_r. unfold count_face in *. rewrite filter_app, app_length, IH. auto.
Qed.
Lemma count_bkt f r l : count_face f (bkt (fun g => r g) l (r f)) = count_face f l.
Proof.
  unfold count_face, bkt. rewrite filter_filter. f_equal. apply filter_ext. intro g.
  destruct (simplex_eqb g f) eqn:E; [|apply andb_false_r]. apply simplex_eqb_spec in E. subst. rewrite Nat.eqb_refl. auto.
Qed.
(** On how many ranks a face is in the set. *)
Definition face_ranks (procs : nat) (bf : nat -> list simplex) (f : simplex) : nat :=
  sumn (fun p => if mem f (bf p) then 1 else 0) procs.

Lemma erase_loop_spec (c : simplex -> nat) : forall l s, (forall f, In f l -> 1 <= c f <= 2) ->
  exists s', erase_loop s (combine l (map c l)) = Some s' /\
    forall f, In f s' <-> In f s /\ ~ (In f l /\ c f = 1).
Proof.
  induction l as [|g t IH]; intros s H.
  - exists s. split; auto. intro f. split; [intro; split; auto; intros [[] _]|tauto].
  - cbn [map combine erase_loop]. pose proof (H g (or_introl eq_refl)) as Hg.
    rewrite (proj2 (Nat.leb_le _ _) (proj1 Hg)), (proj2 (Nat.leb_le _ _) (proj2 Hg)). cbn [andb].
    destruct (IH (if c g =? 1 then filter (fun x => negb (simplex_eqb x g)) s else s)) as (s' & E & M).
    { intros; apply H; right; auto. }
    exists s'. split; auto. intro f. rewrite M. cbn [In]. destruct (Nat.eqb_spec (c g) 1) as [E1|E1].
    + rewrite filter_In, negb_true_iff. split.
      * intros [[Hs Hn] Hx]. split; auto. intros [[->|Hf] Hc]; [|apply Hx; auto].
        rewrite (proj2 (simplex_eqb_spec f f) eq_refl) in Hn. discriminate.
      * intros [Hs Hx]. split; [split; auto|].
        -- destruct (simplex_eqb f g) eqn:E2; auto. apply simplex_eqb_spec in E2. subst. exfalso. apply Hx. auto.
        -- intros [Hf Hc]. apply Hx. auto.
    + split.
      * intros [Hs Hx]. split; auto. intros [[->|Hf] Hc]; [contradiction|]. apply Hx; auto.
      * intros [Hs Hx]. split; auto. intros [Hf Hc]. apply Hx. auto.
Qed.

Lemma deleteDomain_spec procs p2r sh o bf :
  0 < procs -> (forall q f, q < procs -> In f (bf q) -> p2r f < procs) ->
  (forall q, q < procs -> NoDup (bf q)) -> (forall q l, Permutation (sh q l) l) -> (forall i, Permutation (o i) (seq 0 procs)) ->
  (forall f, face_ranks procs bf f <= 2) ->
  exists r, deleteDomainBoundaryFaces procs p2r sh o bf = Some r /\
    forall q f, q < procs -> (In f (r q) <-> In f (bf q) /\ face_ranks procs bf f = 2).
Proof.
  intros H0 HR HN HS HO HT. unfold deleteDomainBoundaryFaces.
  destruct (pack_exchange [] procs p2r (fun q => sh q (bf q)) (o 0) ([], []) H0) as (pk & pat & rec & E1 & E2 & E3 & Hpk & Hrec & PB); auto.
  { intros q a Hq Ha. apply (HR q); auto. apply (Permutation_in _ (HS q (bf q))). auto. }
  rewrite E1. cbn [bind]. rewrite E2. cbn [bind]. rewrite E3. cbn [bind].
  destruct (exchange_answers 0 procs p2r (fun q => sh q (bf q)) pat rec (fun q f => count_face f (rec q))
     (fun q => map (fun f => count_face f (rec q)) (rec q)) (o 1) H0 PB Hrec) as (cnt & E4 & Hcnt); auto.
  rewrite E4. cbn [bind].
  assert (CF : forall f, p2r f < procs -> count_face f (rec (p2r f)) = face_ranks procs bf f).
  { intros f Hf. rewrite Hrec by auto. rewrite count_face_layout. unfold face_ranks. apply sumn_ext. intros p Hp.
    rewrite (count_bkt f p2r), (count_face_perm f _ _ (HS p (bf p))), count_face_nodup by auto. auto. }
  assert (IL : forall q f, q < procs -> (In f (layout (seq 0 procs) (bkt p2r (sh q (bf q)))) <-> In f (bf q))).
  { intros q f Hq. pose proof (bkt_layout_perm procs p2r (sh q (bf q))) as P.
    assert (P' : Permutation (layout (seq 0 procs) (bkt p2r (sh q (bf q)))) (bf q)).
    { rewrite P; auto. intros a Ha. apply (HR q); auto. apply (Permutation_in _ (HS q (bf q))). auto. }
    split; apply Permutation_in; [auto|symmetry; auto]. }
  assert (ONE : forall q f, q < procs -> In f (bf q) -> 1 <= face_ranks procs bf f).
  { intros q f Hq Hf. unfold face_ranks.
    assert (G : forall m, q < m -> 1 <= sumn (fun p => if mem f (bf p) then 1 else 0) m).
    { induction m as [|m IHm]; intro Hm; [lia|]. cbn [sumn]. destruct (Nat.eq_dec q m) as [->|]; [|specialize (IHm ltac:(lia)); lia].
      rewrite (proj2 (mem_spec f (bf m)) Hf). lia. }
    auto. }
  set (er := fun q => get [] (erase_loop (bf q) (combine (layout (seq 0 procs) (bkt p2r (sh q (bf q))))
        (map (face_ranks procs bf) (layout (seq 0 procs) (bkt p2r (sh q (bf q)))))))).
  assert (ER : forall q, q < procs ->
     (if length (cnt q) =? length (snd (pk q)) then erase_loop (bf q) (combine (snd (pk q)) (cnt q)) else None) = Some (er q) /\
     forall f, In f (er q) <-> In f (bf q) /\ face_ranks procs bf f = 2).
  { intros q Hq. rewrite Hcnt, Hpk, map_length, Nat.eqb_refl by auto. unfold er.
    set (L := layout (seq 0 procs) (bkt p2r (sh q (bf q)))).
    replace (map (fun a => count_face a (rec (p2r a))) L) with (map (face_ranks procs bf) L).
    2:{ apply map_ext_in. intros f Hf. symmetry. apply CF. apply (HR q); auto. apply IL; auto. }
    destruct (erase_loop_spec (face_ranks procs bf) L (bf q)) as (s' & E & M).
    { intros f Hf. apply IL in Hf; auto. split; [apply (ONE q); auto|apply HT]. }
    rewrite E. cbn [get]. split; auto. intro f. rewrite M. split.
    - intros [Hf Hn]. split; auto. pose proof (ONE q f Hq Hf). pose proof (HT f).
      destruct (Nat.eq_dec (face_ranks procs bf f) 1); [|lia]. exfalso. apply Hn. split; auto. apply IL; auto.
    - intros [Hf H2]. split; auto. intros [_ H1]. lia. }
  destruct (collective_ok [] procs _ er (fun q Hq => proj1 (ER q Hq))) as (r & E5 & H5).
  exists r. split; [exact E5|]. intros q f Hq. rewrite H5 by auto. apply ER; auto.
Qed.

(** * Interior and copy elements *)
Lemma sorted_key_unique (key : nat -> nat) l m : Permutation l m ->
  (forall a b, In a l -> In b l -> key a = key b -> a = b) ->
  StronglySorted (fun a b => key a <= key b) l -> StronglySorted (fun a b => key a <= key b) m -> l = m.
Proof.
  intros P I Sl Sm.
  assert (SM : forall x, StronglySorted (fun a b => key a <= key b) x -> StronglySorted le (map key x)).
  { intros x Hs. induction Hs; cbn; constructor; auto. rewrite Forall_forall in *. intros y Hy. apply in_map_iff in Hy as (z & <- & Hz). auto. }
  assert (E : map key l = map key m) by (apply sorted_unique; auto; apply Permutation_map; auto).
  assert (Im : forall b, In b m -> In b l) by (intros b Hb; apply (Permutation_in _ (Permutation_sym P)); auto).
  clear P Sl Sm. revert m E Im. induction l as [|a l IH]; intros [|b m] E Im; try discriminate; auto.
  inversion E as [[E1 E2]]. assert (a = b).
  { apply I; auto; [left; auto|apply Im; left; auto]. }
  subst b. f_equal. apply IH; auto.
  - intros x y Hx Hy. apply I; right; auto.
  - intros x Hx. destruct (Im x (or_intror Hx)) as [<-|H]; auto.
    (* a occurs again in m *)
    clear IH. assert (Hk : In (key a) (map key l)) by (rewrite E2; apply in_map; auto).
    apply in_map_iff in Hk as (z & Ez & Hz). assert (z = a) by (apply I; auto; [right; auto|left; auto]). subst. auto.
Qed.

Lemma filter_seq_sorted f n : StronglySorted lt (filter f (seq 0 n)).
Proof.
  assert (G : forall a, StronglySorted lt (filter f (seq a n))).
  { induction n as [|m IH]; intro a; cbn; [constructor|]. destruct (f a); auto. constructor; auto.
    apply Forall_forall. intros x Hx. apply filter_In in Hx as [Hx _]. apply in_seq in Hx. lia. }
  apply G.
Qed.
Lemma strongly_app {A} (R : A -> A -> Prop) l m : StronglySorted R l -> StronglySorted R m ->
  (forall a b, In a l -> In b m -> R a b) -> StronglySorted R (l ++ m).
Proof.
  intros Sl Sm H. induction Sl as [|a l Sl IH F]; cbn; auto. constructor.
  - apply IH. intros; apply H; auto. right; auto.
  - apply Forall_app. split; auto. apply Forall_forall. intros. apply H; auto. left; auto.
Qed.
Lemma strongly_impl {A} (R R' : A -> A -> Prop) l : (forall a b, In a l -> In b l -> R a b -> R' a b) -> StronglySorted R l -> StronglySorted R' l.
Proof.
  intros H S. induction S as [|a l S IH F]; constructor.
  - apply IH. intros; apply H; auto; right; auto.
  - rewrite Forall_forall in *. intros x Hx. apply H; auto; [left; auto|right; auto].
Qed.
Lemma filter_partition {A} (f : A -> bool) l : Permutation (filter (fun x => negb (f x)) l ++ filter f l) l.
Proof.
  induction l as [|a l IH]; [constructor|]. cbn [filter]. destruct (f a); cbn [negb].
  - rewrite <- Permutation_middle. constructor. auto.
  - cbn. constructor. auto.
Qed.

Lemma permuted_by {A} (d : A) v p : Permutation p (seq 0 (length v)) ->
  apply_permutation_vec v p = Some (map (fun i => nth i v d) p).
Proof.
  intro P. destruct (apply_permutation_correct v p P) as (v' & E & L & H). rewrite E. f_equal.
  apply nth_error_ext. intro i. rewrite nth_error_map. destruct (nth_error p i) as [j|] eqn:Ej.
  - rewrite (H i j Ej). cbn [option_map]. apply nth_error_nth'. apply nth_error_In in Ej.
    apply (Permutation_in _ P) in Ej. apply in_seq in Ej. lia.
  - cbn. apply nth_error_None. apply nth_error_None in Ej. rewrite L. apply Permutation_length in P. rewrite seq_length in P. lia.
Qed.

Definition in_list (l : list nat) (i : nat) : bool := existsb (Nat.eqb i) l.
Lemma in_list_spec l i : in_list l i = true <-> In i l.
Proof.
  unfold in_list. rewrite existsb_exists. split.
  - intros (x & Hx & E). apply Nat.eqb_eq in E. subst. auto.
  - intro H. exists i. rewrite Nat.eqb_refl. auto.
Qed.

Lemma sort_interior_copy_spec es copies : NoDup copies -> (forall i, In i copies -> i < length es) ->
  let n := length es in
  let at_ i := nth i es [] in
  sort_interior_copy es copies
  = Some (map at_ (filter (fun i => negb (in_list copies i)) (seq 0 n)) ++ map at_ (filter (in_list copies) (seq 0 n)),
          length (filter (fun i => negb (in_list copies i)) (seq 0 n))).
Proof.
  intros N B n at_. unfold sort_interior_copy. fold n.
  set (key := fun a => if existsb (Nat.eqb a) copies then n + a else a).
  set (P1 := filter (fun i => negb (in_list copies i)) (seq 0 n)). set (P2 := filter (in_list copies) (seq 0 n)).
  assert (PP : Permutation (P1 ++ P2) (seq 0 n)) by (apply filter_partition).
  assert (K1 : forall a, In a P1 -> key a = a /\ a < n).
  { intros a Ha. apply filter_In in Ha as [Ha Hc]. apply in_seq in Ha. unfold key. fold (in_list copies a).
    destruct (in_list copies a); [discriminate|]. split; [auto|lia]. }
  assert (K2 : forall a, In a P2 -> key a = n + a /\ a < n).
  { intros a Ha. apply filter_In in Ha as [Ha Hc]. apply in_seq in Ha. unfold key. fold (in_list copies a).
    rewrite Hc. split; [auto|lia]. }
  assert (E : sort_by key (seq 0 n) = P1 ++ P2).
  { apply (sorted_key_unique key).
    - rewrite PP. apply sort_by_perm.
    - intros a b Ha Hb. apply (Permutation_in _ (sort_by_perm key _)), in_seq in Ha.
      apply (Permutation_in _ (sort_by_perm key _)), in_seq in Hb. unfold key.
      destruct (existsb (Nat.eqb a) copies), (existsb (Nat.eqb b) copies); lia.
    - apply sort_by_sorted.
    - apply strongly_app.
      + eapply strongly_impl; [|apply filter_seq_sorted]. cbv beta. intros a b Ha Hb Hl. apply K1 in Ha. apply K1 in Hb. lia.
      + eapply strongly_impl; [|apply filter_seq_sorted]. cbv beta. intros a b Ha Hb Hl. apply K2 in Ha. apply K2 in Hb. lia.
      + intros a b Ha Hb. apply K1 in Ha. apply K2 in Hb. lia. }
  rewrite E, (permuted_by []) by exact PP. cbn [bind]. rewrite map_app. f_equal. f_equal.
  assert (L2 : length P2 = length copies).
  { apply Permutation_length. apply NoDup_Permutation; auto; [apply NoDup_filter, seq_NoDup|].
    intro x. unfold P2. rewrite filter_In, in_seq, in_list_spec. split; [tauto|]. intro H. split; auto. specialize (B x H). unfold n. lia. }
  apply Permutation_length in PP. rewrite app_length, seq_length in PP. lia.
Qed.

Lemma copy_elements_spec k es um bf : (forall e, In e es -> good k e) -> up_entries k 0 es = Some um ->
  NoDup (copy_elements um bf) /\
  forall i, In i (copy_elements um bf) <-> exists e f, nth_error es i = Some e /\ facet_of k f e /\ In f bf.
Proof.
  intros G E. destruct (up_entries_spec k es 0 G) as (um' & E' & U & _). rewrite E in E'. inversion E'; subst um'.
  unfold copy_elements. split; [apply NoDup_nodup|]. intro i. rewrite nodup_In, in_flat_map. split.
  - intros (f & Hf & Hi). rewrite U in Hi. apply in_map_iff in Hi as (j & <- & Hj). apply holders_in in Hj as (e & He & Hfe); auto.
    exists e, f. auto.
  - intros (e & f & He & Hfe & Hf). exists f. split; auto. rewrite U. apply in_map_iff. exists i. split; auto.
    apply holders_in; auto. eauto.
Qed.

(** * Requests and answers *)
Lemma all_items_spec k es gids um fs : (forall e, In e es -> good k e) -> up_entries k 0 es = Some um ->
  length gids = length es ->
  exists l, all_items um es gids fs = Some l /\
    forall f g e, In (f, (g, e)) l <-> In f fs /\ facet_of k f e /\ exists i, nth_error es i = Some e /\ nth_error gids i = Some g.
Proof.
  intros G E L. destruct (up_entries_spec k es 0 G) as (um' & E' & U & _). rewrite E in E'. inversion E'; subst um'. clear E'.
  assert (FI : forall f els, (forall i, In i els -> i < length es) -> exists r, face_items es gids f els = Some r /\
     forall f' g e, In (f', (g, e)) r <-> f' = f /\ exists i, In i els /\ nth_error es i = Some e /\ nth_error gids i = Some g).
  { intros f. induction els as [|i t IH]; intro B.
    - exists []. split; auto. intros. split; [intros []|]. intros (_ & i & [] & _).
    - destruct (IH (fun j Hj => B j (or_intror Hj))) as (r & Er & M). cbn [face_items].
      pose proof (B i (or_introl eq_refl)) as Bi.
      destruct (nth_error_lt es i Bi) as [e Ee]. destruct (nth_error_lt gids i) as [g Eg]; [lia|].
      rewrite Ee. cbn [bind]. rewrite Eg. cbn [bind]. rewrite Er. cbn [bind]. eexists. split; [reflexivity|].
      intros f' g' e'. cbn [In]. rewrite M. split.
      + intros [H|(-> & j & Hj & H1 & H2)]; [inversion H; subst; split; auto; exists i; auto|split; auto; exists j; auto].
      + intros (-> & j & [<-|Hj] & H1 & H2); [left; congruence|right; split; auto; exists j; auto]. }
  induction fs as [|f t IH].
  - exists []. split; auto. intros. split; [intros []|]. intros ([] & _).
  - destruct IH as (r & Er & M). cbn [all_items].
    destruct (FI f (up_get um f)) as (a & Ea & Ma).
    { intros i Hi. rewrite U in Hi. apply in_map_iff in Hi as (j & <- & Hj). apply holders_in in Hj as (e & He & _); auto.
      apply nth_error_Some. cbn. congruence. }
    rewrite Ea. cbn [bind]. rewrite Er. cbn [bind]. eexists. split; [reflexivity|].
    intros f' g e. rewrite in_app_iff, Ma, M. cbn [In]. split.
    + intros [(-> & i & Hi & H1 & H2)|(H1 & H2 & H3)]; [|auto]. split; auto.
      rewrite U in Hi. apply in_map_iff in Hi as (j & <- & Hj). apply holders_in in Hj as (e' & He & Hf); auto.
      cbn [Nat.add] in *. split; [congruence|]. exists j; auto.
    + intros ([<-|Hf] & H2 & i & H3 & H4); [left|right; eauto 6]. split; auto. exists i. split; auto. rewrite U.
      apply in_map_iff. exists i. split; auto. apply holders_in; auto. eauto.
Qed.

Lemma required_faces_spec k es c : (forall e, In e es -> good k e) ->
  exists l, required_faces k es c = Some l /\ forall f, In f l <-> exists e, In e (skipn c es) /\ facet_of k f e.
Proof.
  intro G. unfold required_faces.
  assert (G' : forall e, In e (skipn c es) -> good k e).
  { intros e He. apply G. rewrite <- (firstn_skipn c es). apply in_or_app; auto. }
  destruct (up_entries_spec k (skipn c es) 0 G') as (um & E & _ & M). rewrite E. cbn [bind].
  eexists. split; [reflexivity|]. intro f. rewrite (proj2 (owned_set_spec _)), in_map_iff. split.
  - intros ([f' i] & <- & H). cbn [fst]. apply M in H as (j & -> & Hj). apply holders_in in Hj as (e & He & Hf); auto.
    exists e. split; auto. eapply nth_error_In; eauto.
  - intros (e & He & Hf). apply In_nth_error in He as (j & Hj). exists (f, j). split; auto. apply M. exists j. split; auto.
    apply holders_in; auto. eauto.
Qed.

Lemma missing_vertex_spec : forall e f, StronglySorted lt e -> StronglySorted lt f -> incl f e -> length e = length f + 1 ->
  exists v, missing_vertex e f = Some v /\ ~ In v f /\ forall x, In x e <-> x = v \/ In x f.
Proof.
  induction e as [|x e IH]; intros f Se Sf I L; [cbn in L; lia|].
  inversion Se as [|? ? Se' Fe]; subst. rewrite Forall_forall in Fe.
  destruct f as [|y f].
  - cbn in *. exists x. split; auto. split; auto. intro z. destruct e; cbn in *; [|lia]. split; [intros [->|[]]; auto|intros [->|[]]; auto].
  - inversion Sf as [|? ? Sf' Ff]; subst. rewrite Forall_forall in Ff. cbn [missing_vertex]. destruct (Nat.eqb_spec x y) as [->|Hne].
    + destruct (IH f) as (v & E & Nv & M); auto.
      * intros z Hz. destruct (I z (or_intror Hz)) as [->|H]; auto. specialize (Ff z Hz). lia.
      * exists v. split; auto. assert (Hv : In v e) by (apply M; auto). split.
        -- intros [->|H]; [|auto]. specialize (Fe v Hv). lia.
        -- intro z. cbn [In]. rewrite M. tauto.
    + exists x. split; auto.
      assert (Hx : forall z, In z (y :: f) -> In z e).
      { intros z Hz. destruct (I z Hz) as [<-|H]; auto. exfalso. destruct (I y (or_introl eq_refl)) as [->|Hy]; [auto|].
        specialize (Fe y Hy). destruct Hz as [->|Hz]; [auto|]. specialize (Ff x Hz). lia. }
      split.
      * intro H. apply Hx, Fe in H. lia.
      * intro z. split; [|intros [->|H]; [left; auto|right; apply Hx; auto]].
        intros [->|H]; [left; auto|right].
        assert (Inc : incl e (y :: f)).
        { apply NoDup_length_incl; [apply sorted_lt_NoDup; auto|cbn in *; lia|exact Hx]. }
        apply Inc; auto.
Qed.

Lemma requests_spec k es um fs : (forall e, In e es -> good k e) -> up_entries k 0 es = Some um ->
  (forall f, In f fs -> length (holders k es f) = 1) ->
  exists rq, requests um es fs = Some rq /\ 
    forall f v, In (f, v) rq <-> In f fs /\ exists e, In e es /\ facet_of k f e /\ missing_vertex e f = Some v.
Proof.
  intros G E. destruct (up_entries_spec k es 0 G) as (um' & E' & U & _). rewrite E in E'. inversion E'; subst um'. clear E'.
  induction fs as [|f t IH]; intro H1.
  - exists []. split; [reflexivity|]. intros; split; [intros []|intros ([] & _)].
  - destruct (IH (fun x Hx => H1 x (or_intror Hx))) as (rq & Er & M). cbn [requests].
    pose proof (H1 f (or_introl eq_refl)) as Hf. destruct (holders k es f) as [|i [|]] eqn:Eh; try discriminate.
    rewrite U, Eh. cbn [map nth_error bind Nat.add].
    assert (Hi : In i (holders k es f)) by (rewrite Eh; left; auto). apply holders_in in Hi as (e & He & Hfe); auto.
    rewrite He. cbn [bind]. destruct (G e (nth_error_In _ _ He)) as [Le Se]. destruct Hfe as (Lf & Sf & If).
    destruct (missing_vertex_spec e f Se Sf If ltac:(lia)) as (v & Ev & _). rewrite Ev. cbn [bind]. rewrite Er. cbn [bind].
    eexists. split; [reflexivity|]. 
    intros f' v'. cbn [In]. rewrite M. split.
    + intros [X|(X & Y)]; [inversion X; subst; split; auto; exists e; split; [eapply nth_error_In; eauto|]; split; auto; repeat split; auto|auto].
    + intros ([<-|X] & e' & He' & Hf' & Hm); [left|right; eauto 7].
      apply In_nth_error in He' as (j & Hj). assert (In j (holders k es f)) by (apply holders_in; eauto).
      rewrite Eh in H. destruct H as [<-|[]]. congruence.
Qed.
