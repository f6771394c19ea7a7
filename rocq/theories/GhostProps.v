(** C20: every rank gets exactly the elements adjacent to its own, consistently numbered. *)
Require Import List Arith Bool ZArith Lia Permutation Sorted.
Require Import Verif.Base Verif.CommModel Verif.CommProofs Verif.CommBlocks Verif.DistributeModel Verif.DistributeProofs
  Verif.DistributeProps Verif.SimplexModel
  Verif.SimplexProofs Verif.AlgorithmModel Verif.AlgorithmProps Verif.CombinatoricsProofs Verif.LocalMeshModel Verif.LocalMeshProofs Verif.LocalMeshProps
  Verif.PartitionModel Verif.PartitionProofs Verif.FacesModel Verif.FacesProofs Verif.FacesShared Verif.FacesProps
  Verif.GhostModel Verif.GhostSpec Verif.GhostProofs Verif.GhostOrder.
Import ListNotations.
Local Open Scope opt_scope.

Lemma at_most_two {A} (l : list A) : NoDup l -> (forall a b c, In a l -> In b l -> In c l -> a = b \/ a = c \/ b = c) -> length l <= 2.
Proof.
  intros N H. destruct l as [|a [|b [|c l]]]; cbn; try lia. exfalso.
  inversion N as [|? ? N1 N2]; subst. inversion N2 as [|? ? N3 N4]; subst.
  destruct (H a b c) as [E|[E|E]]; cbn; auto; subst; cbn in *; tauto.
Qed.
Lemma sumn_filter (P : nat -> bool) n : sumn (fun p => if P p then 1 else 0) n = length (filter P (seq 0 n)).
Proof.
  induction n as [|n IH]; auto. cbn [sumn]. rewrite IH, seq_S, filter_app, app_length. cbn [filter Nat.add].
  destruct (P n); auto.
Qed.
Lemma nodup_layout_inv {A} procs (blk : nat -> list A) : NoDup (layout (seq 0 procs) blk) ->
  (forall p, p < procs -> NoDup (blk p)) /\
  (forall p q x, p < procs -> q < procs -> In x (blk p) -> In x (blk q) -> p = q).
Proof.
  unfold layout. intro N.
  assert (G : forall l, NoDup (concat (map blk l)) ->
     (forall p, In p l -> NoDup (blk p)) /\
     forall a m b q x, l = a ++ m :: b -> In q b -> In x (blk m) -> In x (blk q) -> False).
  { induction l as [|p l IH]; intro Nl.
    - split; [intros ? []|]. intros a m b q x E. destruct a; discriminate.
    - cbn [map concat] in Nl. 
      assert (S1 : NoDup (blk p) /\ NoDup (concat (map blk l)) /\ forall x, In x (blk p) -> ~ In x (concat (map blk l))).
      { clear -Nl. induction (blk p) as [|y t IHt]; cbn in Nl; [split; [constructor|]; auto|].
        inversion Nl; subst. destruct (IHt H2) as (A1 & A2 & A3). split; [|split; auto].
        - constructor; auto. intro; apply H1; apply in_or_app; auto.
        - intros x [<-|Hx]; [intro; apply H1; apply in_or_app; auto|auto]. }
      destruct S1 as (S1 & S2 & S3). destruct (IH S2) as [I1 I2]. split.
      + intros q [<-|Hq]; auto.
      + intros a m b q x E Hq Hx Hy. destruct a as [|a0 a]; inversion E; subst.
        * apply (S3 x Hx). apply in_concat. exists (blk q). split; auto. apply in_map; auto.
        * eapply I2; eauto. }
  destruct (G _ N) as [G1 G2]. split.
  - intros p Hp. apply G1. apply in_seq. lia.
  - assert (W : forall p q x, p < q -> q < procs -> In x (blk p) -> In x (blk q) -> False).
    { intros p q x Hpq Hq Hx Hy. apply (G2 (seq 0 p) p (seq (S p) (procs - S p)) q x); auto.
      - apply seq_split. lia.
      - apply in_seq. lia. }
    intros p q x Hp Hq Hx Hy. destruct (lt_eq_lt_dec p q) as [[L|L]|L]; auto; exfalso; eauto.
Qed.
Lemma bkt_concat {A} (rk : A -> nat) n : forall a l, StronglySorted (fun x y => rk x <= rk y) l ->
  (forall x, In x l -> a <= rk x < a + n) -> concat (map (bkt rk l) (seq a n)) = l.
Proof.
  induction n as [|n IH]; intros a l S B.
  - destruct l as [|x l]; auto. specialize (B x (or_introl eq_refl)). lia.
  - cbn [seq map concat]. set (l' := filter (fun x => negb (rk x =? a)) l).
    assert (E : l = bkt rk l a ++ l').
    { unfold l', bkt. clear -S B. induction S as [|x l S IHl F]; auto. cbn [filter].
      assert (Bx := B x (or_introl eq_refl)). rewrite Forall_forall in F.
      destruct (Nat.eqb_spec (rk x) a); cbn [negb app].
      - f_equal. apply IHl. intros; apply B; right; auto.
      - assert (Z : forall m, (forall y, In y m -> rk x <= rk y) -> filter (fun y => rk y =? a) m = [] /\ filter (fun y => negb (rk y =? a)) m = m).
        { induction m as [|y m IHm]; intro Hm; auto. destruct IHm as [Z1 Z2]; [intros; apply Hm; right; auto|]. cbn [filter].
          specialize (Hm y (or_introl eq_refl)). destruct (Nat.eqb_spec (rk y) a); [lia|]. cbn [negb]. rewrite Z1, Z2. auto. }
        destruct (Z l F) as [-> ->]. auto. }
    rewrite E at 3. f_equal.
    assert (Sl : StronglySorted (fun x y => rk x <= rk y) l').
    { unfold l'. clear -S. induction S as [|x l S IHl F]; cbn; [constructor|]. destruct (negb _); auto. constructor; auto.
      rewrite Forall_forall in *. intros y Hy. apply filter_In in Hy. apply F. tauto. }
    rewrite <- (IH (Datatypes.S a) l' Sl) at 1.
    + f_equal. apply map_ext_in. intros p Hp. apply in_seq in Hp. unfold l', bkt. rewrite filter_filter. apply filter_ext.
      intro x. destruct (Nat.eqb_spec (rk x) a), (Nat.eqb_spec (rk x) p); auto; lia.
    + intros x Hx. apply filter_In in Hx as [Hx Hn]. specialize (B x Hx). destruct (Nat.eqb_spec (rk x) a); [discriminate|lia].
Qed.
Lemma simplex_cover k e e' v f : good k e -> good k e' -> facet_of k f e' ->
  (forall x, In x e <-> x = v \/ In x f) -> In v e' -> e = e'.
Proof.
  intros [Le Se] [Le' Se'] (_ & _ & If) M Hv.
  assert (I : incl e e') by (intros x Hx; apply M in Hx as [->|Hx]; auto).
  apply sorted_lt_set; auto. intro x. split; [apply I|].
  assert (incl e' e); [|auto]. apply NoDup_length_incl; auto; [apply sorted_lt_NoDup; auto|lia].
Qed.

Lemma map_nth_self {A} (d : A) l : map (fun i => nth i l d) (seq 0 (length l)) = l.
Proof.
  apply nth_error_ext. intro i. rewrite nth_error_map. destruct (lt_dec i (length l)) as [Hi|Hi].
  - rewrite (nth_error_nth' (seq _ _) 0) by (rewrite seq_length; auto). rewrite seq_nth by auto. symmetry. apply nth_error_nth'. auto.
  - rewrite !(proj2 (nth_error_None _ _)); auto; rewrite ?seq_length; lia.
Qed.
Lemma nth_app_perm {A} (d : A) l1 l2 n P : length l1 = n ->
  map (fun i => nth i (l1 ++ l2) d) (seq 0 n ++ map (fun i => n + i) P) = l1 ++ map (fun i => nth i l2 d) P.
Proof.
  intros <-. rewrite map_app, map_map. f_equal.
  - transitivity (map (fun i => nth i l1 d) (seq 0 (length l1))); [|apply map_nth_self]. apply map_ext_in. intros i Hi. apply in_seq in Hi. apply app_nth1. lia.
  - apply map_ext. intro i. rewrite app_nth2 by lia. f_equal. lia.
Qed.
Lemma nodup_map_inj {A B} (f : A -> B) l : (forall x y, In x l -> In y l -> f x = f y -> x = y) -> NoDup l -> NoDup (map f l).
Proof.
  intros I N. induction N as [|a l H N IH]; cbn; constructor.
  - intro X. apply in_map_iff in X as (y & E & Hy). apply H. rewrite (I a y); auto; cbn; auto.
  - apply IH. intros x y Hx Hy. apply I; cbn; auto.
Qed.
Lemma strongly_filter {A} (R : A -> A -> Prop) P l : StronglySorted R l -> StronglySorted R (filter P l).
Proof.
  induction 1 as [|x l S IH F]; cbn [filter]; [constructor|]. destruct (P x); auto. constructor; auto.
  rewrite Forall_forall in *. intros y Hy. apply filter_In in Hy. apply F. tauto.
Qed.

(** C20. *)
Theorem ghosts_correct : forall {A} (dA : A) procs k plex2rank elems data0 tags0 sh si o,
  0 < procs -> global_mesh procs k elems ->
  (Z.of_nat (length (concat (map elems (seq 0 procs)))) < 2 ^ 64)%Z ->
  (forall f q e, q < procs -> In e (elems q) -> facet_of k f e -> plex2rank f < procs) ->
  (forall d0 q, data0 = Some d0 \/ tags0 = Some d0 -> q < procs -> length (d0 q) = length (elems q)) ->
  (forall i q l, Permutation (sh i q l) l) -> (forall i q l, Permutation (si i q l) l) ->
  (forall i j, Permutation (o i j) (seq 0 procs)) ->
  exists (lf : nat -> local_faces A) (gid : simplex -> nat),
    getGhostElements dA procs k plex2rank elems data0 tags0 sh si o = Some lf /\
    Permutation (map gid (concat (map elems (seq 0 procs)))) (seq 0 (length (concat (map elems (seq 0 procs))))) /\
    forall q, q < procs ->
      map gid (firstn (length (elems q)) (lf_faces (lf q)))
        = seq (length (concat (map elems (seq 0 q)))) (length (elems q)) /\
      ghost_layer procs k elems data0 tags0 gid lf q /\ faces_consistent (lf q).
Proof.
  intros A dA procs k p2r elems data0 tags0 sh si o H0 [ME MD MT] HB HP HDt HSh HSi HO.
  fold (layout (seq 0 procs) elems) in MD, MT, HB |- *.
  set (all := layout (seq 0 procs) elems) in *.
  destruct (nodup_layout_inv procs elems MD) as [ND DJ].
  assert (IA : forall e, In e all <-> exists p, p < procs /\ In e (elems p)) by (intro; apply in_layout).
  assert (GE : forall q, q < procs -> forall e, In e (elems q) -> good k e) by (intros q Hq e He; apply (ME q); auto).
  set (ln := fun q => length (elems q)). set (off := fun q => sumn ln q).
  assert (LEN : forall m, length (concat (map elems (seq 0 m))) = off m).
  { intro m. fold (layout (seq 0 m) elems). rewrite layout_length. unfold off. rewrite sumn_list. auto. }
  assert (LALL : length all = off procs) by (apply LEN).
  rewrite LALL in HB.
  destruct (elem_dist_spec procs elems HB) as [DN DR]. fold ln in DN, DR. fold off in DR.
  set (dist := elem_dist procs elems) in *.
  (* holders of a facet on a rank *)
  set (hl := fun q f => holders k (elems q) f).
  assert (HI : forall q f i, q < procs -> (In i (hl q f) <-> exists e, nth_error (elems q) i = Some e /\ facet_of k f e)).
  { intros q f i Hq. apply holders_in. apply GE; auto. }
  assert (H2 : forall q f, q < procs -> length (hl q f) <= 2).
  { intros q f Hq. apply at_most_two; [apply holders_nodup|]. intros a b c Ha Hb Hc.
    apply HI in Ha as (ea & Ea & Fa); auto. apply HI in Hb as (eb & Eb & Fb); auto. apply HI in Hc as (ec & Ec & Fc); auto.
    assert (U : forall i j e, nth_error (elems q) i = Some e -> nth_error (elems q) j = Some e -> i = j).
    { intros i j e Hi Hj. apply (proj1 (NoDup_nth_error _) (ND q Hq)); [apply nth_error_Some; congruence|congruence]. }
    destruct (MT f ea eb ec) as [E|[E|E]]; auto; try (apply IA; exists q; split; auto; eapply nth_error_In; eauto); subst; eauto. }
  set (hasf := fun q f => exists e, In e (elems q) /\ facet_of k f e).
  assert (H1 : forall q p f, q < procs -> p < procs -> p <> q -> hasf q f -> hasf p f -> length (hl q f) = 1).
  { intros q p f Hq Hp Hne (e & He & Fe) (e' & He' & Fe').
    assert (N1 : 1 <= length (hl q f)).
    { apply In_nth_error in He as (i & Hi). assert (In i (hl q f)) by (apply HI; eauto). destruct (hl q f); [contradiction|cbn; lia]. }
    destruct (hl q f) as [|a [|b [|c l]]] eqn:Eh; cbn in *; try lia; [|pose proof (H2 q f Hq); rewrite Eh in *; cbn in *; lia].
    exfalso. assert (Ha : In a (hl q f)) by (rewrite Eh; cbn; auto). assert (Hb : In b (hl q f)) by (rewrite Eh; cbn; auto).
    apply HI in Ha as (ea & Ea & Fa); auto. apply HI in Hb as (eb & Eb & Fb); auto.
    pose proof (nth_error_In _ _ Ea) as Ia. pose proof (nth_error_In _ _ Eb) as Ib.
    destruct (MT f ea eb e') as [E|[E|E]]; auto; try (apply IA; eauto; fail); subst.
    - assert (a = b); [apply (proj1 (NoDup_nth_error _) (ND q Hq)); [apply nth_error_Some; congruence|congruence]|].
      pose proof (holders_nodup k (elems q) f) as NN. fold (hl q f) in NN. rewrite Eh in NN. inversion NN; subst. cbn in *; tauto.
    - apply Hne. eapply DJ; eauto.
    - apply Hne. eapply DJ; eauto. }
  assert (HF1 : forall q f, q < procs -> length (hl q f) = 1 -> exists e, In e (elems q) /\ facet_of k f e /\ forall e', In e' (elems q) -> facet_of k f e' -> e' = e).
  { intros q f Hq L. destruct (hl q f) as [|a [|]] eqn:Eh; try discriminate.
    assert (Ha : In a (hl q f)) by (rewrite Eh; cbn; auto). apply HI in Ha as (e & Ee & Fe); auto.
    exists e. split; [eapply nth_error_In; eauto|]. split; auto. intros e' He' Fe'. apply In_nth_error in He' as (j & Hj).
    assert (Ij : In j (hl q f)) by (apply HI; eauto). rewrite Eh in Ij. destruct Ij as [<-|[]]. congruence. }
  (* step 1: global numbers *)
  unfold getGhostElements. fold dist.
  assert (S1 : forall q, q < procs -> (do d <- nth_error dist q; Some (seq (Z.to_nat d) (length (elems q)))) = Some (seq (off q) (ln q))).
  { intros q Hq. rewrite DN by auto. cbn [bind]. rewrite Nat2Z.id. auto. }
  destruct (collective_ok [] procs _ _ S1) as (gids & E1 & Hgids). cbv beta in Hgids. rewrite E1. cbn [bind]. clear S1 E1.
  (* upward maps and boundary faces *)
  assert (S2 : forall q, q < procs -> exists um, up_entries k 0 (elems q) = Some um).
  { intros q Hq. destruct (up_entries_spec k (elems q) 0 (GE q Hq)) as (um & E & _). eauto. }
  set (umf := fun q => get [] (up_entries k 0 (elems q))).
  assert (S2' : forall q, q < procs -> up_entries k 0 (elems q) = Some (umf q)).
  { intros q Hq. unfold umf. destruct (S2 q Hq) as [um ->]. auto. }
  destruct (collective_ok [] procs (fun q => up_entries k 0 (elems q)) umf S2') as (um0 & E2 & Hum0). rewrite E2. cbn [bind]. clear E2.
  set (bff := fun q => get [] (getBoundaryFaces (umf q))).
  assert (S3 : forall q, q < procs -> getBoundaryFaces (umf q) = Some (bff q) /\ NoDup (bff q) /\ forall f, In f (bff q) <-> length (hl q f) = 1).
  { intros q Hq. destruct (getBoundaryFaces_spec k (elems q) (umf q) (GE q Hq) (S2' q Hq)) as (s & E & N & M); [intro; apply H2; auto|].
    unfold bff. rewrite E. auto. }
  assert (S3' : forall q, q < procs -> getBoundaryFaces (um0 q) = Some (bff q)) by (intros q Hq; rewrite Hum0 by auto; apply S3; auto).
  destruct (collective_ok [] procs (fun q => getBoundaryFaces (um0 q)) bff S3') as (bf0 & E3 & Hbf0). rewrite E3. cbn [bind]. clear E3.
  assert (BFI : forall q f, q < procs -> (In f (bf0 q) <-> length (hl q f) = 1)) by (intros q f Hq; rewrite Hbf0 by auto; apply S3; auto).
  assert (FR : forall f, face_ranks procs bf0 f = length (filter (fun p => mem f (bf0 p)) (seq 0 procs))) by (intro; apply sumn_filter).
  assert (FRI : forall f p, In p (filter (fun p => mem f (bf0 p)) (seq 0 procs)) <-> p < procs /\ length (hl p f) = 1).
  { intros f p. rewrite filter_In, in_seq, mem_spec. split; intros [X Y]; [split; [lia|apply BFI; auto; lia]|split; [lia|apply BFI; auto]]. }
  destruct (deleteDomain_spec procs p2r (sh 0) (o 0) bf0 H0) as (bf & E4 & Hbf); auto.
  { intros q f Hq Hf. apply BFI in Hf; auto. destruct (HF1 q f Hq Hf) as (e & He & Fe & _). eapply HP; eauto. }
  { intros q Hq. rewrite Hbf0 by auto. apply S3; auto. }
  { intro f. rewrite FR. apply at_most_two; [apply NoDup_filter, seq_NoDup|]. intros a b c Ha Hb Hc.
    apply FRI in Ha as [Pa La]. apply FRI in Hb as [Pb Lb]. apply FRI in Hc as [Pc Lc].
    destruct (HF1 a f Pa La) as (ea & Ia & Fa & _). destruct (HF1 b f Pb Lb) as (eb & Ib & Fb & _). destruct (HF1 c f Pc Lc) as (ec & Ic & Fc & _).
    destruct (MT f ea eb ec) as [E|[E|E]]; auto; try (apply IA; eauto; fail); subst; [left|right; left|right; right]; eapply DJ; eauto. }
  rewrite E4. cbn [bind]. clear E4.
  (* a facet that another rank has, too *)
  set (shf := fun q f => exists p, p < procs /\ p <> q /\ hasf p f).
  assert (BF : forall q f, q < procs -> (In f (bf q) <-> hasf q f /\ shf q f)).
  { intros q f Hq. rewrite Hbf, BFI, FR by auto. split.
    - intros [L1 L2]. destruct (HF1 q f Hq L1) as (e & He & Fe & _). split; [exists e; auto|].
      destruct (filter _ _) as [|a [|b [|]]] eqn:Ef; try discriminate.
      assert (Na : NoDup [a; b]) by (rewrite <- Ef; apply NoDup_filter, seq_NoDup).
      assert (X : exists p, In p [a; b] /\ p <> q).
      { destruct (Nat.eq_dec a q) as [Ea|Ea]; [exists b|exists a]; cbn; split; auto. intro Eb. subst. inversion Na; cbn in *; tauto. }
      destruct X as (p & Hp & Hne). rewrite <- Ef in Hp. apply FRI in Hp as [Hp Lp].
      destruct (HF1 p f Hp Lp) as (e' & He' & Fe' & _). exists p. split; auto. split; auto. exists e'; auto.
    - intros [Hqf (p & Hp & Hne & Hpf)]. assert (L1 := H1 q p f Hq Hp Hne Hqf Hpf).
      assert (L2 := H1 p q f Hp Hq ltac:(auto) Hpf Hqf). split; auto.
      assert (G1 : In q (filter (fun p => mem f (bf0 p)) (seq 0 procs))) by (apply FRI; auto).
      assert (G2 : In p (filter (fun p => mem f (bf0 p)) (seq 0 procs))) by (apply FRI; auto).
      assert (UP : length (filter (fun p => mem f (bf0 p)) (seq 0 procs)) <= 2).
      { apply at_most_two; [apply NoDup_filter, seq_NoDup|]. intros a b c Ha Hb Hc.
        apply FRI in Ha as [Pa La]. apply FRI in Hb as [Pb Lb]. apply FRI in Hc as [Pc Lc].
        destruct (HF1 a f Pa La) as (ea & Ia & Fa & _). destruct (HF1 b f Pb Lb) as (eb & Ib & Fb & _). destruct (HF1 c f Pc Lc) as (ec & Ic & Fc & _).
        destruct (MT f ea eb ec) as [E|[E|E]]; auto; try (apply IA; eauto; fail); subst; [left|right; left|right; right]; eapply DJ; eauto. }
      destruct (filter _ _) as [|a [|b [|]]]; cbn in *; try tauto; try lia. }
  (* interior and copy elements *)
  set (cp := fun q => copy_elements (umf q) (bf q)).
  assert (CP : forall q, q < procs -> NoDup (cp q) /\ forall i, In i (cp q) <-> exists e f, nth_error (elems q) i = Some e /\ facet_of k f e /\ shf q f).
  { intros q Hq. destruct (copy_elements_spec k (elems q) (umf q) (bf q) (GE q Hq) (S2' q Hq)) as [N M]. split; auto.
    intro i. unfold cp. rewrite (M i). split.
    - intros (e & f & Ee & Fe & Hf). apply BF in Hf as [_ Hf]; auto. eauto.
    - intros (e & f & Ee & Fe & Hf). exists e, f. split; auto. split; auto. apply BF; auto. split; auto. exists e. split; auto.
      eapply nth_error_In; eauto. }
  set (esI := fun q => map (fun i => nth i (elems q) []) (filter (fun i => negb (in_list (cp q) i)) (seq 0 (ln q)))).
  set (esC := fun q => map (fun i => nth i (elems q) []) (filter (in_list (cp q)) (seq 0 (ln q)))).
  set (es := fun q => esI q ++ esC q).
  assert (S5 : forall q, q < procs -> sort_interior_copy (elems q) (copy_elements (um0 q) (bf q)) = Some (es q, length (esI q))).
  { intros q Hq. rewrite Hum0 by auto. fold (cp q). rewrite sort_interior_copy_spec.
    - unfold es, esI, esC, ln. rewrite map_length. reflexivity.
    - apply CP; auto.
    - intros i Hi. apply CP in Hi as (e & f & Ee & _); auto. apply nth_error_Some. congruence. }
  destruct (collective_ok ([], 0) procs _ _ S5) as (ic & E5 & Hic). cbv beta in Hic. rewrite E5. cbn [bind]. clear E5.
  assert (PM : forall q, Permutation (es q) (elems q)).
  { intro q. unfold es, esI, esC. rewrite <- map_app. eapply perm_trans; [apply Permutation_map, filter_partition|].
    fold (ln q). replace (map (fun i => nth i (elems q) []) (seq 0 (ln q))) with (elems q); auto.
    apply nth_error_ext. intro i. rewrite nth_error_map. destruct (lt_dec i (ln q)) as [Hi|Hi].
    - rewrite (nth_error_nth' (seq _ _) 0) by (rewrite seq_length; auto). rewrite seq_nth by auto. cbn. apply nth_error_nth'. auto.
    - rewrite !(proj2 (nth_error_None _ _)); auto; rewrite ?seq_length; unfold ln in *; lia. }
  assert (PI : forall q e, In e (es q) <-> In e (elems q)).
  { intros q e. split; apply Permutation_in; [|symmetry]; apply PM. }
  assert (LE : forall q, length (es q) = ln q) by (intro q; apply (Permutation_length (PM q))).
  assert (GE' : forall q, q < procs -> forall e, In e (es q) -> good k e) by (intros q Hq e He; apply (GE q Hq), PI; auto).
  assert (EI : forall q e, q < procs -> In e (esI q) -> forall f, facet_of k f e -> ~ shf q f).
  { intros q e Hq He f Hf Hs. apply in_map_iff in He as (i & <- & Hi). apply filter_In in Hi as [Hi Hn]. apply in_seq in Hi.
    destruct (in_list (cp q) i) eqn:Ei; [discriminate|]. assert (In i (cp q)); [|apply in_list_spec in H; congruence].
    apply CP; auto. exists (nth i (elems q) []), f. split; auto. apply nth_error_nth'. unfold ln in *. lia. }
  assert (EC : forall q e, q < procs -> In e (esC q) -> exists f, facet_of k f e /\ shf q f).
  { intros q e Hq He. apply in_map_iff in He as (i & <- & Hi). apply filter_In in Hi as [Hi Hn]. apply in_list_spec in Hn.
    apply CP in Hn as (e & f & Ee & Fe & Hs); auto. rewrite (nth_of_nth_error _ _ _ _ Ee). eauto. }
  assert (EC' : forall q e f, q < procs -> In e (elems q) -> facet_of k f e -> shf q f -> In e (esC q)).
  { intros q e f Hq He Hf Hs. apply PI in He. apply in_app_or in He as [He|He]; auto. exfalso. eapply EI; eauto. }
  (* global number and owner of an element *)
  set (gid := fun e => pos e (layout (seq 0 procs) es)).
  assert (NDe : NoDup (layout (seq 0 procs) es)).
  { apply NoDup_layout.
    - intros p Hp. apply (Permutation_NoDup (Permutation_sym (PM p))). auto.
    - intros p q x Hp Hq Hx Hy. apply PI in Hx. apply PI in Hy. eapply DJ; eauto. }
  assert (PA : Permutation (layout (seq 0 procs) es) all).
  { apply NoDup_Permutation; auto. intro e. rewrite IA, in_layout. split; intros (p & Hp & He); exists p; split; auto; apply PI; auto. }
  assert (GI : forall p i e, p < procs -> nth_error (es p) i = Some e -> gid e = off p + i).
  { intros p i e Hp Ee. unfold gid. apply pos_nth; auto.
    assert (Hi : i < length (es p)) by (apply nth_error_Some; congruence).
    pose proof (layout_nth es (seq 0 procs) p i) as LN. rewrite seq_length, seq_nth in LN by auto. cbn [Nat.add] in LN.
    rewrite <- (LN Hp Hi) in Ee. rewrite <- Ee. f_equal. unfold off. f_equal. apply sumn_ext. intros j Hj.
    rewrite seq_nth by lia. cbn. symmetry. apply LE. }
  assert (GM : forall q, q < procs -> map gid (es q) = seq (off q) (ln q)).
  { intros q Hq. apply nth_error_ext. intro i. rewrite nth_error_map. destruct (nth_error (es q) i) as [e|] eqn:Ee.
    - cbn. rewrite (GI q i e Hq Ee). assert (i < ln q) by (rewrite <- LE; apply nth_error_Some; congruence).
      rewrite (nth_error_nth' (seq _ _) 0) by (rewrite seq_length; auto). rewrite seq_nth by auto. auto.
    - cbn. symmetry. apply nth_error_None. apply nth_error_None in Ee. rewrite seq_length, <- LE. auto. }
  assert (OFFM : forall p p', p < p' -> off p + ln p <= off p').
  { intros p p' H. change (off p + ln p) with (off (S p)). apply sumn_le. lia. }
  set (owg := fun g => get 0 (rank_of dist (Z.of_nat g))).
  assert (OG : forall p e, p < procs -> In e (elems p) -> exists i, i < ln p /\ gid e = off p + i /\ rank_of dist (Z.of_nat (gid e)) = Some p).
  { intros p e Hp He. apply PI, In_nth_error in He as (i & Hi).
    assert (Li : i < ln p) by (rewrite <- LE; apply nth_error_Some; congruence). exists i. split; auto.
    assert (E := GI p i e Hp Hi). split; auto. rewrite E. apply DR; auto. }
  set (own := fun e => owg (gid e)).
  assert (OW : forall p e, p < procs -> In e (elems p) -> own e = p).
  { intros p e Hp He. destruct (OG p e Hp He) as (i & _ & _ & E). unfold own, owg. rewrite E. auto. }
  assert (GINJ : forall e e', In e all -> In e' all -> gid e = gid e' -> e = e').
  { intros e e' He He' E. apply (Permutation_in _ (Permutation_sym PA)) in He. apply (Permutation_in _ (Permutation_sym PA)) in He'.
    apply In_nth_error in He as (i & Hi). apply In_nth_error in He' as (j & Hj). unfold gid in E.
    rewrite (pos_nth _ _ _ NDe Hi), (pos_nth _ _ _ NDe Hj) in E. subst. congruence. }
  (* distributed upward map *)
  set (umf2 := fun q => get [] (up_entries k 0 (es q))).
  assert (S6 : forall q, q < procs -> up_entries k 0 (es q) = Some (umf2 q)).
  { intros q Hq. unfold umf2. destruct (up_entries_spec k (es q) 0 (GE' q Hq)) as (um & -> & _). auto. }
  assert (S6' : forall q, q < procs -> up_entries k 0 (fst (ic q)) = Some (umf2 q)) by (intros q Hq; rewrite Hic by auto; apply S6; auto).
  destruct (collective_ok [] procs (fun q => up_entries k 0 (fst (ic q))) umf2 S6') as (um & E6 & Hum). rewrite E6. cbn [bind]. clear E6.
  set (rff := fun q => get [] (required_faces k (es q) (length (esI q)))).
  assert (RF : forall q, q < procs -> required_faces k (es q) (length (esI q)) = Some (rff q) /\ forall f, In f (rff q) <-> exists e, In e (esC q) /\ facet_of k f e).
  { intros q Hq. destruct (required_faces_spec k (es q) (length (esI q)) (GE' q Hq)) as (l & E & M). unfold rff. rewrite E. cbn [get].
    split; auto. intro f. rewrite M. unfold es. rewrite skipn_app, skipn_all, Nat.sub_diag. cbn [skipn app]. tauto. }
  set (itf := fun q => si 0 q (get [] (all_items (umf2 q) (es q) (seq (off q) (ln q)) (rff q)))).
  assert (IT : forall q, q < procs ->
     (do rf <- required_faces k (fst (ic q)) (snd (ic q)); do l <- all_items (um q) (fst (ic q)) (gids q) rf; Some (si 0 q l)) = Some (itf q) /\
     forall f g e, In (f, (g, e)) (itf q) <-> In e (elems q) /\ g = gid e /\ facet_of k f e /\ In f (rff q)).
  { intros q Hq. rewrite Hic, Hum, Hgids by auto. cbn [fst snd]. rewrite (proj1 (RF q Hq)). cbn [bind].
    destruct (all_items_spec k (es q) (seq (off q) (ln q)) (umf2 q) (rff q) (GE' q Hq) (S6 q Hq)) as (l & E & M); [rewrite seq_length, LE; auto|].
    unfold itf. rewrite E. cbn [bind get]. split; auto. intros f g e.
    assert (X : In (f, (g, e)) (si 0 q l) <-> In (f, (g, e)) l) by (split; apply Permutation_in; [|symmetry]; apply HSi).
    rewrite X, M. split.
    - intros (Hf & Fe & i & Ei & Eg). split; [apply PI; eapply nth_error_In; eauto|]. split; auto.
      rewrite (GI q i e Hq Ei). assert (i < ln q) by (rewrite <- LE; apply nth_error_Some; congruence).
      rewrite (nth_error_nth' (seq _ _) 0) in Eg by (rewrite seq_length; auto). rewrite seq_nth in Eg by auto. congruence.
    - intros (He & -> & Fe & Hf). split; auto. split; auto. apply PI, In_nth_error in He as (i & Hi). exists i. split; auto.
      rewrite (GI q i e Hq Hi). assert (i < ln q) by (rewrite <- LE; apply nth_error_Some; congruence).
      rewrite (nth_error_nth' (seq _ _) 0) by (rewrite seq_length; auto). rewrite seq_nth by auto. auto. }
  destruct (collective_ok [] procs _ itf (fun q Hq => proj1 (IT q Hq))) as (items & E7 & Hitems). rewrite E7. cbn [bind]. clear E7.
  destruct (pack_exchange ([], (0, [])) procs (fun x : up_item => p2r (fst x)) items (o 1 0) ([], []) H0) as (pk1 & pat1 & rec1 & E8 & E9 & E10 & _ & Hrec1 & _); auto.
  { intros q [f [g e]] Hq Ha. rewrite Hitems in Ha by auto. apply IT in Ha as (He & _ & Fe & _); auto. cbn. eapply HP; eauto. }
  unfold up_item in E8, E10. rewrite E8. cbn [bind]. rewrite E9. cbn [bind]. rewrite E10. cbn [bind]. clear E8 E9 E10.
  set (distUp := fun q => si 1 q (rec1 q)).
  assert (DU : forall r f g e, r < procs -> (In (f, (g, e)) (distUp r) <-> p2r f = r /\ g = gid e /\ facet_of k f e /\ exists p, p < procs /\ In e (elems p) /\ In f (rff p))).
  { intros r f g e Hr.
    assert (X : In (f, (g, e)) (distUp r) <-> In (f, (g, e)) (rec1 r)) by (split; apply Permutation_in; [|symmetry]; apply HSi).
    rewrite X, Hrec1, in_layout by auto. split.
    - intros (p & Hp & Hx). apply filter_In in Hx as [Hx Er]. cbn in Er. apply Nat.eqb_eq in Er. rewrite Hitems in Hx by auto.
      apply IT in Hx as (He & -> & Fe & Hf); auto. split; auto. split; auto. split; auto. exists p; auto.
    - intros (Er & -> & Fe & p & Hp & He & Hf). exists p. split; auto. apply filter_In. cbn. rewrite Er, Nat.eqb_refl. split; auto.
      rewrite Hitems by auto. apply IT; auto. }
  (* requests *)
  set (hl2 := fun q f => holders k (es q) f).
  assert (HI2 : forall q f i, q < procs -> (In i (hl2 q f) <-> exists e, nth_error (es q) i = Some e /\ facet_of k f e)).
  { intros q f i Hq. apply holders_in. apply GE'; auto. }
  assert (HLE : forall q f, q < procs -> length (hl2 q f) = length (hl q f)).
  { intros q f Hq. 
    assert (X : forall l, length (holders k l f) = length (filter (fun e => mem f (faces_of k e)) l)).
    { induction l as [|e l IHl]; auto. unfold holders in *. cbn [length seq filter]. unfold holds at 1. cbn [nth].
      assert (Y : length (filter (holds k (e :: l) f) (seq 1 (length l))) = length (filter (holds k l f) (seq 0 (length l)))).
      { rewrite <- seq_shift. generalize (seq 0 (length l)). induction l0 as [|x l0 IH0]; auto. cbn [map filter].
        change (holds k (e :: l) f (S x)) with (holds k l f x). destruct (holds k l f x); cbn [length]; auto. }
      destruct (mem f (faces_of k e)); cbn [length]; rewrite Y, IHl; auto. }
    unfold hl2, hl. rewrite !X.
    assert (Z : forall (l l' : list simplex) P, Permutation l l' -> length (filter P l) = length (filter P l')).
    { intros l l' P Q. induction Q; cbn; auto; try congruence; [destruct (P x); cbn; auto|destruct (P x), (P y); auto]. }
    apply Z. apply PM. }
  set (rqf := fun q => get [] (do b <- getBoundaryFaces (umf2 q); requests (umf2 q) (es q) (sh 1 q b))).
  assert (RQ : forall q, q < procs ->
     (do b <- getBoundaryFaces (um q); requests (um q) (fst (ic q)) (sh 1 q b)) = Some (rqf q) /\
     forall f v, In (f, v) (rqf q) <-> length (hl q f) = 1 /\ exists e, In e (elems q) /\ facet_of k f e /\ missing_vertex e f = Some v).
  { intros q Hq. rewrite Hic, Hum by auto. cbn [fst].
    destruct (getBoundaryFaces_spec k (es q) (umf2 q) (GE' q Hq) (S6 q Hq)) as (b & E & N & M).
    { intro f. fold (hl2 q f). rewrite HLE by auto. apply H2; auto. }
    destruct (requests_spec k (es q) (umf2 q) (sh 1 q b) (GE' q Hq) (S6 q Hq)) as (rq & E' & M').
    { intros f Hf. apply M. apply (Permutation_in _ (HSh 1 q b)). auto. }
    unfold rqf. rewrite E. cbn [bind]. rewrite E'. cbn [get]. split; auto. intros f v. rewrite M'.
    assert (X : In f (sh 1 q b) <-> length (hl q f) = 1).
    { rewrite <- HLE by auto. unfold hl2. rewrite <- M. split; apply Permutation_in; [|symmetry]; apply HSh. }
    rewrite X. split; intros (L & e & He & R); split; auto; exists e; split; auto; apply PI; auto. }
  destruct (collective_ok [] procs _ rqf (fun q Hq => proj1 (RQ q Hq))) as (rqs & E11 & Hrqs). rewrite E11. cbn [bind]. clear E11.
  assert (PRQ : forall q a, q < procs -> In a (rqs q) -> p2r (fst a) < procs).
  { intros q [f v] Hq Ha. rewrite Hrqs in Ha by auto. apply RQ in Ha as (_ & e & He & Fe & _); auto. cbn. eapply HP; eauto. }
  destruct (pack_exchange ([], 0) procs (fun x : simplex * nat => p2r (fst x)) rqs (o 2 0) ([], []) H0) as (pk2 & pat2 & rec2 & E12 & E13 & E14 & _ & Hrec2 & PB2); auto.
  rewrite E12. cbn [bind]. rewrite E13. cbn [bind]. rewrite E14. cbn [bind]. clear E12 E13 E14.
  destruct (exchange_answers None procs (fun x : simplex * nat => p2r (fst x)) rqs pat2 rec2 (fun q => answer (distUp q))
     (fun q => map (answer (distUp q)) (rec2 q)) (o 2 1) H0 PB2 Hrec2) as (cands & E15 & Hcands); auto.
  match goal with |- context [collective [] procs (exchange None ?x ?y ?z)] =>
    change (collective [] procs (exchange None x y z)) with (collective [] procs (exchange None (fun q => swap_pattern (pat2 q)) (fun q => map (answer (distUp q)) (rec2 q)) (o 2 1))) end.
  rewrite E15. cbn [bind]. clear E15.
  assert (CI : forall q c, q < procs -> (In c (cands q) <-> exists f v, In (f, v) (rqf q) /\ c = answer (distUp (p2r f)) (f, v))).
  { intros q c Hq. rewrite Hcands by auto.
    assert (PQ : Permutation (layout (seq 0 procs) (bkt (fun x : simplex * nat => p2r (fst x)) (rqs q))) (rqs q)) by (apply bkt_layout_perm; intros a Ha; eapply PRQ; eauto).
    rewrite in_map_iff. split.
    - intros ([f v] & <- & Ha). apply (Permutation_in _ PQ) in Ha. rewrite Hrqs in Ha by auto. exists f, v. auto.
    - intros (f & v & Ha & ->). exists (f, v). split; auto. apply (Permutation_in _ (Permutation_sym PQ)). rewrite Hrqs by auto. auto. }
  (* what is behind a facet *)
  set (ghost := fun q e' => exists p e, p < procs /\ p <> q /\ In e' (elems p) /\ In e (elems q) /\ touches k e' e).
  assert (CG : forall q g e', q < procs -> (In (Some (g, e')) (cands q) <-> g = gid e' /\ ghost q e')).
  { intros q g e' Hq. rewrite CI by auto.
    assert (FWD : forall f v e g e', length (hl q f) = 1 -> In e (elems q) -> facet_of k f e -> missing_vertex e f = Some v ->
       answer (distUp (p2r f)) (f, v) = Some (g, e') -> g = gid e' /\ facet_of k f e' /\ e' <> e /\ exists p, p < procs /\ p <> q /\ In e' (elems p)).
    { clear g e'. intros f v e g e' L He Fe Mv An. unfold answer in An.
      destruct (find _ _) as [[f' [g' e'']]|] eqn:Ef; [|discriminate]. cbn in An. inversion An; subst g' e''. clear An.
      apply find_some in Ef as [Hin Ht]. cbn [fst snd] in Ht. apply andb_true_iff in Ht as [T1 T2].
      apply simplex_eqb_spec in T1. subst f'. apply negb_true_iff in T2.
      apply DU in Hin as (_ & -> & Fe' & p & Hp & He' & _); [|eapply HP; eauto]. split; auto. split; auto.
      destruct (GE q Hq e He) as [Le Se]. destruct Fe as (Lf & Sf & If). 
      destruct (missing_vertex_spec e f Se Sf If ltac:(lia)) as (v' & Ev & _ & M). assert (v' = v) by congruence. subst v'.
      assert (Hne : e' <> e).
      { intros ->. assert (In v e) by (apply M; auto). apply in_list_spec in H. unfold in_list in H. congruence. }
      split; auto. exists p. split; auto. split; auto. intros ->.
      destruct (HF1 q f Hq L) as (e0 & _ & _ & U). apply Hne. rewrite (U e' He' Fe'). symmetry. apply U; auto. repeat split; auto. }
    split.
    - intros (f & v & Hr & An). symmetry in An. apply RQ in Hr as (L & e & He & Fe & Mv); auto.
      destruct (FWD f v e g e' L He Fe Mv An) as (-> & Fe' & Hne & p & Hp & Hpq & He'). split; auto.
      exists p, e. split; auto. split; auto. split; auto. split; auto. split; auto. exists f; auto.
    - intros (-> & p & e & Hp & Hpq & He' & He & Hne & f & Fe' & Fe).
      assert (L : length (hl q f) = 1) by (apply (H1 q p f); auto; [exists e|exists e']; auto).
      destruct (GE q Hq e He) as [Le Se]. pose proof Fe as (Lf & Sf & If).
      destruct (missing_vertex_spec e f Se Sf If ltac:(lia)) as (v & Ev & _ & M).
      exists f, v. split; [apply RQ; eauto|].
      assert (Hr : p2r f < procs) by (eapply HP; eauto).
      assert (Hx : In (f, (gid e', e')) (distUp (p2r f))).
      { apply DU; auto. split; auto. split; auto. split; auto. exists p. split; auto. split; auto. apply RF; auto.
        exists e'. split; auto. apply (EC' p e' f); auto. exists q. split; auto. split; auto. exists e; auto. }
      destruct (answer (distUp (p2r f)) (f, v)) as [[g e'']|] eqn:An.
      + destruct (FWD f v e g e'' L He Fe Ev An) as (-> & Fe'' & Hne' & p' & Hp' & Hpq' & He'').
        assert (e'' = e'); [|subst; auto]. 
        destruct (MT f e e' e'') as [E|[E|E]]; auto; try (apply IA; eauto; fail); congruence.
      + exfalso. unfold answer in An. destruct (find _ _) eqn:Ef; [discriminate|].
        pose proof (find_none _ _ Ef _ Hx) as T. cbn [fst snd] in T. rewrite (proj2 (simplex_eqb_spec f f) eq_refl) in T. cbn [andb] in T.
        apply negb_false_iff in T. change (existsb (Nat.eqb v) e') with (in_list e' v) in T. apply in_list_spec in T. apply Hne.
        symmetry. eapply (simplex_cover k e e' v f); eauto. }
  (* ghosts *)
  set (G := fun q => fst (get ([], []) (new_ghosts (cands q)))).
  assert (NG : forall q, q < procs -> new_ghosts (cands q) = Some (G q, map gid (G q)) /\ NoDup (G q) /\ forall e, In e (G q) <-> ghost q e).
  { intros q Hq. assert (GA : forall g e, In (Some (g, e)) (cands q) -> In e all).
    { intros g e H. apply CG in H as (_ & p & _ & Hp & _ & He & _); auto. apply IA. eauto. }
    destruct (new_ghosts_spec (cands q) gid) as (l & E & N & M).
    - intros g e H. apply CG in H; tauto.
    - intros g h e e' Ha Hb. apply GINJ; eauto.
    - unfold G. rewrite E. cbn [get fst]. split; auto. split; auto. intro e. rewrite M, CG by auto. tauto. }
  assert (GO : forall q e, q < procs -> In e (G q) -> In e all /\ own e <> q /\ own e < procs).
  { intros q e Hq He. apply NG in He as (p & _ & Hp & Hpq & He & _); auto. split; [apply IA; eauto|].
    rewrite (OW p e Hp He). auto. }
  assert (RO : forall e, In e all -> rank_of dist (Z.of_nat (gid e)) = Some (own e)).
  { intros e He. apply IA in He as (p & Hp & He). destruct (OG p e Hp He) as (i & _ & _ & E). rewrite E, (OW p e Hp He). auto. }
  assert (MONO : forall e e', In e all -> In e' all -> gid e < gid e' -> own e <= own e').
  { intros e e' He He' L. apply IA in He as (p & Hp & He). apply IA in He' as (p' & Hp' & He').
    rewrite (OW p e Hp He), (OW p' e' Hp' He'). destruct (OG p e Hp He) as (i & Hi & E & _).
    destruct (OG p' e' Hp' He') as (j & Hj & E' & _). destruct (le_lt_dec p p') as [|H]; auto.
    pose proof (OFFM p' p H). lia. }
  (* final order *)
  assert (FO : forall q, q < procs -> exists P,
     sort_cmp (ghost_leb q (map owg (seq (off q) (ln q) ++ map gid (G q))) (seq (off q) (ln q) ++ map gid (G q))) (seq 0 (ln q + length (G q)))
     = seq 0 (ln q) ++ map (fun i => ln q + i) P /\ Permutation P (seq 0 (length (G q))) /\ StronglySorted lt (map (fun i => nth i (map gid (G q)) 0) P)).
  { intros q Hq. replace (length (G q)) with (length (map gid (G q))) by apply map_length. apply final_order.
    - intros g Hg. apply in_seq in Hg. assert (g = off q + (g - off q)) by lia. rewrite H. unfold owg. rewrite DR; auto. unfold ln in *. lia.
    - intros g Hg. apply in_map_iff in Hg as (e & <- & He). apply (GO q e); auto.
    - apply nodup_map_inj; [|apply NG; auto]. intros x y Hx Hy. apply GINJ; apply (GO q); auto.
    - intros g h Hg Hh. apply in_map_iff in Hg as (e & <- & He). apply in_map_iff in Hh as (e' & <- & He').
      apply MONO; apply (GO q); auto. }
  match goal with |- context [collective no_faces procs ?f] => set (body := f) end.
  set (lf0f := fun q => get no_faces (body q)).
  set (gs := fun q => skipn (ln q) (lf_faces (lf0f q))).
  assert (BODY : forall q, q < procs -> body q = Some (mk_local_faces (es q ++ gs q) (map own (es q ++ gs q)) (map gid (es q ++ gs q)) (ln q)) /\
     Permutation (gs q) (G q) /\ StronglySorted lt (map gid (gs q))).
  { intros q Hq. destruct (FO q Hq) as (P & EP & PP & SP). destruct (NG q Hq) as (EN & NN & _).
    set (g := map (fun i => nth i (G q) []) P).
    assert (PG : Permutation g (G q)).
    { apply (perm_trans (Permutation_map _ PP)). rewrite map_nth_self. auto. }
    assert (EG : map gid g = map (fun i => nth i (map gid (G q)) 0) P).
    { unfold g. rewrite map_map. apply map_ext_in. intros i Hi. apply (Permutation_in _ PP) in Hi. apply in_seq in Hi.
      rewrite (nth_indep _ 0 (gid [])) by (rewrite map_length; lia). rewrite map_nth. auto. }
    assert (RG : forall x, In x (es q ++ g) -> In x all).
    { intros x Hx. apply in_app_or in Hx as [Hx|Hx]; [apply IA; exists q; split; auto; apply PI; auto|].
      apply (Permutation_in _ PG) in Hx. apply (GO q); auto. }
    assert (R1 : owners_of dist (seq (off q) (ln q) ++ map gid (G q)) = Some (map owg (seq (off q) (ln q) ++ map gid (G q)))).
    { apply owners_of_spec. intros x Hx. rewrite <- GM, <- map_app in Hx by auto. apply in_map_iff in Hx as (e & <- & He).
      apply RO, RG. apply in_app_or in He as [He|He]; apply in_or_app; auto. right. apply (Permutation_in _ (Permutation_sym PG)). auto. }
    assert (PR : Permutation (seq 0 (ln q) ++ map (fun i => ln q + i) P) (seq 0 (ln q + length (G q)))).
    { rewrite seq_app. apply Permutation_app; auto. cbn [Nat.add].
      eapply perm_trans; [apply Permutation_map, PP|]. 
      replace (map (fun i => ln q + i) (seq 0 (length (G q)))) with (seq (ln q) (length (G q))); auto.
      clear. generalize (length (G q)). intro m. replace (seq (ln q) m) with (seq (ln q + 0) m) by (f_equal; lia).
      generalize 0. induction m as [|m IHm]; intro a; auto. cbn [seq map]. f_equal. rewrite <- IHm. f_equal. lia. }
    assert (BE : body q = Some (mk_local_faces (es q ++ g) (map own (es q ++ g)) (map gid (es q ++ g)) (ln q))).
    { unfold body. rewrite EN. cbn [bind fst snd]. rewrite Hic, Hgids by auto. cbn [fst]. fold (ln q). rewrite R1. cbn [bind].
      rewrite app_length, LE, EP.
      rewrite (permuted_by []) by (rewrite app_length, LE; exact PR). cbn [bind].
      rewrite (permuted_by 0) by (rewrite app_length, seq_length, map_length; exact PR). cbn [bind].
      rewrite !nth_app_perm by (rewrite ?seq_length; auto). fold g. rewrite <- EG, <- GM, <- map_app by auto.
      rewrite (owners_of_spec dist owg).
      - cbn [bind]. rewrite map_map. reflexivity.
      - intros x Hx. apply in_map_iff in Hx as (e & <- & He). apply RO, RG; auto. }
    assert (EGS : gs q = g).
    { unfold gs, lf0f. rewrite BE. cbn [get mk_local_faces lf_faces]. rewrite <- LE, skipn_app, skipn_all, Nat.sub_diag. auto. }
    rewrite EGS. split; auto. split; auto. rewrite EG. auto. }
  assert (BODY' : forall q, q < procs -> body q = Some (lf0f q)) by (intros q Hq; unfold lf0f; rewrite (proj1 (BODY q Hq)); auto).
  destruct (collective_ok no_faces procs body lf0f BODY') as (lf0 & E16 & Hlf0'). rewrite E16. cbn [bind]. clear E16.
  assert (Hlf0 : forall q, q < procs -> lf0 q = mk_local_faces (es q ++ gs q) (map own (es q ++ gs q)) (map gid (es q ++ gs q)) (ln q)).
  { intros q Hq. rewrite Hlf0' by auto. pose proof (BODY' q Hq) as X. rewrite (proj1 (BODY q Hq)) in X. congruence. }
  set (fs := fun q => es q ++ gs q) in *.
  assert (GSI : forall q e, q < procs -> (In e (gs q) <-> ghost q e)).
  { intros q e Hq. destruct (BODY q Hq) as (_ & PG & _). destruct (NG q Hq) as (_ & _ & M). rewrite <- M. split; apply Permutation_in; auto. symmetry; auto. }
  assert (FA : forall q e, q < procs -> In e (fs q) -> exists p, p < procs /\ In e (elems p) /\ own e = p).
  { intros q e Hq He. apply in_app_or in He as [He|He].
    - apply PI in He. exists q. split; auto.
    - apply GSI in He as (p & _ & Hp & _ & He & _); auto. exists p. split; auto. }
  assert (FN : forall q, q < procs -> NoDup (fs q)).
  { intros q Hq. destruct (BODY q Hq) as (_ & PG & _). unfold fs.
    assert (N1 : NoDup (es q)) by (apply (Permutation_NoDup (Permutation_sym (PM q))); auto).
    assert (N2 : NoDup (gs q)) by (apply (Permutation_NoDup (Permutation_sym PG)); apply NG; auto).
    apply NoDup_app_intro; auto. intros x Hx Hy. apply PI in Hx. apply GSI in Hy as (p & _ & Hp & Hne & Hy & _); auto. apply Hne. eapply DJ; eauto. }
  assert (LAY : forall q, q < procs -> fs q = layout (rank_perm procs q) (bkt own (fs q))).
  { intros q Hq. destruct (BODY q Hq) as (_ & PG & SG). unfold rank_perm, layout. cbn [map concat]. rewrite map_app, concat_app.
    assert (BE : forall p, bkt own (fs q) p = bkt own (es q) p ++ bkt own (gs q) p) by (intro; apply filter_app).
    assert (B1 : bkt own (es q) q = es q).
    { assert (Z : forall l, (forall e, In e l -> own e = q) -> bkt own l q = l).
      { induction l as [|e l IHl]; intro H; auto. unfold bkt in *. cbn [filter]. rewrite (H e) by (left; auto). rewrite Nat.eqb_refl. f_equal. apply IHl. intros; apply H; right; auto. }
      apply Z. intros e He. apply OW; auto. apply PI; auto. }
    assert (B2 : forall p, p <> q -> bkt own (es q) p = []).
    { intros p Hp. assert (Z : forall l, (forall e, In e l -> own e = q) -> bkt own l p = []).
      { induction l as [|e l IHl]; intro H; auto. unfold bkt in *. cbn [filter]. rewrite (H e) by (left; auto).
        destruct (Nat.eqb_spec q p); [congruence|]. apply IHl. intros; apply H; right; auto. }
      apply Z. intros e He. apply OW; auto. apply PI; auto. }
    assert (B3 : bkt own (gs q) q = []).
    { assert (Z : forall l, (forall e, In e l -> own e <> q) -> bkt own l q = []).
      { induction l as [|e l IHl]; intro H; auto. unfold bkt in *. cbn [filter].
        destruct (Nat.eqb_spec (own e) q) as [E|E]; [exfalso; apply (H e); auto; left; auto|]. apply IHl. intros; apply H; right; auto. }
      apply Z. intros e He. apply (GO q e); auto. apply (Permutation_in _ PG); auto. }
    assert (B4 : concat (map (bkt own (gs q)) (seq 0 procs)) = gs q).
    { apply bkt_concat.
      - assert (IN : forall e, In e (gs q) -> In e all) by (intros e He; apply (GO q e); auto; apply (Permutation_in _ PG); auto).
        revert IN SG. clear -MONO. generalize (gs q). induction l as [|e l IHl]; intros IN S; constructor.
        + apply IHl; [intros; apply IN; right; auto|]. inversion S; auto.
        + inversion S as [|? ? S1 F1]; subst. rewrite Forall_forall in *. intros y Hy.
          apply MONO; [apply IN; left; auto|apply IN; right; auto|apply F1, in_map; auto].
      - intros e He. split; [lia|]. apply (GO q e); auto. apply (Permutation_in _ PG); auto. }
    rewrite BE, B1, B3, app_nil_r. unfold fs. f_equal. transitivity (concat (map (bkt own (gs q)) (seq 0 procs))); [auto|].
    rewrite (seq_split procs q Hq), map_app, concat_app. cbn [map concat]. rewrite B3. cbn [app].
    replace (q + 1) with (S q) by lia. replace (procs - 1 - q) with (procs - S q) by lia.
    f_equal; f_equal; apply map_ext_in; intros p Hp; apply in_seq in Hp; unfold fs; rewrite BE, B2 by lia; auto. }
  assert (G2 : forall p e, p < procs -> In e (elems p) -> exists j, map_at (makeG2LMap (elems p)) e = Some j /\ nth_error (elems p) j = Some e).
  { intros p e Hp He. apply g2l_total; auto. }
  destruct (set_shared_spec dA procs dist elems data0 tags0 lf0 gid own (o 3) H0) as (res & ER & Hres); auto.
  { intros q Hq. rewrite Hlf0 by auto. reflexivity. }
  { intros q e Hq He. rewrite Hlf0 in He by auto. cbn [mk_local_faces lf_faces] in He. destruct (FA q e Hq He) as (p & Hp & He' & <-).
    split; auto. apply RO, IA. eauto. }
  { intros q Hq. rewrite Hlf0 by auto. apply FN; auto. }
  { intros q Hq. rewrite Hlf0 by auto. apply LAY; auto. }
  { intros d0 q e Hd Hq He. rewrite Hlf0 in He by auto. cbn [mk_local_faces lf_faces] in He. destruct (FA q e Hq He) as (p & Hp & He' & ->).
    destruct (G2 p e Hp He') as (j & E & En). destruct (nth_error (d0 p) j) as [x|] eqn:Ex; [exists j, x; auto|].
    exfalso. apply nth_error_None in Ex. rewrite (HDt d0 p Hd Hp) in Ex. apply nth_error_None in Ex. congruence. }
  exists res, gid. split; [exact ER|]. split.
  { rewrite LALL. eapply perm_trans; [apply Permutation_map, Permutation_sym, PA|].
    unfold layout. rewrite concat_map, map_map.
    assert (Z : forall m, m <= procs -> concat (map (fun x => map gid (es x)) (seq 0 m)) = seq 0 (off m)).
    { induction m as [|m IHm]; intro Hm; auto. rewrite seq_S, map_app, concat_app. cbn [map concat Nat.add]. rewrite app_nil_r, IHm, GM by lia.
      unfold off. cbn [sumn]. rewrite seq_app. auto. }
    rewrite Z; auto. }
  intros q Hq. destruct (Hres q Hq) as (R1 & R2 & R3 & R4 & R5 & R6 & R7 & R8 & R9).
  rewrite (Hlf0 q Hq) in R1, R2, R3, R4, R5, R6, R7, R8, R9. cbn [mk_local_faces lf_faces lf_owner lf_l2cg lf_local_size lf_g2l] in R1, R2, R3, R4, R5, R6, R7, R8, R9.
  fold (fs q) in R1, R2, R3, R4, R5, R6, R7, R8, R9.
  assert (F1 : firstn (length (elems q)) (fs q) = es q).
  { change (length (elems q)) with (ln q). rewrite <- LE. unfold fs. rewrite firstn_app, firstn_all, Nat.sub_diag. cbn. apply app_nil_r. }
  assert (F2 : skipn (length (elems q)) (fs q) = gs q).
  { change (length (elems q)) with (ln q). rewrite <- LE. unfold fs. rewrite skipn_app, skipn_all, Nat.sub_diag. auto. }
  assert (DA : forall d0 x, (forall d1, d0 = Some d1 -> forall p, p < procs -> length (d1 p) = length (elems p)) ->
      x = match d0 with None => None | Some d0 => Some (map (fun e => get dA (do i <- map_at (makeG2LMap (elems (own e))) e; nth_error (d0 (own e)) i)) (fs q)) end ->
      data_attached procs elems d0 (fs q) x).
  { intros d0 x HL ->. unfold data_attached. destruct d0 as [d0|]; auto. eexists. split; [reflexivity|]. rewrite map_length. split; auto.
    intros i e p j Ee Hp Ej. rewrite nth_error_map, Ee. cbn [option_map]. rewrite (OW p e Hp (nth_error_In _ _ Ej)).
    rewrite (proj2 (g2l_some (elems p) e j (ND p Hp)) Ej). cbn [bind]. destruct (nth_error (d0 p) j) eqn:Ex; auto.
    exfalso. apply nth_error_None in Ex. rewrite (HL d0 eq_refl p Hp) in Ex. apply nth_error_None in Ex. congruence. }
  split; [rewrite R1, F1, LEN; apply GM; auto|].
  split; [|apply R9; rewrite map_length; auto].
  split.
  - exact R4.
  - rewrite R1, F1. apply PM.
  - exists (length (esI q)). split; [change (length (elems q)) with (ln q); rewrite <- LE; unfold es; rewrite app_length; lia|].
    intros i e Ee Hi. rewrite R1 in Ee. unfold fs in Ee. rewrite nth_error_app1 in Ee by (rewrite LE; auto). unfold es in Ee.
    split.
    + intro Hc. rewrite nth_error_app2 in Ee by auto. apply nth_error_In in Ee.
      assert (He : In e (elems q)) by (apply PI; apply in_or_app; auto).
      destruct (EC q e Hq Ee) as (f & Ff & p & Hp & Hpq & e' & He' & Fe'). exists p, e'. split; auto. split; auto. split; auto.
      split; [|exists f; auto]. intros ->. apply Hpq. eapply DJ; eauto.
    + intros (p & e' & Hp & Hpq & He' & Hne & f & Ff & Fe'). destruct (le_lt_dec (length (esI q)) i) as [|Hlt]; auto. exfalso.
      rewrite nth_error_app1 in Ee by auto. apply nth_error_In in Ee. apply (EI q e Hq Ee f Ff). exists p. split; auto. split; auto. exists e'; auto.
  - rewrite R1. apply FN; auto.
  - intro e. rewrite R1, F2, GSI by auto. unfold ghost. split; intros (p & e' & X); exists p, e'; tauto.
  - rewrite R3, R1. auto.
  - rewrite R3, skipn_map, F2. apply BODY; auto.
  - rewrite R2, R1, map_length. split; auto. intros i e Ee. rewrite nth_error_map, Ee. cbn. exists (own e). split; auto.
    destruct (FA q e Hq (nth_error_In _ _ Ee)) as (p & Hp & He & ->). auto.
  - intros i e Ee. rewrite R1 in Ee. rewrite (R6 i e Ee). split.
    + apply strongly_filter, filter_seq_sorted.
    + intro p. rewrite !filter_In, in_seq, mem_spec, negb_true_iff, Nat.eqb_neq.
      split; [intros [[X Y] Z]|intros (X & Y & Z)].
      * split; [lia|]. split; auto. rewrite (proj1 (Hres p ltac:(lia))). auto.
      * rewrite (proj1 (Hres p X)) in Z. split; auto. split; auto. lia.
  - rewrite R1. apply DA; auto.
  - rewrite R1. apply DA; auto.
  - intros e i. rewrite R5, R1. apply g2l_some. apply FN; auto.
Qed.
Print Assumptions ghosts_correct.

(** C20, overlap 0: every rank keeps its elements as they are, and none is shared. *)
Theorem no_ghosts_correct : forall {A} (dA : A) procs k elems (data0 tags0 : option (nat -> list A)) o,
  0 < procs -> global_mesh procs k elems ->
  (Z.of_nat (length (concat (map elems (seq 0 procs)))) < 2 ^ 64)%Z ->
  (forall d0 q, data0 = Some d0 \/ tags0 = Some d0 -> q < procs -> length (d0 q) = length (elems q)) ->
  (forall j, Permutation (o j) (seq 0 procs)) ->
  exists lf, getNoGhosts dA procs elems data0 tags0 o = Some lf /\
    forall q, q < procs ->
      lf_faces (lf q) = elems q /\ lf_local_size (lf q) = length (elems q) /\ lf_owner (lf q) = repeat q (length (elems q)) /\
      lf_l2cg (lf q) = seq (length (concat (map elems (seq 0 q)))) (length (elems q)) /\
      (forall i, i < length (elems q) -> shared_ranks (lf_ranks (lf q)) (lf_displs (lf q)) i = []) /\
      data_attached procs elems data0 (elems q) (lf_data (lf q)) /\
      data_attached procs elems tags0 (elems q) (lf_tags (lf q)) /\
      (forall e i, map_at (lf_g2l (lf q)) e = Some i <-> nth_error (elems q) i = Some e) /\ faces_consistent (lf q).
Proof.
  intros A dA procs k elems data0 tags0 o H0 [ME MD MT] HB HDt HO.
  fold (layout (seq 0 procs) elems) in MD, MT, HB.
  destruct (nodup_layout_inv procs elems MD) as [ND DJ].
  set (ln := fun q => length (elems q)). set (off := fun q => sumn ln q).
  assert (LEN : forall m, length (concat (map elems (seq 0 m))) = off m).
  { intro m. fold (layout (seq 0 m) elems). rewrite layout_length. unfold off. rewrite sumn_list. auto. }
  unfold layout in HB. rewrite LEN in HB.
  destruct (elem_dist_spec procs elems HB) as [DN DR]. fold ln in DN, DR. fold off in DR.
  unfold getNoGhosts. set (dist := elem_dist procs elems) in *.
  assert (S1 : forall q, q < procs -> (do d <- nth_error dist q; Some (seq (Z.to_nat d) (length (elems q)))) = Some (seq (off q) (ln q))).
  { intros q Hq. rewrite DN by auto. cbn [bind]. rewrite Nat2Z.id. auto. }
  destruct (collective_ok [] procs _ _ S1) as (gids & E1 & Hgids). cbv beta in Hgids. rewrite E1. cbn [bind]. clear S1 E1.
  set (gid := fun e => pos e (layout (seq 0 procs) elems)).
  assert (GI : forall p i e, p < procs -> nth_error (elems p) i = Some e -> gid e = off p + i).
  { intros p i e Hp Ee. unfold gid. apply pos_nth; auto.
    assert (Hi : i < length (elems p)) by (apply nth_error_Some; congruence).
    pose proof (layout_nth elems (seq 0 procs) p i) as LN. rewrite seq_length, seq_nth in LN by auto. cbn [Nat.add] in LN.
    rewrite <- (LN Hp Hi) in Ee. rewrite <- Ee. f_equal. unfold off. f_equal. apply sumn_ext. intros j Hj.
    rewrite seq_nth by lia. auto. }
  assert (GM : forall q, q < procs -> seq (off q) (ln q) = map gid (elems q)).
  { intros q Hq. symmetry. apply nth_error_ext. intro i. rewrite nth_error_map. destruct (nth_error (elems q) i) as [e|] eqn:Ee.
    - cbn. rewrite (GI q i e Hq Ee). assert (i < ln q) by (apply nth_error_Some; congruence).
      rewrite (nth_error_nth' (seq _ _) 0) by (rewrite seq_length; auto). rewrite seq_nth by auto. auto.
    - cbn. symmetry. apply nth_error_None. apply nth_error_None in Ee. rewrite seq_length. auto. }
  set (own := fun e => get 0 (rank_of dist (Z.of_nat (gid e)))).
  assert (RO : forall p e, p < procs -> In e (elems p) -> rank_of dist (Z.of_nat (gid e)) = Some p).
  { intros p e Hp He. apply In_nth_error in He as (i & Hi). rewrite (GI p i e Hp Hi). apply DR; auto. apply nth_error_Some. congruence. }
  assert (OW : forall p e, p < procs -> In e (elems p) -> own e = p) by (intros p e Hp He; unfold own; rewrite (RO p e Hp He); auto).
  set (lf0 := fun q => mk_local_faces (elems q) (repeat q (length (elems q))) (gids q) (length (elems q)) : local_faces A).
  destruct (set_shared_spec dA procs dist elems data0 tags0 lf0 gid own o H0) as (res & ER & Hres); auto.
  { intros q Hq. unfold lf0. cbn. rewrite Hgids, GM by auto. auto. }
  { intros q e Hq He. cbn in He. rewrite (OW q e Hq He). split; auto. }
  { intros q Hq. change (lf_faces (lf0 q)) with (elems q). unfold rank_perm, layout. cbn [map concat].
    assert (Z : forall l, (forall e, In e l -> own e = q) -> bkt own l q = l /\ forall p, p <> q -> bkt own l p = []).
    { induction l as [|e l IHl]; intro H; [split; auto|]. destruct IHl as [Z1 Z2]; [intros; apply H; right; auto|].
      unfold bkt in *. cbn [filter]. rewrite (H e) by (left; auto). rewrite Nat.eqb_refl. split; [f_equal; auto|].
      intros p Hp. destruct (Nat.eqb_spec q p); [congruence|]. auto. }
    destruct (Z (elems q)) as [Z1 Z2]; [intros e He; apply OW; auto|]. rewrite Z1.
    replace (concat _) with (@nil simplex); [rewrite app_nil_r; auto|].
    assert (W : forall l, ~ In q l -> concat (map (bkt own (elems q)) l) = []).
    { induction l as [|p l IHl]; intro H; auto. cbn [map concat]. rewrite Z2, IHl; auto; intro; apply H; subst; cbn; auto. }
    symmetry. apply W. rewrite in_app_iff, !in_seq. lia. }
  { intros d0 q e Hd Hq He. cbn in He. rewrite (OW q e Hq He). destruct (g2l_total (elems q) e (ND q Hq) He) as (j & E & En).
    destruct (nth_error (d0 q) j) as [x|] eqn:Ex; [exists j, x; auto|].
    exfalso. apply nth_error_None in Ex. rewrite (HDt d0 q Hd Hq) in Ex. apply nth_error_None in Ex. congruence. }
  exists res. split; [exact ER|]. intros q Hq. destruct (Hres q Hq) as (R1 & R2 & R3 & R4 & R5 & R6 & R7 & R8 & R9).
  cbn [lf0 mk_local_faces lf_faces lf_owner lf_l2cg lf_local_size lf_g2l] in R1, R2, R3, R4, R5, R6, R7, R8, R9.
  assert (DA : forall d0 x, (forall d1, d0 = Some d1 -> forall p, p < procs -> length (d1 p) = length (elems p)) ->
      x = match d0 with None => None | Some d0 => Some (map (fun e => get dA (do i <- map_at (makeG2LMap (elems (own e))) e; nth_error (d0 (own e)) i)) (elems q)) end ->
      data_attached procs elems d0 (elems q) x).
  { intros d0 x HL ->. unfold data_attached. destruct d0 as [d0|]; auto. eexists. split; [reflexivity|]. rewrite map_length. split; auto.
    intros i e p j Ee Hp Ej. rewrite nth_error_map, Ee. cbn [option_map]. rewrite (OW p e Hp (nth_error_In _ _ Ej)).
    rewrite (proj2 (g2l_some (elems p) e j (ND p Hp)) Ej). cbn [bind]. destruct (nth_error (d0 p) j) eqn:Ex; auto.
    exfalso. apply nth_error_None in Ex. rewrite (HL d0 eq_refl p Hp) in Ex. apply nth_error_None in Ex. congruence. }
  split; auto. split; auto. split; auto. split; [rewrite R3, Hgids, LEN; auto|]. split; [|split; [|split; [|split]]].
  - intros i Hi. destruct (nth_error (elems q) i) as [e|] eqn:Ee; [|apply nth_error_None in Ee; lia]. rewrite (R6 i e Ee).
    assert (W : forall l, (forall p, In p l -> p < procs) -> filter (fun s => negb (s =? q)) (filter (fun p => mem e (elems p)) l) = []).
    { induction l as [|p l IHl]; intro Hl; auto. cbn [filter]. destruct (mem e (elems p)) eqn:Em; [|apply IHl; intros; apply Hl; right; auto].
      apply mem_spec in Em. assert (p = q) by (eapply (DJ p q e); eauto; [apply Hl; left; auto|eapply nth_error_In; eauto]). subst p.
      cbn [filter]. rewrite Nat.eqb_refl. cbn [negb]. apply IHl; intros; apply Hl; right; auto. }
    apply W. intros p Hp. apply in_seq in Hp. lia.
  - apply DA; auto.
  - apply DA; auto.
  - intros e i. rewrite R5. apply g2l_some. auto.
  - apply R9. rewrite repeat_length. auto.
Qed.
Print Assumptions no_ghosts_correct.

(** A strip of five triangles on three ranks, with element data, meets the hypotheses; the middle rank
    gets one ghost from either side. *)
Definition strip (q : nat) : list simplex := nth q [[[0;1;2]; [1;2;3]]; [[2;3;4]; [3;4;5]]; [[4;5;6]]] [].
Lemma strip_mesh : global_mesh 3 2 strip.
Proof.
  split.
  - intros q e Hq He. destruct q as [|[|[|q]]]; [| | |lia]; cbn in He;
      repeat (destruct He as [<-|He]; [split; [reflexivity|repeat (constructor; [|repeat (constructor; [lia|])]; try constructor)]|]); contradiction.
  - cbn. repeat (constructor; [cbn; intuition discriminate|]). constructor.
  - assert (G : forall e, In e (concat (map strip (seq 0 3))) -> good 2 e).
    { intros e He. cbn in He. repeat (destruct He as [<-|He]; [split; [reflexivity|repeat (constructor; [|repeat (constructor; [lia|])]; try constructor)]|]); contradiction. }
    intros f a b c Ha Hb Hc Fa Fb Fc.
    apply (proj1 (proj2 (faces_of_spec 2 a (G a Ha))) f) in Fa. apply (proj1 (proj2 (faces_of_spec 2 b (G b Hb))) f) in Fb. apply (proj1 (proj2 (faces_of_spec 2 c (G c Hc))) f) in Fc.
    clear G. cbn in Ha, Hb, Hc.
    repeat match type of Ha with _ \/ _ => destruct Ha as [<-|Ha] end; try contradiction; cbn in Fa;
    repeat match type of Fa with _ \/ _ => destruct Fa as [<-|Fa] end; try contradiction;
    repeat match type of Hb with _ \/ _ => destruct Hb as [<-|Hb] end; try contradiction; try (left; reflexivity);
    cbn in Fb; try (exfalso; intuition discriminate);
    repeat match type of Hc with _ \/ _ => destruct Hc as [<-|Hc] end; try contradiction; try (right; left; reflexivity); try (right; right; reflexivity);
    cbn in Fc; exfalso; intuition discriminate.
Qed.
Example strip_ghosts : exists lf gid,
  getGhostElements 0 3 2 (fun f => nth 0 f 0 mod 3) strip (Some (fun q => map (fun e => nth 0 e 0) (strip q))) None
    (fun _ _ l => l) (fun _ _ l => l) (fun _ _ => [2;0;1]) = Some lf /\
  ghost_layer 3 2 strip (Some (fun q => map (fun e => nth 0 e 0) (strip q))) None gid lf 1 /\
  lf_faces (lf 1) = [[2;3;4]; [3;4;5]; [1;2;3]; [4;5;6]] /\ lf_data (lf 1) = Some [2;3;1;4].
Proof.
  destruct (ghosts_correct 0 3 2 (fun f => nth 0 f 0 mod 3) strip (Some (fun q => map (fun e => nth 0 e 0) (strip q))) None
    (fun _ _ l => l) (fun _ _ l => l) (fun _ _ => [2;0;1])) as (lf & gid & E & _ & H); try (intros; apply Permutation_refl).
  - lia.
  - apply strip_mesh.
  - reflexivity.
  - intros. apply Nat.mod_upper_bound. lia.
  - intros d0 q [X|X] _; inversion X. apply map_length.
  - intros _ _. change (seq 0 3) with [0;1;2]. apply perm_trans with [0;2;1]; [apply perm_swap|apply perm_skip, perm_swap].
  - exists lf, gid. split; auto. split; [apply H; lia|]. revert E. clear.
    match goal with |- ?x = Some lf -> _ => set (y := x); vm_compute in y; subst y end. intro E. inversion E. subst lf. split; reflexivity.
Qed.
