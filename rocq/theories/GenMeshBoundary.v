(** C45: boundary conditions of generated meshes. *)
Require Import List Arith Bool ZArith Lia Permutation Sorted.
Require Import Verif.Base Verif.CommProofs Verif.CommBlocks Verif.MultiIndexModel Verif.MultiIndexProofs Verif.SimplexModel Verif.SimplexProofs
  Verif.GenMeshModel Verif.GenMeshSpec Verif.GenMeshProofs Verif.GenMeshConf Verif.GhostSpec Verif.CombinatoricsProofs Verif.GenMeshProps.
Import ListNotations.
Local Open Scope opt_scope.

Lemma Forall2_len {A B} (R : A -> B -> Prop) a b : Forall2 R a b -> length a = length b.
Proof. induction 1; cbn; auto. Qed.
Lemma nth_repeat_lt {A} (x d : A) n i : i < n -> nth i (repeat x n) d = x.
Proof. revert i. induction n as [|n IH]; intros [|i] H; cbn; try lia; auto. apply IH. lia. Qed.
Lemma nth_repeat0 n i : nth i (repeat 0 n) 0 = 0.
Proof. revert i. induction n as [|n IH]; intros [|i]; cbn; auto. Qed.
(** * Regions *)
Lemma sorted_nth_lt l : StronglySorted lt l -> forall i j, i < j -> j < length l -> nth i l 0 < nth j l 0.
Proof.
  induction 1 as [|x l SL IH FA]; intros i j Hij Hj; cbn [length] in Hj; [lia|].
  destruct j as [|j]; [lia|]. destruct i as [|i]; cbn [nth].
  - rewrite Forall_forall in FA. apply FA. apply nth_In. lia.
  - apply IH; lia.
Qed.
Lemma find_region_loop_spec rs v : StronglySorted lt rs -> v <= last rs 0 -> forall fuel region, length rs <= fuel + region + 1 -> region + 1 < length rs ->
  (region = 0 \/ nth region rs 0 < v) ->
  exists r, find_region_loop fuel v region rs = Some r /\ r + 1 < length rs /\ (r = 0 \/ nth r rs 0 < v) /\ v <= nth (r + 1) rs 0.
Proof.
  intros SS HL. assert (LN : last rs 0 = nth (length rs - 1) rs 0).
  { clear. induction rs as [|x [|y l] IH]; auto. change (last (x :: y :: l) 0) with (last (y :: l) 0). rewrite IH. cbn [length]. rewrite !Nat.sub_succ, !Nat.sub_0_r. auto. }
  induction fuel as [|fuel IH]; intros region HF HR HV; [lia|].
  cbn [find_region_loop]. rewrite (nth_error_nth' rs 0) by lia. cbn [bind].
  destruct (Nat.ltb_spec (nth (region + 1) rs 0) v) as [H|H]; cbn [andb].
  - destruct (Nat.ltb_spec region (length rs - 1)); [|lia]. cbn [andb].
    destruct (Nat.eq_dec (region + 2) (length rs)) as [Eq|Ne].
    + exfalso. rewrite LN in HL. replace (length rs - 1) with (region + 1) in HL by lia. lia.
    + apply IH; auto; lia.
  - destruct (Nat.eqb_spec region (length rs - 1)); [lia|]. exists region. split; [auto|]. split; [lia|]. split; auto.
Qed.
Lemma findRegion_spec rs v : StronglySorted lt rs -> nth_error rs 0 = Some 0 -> 0 < last rs 0 -> v <= last rs 0 ->
  exists r, findRegion rs v = Some r /\ r + 1 < length rs /\ nth r rs 0 <= v <= nth (r + 1) rs 0 /\ (r = 0 \/ nth r rs 0 < v).
Proof.
  intros SS H0 HP HV. assert (L2 : 2 <= length rs) by (destruct rs as [|x [|y l]]; cbn in *; try lia; inversion H0; lia).
  destruct (find_region_loop_spec rs v SS HV (length rs) 0 ltac:(lia) ltac:(lia) (or_introl eq_refl)) as (r & A & B & C & D).
  exists r. unfold findRegion. split; auto. split; auto. split; auto. split; auto.
  destruct C as [-> | C]; [|lia]. rewrite (nth_of_nth_error _ _ _ _ H0). lia.
Qed.
Definition region_of (rs : list nat) (v : nat) : nat := match findRegion rs v with Some r => r | None => 0 end.

(** * Lists of flags *)
Lemma find_index_some {A} (p : A -> bool) l i : find_index p l = Some i -> exists x, nth_error l i = Some x /\ p x = true.
Proof.
  revert i. induction l as [|x l IH]; intros i H; cbn [find_index] in H; [discriminate|]. destruct (p x) eqn:Px.
  - inversion H; subst. exists x. auto.
  - destruct (find_index p l) as [j|] eqn:F; inversion H; subst. destruct (IH j eq_refl) as (y & A1 & B). exists y. auto.
Qed.
Lemma find_index_none {A} (p : A -> bool) l : find_index p l = None -> forall x, In x l -> p x = false.
Proof.
  induction l as [|x l IH]; intros H y Hy; [destruct Hy|]. cbn [find_index] in H. destruct (p x) eqn:Px; [discriminate|].
  destruct (find_index p l) eqn:F; [discriminate|]. destruct Hy as [<-|Hy]; auto.
Qed.
Lemma in_plane_spec v0 : forall vs flags, (forall v, In v vs -> length v = length v0) -> length flags = length v0 ->
  length (in_plane v0 vs flags) = length v0 /\
  forall d, nth d (in_plane v0 vs flags) false = true <-> nth d flags false = true /\ forall v, In v vs -> nth d v 0 = nth d v0 0.
Proof.
  induction vs as [|v vs IH]; intros flags HL LF; cbn [in_plane].
  - split; auto. intro d. split; [intro H; split; auto; intros ? []|tauto].
  - assert (Lv : length v = length v0) by (apply HL; left; auto).
    set (fl := map (fun x => fst x && (fst (snd x) =? snd (snd x))) (combine flags (combine v v0))).
    assert (LFL : length fl = length v0) by (unfold fl; rewrite map_length, !combine_length; lia).
    destruct (IH fl) as [I1 I2]; auto; [intros; apply HL; right; auto|]. split; auto. intro d. rewrite I2.
    destruct (lt_dec d (length v0)) as [Hd|Hd].
    + assert (NF : nth d fl false = nth d flags false && (nth d v 0 =? nth d v0 0)).
      { unfold fl. rewrite (nth_indep _ false ((fun x => fst x && (fst (snd x) =? snd (snd x))) (false, (0, 0)))) by (rewrite map_length, !combine_length; lia).
        rewrite (map_nth (fun x => fst x && (fst (snd x) =? snd (snd x)))). rewrite combine_nth by (rewrite combine_length; lia). rewrite combine_nth by lia. auto. }
      rewrite NF, andb_true_iff, Nat.eqb_eq. split; [intros [[A B] C]; split; auto; intros w [<-|Hw]; auto|].
      intros [A C]. split; [split; auto; apply C; left; auto|]. intros; apply C; right; auto.
    + rewrite !(nth_overflow _ false) by lia. split; intros [A _]; discriminate.
Qed.
Lemma count_le_1 l : (forall i j, nth i l false = true -> nth j l false = true -> i = j) -> count_occ Bool.bool_dec l true <= 1.
Proof.
  induction l as [|[] l IH]; intro H; [cbn; lia| |].
  - rewrite count_occ_cons_eq by auto. cut (count_occ Bool.bool_dec l true = 0); [lia|]. apply count_occ_not_In. intro Hin.
    apply In_nth with (d := false) in Hin as (n & _ & Hn). specialize (H 0 (S n) eq_refl Hn). discriminate.
  - rewrite count_occ_cons_neq by discriminate. apply IH. intros i j Hi Hj. specialize (H (S i) (S j) Hi Hj). lia.
Qed.

Lemma other_regions_spec D dim v regions others : D = 2 \/ D = 3 -> dim < D -> length v = D -> length regions = D -> length others = D - 1 ->
  (forall d, d < D -> findRegion (nth d regions []) (nth d v 0) = Some (region_of (nth d regions []) (nth d v 0))) ->
  exists L, other_regions dim 0 v regions others = Some L /\ length L = D - 1 /\
    forall j, j < D - 1 -> nth j L 0 = Nat.max (nth j others 0) (region_of (nth (other_direction dim j) regions []) (nth (other_direction dim j) v 0)).
Proof.
  intros HD Hd Lv Lr Lo F. destruct HD as [-> | ->].
  - destruct v as [|x [|y [|]]]; try discriminate. destruct regions as [|a [|b [|]]]; try discriminate. destruct others as [|o [|]]; try discriminate.
    pose proof (F 0 ltac:(lia)) as F0. pose proof (F 1 ltac:(lia)) as F1. cbn [nth] in F0, F1.
    destruct dim as [|[|]]; [| |lia]; cbn [other_regions Nat.eqb Nat.add]; rewrite ?F0, ?F1; cbn [bind]; eexists; (split; [reflexivity|]; split; [auto|]);
      intros [|j] Hj; cbn [nth]; try reflexivity; lia.
  - destruct v as [|x [|y [|z [|]]]]; try discriminate. destruct regions as [|a [|b [|c [|]]]]; try discriminate. destruct others as [|o [|o' [|]]]; try discriminate.
    pose proof (F 0 ltac:(lia)) as F0. pose proof (F 1 ltac:(lia)) as F1. pose proof (F 2 ltac:(lia)) as F2. cbn [nth] in F0, F1, F2.
    destruct dim as [|[|[|]]]; [| | |lia]; cbn [other_regions Nat.eqb Nat.add]; rewrite ?F0, ?F1, ?F2; cbn [bind]; eexists; (split; [reflexivity|]; split; [auto|]);
      intros [|[|j]] Hj; cbn [nth]; try reflexivity; lia.
Qed.
Lemma all_regions_spec D dim regions : D = 2 \/ D = 3 -> dim < D -> length regions = D -> forall vs others, length others = D - 1 ->
  (forall v, In v vs -> length v = D) ->
  (forall v d, In v vs -> d < D -> findRegion (nth d regions []) (nth d v 0) = Some (region_of (nth d regions []) (nth d v 0))) ->
  exists L, all_regions dim vs regions others = Some L /\ length L = D - 1 /\
    forall j, j < D - 1 -> nth j others 0 <= nth j L 0 /\
      (forall v, In v vs -> region_of (nth (other_direction dim j) regions []) (nth (other_direction dim j) v 0) <= nth j L 0) /\
      (nth j L 0 = nth j others 0 \/ exists v, In v vs /\ nth j L 0 = region_of (nth (other_direction dim j) regions []) (nth (other_direction dim j) v 0)).
Proof.
  intros HD Hd Lr. induction vs as [|v vs IH]; intros others Lo Lv F; cbn [all_regions].
  - exists others. split; auto. split; auto. intros j Hj. split; auto. split; [intros ? []|auto].
  - destruct (other_regions_spec D dim v regions others HD Hd (Lv v (or_introl eq_refl)) Lr Lo) as (L1 & E1 & LL1 & N1).
    { intros; apply F; auto. left; auto. }
    rewrite E1. cbn [bind]. destruct (IH L1 LL1) as (L & EL & LL & P); [intros; apply Lv; right; auto|intros; apply F; auto; right; auto|].
    exists L. split; auto. split; auto. intros j Hj. destruct (P j Hj) as (A & B & C). specialize (N1 j Hj). split; [lia|]. split.
    + intros w [<-|Hw]; [lia|apply B; auto].
    + destruct C as [C|(w & Hw & C)]; [|right; exists w; split; auto; right; auto]. rewrite C, N1.
      destruct (Nat.max_spec (nth j others 0) (region_of (nth (other_direction dim j) regions []) (nth (other_direction dim j) v 0))) as [[_ ->]|[_ ->]];
        [right; exists v; split; auto; left; auto|left; auto].
Qed.

(** * Facets *)
(** A facet is constant in at most one direction. *)
Definition flat_ok (D : nat) : bool :=
  forallb (fun odd => forallb (fun s => forallb (fun m =>
    let cs := remove_nth m (corners D odd s) in
    length (filter (fun d => forallb (fun c => nth d c 0 =? nth d (hd [] cs) 0) cs) (seq 0 D)) <=? 1) (seq 0 (D + 1)))
    (seq 0 (num_simplices D))) [false; true].
Lemma flat_ok_23 D : D = 2 \/ D = 3 -> flat_ok D = true.
Proof. intros [-> | ->]; vm_compute; reflexivity. Qed.
Lemma filter_one {A} (p : A -> bool) l x y : length (filter p l) <= 1 -> In x l -> In y l -> p x = true -> p y = true -> x = y.
Proof.
  intros L Hx Hy Px Py. assert (X : In x (filter p l)) by (apply filter_In; auto). assert (Y : In y (filter p l)) by (apply filter_In; auto).
  destruct (filter p l) as [|a [|b t]]; cbn in L; [destruct X| |lia]. destruct X as [<-|[]], Y as [<-|[]]. auto.
Qed.

Lemma in_remove_hd {A} (d x : A) l : In x l -> In (hd d l) l.
Proof. destruct l; [intros []|left; auto]. Qed.
Section Facets.
  Variables (D : nat) (N : list nat) (regions : list (list nat)).
  Hypothesis HB : box D N.
  Hypothesis HR : grid_planes N regions.
  Notation P := (cell_at (np1 N)).

  Lemma facet_points e s f : valid D N e s -> facet_of D f (E D N e s) ->
    (forall v, In v f -> vertex_at N v (P v) /\ length (P v) = D /\ unflatten v (np1 N) = Some (P v)) /\
    (forall v p, vertex_at N v p -> In v f -> p = P v) /\
    (forall v d, In v f -> d < D -> nth d e 0 <= nth d (P v) 0 <= nth d e 0 + 1 /\ nth d (P v) 0 <= nth d N 0) /\
    (forall d d' x x', d < D -> d' < D -> (forall v, In v f -> nth d (P v) 0 = x) -> (forall v, In v f -> nth d' (P v) 0 = x') -> d = d').
  Proof.
    intros V F. destruct (facet_corners D N HB e s f V F) as (m & Hm & M).
    set (cs := remove_nth m (corners D (is_odd e) s)) in *.
    pose proof (table_facts D (is_odd e) s (proj1 HB) (proj2 V)) as [_ FL _ FB _]. pose proof (valid_len D N HB e s V) as Le.
    assert (CR : forall c, In c cs -> inrange (vadd e c) (np1 N)) by (intros c Hc; apply (corner_in D N HB e s); auto; eapply remove_nth_in; eauto).
    assert (PC : forall c, In c cs -> unflatten (flatten (vadd e c) (np1 N)) (np1 N) = Some (vadd e c)).
    { intros c Hc. pose proof (CR c Hc) as R. rewrite flatten_flat by (apply inrange_length; auto).
      destruct (unflatten_spec (np1 N) _ (flat_bound _ _ R)) as (p & Ep & Rp & Fp). rewrite Ep. f_equal. eapply flat_inj; eauto. }
    assert (PV : forall c, In c cs -> P (flatten (vadd e c) (np1 N)) = vadd e c) by (intros c Hc; unfold cell_at; rewrite PC; auto).
    assert (CB : forall c, In c cs -> length c = D /\ bits c) by (intros c Hc; apply FB; eapply remove_nth_in; eauto).
    split; [|split; [|split]].
    - intros v Hv. apply M in Hv as (c & Hc & ->). rewrite PV by auto. split; [apply (vertex_at_iff D N HB); auto|]. split; auto.
      pose proof (inrange_length _ _ (CR c Hc)) as L. unfold np1 in L. rewrite map_length in L. destruct HB as (_ & HL & _). congruence.
    - intros v p Hp Hv. apply M in Hv as (c & Hc & ->). rewrite PV by auto. apply (vertex_at_iff D N HB) in Hp as [Rp Ep].
      apply id_inj in Ep; auto.
    - intros v d Hv Hd. apply M in Hv as (c & Hc & ->). rewrite PV by auto. destruct (CB c Hc) as [Lc Bc]. rewrite vadd_nth by congruence.
      assert (nth d c 0 <= 1) by (unfold bits in Bc; rewrite Forall_forall in Bc; apply Bc, nth_In; lia).
      pose proof (range_nth D N HB e d (proj1 V) Hd). split; [|]; lia.
    - intros d d' x x' Hd Hd' H H'. pose proof (flat_ok_23 D (proj1 HB)) as FO. unfold flat_ok in FO. rewrite forallb_forall in FO.
      specialize (FO (is_odd e) ltac:(destruct (is_odd e); cbn; auto)). rewrite forallb_forall in FO. specialize (FO s ltac:(apply in_seq; destruct V; lia)).
      rewrite forallb_forall in FO. specialize (FO m ltac:(apply in_seq; lia)). cbv zeta in FO. fold cs in FO. apply Nat.leb_le in FO.
      assert (K : forall d x, (forall v, In v f -> nth d (P v) 0 = x) -> forallb (fun c => nth d c 0 =? nth d (hd [] cs) 0) cs = true).
      { intros d0 x0 H0. apply forallb_forall. intros c Hc. apply Nat.eqb_eq.
        assert (G : forall c, In c cs -> nth d0 e 0 + nth d0 c 0 = x0).
        { intros c' Hc'. rewrite <- vadd_nth by (rewrite Le; symmetry; apply CB; auto). rewrite <- PV by auto. apply H0, M. eauto. }
        pose proof (G c Hc). pose proof (G _ (in_remove_hd [] c cs Hc)). lia. }
      eapply filter_one; [exact FO| | |eapply K; eauto|eapply K; eauto]; apply in_seq; lia.
  Qed.

  Lemma regions_nth d : d < D -> exists rs, nth_error regions d = Some rs /\ nth d regions [] = rs /\ StronglySorted lt rs /\ nth_error rs 0 = Some 0 /\
    last rs 0 = nth d N 0 /\ 0 < last rs 0.
  Proof.
    intro Hd. destruct HB as (_ & LN & PN). assert (LR : length regions = D) by (rewrite <- LN; eapply Forall2_len; exact HR).
    exists (nth d regions []). rewrite (nth_error_nth' regions []) by lia. split; auto. split; auto.
    assert (X : nth d regions [] = nth d regions [] /\ StronglySorted lt (nth d regions []) /\ nth_error (nth d regions []) 0 = Some 0 /\ last (nth d regions []) 0 = nth d N 0).
    { split; auto. clear -HR Hd LR. revert d D LR Hd. induction HR as [|rs n R N' [A [B C]] HR' IH]; intros d D LR Hd; [cbn in LR; lia|].
      destruct d as [|d]; cbn [nth]; auto. apply (IH HR' d (length R)); auto. cbn in LR. lia. }
    destruct X as (_ & A & B & C). repeat split; auto. rewrite C. rewrite Forall_forall in PN. apply PN, nth_In. lia.
  Qed.

  Lemma slab_unique f d r r' : (forall v, In v f -> vertex_at N v (P v)) -> f <> [] -> d < D -> ~ (exists x, forall v, In v f -> nth d (P v) 0 = x) ->
    in_slab N (nth d regions []) d r f -> in_slab N (nth d regions []) d r' f -> r = r'.
  Proof.
    intros HV Hf Hd HC [L1 H1] [L2 H2]. destruct (regions_nth d Hd) as (rs & _ & Ers & SS & _). rewrite Ers in *.
    assert (W : forall a b, a < b -> b + 1 < length rs ->
      (forall v p, In v f -> vertex_at N v p -> nth a rs 0 <= nth d p 0 <= nth (a + 1) rs 0) ->
      (forall v p, In v f -> vertex_at N v p -> nth b rs 0 <= nth d p 0 <= nth (b + 1) rs 0) -> False).
    { intros a b Hab Hb Ha Hb'. apply HC. exists (nth b rs 0). intros v Hv. specialize (Ha v _ Hv (HV v Hv)). specialize (Hb' v _ Hv (HV v Hv)).
      destruct (Nat.eq_dec (a + 1) b) as [<-|Ne]; [lia|]. pose proof (sorted_nth_lt rs SS (a + 1) b ltac:(lia) ltac:(lia)). lia. }
    destruct (lt_eq_lt_dec r r') as [[H|H]|H]; auto; exfalso; eapply W; eauto.
  Qed.

  (** One facet. *)
  Lemma boundary_facet_spec {B} (bcs : nat -> nat -> list nat -> B) e s f : valid D N e s -> facet_of D f (E D N e s) ->
    exists o, boundary_facet D N regions bcs f = Some o /\
      forall f' bc, o = Some (f', bc) <-> f' = f /\ exists d x plane reg, d < D /\ in_plane_at N d x f /\
        nth_error (nth d regions []) plane = Some x /\ length reg = D - 1 /\
        (forall j, j < D - 1 -> in_slab N (nth (other_direction d j) regions []) (other_direction d j) (nth j reg 0) f) /\ bc = bcs d plane reg.
  Proof.
    intros V F. destruct (facet_points e s f V F) as (PV & PU & PE & PC).
    assert (LR : length regions = D) by (destruct HB as (_ & LN & _); rewrite <- LN; eapply Forall2_len; exact HR).
    assert (Lf : length f = D) by apply F. destruct f as [|v0 f0]; [destruct HB as [[X|X] _]; cbn in Lf; lia|]. set (f := v0 :: f0) in *.
    assert (Hne : f <> []) by discriminate.
    unfold boundary_facet. rewrite (map_opt_ok _ P) by (intros v Hv; apply PV; auto). cbn [bind].
    change (nth_error (map P f) 0) with (Some (P v0)). cbn [bind]. change (tl (map P f)) with (map P f0).
    assert (I0 : In v0 f) by (left; auto). destruct (PV v0 I0) as (_ & L0 & _).
    destruct (in_plane_spec (P v0) (map P f0) (repeat true D)) as [IL IS].
    { intros v Hv. apply in_map_iff in Hv as (w & <- & Hw). rewrite L0. apply PV. right; auto. }
    { rewrite repeat_length. auto. }
    set (flags := in_plane (P v0) (map P f0) (repeat true D)) in *.
    assert (FS : forall d, nth d flags false = true <-> d < D /\ in_plane_at N d (nth d (P v0) 0) f).
    { intro d. rewrite IS. split.
      - intros [A C]. destruct (lt_dec d D) as [Hd|Hd]; [|rewrite nth_overflow in A by (rewrite repeat_length; lia); discriminate].
        split; auto. intros v p Hv Hp. rewrite (PU v p Hp Hv). destruct Hv as [<-|Hv]; auto. apply C. apply in_map; auto.
      - intros [A C]. split; [rewrite nth_repeat_lt by auto; auto|]. intros v Hv. apply in_map_iff in Hv as (w & <- & Hw). apply (C w); [right; auto|]. apply PV. right; auto. }
    assert (UQ : forall d x, d < D -> in_plane_at N d x f -> x = nth d (P v0) 0 /\ nth d flags false = true).
    { intros d x Hd H. assert (x = nth d (P v0) 0) by (symmetry; apply (H v0); auto; apply PV; auto). subst. split; auto. apply FS; auto. }
    assert (U1 : forall i j, nth i flags false = true -> nth j flags false = true -> i = j).
    { intros i j Hi Hj. apply FS in Hi as [Hi Ci]. apply FS in Hj as [Hj Cj].
      eapply PC; eauto; intros v Hv; [apply (Ci v)|apply (Cj v)]; auto; apply PV; auto. }
    pose proof (count_le_1 flags U1) as CO. destruct (Nat.ltb_spec 1 (count_occ Bool.bool_dec flags true)); [lia|].
    destruct (find_index (fun b => b) flags) as [dim|] eqn:FI.
    2:{ exists None. split; auto. intros f' bc. split; [discriminate|]. intros (_ & d & x & plane & reg & Hd & IP & _).
        destruct (UQ d x Hd IP) as [_ X]. assert (In true flags) by (rewrite <- X; apply nth_In; lia). pose proof (find_index_none _ _ FI true H0). discriminate. }
    apply find_index_some in FI as (b & Nb & Tb). subst b. assert (TD : nth dim flags false = true) by (apply (nth_of_nth_error _ _ _ _ Nb)).
    apply FS in TD as [HD ID]. destruct (regions_nth dim HD) as (rs & Er & Er' & SS & R0 & RL & RP). rewrite Er. cbn [bind].
    rewrite (nth_error_nth' (P v0) 0) by lia. cbn [bind].
    destruct (find_index (Nat.eqb (nth dim (P v0) 0)) rs) as [plane|] eqn:FI2.
    2:{ exists None. split; auto. intros f' bc. split; [discriminate|]. intros (_ & d & x & plane & reg & Hd & IP & NP & _).
        destruct (UQ d x Hd IP) as [X TX]. assert (d = dim) by (apply U1; auto; apply FS; auto). subst d. rewrite Er' in NP. apply nth_error_In in NP.
        pose proof (find_index_none _ _ FI2 x NP) as Q. rewrite X in Q. rewrite Nat.eqb_refl in Q. discriminate. }
    apply find_index_some in FI2 as (x & Nx & Ex). apply Nat.eqb_eq in Ex. subst x.
    assert (FR : forall v d, In v f -> d < D -> findRegion (nth d regions []) (nth d (P v) 0) = Some (region_of (nth d regions []) (nth d (P v) 0)) /\
      let r := region_of (nth d regions []) (nth d (P v) 0) in r + 1 < length (nth d regions []) /\
      nth r (nth d regions []) 0 <= nth d (P v) 0 <= nth (r + 1) (nth d regions []) 0 /\ (r = 0 \/ nth r (nth d regions []) 0 < nth d (P v) 0)).
    { intros v d Hv Hd. destruct (regions_nth d Hd) as (rs' & _ & -> & SS' & R0' & RL' & RP').
      destruct (findRegion_spec rs' (nth d (P v) 0) SS' R0' RP') as (r & A & B1 & B2 & B3); [rewrite RL'; apply PE; auto|].
      unfold region_of. rewrite A. auto. }
    destruct (all_regions_spec D dim regions (proj1 HB) HD LR (map P f) (repeat 0 (D - 1))) as (L & EL & LL & PL).
    { rewrite repeat_length. auto. }
    { intros p Hp. apply in_map_iff in Hp as (v & <- & Hv). apply PV; auto. }
    { intros p d Hp Hd. apply in_map_iff in Hp as (v & <- & Hv). apply FR; auto. }
    rewrite EL. cbn [bind].
    assert (SL : forall j, j < D - 1 -> in_slab N (nth (other_direction dim j) regions []) (other_direction dim j) (nth j L 0) f).
    { intros j Hj. set (d := other_direction dim j). assert (Hd : d < D /\ d <> dim) by (unfold d, other_direction; destruct (Nat.ltb_spec j dim); lia).
      destruct Hd as [Hd Hdd]. destruct (PL j Hj) as (A & B1 & C). fold d in B1, C.
      destruct (regions_nth d Hd) as (rs' & _ & Er2 & SS' & R0' & RL' & RP').
      (* not constant: the largest coordinate is e_d + 1 *)
      assert (MX : exists v, In v f /\ nth d (P v) 0 = nth d e 0 + 1).
      { destruct (existsb (fun v => nth d (P v) 0 =? nth d e 0 + 1) f) eqn:X.
        - apply existsb_exists in X as (v & Hv & Ev). exists v. split; auto. apply Nat.eqb_eq; auto.
        - exfalso. apply Hdd. apply (PC d dim (nth d e 0) (nth dim (P v0) 0)); auto.
          + intros v Hv. destruct (PE v d Hv Hd) as [[Q1 Q2] _]. destruct (Nat.eq_dec (nth d (P v) 0) (nth d e 0 + 1)) as [Q|Q]; [|lia].
            exfalso. assert (existsb (fun v => nth d (P v) 0 =? nth d e 0 + 1) f = true); [|congruence]. apply existsb_exists. exists v. split; auto. apply Nat.eqb_eq; auto.
          + intros v Hv. apply (ID v); auto. apply PV; auto. }
      destruct MX as (vm & Hvm & Em).
      assert (EQ : nth j L 0 = region_of (nth d regions []) (nth d (P vm) 0)).
      { specialize (B1 (P vm) ltac:(apply in_map; auto)). apply Nat.le_antisymm; auto.
        destruct C as [C|(p & Hp & C)]; [rewrite C, nth_repeat0; lia|]. apply in_map_iff in Hp as (w & <- & Hw). rewrite C.
        destruct (FR w d Hw Hd) as (_ & W1 & W2 & W3). destruct (FR vm d Hvm Hd) as (_ & V1 & V2 & V3). rewrite Er2 in *.
        set (rw := region_of rs' (nth d (P w) 0)) in *. set (rm := region_of rs' (nth d (P vm) 0)) in *.
        destruct W3 as [W3|W3]; [lia|]. destruct (le_lt_dec rw rm) as [Q|Q]; auto. exfalso.
        assert (nth (rm + 1) rs' 0 <= nth rw rs' 0).
        { destruct (Nat.eq_dec (rm + 1) rw) as [<-|Q']; auto. pose proof (sorted_nth_lt rs' SS' (rm + 1) rw ltac:(lia) ltac:(lia)). lia. }
        destruct (PE w d Hw Hd). lia. }
      rewrite EQ. destruct (FR vm d Hvm Hd) as (_ & V1 & V2 & V3). rewrite Er2 in *. set (rm := region_of rs' (nth d (P vm) 0)) in *.
      split; auto. intros v p Hv Hp. rewrite (PU v p Hp Hv). destruct (PE v d Hv Hd) as [[Q1 Q2] _]. split; [|lia].
      destruct V3 as [V3|V3]; [|lia]. rewrite V3. rewrite (nth_of_nth_error _ _ _ _ R0'). lia. }
    eexists. split; [reflexivity|]. intros f' bc. split.
    - intro H1. inversion H1; subst f' bc. split; auto. exists dim, (nth dim (P v0) 0), plane, L. rewrite Er'. auto 10.
    - intros (-> & d & x & plane' & reg & Hd & IP & NP & LG & SLB & ->). destruct (UQ d x Hd IP) as [X TX].
      assert (d = dim) by (apply U1; auto; apply FS; auto). subst d. rewrite Er' in NP.
      assert (plane' = plane).
      { assert (K : forall a b x, nth_error rs a = Some x -> nth_error rs b = Some x -> a < b -> False).
        { intros a b y Ha Hb Hab. assert (b < length rs) by (apply nth_error_Some; congruence). pose proof (sorted_nth_lt rs SS a b Hab ltac:(auto)).
          rewrite (nth_of_nth_error _ _ _ _ Ha), (nth_of_nth_error _ _ _ _ Hb) in H1. lia. }
        subst x. destruct (lt_eq_lt_dec plane' plane) as [[Q|Q]|Q]; auto; exfalso; [apply (K plane' plane _ NP Nx Q)|apply (K plane plane' _ Nx NP Q)]. }
      subst plane'. do 3 f_equal. apply (nth_ext _ _ 0 0); [congruence|]. rewrite LL. intros j Hj.
      assert (Hj2 : other_direction dim j < D /\ other_direction dim j <> dim) by (unfold other_direction; destruct (Nat.ltb_spec j dim); lia).
      apply (slab_unique f (other_direction dim j)); auto; [intros v Hv; apply PV; auto|tauto|].
      intros (y & Hy). apply (proj2 Hj2). apply (PC _ _ y (nth dim (P v0) 0)); auto; [tauto|]. intros v Hv. apply (ID v); auto. apply PV; auto.
  Qed.
End Facets.

(** C45: the boundary mesh of a part of a generated mesh holds exactly the facets of its elements that lie in a
    configured grid plane, each with the condition for that plane and for the regions the facet lies in; no
    assertion fails and nothing is read out of bounds. *)
Theorem extract_boundary_correct : forall {B} D N regions (bcs : nat -> nat -> list nat -> B) rank size elems,
  box D N -> grid_planes N regions -> rank < size -> gen_elements D N rank size = Some elems ->
  exists bnd, extractBoundaryMesh D N regions bcs elems = Some bnd /\
    forall f bc, In (f, bc) bnd <-> exists e, In e elems /\ facet_of D f e /\
      exists d x plane reg, d < D /\ in_plane_at N d x f /\ nth_error (nth d regions []) plane = Some x /\ length reg = D - 1 /\
        (forall j, j < D - 1 -> in_slab N (nth (other_direction d j) regions []) (other_direction d j) (nth j reg 0) f) /\
        bc = bcs d plane reg.
Proof.
  intros B D N regions bcs rank size elems HB HR Hr HE.
  assert (IV : forall x, In x elems -> exists e s, valid D N e s /\ x = E D N e s).
  { intros x Hx. apply box_elems_in; auto. destruct (gen_elements_rank_independent D N HB) as (all & A & Q). rewrite <- (box_all D N all HB A).
    destruct (Q size ltac:(lia)) as (part & P1 & P2). rewrite (P1 rank Hr) in HE. injection HE as HE'. rewrite <- HE' in Hx. rewrite <- P2. apply in_concat.
    exists (part rank). split; auto. apply in_map, in_seq. lia. }
  assert (DW : forall x, In x elems -> exists fs, downward D x = Some fs /\ forall f, In f fs <-> facet_of D f x).
  { intros x Hx. destruct (IV x Hx) as (e & s & V & ->). destruct (E_good D N HB e s V) as [L SS].
    destruct (downward_spec D (E D N e s) ltac:(lia) SS) as (fs & A & C). exists fs. split; auto. intro f. apply C. }
  assert (DD : exists fss, map_opt (downward D) elems = Some fss /\ forall f, In f (concat fss) <-> exists e, In e elems /\ facet_of D f e).
  { clear HE IV. induction elems as [|x l IH]; [exists []; split; auto; intro f; split; [intros []|intros (? & [] & _)]|].
    destruct (DW x (or_introl eq_refl)) as (fs & A & C). destruct IH as (fss & A' & C'); [intros; apply DW; right; auto|].
    exists (fs :: fss). cbn [map_opt]. rewrite A, A'. split; auto. intro f. cbn [concat]. rewrite in_app_iff, C, C'. split.
    - intros [H|(e & He & Hf)]; [exists x; split; auto; left; auto|exists e; split; auto; right; auto].
    - intros (e & [<-|He] & Hf); eauto. }
  destruct DD as (fss & EF & CF). unfold extractBoundaryMesh. rewrite EF. cbn [bind].
  assert (BF : forall f, In f (concat fss) -> exists o, boundary_facet D N regions bcs f = Some o /\
      forall f' bc, o = Some (f', bc) <-> f' = f /\ exists d x plane reg, d < D /\ in_plane_at N d x f /\
        nth_error (nth d regions []) plane = Some x /\ length reg = D - 1 /\
        (forall j, j < D - 1 -> in_slab N (nth (other_direction d j) regions []) (other_direction d j) (nth j reg 0) f) /\ bc = bcs d plane reg).
  { intros f Hf. apply CF in Hf as (x & Hx & Hf). destruct (IV x Hx) as (e & s & V & ->). eapply boundary_facet_spec; eauto. }
  assert (G : forall l, incl l (concat fss) -> exists os, map_opt (boundary_facet D N regions bcs) l = Some os /\
     forall f bc, In (f, bc) (keep_some os) <-> In f l /\ exists d x plane reg, d < D /\ in_plane_at N d x f /\
        nth_error (nth d regions []) plane = Some x /\ length reg = D - 1 /\
        (forall j, j < D - 1 -> in_slab N (nth (other_direction d j) regions []) (other_direction d j) (nth j reg 0) f) /\ bc = bcs d plane reg).
  { induction l as [|f l IH]; intro Hl; [exists []; split; auto; intros; cbn; tauto|].
    destruct (BF f (Hl f (or_introl eq_refl))) as (o & A & C). destruct IH as (os & A' & C'); [intros g Hg; apply Hl; right; auto|].
    exists (o :: os). cbn [map_opt]. rewrite A, A'. split; auto. intros g bc.
    assert (K : In (g, bc) (keep_some (o :: os)) <-> o = Some (g, bc) \/ In (g, bc) (keep_some os)).
    { destruct o as [[h b]|]; cbn [keep_some In]; [|split; [auto|intros [H|H]; [discriminate|auto]]].
      split; (intros [H|H]; [left; congruence|auto]). }
    rewrite K, C, C'. split.
    - intros [[-> H]|[H1 H2]]; (split; [|assumption]); [left; auto|right; auto].
    - intros [[<-|Hg] H]; auto. }
  destruct (G (concat fss) (incl_refl _)) as (os & A & C). rewrite A. cbn [bind]. eexists. split; [reflexivity|].
  intros f bc. rewrite C, CF. split; [intros ((e & He & Hf) & H); eauto|intros (e & He & Hf & H); eauto].
Qed.
Print Assumptions extract_boundary_correct.

(** C45: in particular every facet on the outside of the box has an entry. *)
Theorem outer_facets_have_condition : forall {B} D N regions (bcs : nat -> nat -> list nat -> B) rank size elems bnd e f,
  box D N -> grid_planes N regions -> rank < size -> gen_elements D N rank size = Some elems ->
  extractBoundaryMesh D N regions bcs elems = Some bnd -> In e elems -> facet_of D f e ->
  (on_boundary N f \/ exists d x, d < D /\ In x (nth d regions []) /\ in_plane_at N d x f) -> exists bc, In (f, bc) bnd.
Proof.
  intros B D N regions bcs rank size elems bnd e f HB HR Hr HE HX He Hf HO.
  destruct (extract_boundary_correct D N regions bcs rank size elems HB HR Hr HE) as (bnd' & A & C). rewrite A in HX. injection HX as ->.
  assert (VE : exists c s, valid D N c s /\ e = E D N c s).
  { apply box_elems_in; auto. destruct (gen_elements_rank_independent D N HB) as (all & A' & Q). rewrite <- (box_all D N all HB A').
    destruct (Q size ltac:(lia)) as (part & P1 & P2). rewrite (P1 rank Hr) in HE. injection HE as HE'. rewrite <- HE' in He. rewrite <- P2. apply in_concat.
    exists (part rank). split; auto. apply in_map, in_seq. lia. }
  destruct VE as (c & s & V & ->). destruct (facet_points D N HB c s f V Hf) as (PV & PU & PE & PC).
  assert (HO' : exists d x, d < D /\ In x (nth d regions []) /\ in_plane_at N d x f).
  { destruct HO as [(d & Hd & O)|O]; auto. destruct HB as (HD & LN & PN). rewrite LN in Hd.
    destruct (regions_nth D N regions (conj HD (conj LN PN)) HR d Hd) as (rs & _ & Er & _ & R0 & RL & _).
    destruct O as [O|O]; [exists d, 0|exists d, (nth d N 0)]; (split; [auto|]); rewrite Er; (split; [|exact O]).
    - apply nth_error_In in R0. auto.
    - rewrite <- RL. destruct rs as [|y rs]; [discriminate|]. clear. revert y. induction rs as [|z rs IH]; intro y; [left; auto|]. right. apply IH. }
  destruct HO' as (d & x & Hd & Hx & IP). apply In_nth_error in Hx as (plane & Hp).
  assert (SL : forall d', d' < D -> exists r, in_slab N (nth d' regions []) d' r f).
  { intros d' Hd'. destruct (regions_nth D N regions HB HR d' Hd') as (rs & _ & -> & SS & R0 & RL & RP).
    pose proof (range_nth D N HB c d' (proj1 V) Hd') as RN.
    destruct (findRegion_spec rs (nth d' c 0 + 1) SS R0 RP) as (r & _ & L & [_ U] & W); [lia|]. exists r. split; auto.
    intros v p Hv Hvp. rewrite (PU v p Hvp Hv). destruct (PE v d' Hv Hd') as [Q _]. split; [|lia]. destruct W as [-> | W]; [|lia].
    rewrite (nth_of_nth_error _ _ _ _ R0). lia. }
  assert (RG : exists reg, length reg = D - 1 /\ forall j, j < D - 1 -> in_slab N (nth (other_direction d j) regions []) (other_direction d j) (nth j reg 0) f).
  { assert (OD : forall j, j < D - 1 -> other_direction d j < D) by (intros j Hj; unfold other_direction; destruct (j <? d); lia).
    destruct (proj1 HB) as [-> | ->].
    - destruct (SL _ (OD 0 ltac:(lia))) as (r & S0). exists [r]. split; auto. intros [|j] Hj; auto; lia.
    - destruct (SL _ (OD 0 ltac:(lia))) as (r & S0). destruct (SL _ (OD 1 ltac:(lia))) as (r' & S1). exists [r; r']. split; auto. intros [|[|j]] Hj; auto; lia. }
  destruct RG as (reg & LG & SG). exists (bcs d plane reg). apply C. exists (E D N c s). split; auto. split; auto.
  exists d, x, plane, reg. auto 10.
Qed.
Print Assumptions outer_facets_have_condition.

(** C45: the condition of a facet does not depend on the element or the rank that finds it. *)
Theorem boundary_condition_unique : forall {B} D N regions (bcs : nat -> nat -> list nat -> B) elems elems' bnd bnd' f bc bc',
  extractBoundaryMesh D N regions bcs elems = Some bnd -> extractBoundaryMesh D N regions bcs elems' = Some bnd' ->
  In (f, bc) bnd -> In (f, bc') bnd' -> bc = bc'.
Proof.
  intros B D N regions bcs elems elems' bnd bnd' f bc bc' H H' I I'.
  assert (K : forall els b x, extractBoundaryMesh D N regions bcs els = Some b -> In (f, x) b -> boundary_facet D N regions bcs f = Some (Some (f, x))).
  { clear. intros els b x HE HI. unfold extractBoundaryMesh in HE. destruct (map_opt (downward D) els) as [fs|]; [|discriminate]. cbn [bind] in HE.
    destruct (map_opt (boundary_facet D N regions bcs) (concat fs)) as [os|] eqn:EO; [|discriminate]. cbn [bind] in HE. injection HE as <-.
    revert os EO HI. induction (concat fs) as [|g l IH]; intros os EO HI; cbn [map_opt] in EO; [injection EO as <-; destruct HI|].
    destruct (boundary_facet D N regions bcs g) as [o|] eqn:Eg; [|discriminate]. destruct (map_opt _ l) as [os'|] eqn:El; [|discriminate]. injection EO as <-.
    destruct o as [[g' y]|]; cbn [keep_some] in HI; [destruct HI as [HI|HI]|]; eauto. inversion HI; subst g' y.
    assert (g = f); [|subst; auto]. unfold boundary_facet in Eg.
    destruct (map_opt _ g) as [vs|]; [|discriminate]. cbn [bind] in Eg. destruct (nth_error vs 0) as [v0|]; [|discriminate]. cbn [bind] in Eg. cbv zeta in Eg.
    destruct (1 <? _); [discriminate|]. destruct (find_index _ _) as [dim|]; [|discriminate]. destruct (nth_error regions dim) as [rs|]; [|discriminate].
    cbn [bind] in Eg. destruct (nth_error v0 dim) as [z|]; [|discriminate]. cbn [bind] in Eg. destruct (find_index (Nat.eqb z) rs) as [pl|]; [|discriminate].
    destruct (all_regions _ _ _ _) as [q|]; [|discriminate]. cbn [bind] in Eg. congruence. }
  pose proof (K _ _ _ H I). pose proof (K _ _ _ H' I'). congruence.
Qed.
Print Assumptions boundary_condition_unique.

(** C45: the configured condition is that of the first entry for the plane whose region, if it has one, is the
    facet's; without such an entry it is None. *)
Theorem config_bc_first : forall {B} (none : B) cfg plane region,
  (forall pre p r bc post, cfg = pre ++ (p, r, bc) :: post -> p = plane -> (r = None \/ r = Some region) ->
    (forall p' r' bc', In (p', r', bc') pre -> p' <> plane \/ (exists q, r' = Some q /\ q <> region)) -> config_bc none cfg plane region = bc) /\
  ((forall p r bc, In (p, r, bc) cfg -> p <> plane \/ (exists q, r = Some q /\ q <> region)) -> config_bc none cfg plane region = none).
Proof.
  intros B none cfg plane region.
  assert (SK : forall p r (bc : B) t, p <> plane \/ (exists q, r = Some q /\ q <> region) -> config_bc none ((p, r, bc) :: t) plane region = config_bc none t plane region).
  { intros p r bc t [H|(q & -> & H)]; cbn [config_bc].
    - destruct (Nat.eqb_spec p plane); [tauto|auto].
    - destruct (list_eq_dec Nat.eq_dec q region); [tauto|]. rewrite andb_false_r. auto. }
  split.
  - intros pre p r bc post -> -> Hr Hpre. induction pre as [|[[p' r'] bc'] pre IH]; cbn [app].
    + cbn [config_bc]. rewrite Nat.eqb_refl. destruct Hr as [-> | ->]; cbn [andb]; auto. destruct (list_eq_dec Nat.eq_dec region region); tauto.
    + rewrite SK by (apply (Hpre p' r' bc'); left; auto). apply IH. intros p1 r1 b1 H1. apply (Hpre p1 r1 b1). right; auto.
  - induction cfg as [|[[p' r'] bc'] cfg IH]; intro H; auto. rewrite SK by (apply (H p' r' bc'); left; auto). apply IH.
    intros p1 r1 b1 H1. apply (H p1 r1 b1). right; auto.
Qed.
Print Assumptions config_bc_first.

(** The region lists of the constructor satisfy the hypothesis when every interval has a cell. *)
Lemma init_regions_planes : forall ns N0, Forall (fun n => 0 < n) ns ->
  StronglySorted lt (init_regions N0 ns) /\ nth_error (init_regions N0 ns) 0 = Some N0 /\ last (init_regions N0 ns) 0 = N0 + list_sum ns /\
  Forall (fun x => N0 <= x) (init_regions N0 ns).
Proof.
  induction ns as [|n ns IH]; intros N0 H.
  - cbn. repeat split; auto; repeat constructor.
  - inversion H as [|? ? Hn Hs]; subst. destruct (IH (N0 + n) Hs) as (A & B & C & D). cbn [init_regions].
    split; [|split; [auto|split]].
    + constructor; auto. eapply Forall_impl; [|exact D]. cbn. intros; lia.
    + change (list_sum (n :: ns)) with (n + list_sum ns). rewrite Nat.add_assoc, <- C. destruct ns; auto.
    + constructor; auto. eapply Forall_impl; [|exact D]. cbn. intros; lia.
Qed.
Theorem constructor_planes : forall cells, Forall (Forall (fun n => 0 < n)) cells ->
  grid_planes (map list_sum cells) (map (init_regions 0) cells).
Proof.
  intros cells H. unfold grid_planes. induction H as [|ns cells Hn H IH]; cbn [map]; constructor; auto.
  destruct (init_regions_planes ns 0 Hn) as (A & B & C & _). auto.
Qed.

(** A box of 1+2 by 2 cells with a fault at the inner plane. *)
Example boundary_2d : box 2 [3; 2] /\ grid_planes [3; 2] [[0; 1; 3]; [0; 2]] /\
  exists elems bnd, gen_elements 2 [3;2] 0 1 = Some elems /\
    extractBoundaryMesh 2 [3;2] [[0;1;3];[0;2]] (fun d plane reg => (d, plane, reg)) elems = Some bnd /\
    In ([1; 5], (0, 1, [0])) bnd /\ In ([2; 3], (1, 0, [1])) bnd /\ length bnd = 14.
Proof.
  split; [split; [auto|split; [auto|repeat constructor]]|].
  split; [apply (constructor_planes [[1;2];[2]]); repeat constructor|].
  eexists. eexists. split; [vm_compute; reflexivity|]. split; [vm_compute; reflexivity|]. vm_compute. auto 20.
Qed.
