(** Proofs about FaultFileModel.v. *)
Require Import Bool Arith ZArith Reals String Lia Lra Permutation List.
Require Import Verif.Base Verif.LinAlg Verif.TensorModel Verif.TopoModel Verif.GeometryModel Verif.RefElementModel Verif.RefElementProofs Verif.ErrorModel Verif.ErrorSpec Verif.ErrorProofs Verif.ErrorProps
  Verif.EquidistantModel Verif.ErrorExactProps Verif.VtuFieldModel Verif.VtuFieldProps Verif.Hdf5Model Verif.Hdf5Props Verif.FaultFileModel.
Import ListNotations.
Local Open Scope nat_scope.
Local Open Scope list_scope.
Local Open Scope opt_scope.

(** The first D nodes are the vertices of the reference facet. *)
Lemma adapter_nodes_vertices : forall D degree, D = 2 \/ D = 3 -> 1 <= degree ->
  D <= length (adapter_nodes D degree) /\
  forall j d, j < D -> d < D - 1 -> RefElementModel.point (adapter_nodes D degree) j d = ref_vertex j d.
Proof.
  intros D degree [-> | ->] Hd; destruct degree as [|n]; try lia.
  - unfold adapter_nodes. cbn. split; [lia|]. intros j d Hj Hdd. unfold RefElementModel.point.
    destruct j as [|[|j]]; try lia; destruct d as [|d]; try lia; reflexivity.
  - unfold adapter_nodes. cbn. split; [lia|]. intros j d Hj Hdd. unfold RefElementModel.point.
    destruct j as [|[|[|j]]]; try lia; destruct d as [|[|d]]; try lia; reflexivity.
Qed.

(** The reference facet's vertex j is taken to the element's vertex number j of the facet. *)
Lemma facet_param_vertex : forall D fs (chi : nat -> R) j i, D = 2 \/ D = 3 -> j < D -> (forall d, d < D - 1 -> chi d = ref_vertex j d) ->
  facet_param D fs chi i = ref_vertex (nth j fs 0) i.
Proof.
  intros D fs chi j i HD Hj Hc. unfold facet_param.
  destruct HD as [-> | ->]; cbn [Nat.sub rsum].
  - pose proof (Hc 0 ltac:(lia)) as C0. rewrite !C0. destruct j as [|[|j]]; try lia; unfold ref_vertex; cbn; lra.
  - pose proof (Hc 0 ltac:(lia)) as C0. pose proof (Hc 1 ltac:(lia)) as C1. rewrite !C0, !C1. destruct j as [|[|[|j]]]; try lia; unfold ref_vertex; cbn; lra.
Qed.
(** The position of a vertex of the facet: the element's geometry at its reference vertex. *)
Definition vertex_position (cl : curvilinear) (bg : nat -> (nat -> R) -> R) (e v : nat) : nat -> R :=
  place (cv_nb cl) bg (cv_pos cl e) (ref_vertex v).

Section Rank.
Variables (D degree : nat) (x : fault_rank) (bg : nat -> (nat -> R) -> R) (el : nat -> nat) (fc : nat -> list nat).
Hypothesis HD : D = 2 \/ D = 3.
Hypothesis Hdeg : 1 <= degree.
Hypothesis HG : represents D (cv_re (fr_cl x)) (cv_nb (fr_cl x)) bg.
Hypothesis Hbg : forall j a b, j < cv_nb (fr_cl x) -> (forall d, d < D -> a d = b d) -> bg j a = bg j b.
Hypothesis Hf : forall b, b < length (fr_fctNos x) -> exists fctNo lf fs, nth_error (fr_fctNos x) b = Some fctNo /\ nth_error (fr_upward x fctNo) 0 = Some (el b)
  /\ find_index fctNo (fr_downward x (el b)) = Some lf /\ f2v D = Some fs /\ nth_error fs lf = Some (fc b).
Local Notation points := (adapter_nodes D degree).
Local Notation nb := (length points).
Local Notation cl := (fr_cl x).

Lemma getVertices_ok m0 : exists v, getVertices D degree x m0 = Some v /\ length v = D * length (fr_fctNos x) * nb /\
  forall e j d, e < length (fr_fctNos x) -> j < D -> d < D ->
    nth ((e * D + j) * D + d) v 0%R = vertex_position cl bg (el e) (nth j (fc e) 0) d.
Proof.
  destruct (adapter_nodes_vertices D degree HD Hdeg) as [Hnb Hv].
  unfold getVertices, boundary_bnds, boundary_E. cbv zeta.
  assert (exists fs, f2v D = Some fs) as (fs & Efs) by (destruct HD as [-> | ->]; vm_compute; eauto). rewrite Efs. cbn [bind].
  destruct (map_opt_all (fun fctNo => do elNo <- nth_error (fr_upward x fctNo) 0; do f <- find_index fctNo (fr_downward x elNo); Some (elNo, f))
    (fun fctNo y => nth_error (fr_upward x fctNo) 0 = Some (fst y) /\ find_index fctNo (fr_downward x (fst y)) = Some (snd y)) (fr_fctNos x)) as (bnds & Eb & Hb).
  { intros fctNo Hin. destruct (In_nth_error _ _ Hin) as (b & Hnb'). assert (Hl : (b < length (fr_fctNos x))%nat) by (apply nth_error_Some; congruence).
    destruct (Hf b Hl) as (f' & lf & fs' & A1 & A2 & A3 & _). rewrite Hnb' in A1. injection A1 as <-. rewrite A2. cbn [bind]. rewrite A3. cbn [bind]. exists (el b, lf). auto. }
  rewrite Eb. cbn [bind].
  destruct (map_opt_all (fun f => re_basis (cv_re cl) m0 (facetParams D f points) [0; 1]%nat)
    (fun f ge => forall k q, (k < cv_nb cl)%nat -> (q < nb)%nat -> emap (snd ge) (fst ge) k q = bg k (RefElementModel.point (facetParams D f points) q)) fs) as (Es & Ee & He).
  { intros f _. destruct (proj1 HG m0 (facetParams D f points) [0; 1]%nat (Permutation_refl _)) as (E & me & E1 & _ & V). exists (E, me). split; [exact E1|].
    intros k q Hk Hq. cbn [fst snd]. apply (V k q Hk). unfold facetParams. now rewrite map_length. }
  rewrite Ee. cbn [bind].
  assert (Lb : length bnds = length (fr_fctNos x)) by exact (map_opt_length _ _ _ Eb). rewrite Lb.
  set (total := D * length (fr_fctNos x) * nb).
  set (step := fun om elNo => _).
  assert (Fold : forall k, k <= length (fr_fctNos x) -> exists m, fold_left step (seq 0 k) (Some (fun _ => 0%R)) = Some m /\
    forall e j d, e < k -> j < D -> d < D -> m ((e * D + j) * D + d) = vertex_position cl bg (el e) (nth j (fc e) 0) d).
  { induction k as [|k IH]; intro Hk; [exists (fun _ => 0%R); split; [reflexivity|lia]|].
    destruct (IH ltac:(lia)) as (m & Em & Hm). rewrite seq_S, fold_left_app, Em. cbn [fold_left Nat.add]. unfold step at 1. cbn [bind].
    assert (Hle : k * D * D + D * nb <= total).
    { unfold total. assert (k * D * D <= D * k * nb) by nia. nia. }
    apply Nat.leb_le in Hle. rewrite Hle.
    destruct (Hf k ltac:(lia)) as (fctNo & lf & fs' & A1 & A2 & A3 & A4 & A5). rewrite Efs in A4. injection A4 as <-.
    destruct (Hb k fctNo A1) as ([el' lf'] & B1 & B2 & B3). cbn [fst snd] in B2, B3. rewrite A2 in B2. injection B2 as <-. rewrite A3 in B3. injection B3 as <-.
    destruct (He lf (fc k) A5) as ([E me] & C1 & C2). unfold boundary_map. rewrite B1. cbn [bind snd fst]. rewrite C1. cbn [bind snd fst]. eexists. split; [reflexivity|].
    intros e j d Hek Hj Hd. cbn [fst snd] in C2. destruct (Nat.eq_dec e k) as [-> | Hne].
    - replace ((k * D + j) * D + d) with (v_addr (packed (k * D * D) [D; nb]) [d; j]) by (rewrite addr2; nia).
      unfold cl_map. rewrite assign_read; [|apply packed_inj2|exact Hd|cbn [packed v_shape nth]; lia].
      unfold vertex_position, place. apply rsum_ext. intros i Hi. f_equal. rewrite (C2 i j Hi ltac:(lia)). apply (Hbg i _ _ Hi). intros dd Hdd.
      unfold RefElementModel.point, facetParams. rewrite (nth_indep _ _ (facet_param D (fc k) (fun _ => 0%R))) by (rewrite map_length; exact (Nat.lt_le_trans _ _ _ Hj Hnb)).
      rewrite (map_nth (facet_param D (fc k))). apply facet_param_vertex; [exact HD|exact Hj|]. intros d' Hd'. exact (Hv j d' Hj Hd').
    - unfold cl_map. rewrite assign_other; [apply Hm; lia|]. intros r c Hr Hc. rewrite addr2. assert (e * D + j < k * D) by nia. nia. }
  destruct (Fold (length (fr_fctNos x)) ltac:(lia)) as (m & Em & Hm). rewrite Em. cbn [bind]. eexists. split; [reflexivity|]. unfold stored.
  split; [now rewrite map_length, seq_length|]. intros e j d He' Hj Hd. rewrite (nth_indep _ _ (m 0)) by (rewrite map_length, seq_length; unfold total; assert (e * D + j < length (fr_fctNos x) * D) by nia; nia).
  rewrite (map_nth m), seq_nth by (unfold total; assert (e * D + j < length (fr_fctNos x) * D) by nia; nia). apply Hm; assumption.
Qed.
End Rank.

(** One collective write of rows of [w] numbers that fills a dataset that cannot grow. *)
Section Block.
Variables (A : Type) (fill : A).
Lemma write_block : forall procs order n (w : list nat) (d : dset A) (data : nat -> list A),
  Permutation order (seq 0 procs) -> 0 < sumn n procs -> extents A d = sumn n procs :: w ->
  (forall r, r < procs -> n r * volume w <= List.length (data r)) ->
  exists d', write_dataset A fill d 0 data (fun r => n r :: w) 0 0 true order = Some d' /\ extents A d' = sumn n procs :: w /\
    forall r e idx0, r < procs -> e < n r -> Forall2 lt idx0 w -> cell A d' (sumn n r + e :: idx0) = nth (row_major w idx0 e) (data r) fill.
Proof.
  intros procs order n w d data Hp Hpos Hext Hlen.
  assert (Hin : forall r, In r order <-> r < procs).
  { intros r. split; intros Hr. apply (Permutation_in _ Hp) in Hr. apply in_seq in Hr; lia. apply (Permutation_in _ (Permutation_sym Hp)), in_seq; lia. }
  assert (Hslab : forall r, slab_of (extents A d) 0 (fun r => n r :: w) 0 0 true r = (sumn n r :: repeat 0 (List.length w), n r :: w)).
  { intros r. unfold slab_of. rewrite Hext. cbn [nth List.length repeat set_nth].
    replace (offset_of (fun q => n q) r) with (sumn n r) by reflexivity. destruct (Nat.leb_spec (sumn n procs) 0); [lia|reflexivity]. }
  assert (Hex : extended (extents A d) 0 0 = sumn n procs :: w).
  { unfold extended. rewrite Hext. cbn [nth]. destruct (Nat.leb_spec (sumn n procs) 0); [lia|reflexivity]. }
  assert (Fit : forall v, fits (repeat 0 (List.length v)) v v = true).
  { induction v as [|a v IH]; [reflexivity|]. cbn. rewrite Nat.leb_refl. exact IH. }
  assert (Slab : forall v i, Forall2 lt i v -> in_slab (repeat 0 (List.length v)) v i = true).
  { induction 1 as [|a b i v Hab F IH]; [reflexivity|]. cbn. apply Nat.ltb_lt in Hab. rewrite IH, andb_true_r. exact Hab. }
  assert (Sub : forall v i, Forall2 lt i v -> sub_idx i (repeat 0 (List.length v)) = i).
  { induction 1 as [|a b i v Hab F IH]; [reflexivity|]. cbn. rewrite IH, Nat.sub_0_r. reflexivity. }
  unfold write_dataset. rewrite Hex. set (sl := slab_of _ _ _ _ _ _) in *.
  destruct (write_ranks_some A fill sl data order {| extents := sumn n procs :: w; cell := cell A d |}) as (d' & E1 & E2).
  { intros r Hr. apply Hin in Hr. rewrite Hslab. cbn [fst snd extents fits]. split.
    - rewrite Fit, andb_true_r. apply Nat.leb_le. change (sumn n r + n r) with (sumn n (S r)). apply sumn_le; lia.
    - exact (Hlen r Hr). }
  exists d'. split; [exact E1|]. split; [exact E2|]. intros r e idx0 Hr He Hidx.
  apply (write_ranks_cell A fill _ _ _ _ _ _ _ E1).
  - intros r' Hr' Hs. rewrite Hslab in *. cbn [fst snd in_slab] in *. rewrite !andb_true_iff, Nat.leb_le, Nat.ltb_lt in Hs.
    assert (r' = r).
    { destruct (Nat.lt_trichotomy r r') as [Hlt|[Heq|Hlt]]; auto; exfalso.
      - assert (sumn n (S r) <= sumn n r') by (apply sumn_le; lia). cbn [sumn] in *. lia.
      - assert (sumn n (S r') <= sumn n r) by (apply sumn_le; lia). cbn [sumn] in *. lia. }
    subst r'. cbn [sub_idx row_major]. rewrite Sub by exact Hidx. f_equal. f_equal. lia.
  - right. exists r. split; [apply Hin; exact Hr|]. rewrite Hslab. cbn [fst snd in_slab]. rewrite Slab by exact Hidx.
    rewrite !andb_true_iff, Nat.leb_le, Nat.ltb_lt. lia.
Qed.
End Block.
