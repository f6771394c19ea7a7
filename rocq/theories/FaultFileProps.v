(** C87: the fault geometry in the moment rate file. *)
Require Import Bool Arith ZArith Reals String Lia Lra Permutation List.
Require Import Verif.Base Verif.LinAlg Verif.TensorModel Verif.TopoModel Verif.GeometryModel Verif.RefElementModel Verif.RefElementProofs Verif.ErrorModel Verif.ErrorSpec Verif.ErrorProofs Verif.ErrorProps
  Verif.EquidistantModel Verif.ErrorExactProps Verif.VtuFieldModel Verif.VtuFieldProps Verif.Hdf5Model Verif.Hdf5Props Verif.FaultFileModel Verif.FaultFileProofs.
Import ListNotations.
Local Open Scope nat_scope.
Local Open Scope list_scope.
Local Open Scope opt_scope.

(** Facet b of the rank's part of the fault is face [fc b] (its local vertex numbers) of element [el b], and the
    element's geometry is given by the basis functions [bg], which are functions of the D coordinates. *)
Definition fault_facets (D : nat) (x : fault_rank) (bg : nat -> (nat -> R) -> R) (el : nat -> nat) (fc : nat -> list nat) : Prop :=
  represents D (cv_re (fr_cl x)) (cv_nb (fr_cl x)) bg /\
  (forall j p q, j < cv_nb (fr_cl x) -> (forall d, d < D -> p d = q d) -> bg j p = bg j q) /\
  forall b, b < length (fr_fctNos x) -> exists fctNo lf fs, nth_error (fr_fctNos x) b = Some fctNo /\ nth_error (fr_upward x fctNo) 0 = Some (el b)
    /\ find_index fctNo (fr_downward x (el b)) = Some lf /\ f2v D = Some fs /\ nth_error fs lf = Some (fc b).
(** The facet of the mesh the rank's entry b is, by its global number. *)
Definition facet_number (x : fault_rank) (b : nat) : nat := fr_l2cg x (nth b (fr_fctNos x) 0).

Lemma sumn_ext' : forall n f g, (forall i, i < n -> f i = g i) -> sumn f n = sumn g n.
Proof. induction n as [|n IH]; intros f g H; cbn; [reflexivity|]. rewrite (IH f g), H by (intros; try apply H; lia). reflexivity. Qed.

(** The file as the ranks' arguments determine it. *)
Lemma create_ok (A : Type) (fill : A) (f : file A) name procs dims glue : f name = None ->
  create A fill f name procs dims glue true = Some (upd_file A f name {| extents := set_nth (dims 0) glue (sumn (fun r => nth glue (dims r) 0) procs); cell := fun _ => fill |}).
Proof. intro H. unfold create. rewrite H. reflexivity. Qed.

(** C87: row [sumn n r + e] of the moment rate file, where n r is the number of fault facets of rank r, is facet e
    of rank r: faultVertices has the positions of the facet's D vertices, in the order of the element's facet, and
    faultNo its global number.  For every number of ranks, every partition and every degree. *)
Theorem fault_geometry_written : forall D degree procs order (x : nat -> fault_rank) bg (el : nat -> nat -> nat) (fc : nat -> nat -> list nat) m0 (f : file number),
  D = 2 \/ D = 3 -> 1 <= degree -> Permutation order (seq 0 procs) ->
  (forall r, r < procs -> fault_facets D (x r) bg (el r) (fc r)) ->
  let n r := length (fr_fctNos (x r)) in
  0 < sumn n procs -> f "faultVertices"%string = None -> f "faultNo"%string = None ->
  (forall r e, r < procs -> e < n r -> (Z.of_nat (facet_number (x r) e) < 2 ^ 31)%Z) ->
  exists f' V N, write_static D degree procs order x m0 f = Some f' /\
    f' "faultVertices"%string = Some V /\ extents number V = [sumn n procs; D; D] /\
    f' "faultNo"%string = Some N /\ extents number N = [sumn n procs] /\
    (forall s, s <> "faultVertices"%string -> s <> "faultNo"%string -> f' s = f s) /\
    forall r e, r < procs -> e < n r ->
      cell number N [sumn n r + e] = Integer (Z.of_nat (facet_number (x r) e)) /\
      forall j d, j < D -> d < D ->
        cell number V [sumn n r + e; j; d] = Real (place (cv_nb (fr_cl (x r))) bg (cv_pos (fr_cl (x r)) (el r e)) (ref_vertex (nth j (fc r e) 0)) d).
Proof.
  intros D degree procs order x bg el fc m0 f HD Hdeg Ho Hx n Hpos F1 F2 H31.
  destruct (adapter_nodes_vertices D degree HD Hdeg) as [Hnb _]. set (nb := length (adapter_nodes D degree)) in *.
  assert (Hprocs : 0 < procs) by (destruct procs; [cbn in Hpos; lia|lia]).
  destruct (map_opt_all (fun r => getVertices D degree (x r) m0) (fun r v => length v = D * n r * nb /\
     forall e j d, e < n r -> j < D -> d < D -> nth ((e * D + j) * D + d) v 0%R = vertex_position (fr_cl (x r)) bg (el r e) (nth j (fc r e) 0) d) (seq 0 procs)) as (vs & Ev & Hv).
  { intros r Hr. apply in_seq in Hr. destruct (Hx r ltac:(lia)) as (G1 & Hbg & G2).
    destruct (getVertices_ok D degree (x r) bg (el r) (fc r) HD Hdeg G1 Hbg G2 m0) as (v & E & L & V). exists v. auto. }
  assert (Hvr : forall r, r < procs -> length (nth r vs []) = D * n r * nb /\
     forall e j d, e < n r -> j < D -> d < D -> nth ((e * D + j) * D + d) (nth r vs []) 0%R = vertex_position (fr_cl (x r)) bg (el r e) (nth j (fc r e) 0) d).
  { intros r Hr. destruct (Hv r r) as (v & E & P); [rewrite nth_error_nth' with (d := 0) by (rewrite seq_length; exact Hr); now rewrite seq_nth by exact Hr|].
    rewrite (nth_error_nth _ _ [] E). exact P. }
  unfold write_static. cbv zeta. rewrite Ev. cbn [bind]. fold nb.
  set (ne := fun r => length (nth r vs []) / (nb * D)).
  assert (Hne : forall r, r < procs -> ne r = n r).
  { intros r Hr. unfold ne. rewrite (proj1 (Hvr r Hr)). replace (D * n r * nb) with (n r * (nb * D)) by lia. apply Nat.div_mul. destruct HD; nia. }
  assert (Hsum : forall k, k <= procs -> sumn ne k = sumn n k) by (intros k Hk; apply sumn_ext'; intros; apply Hne; lia).
  rewrite create_ok by exact F1. cbn [bind nth set_nth]. fold ne. change (sumn (fun r => ne r) procs) with (sumn ne procs).
  unfold write_named at 1. rewrite upd_file_same. cbn [bind].
  match goal with |- context [write_dataset _ _ ?d0 0 ?dt _ 0 0 true order] =>
    destruct (write_block number (Real 0) procs order ne [D; D] d0 dt Ho) as (V & EV & XV & CV) end.
  { rewrite Hsum by lia. exact Hpos. }
  { reflexivity. }
  { intros r Hr. rewrite map_length, (proj1 (Hvr r Hr)), Hne by exact Hr. cbn [volume fold_right]. nia. }
  change (fun r : nat => [length (nth r vs []) / (nb * D); D; D]) with (fun r : nat => ne r :: [D; D]). rewrite EV. cbn [bind]. rewrite create_ok by (rewrite !upd_file_other by discriminate; exact F2). cbn [bind nth set_nth].
  unfold write_named. rewrite upd_file_same. cbn [bind].
  assert (Hn : forall r, length (getGlobalFctNos (x r)) = n r) by (intro r; unfold getGlobalFctNos; apply map_length).
  match goal with |- context [write_dataset _ _ ?d0 0 ?dt _ 0 0 true order] =>
    destruct (write_block number (Real 0) procs order (fun r => length (getGlobalFctNos (x r))) [] d0 dt Ho) as (N & EN & XN & CN) end.
  { rewrite (sumn_ext' procs _ n) by (intros; apply Hn). exact Hpos. }
  { reflexivity. }
  { intros r Hr. rewrite map_length. cbn [volume fold_right]. lia. }
  rewrite EN. cbn [bind]. eexists; exists V, N. split; [reflexivity|]. split; [now rewrite !upd_file_other, upd_file_same by discriminate|].
  split; [rewrite XV, Hsum by lia; reflexivity|]. split; [apply upd_file_same|]. split; [rewrite XN; f_equal; apply sumn_ext'; intros; apply Hn|].
  split; [intros s S1 S2; now rewrite !upd_file_other by assumption|].
  intros r e Hr He. split.
  - pose proof (CN r e [] Hr ltac:(rewrite Hn; exact He) (Forall2_nil _)) as C. cbn [row_major] in C.
    rewrite (sumn_ext' r _ n) in C by (intros; apply Hn). rewrite C.
    set (g := fun k => Integer (to_int k)). rewrite (nth_indep _ (Real 0) (g (fr_l2cg (x r) 0))) by (rewrite map_length, Hn; exact He). rewrite (map_nth g).
    unfold getGlobalFctNos. rewrite (map_nth (fr_l2cg (x r))). unfold g, to_int. f_equal. specialize (H31 r e Hr He). unfold facet_number in *. lia.
  - intros j d Hj Hd. pose proof (CV r e [j; d] Hr ltac:(rewrite Hne by exact Hr; exact He) ltac:(repeat constructor; assumption)) as C. cbn [row_major] in C.
    rewrite Hsum in C by lia. rewrite C.
    rewrite (map_nth Real). f_equal. exact (proj2 (Hvr r Hr) e j d He Hj Hd).
Qed.
Print Assumptions fault_geometry_written.

(** C87: with the records of the moment rate: row [sumn n r + e] of momentRate belongs to the facet whose number and
    vertices are in that row of faultNo and faultVertices. *)
Theorem moment_rate_rows : forall D degree procs order (x : nat -> fault_rank) bg (el : nat -> nat -> nat) (fc : nat -> nat -> list nat) m0 (f : file number) order' (recs : list (record number)),
  D = 2 \/ D = 3 -> 1 <= degree -> Permutation order (seq 0 procs) -> (forall rc, Permutation (order' rc) (seq 0 procs)) ->
  (forall r, r < procs -> fault_facets D (x r) bg (el r) (fc r)) ->
  let n r := length (fr_fctNos (x r)) in
  0 < sumn n procs -> (forall s, f s = None) ->
  (forall r e, r < procs -> e < n r -> (Z.of_nat (facet_number (x r) e) < 2 ^ 31)%Z) ->
  recs <> [] -> (forall k rc, nth_error recs k = Some rc -> rec_step rc = k) ->
  (forall rc r, In rc recs -> r < procs -> length (rec_data rc r) = n r * (D - 1)) ->
  exists f' w V N M, write_static D degree procs order x m0 f = Some f' /\
    record_run number (Real 0) procs order' "momentRate" n (D - 1) {| h_file := f'; h_opened := false |} recs = Some w /\
    h_file number w "faultVertices"%string = Some V /\ h_file number w "faultNo"%string = Some N /\ h_file number w "momentRate"%string = Some M /\
    extents number V = [sumn n procs; D; D] /\ extents number N = [sumn n procs] /\ extents number M = [sumn n procs; length recs; D - 1] /\
    forall r e, r < procs -> e < n r -> let row := sumn n r + e in
      cell number N [row] = Integer (Z.of_nat (facet_number (x r) e)) /\
      (forall j d, j < D -> d < D ->
        cell number V [row; j; d] = Real (place (cv_nb (fr_cl (x r))) bg (cv_pos (fr_cl (x r)) (el r e)) (ref_vertex (nth j (fc r e) 0)) d)) /\
      forall k rc q, nth_error recs k = Some rc -> q < D - 1 -> cell number M [row; k; q] = nth (e * (D - 1) + q) (rec_data rc r) (Real 0).
Proof.
  intros D degree procs order x bg el fc m0 f order' recs HD Hdeg Ho Ho' Hx n Hpos F H31 Hne Hnum Hlen.
  destruct (fault_geometry_written D degree procs order x bg el fc m0 f HD Hdeg Ho Hx Hpos (F _) (F _) H31) as (f' & V & N & W & V1 & V2 & N1 & N2 & O & C). fold n in V2, N2, C.
  assert (Hprocs : 0 < procs) by (destruct procs; [cbn in Hpos; lia|lia]).
  assert (Hseq : in_sequence 0 recs) by (apply numbered_in_sequence; intros i rc Hi; rewrite (Hnum i rc Hi); reflexivity).
  destruct (hdf5_rows number (Real 0) procs order' "momentRate" n (D - 1) f' recs Hprocs Ho' ltac:(discriminate) ltac:(rewrite O by discriminate; apply F) ltac:(rewrite O by discriminate; apply F) Hne Hnum Hlen)
    as (w & M & t & R1 & M1 & M2 & _ & _ & CM).
  destruct (hdf5_records number (Real 0) procs order' "momentRate" n (D - 1) f' recs Hprocs Ho' ltac:(discriminate) ltac:(rewrite O by discriminate; apply F) ltac:(rewrite O by discriminate; apply F) Hne Hseq Hlen)
    as (w' & R2 & _ & _ & K). rewrite R1 in R2. injection R2 as <-.
  exists f', w, V, N, M. split; [exact W|]. split; [exact R1|]. split; [rewrite K by discriminate; exact V1|]. split; [rewrite K by discriminate; exact N1|]. split; [exact M1|].
  split; [exact V2|]. split; [exact N2|]. split; [exact M2|]. intros r e Hr He row. destruct (C r e Hr He) as [C1 C2]. split; [exact C1|]. split; [exact C2|].
  intros k rc q Hk Hq. exact (proj2 (CM k rc Hk) r e q Hr He Hq).
Qed.
Print Assumptions moment_rate_rows.

(** The numbers are stored in 32 bits: facets whose numbers are 2^31 - 1 or larger all get the number 2^31 - 1. *)
Theorem fault_number_refuted : forall a b, (2 ^ 31 - 1 <= Z.of_nat a)%Z -> (2 ^ 31 - 1 <= Z.of_nat b)%Z -> to_int a = to_int b.
Proof. intros a b Ha Hb. unfold to_int. lia. Qed.
Print Assumptions fault_number_refuted.

(** A run that is continued opens the file of the run before and writes the geometry again (SEAS.cpp:265): the
    datasets exist, and the program ends with an exception. *)
Theorem fault_geometry_restart_refuted : forall D degree procs order x m0 (f : file number) V, f "faultVertices"%string = Some V -> write_static D degree procs order x m0 f = None.
Proof. intros D degree procs order x m0 f V H. unfold write_static. destruct (map_opt _ _); [|reflexivity]. cbn [bind]. unfold create at 1. rewrite H. reflexivity. Qed.
Print Assumptions fault_geometry_restart_refuted.
