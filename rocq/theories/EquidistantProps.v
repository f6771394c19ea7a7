(** C46: equidistant nodes are the lattice points of the reference simplex; permuting the vertices
    permutes the nodes. *)
Require Import List Arith Bool Lia Reals Lra Permutation.
Require Import Verif.Base Verif.VecModel Verif.CombinatoricsModel Verif.CombinatoricsProofs Verif.CombinatoricsProps.
Require Import Verif.EquidistantModel Verif.EquidistantProofs Verif.EquidistantLattice.
Import ListNotations.
Local Open Scope R_scope.

(** The point of the reference simplex with barycentric coordinates a_0/N, ..., a_D/N: the vertices
    are 0, e_1, ..., e_D. *)
Definition lattice_point (N : nat) (a : list nat) : point := map (fun x => INR x / INR N) (tl a).
(** All multi-indices with D+1 entries and sum N, each once. *)
Definition enumerates (D N : nat) (idx : list (list nat)) : Prop :=
  NoDup idx /\ forall a, In a idx <-> length a = (D + 1)%nat /\ list_sum a = N.

(** ** Reference vertices *)
Lemma ref_length : forall D, length (referenceSimplexVertices D) = (D + 1)%nat.
Proof. intros D. unfold referenceSimplexVertices. cbn [length]. rewrite map_length, seq_length. lia. Qed.
Lemma ref_dims : forall D, dims D (referenceSimplexVertices D).
Proof.
  intros D v [<- |H]; [apply repeat_length|]. apply in_map_iff in H as (d & <- & _). rewrite map_length, seq_length. auto.
Qed.
Lemma ref_coord : forall D j d, (j < D + 1)%nat -> (d < D)%nat ->
  coord (vert (referenceSimplexVertices D) j) d = if Nat.eqb j (d + 1) then 1 else 0.
Proof.
  intros D j d Hj Hd. unfold referenceSimplexVertices, vert. destruct j as [|j].
  - replace (Nat.eqb 0 (d + 1)) with false by (symmetry; apply Nat.eqb_neq; lia). cbn [nth].
    unfold coord. clear. revert d. induction D; intros [|d]; cbn; auto.
  - cbn [nth]. set (f := fun d0 : nat => map _ _). rewrite nth_indep with (d' := f O) by (rewrite map_length, seq_length; lia).
    rewrite map_nth, seq_nth by lia. unfold f. rewrite coord_map by auto.
    replace (1 + j - 1)%nat with j by lia.
    destruct (Nat.eqb_spec d j), (Nat.eqb_spec (S j) (d + 1)); try lia; auto.
Qed.
Lemma lat_ref : forall D N a, length a = (D + 1)%nat -> lat D N (referenceSimplexVertices D) a = lattice_point N a.
Proof.
  intros D N a Ha. apply (point_ext D).
  - apply lat_length.
  - unfold lattice_point. rewrite map_length. destruct a; cbn in *; lia.
  - intros d Hd. unfold lat. rewrite coord_map, ref_length by auto.
    rewrite (sumR_ext _ _ (fun j => if Nat.eqb j (d + 1) then INR (entry a j) / INR N else 0)).
    2:{ intros j Hj. rewrite ref_coord by auto. destruct (Nat.eqb j (d + 1)); ring. }
    rewrite (sumR_delta _ (d + 1) (fun j => INR (entry a j) / INR N)) by lia.
    unfold coord, lattice_point. set (f := fun x => INR x / INR N).
    rewrite nth_indep with (d' := f O) by (rewrite map_length; destruct a; cbn in *; lia).
    rewrite map_nth. unfold entry. destruct a as [|x a]; [cbn in Ha; lia|]. cbn [tl].
    replace (d + 1)%nat with (S d) by lia. reflexivity.
Qed.

Definition node_indices (D : nat) (conv : convention) (N : nat) : list (list nat) :=
  match D with
  | 1%nat => map (embed 2 [0%nat]) (inner1 N) ++ map (embed 2 [1%nat]) (inner1 N) ++ map (embed 2 [0; 1]%nat) (inner2 N)
  | 2%nat => tri_idx N
  | _ => tet_idx conv N
  end.
Lemma node_indices_enumerate : forall D conv N, (1 <= D <= 3)%nat -> (1 <= N)%nat -> enumerates D N (node_indices D conv N).
Proof.
  intros D conv N HD HN. unfold enumerates. destruct D as [|[|[|[|]]]]; try lia; cbn [node_indices].
  - assert (E : map (embed 2 [0%nat]) (inner1 N) ++ map (embed 2 [1%nat]) (inner1 N) ++ map (embed 2 [0; 1]%nat) (inner2 N) =
      flat_map (fun F => map (embed 2 F) ((fun k => match k with 1%nat => inner1 N | _ => inner2 N end) (length F)))
        [[0]; [1]; [0; 1]]%nat).
    { cbn [flat_map length]. rewrite app_nil_r. reflexivity. }
    rewrite E. apply (blocks_enumerate 2 N [[0]; [1]; [0; 1]]%nat (fun k => match k with 1%nat => inner1 N | _ => inner2 N end)); [lia|face_ok|mask_nodup|masks_cover|].
    intros F HF. repeat (destruct HF as [<- |HF]; [cbn [length]; first [apply positive1; lia|apply positive2]|]). destruct HF.
  - apply tri_enumerates.
  - apply tet_enumerates.
Qed.
Lemma nodes_are_lattice : forall D conv N, (1 <= D <= 3)%nat -> (1 <= N)%nat ->
  equidistant_nodes D conv N = map (lattice_point N) (node_indices D conv N).
Proof.
  intros D conv N HD HN.
  assert (E : equidistant_nodes D conv N = map (lat D N (referenceSimplexVertices D)) (node_indices D conv N)).
  { unfold equidistant_nodes. destruct D as [|[|[|[|]]]]; try lia; cbn [node_indices].
    - rewrite !map_app. rewrite <- (ref_length 1 : length (referenceSimplexVertices 1) = 2%nat).
      rewrite <- (lat_edge 1 N) by (try apply ref_dims; try rewrite ref_length; lia).
      unfold inner1. cbn [map]. rewrite <- !(lat_vertex 1 N) by (try apply ref_dims; try rewrite ref_length; lia).
      reflexivity.
    - apply triangle_lattice; [lia|apply (ref_length 2)|apply ref_dims].
    - apply tet_lattice; [lia|apply (ref_length 3)|apply ref_dims]. }
  rewrite E. apply map_ext_in. intros a Ha. apply lat_ref. apply (node_indices_enumerate D conv N HD HN) in Ha. tauto.
Qed.

(** C46: for every degree N >= 1, dimension and convention, the nodes are exactly the lattice points,
    each once, and the vertices of the simplex come first. *)
Theorem equidistant_nodes_enumerate : forall D conv N, (1 <= D <= 3)%nat -> (1 <= N)%nat ->
  exists idx, enumerates D N idx /\ equidistant_nodes D conv N = map (lattice_point N) idx /\
    firstn (D + 1) (equidistant_nodes D conv N) = referenceSimplexVertices D.
Proof.
  intros D conv N HD HN. exists (node_indices D conv N). split; [apply node_indices_enumerate; auto|].
  split; [apply nodes_are_lattice; auto|].
  assert (Hv : forall vs : list point, vs = referenceSimplexVertices D -> length vs = (D + 1)%nat) by (intros; subst; apply ref_length).
  unfold equidistant_nodes. destruct D as [|[|[|[|]]]]; try lia.
  - reflexivity.
  - destruct N; [lia|]. reflexivity.
  - destruct N; [lia|]. reflexivity.
Qed.

Lemma lattice_inj : forall D N a b, (1 <= N)%nat -> length a = (D + 1)%nat -> length b = (D + 1)%nat ->
  list_sum a = N -> list_sum b = N -> lattice_point N a = lattice_point N b -> a = b.
Proof.
  intros D N a b HN La Lb Sa Sb E. destruct a as [|x a], b as [|y b]; try (cbn in *; lia).
  assert (Et : a = b).
  { unfold lattice_point in E. cbn [tl] in E. cbn in La, Lb. assert (Hl : length a = length b) by lia. clear - E HN Hl.
    revert b E Hl. induction a as [|u a IH]; intros [|v b] E Hl; try discriminate; auto. cbn in E. injection E as E1 E2.
    f_equal; auto. assert (INR N <> 0) by (apply not_0_INR; lia). apply INR_eq.
    apply (f_equal (fun t => t * INR N)) in E1. field_simplify in E1; auto. }
  subst b. rewrite sum_cons in Sa, Sb. f_equal. lia.
Qed.
Lemma NoDup_map_on : forall A B (f : A -> B) l, NoDup l -> (forall x y, In x l -> In y l -> f x = f y -> x = y) -> NoDup (map f l).
Proof.
  induction l as [|a l IH]; intros Hn Hf; cbn; constructor; inversion Hn; subst.
  - intros Hc. apply in_map_iff in Hc as (x & E & Hx). apply Hf in E; [subst; auto|right; auto|left; auto].
  - apply IH; auto. intros; apply Hf; auto; right; auto.
Qed.
Lemma lattice_NoDup : forall D N idx, (1 <= N)%nat -> enumerates D N idx -> NoDup (map (lattice_point N) idx).
Proof.
  intros D N idx HN [H1 H2]. apply NoDup_map_on; auto. intros a b Ha Hb E. apply H2 in Ha, Hb.
  eapply (lattice_inj D); eauto; tauto.
Qed.

(** No two nodes coincide, their number is binom(N+D, D), and they lie in the reference simplex. *)
Theorem equidistant_nodes_distinct : forall D conv N, (1 <= D <= 3)%nat -> (1 <= N)%nat ->
  NoDup (equidistant_nodes D conv N) /\ binom (N + D) D = Some (length (equidistant_nodes D conv N)) /\
  forall x, In x (equidistant_nodes D conv N) -> length x = D /\ Forall (fun c => 0 <= c) x /\ fold_right Rplus 0 x <= 1.
Proof.
  intros D conv N HD HN. destruct (equidistant_nodes_enumerate D conv N HD HN) as (idx & Hi & E & _). rewrite E.
  destruct Hi as [H1 H2]. split; [eapply lattice_NoDup; eauto; split; eauto|]. split.
  - rewrite map_length. destruct (integer_sums_enumerate D N true) as (fuel & l & _ & N1 & N2 & N3); [lia|].
    rewrite N3 by auto. f_equal. rewrite <- (map_length (@tl nat) idx).
    apply Permutation_length, NoDup_Permutation; auto.
    + apply NoDup_map_on; auto. intros a b Ha Hb Et. apply H2 in Ha as [La Sa], Hb as [Lb Sb].
      destruct a as [|x a], b as [|y b]; cbn [length] in *; try lia. cbn in Et. subst b. rewrite sum_cons in Sa, Sb. f_equal. lia.
    + intros x. rewrite N2, in_map_iff. split.
      * intros [Lx Sx]. exists (N - list_sum x :: x)%nat. split; auto. apply H2. cbn [length]. rewrite sum_cons. lia.
      * intros (a & <- & Ha). apply H2 in Ha as [La Sa]. destruct a as [|y a]; cbn [length tl] in *; [lia|]. rewrite sum_cons in Sa. lia.
  - intros x Hx. apply in_map_iff in Hx as (a & <- & Ha). apply H2 in Ha as [La Sa]. unfold lattice_point.
    assert (HN0 : 0 < INR N) by (apply lt_0_INR; lia).
    split; [rewrite map_length; destruct a; cbn in *; lia|]. split.
    + apply Forall_forall. intros c Hc. apply in_map_iff in Hc as (k & <- & _). apply Rmult_le_pos; [apply pos_INR|].
      left. apply Rinv_0_lt_compat; auto.
    + destruct a as [|y a]; [cbn in La; lia|]. cbn [tl]. rewrite sum_cons in Sa.
      assert (Es : fold_right Rplus 0 (map (fun x => INR x / INR N) a) = INR (list_sum a) / INR N).
      { clear - HN0. induction a as [|x a IH]; cbn [map fold_right]; [cbn; field; lra|]. rewrite IH, sum_cons, plus_INR. field. lra. }
      rewrite Es. apply (Rmult_le_reg_r (INR N)); auto. field_simplify; [|lra]. apply le_INR. lia.
Qed.

(** ** Permuting the vertices *)
Definition bary (x : point) (j : nat) : R :=
  match j with O => 1 - fold_left Rplus x 0 | S d => nth d x 0 end.
Lemma fold_left_Rplus : forall x z, fold_left Rplus x z = z + fold_right Rplus 0 x.
Proof. induction x as [|a x IH]; intros z; cbn; [ring|]. rewrite IH. ring. Qed.
Lemma bary_lattice : forall D N a j, (1 <= N)%nat -> length a = (D + 1)%nat -> list_sum a = N -> (j < D + 1)%nat ->
  bary (lattice_point N a) j = INR (entry a j) / INR N.
Proof.
  intros D N a j HN La Sa Hj. assert (HN0 : INR N <> 0) by (apply not_0_INR; lia).
  destruct a as [|y a]; [cbn in La; lia|]. unfold lattice_point. cbn [tl]. destruct j as [|d]; cbn [bary].
  - rewrite fold_left_Rplus. rewrite sum_cons in Sa.
    assert (Es : fold_right Rplus 0 (map (fun x => INR x / INR N) a) = INR (list_sum a) / INR N).
    { clear - HN0. induction a as [|x a IH]; cbn [map fold_right]; [cbn; field; lra|]. rewrite IH, sum_cons, plus_INR. field. lra. }
    rewrite Es. cbn [entry nth]. assert (EN : INR N = INR y + INR (list_sum a)) by (rewrite <- plus_INR; f_equal; lia).
    rewrite EN in *. field. auto.
  - cbn [entry nth]. set (f := fun x => INR x / INR N). cbn in La.
    rewrite nth_indep with (d' := f O) by (rewrite map_length; lia). rewrite map_nth. reflexivity.
Qed.
Lemma eta_lattice : forall D N p a, (1 <= N)%nat -> length a = (D + 1)%nat -> list_sum a = N ->
  Permutation p (seq 0 (D + 1)) ->
  node_eta (referenceSimplexVertices D) p (lattice_point N a) = lattice_point N (embed (D + 1) p a).
Proof.
  intros D N p a HN La Sa Hp.
  assert (Lp : length p = (D + 1)%nat) by (rewrite (Permutation_length Hp), seq_length; auto).
  assert (Hr : forall f, In f p -> (f < D + 1)%nat).
  { intros f Hf. apply (Permutation_in _ Hp) in Hf. apply in_seq in Hf. lia. }
  assert (Hl : length (embed (D + 1) p a) = (D + 1)%nat) by (unfold embed; rewrite map_length, seq_length; auto).
  rewrite <- (lat_ref D N (embed (D + 1) p a)) by auto.
  replace (embed (D + 1) p a) with (embed (length (referenceSimplexVertices D)) p a) by (rewrite ref_length; reflexivity). rewrite <- lat_embed by (rewrite ?ref_length; auto; lia).
  set (r := referenceSimplexVertices D). unfold node_eta.
  assert (Lx : length (lattice_point N a) = D) by (unfold lattice_point; rewrite map_length; destruct a; cbn in *; lia).
  assert (Hvd : forall i, (i < D + 1)%nat -> length (vert r (nth i p O)) = D).
  { intros i Hi. apply vert_dim; [apply ref_dims|]. unfold r. rewrite ref_length. apply Hr, nth_In. lia. }
  destruct (fold_comb D (fun d => nth d (lattice_point N a) 0) (fun d => vert r (nth (d + 1) p O)) D
    (vscale (1 - fold_left Rplus (lattice_point N a) 0) (vert r (nth 0 p O)))) as [F1 F2].
  { rewrite scale_length. apply Hvd. lia. }
  { intros j Hj. apply Hvd. lia. }
  rewrite Lx. apply (point_ext D); [exact F1|apply lat_length|].
  intros d Hd. rewrite F2 by auto. rewrite coord_scale. unfold lat. rewrite coord_map by auto.
  rewrite map_length, Lp. replace (D + 1)%nat with (S D) by lia. rewrite sumR_shift.
  assert (Hv : forall i, (i < D + 1)%nat -> vert (map (vert r) p) i = vert r (nth i p O)).
  { intros i Hi. unfold vert at 1. rewrite nth_indep with (d' := vert r O) by (rewrite map_length; lia). apply map_nth. }
  rewrite Hv by lia. f_equal.
  - f_equal. exact (bary_lattice D N a 0 HN La Sa ltac:(lia)).
  - apply sumR_ext. intros j Hj. rewrite Hv by lia. replace (j + 1)%nat with (S j) by lia. f_equal.
    exact (bary_lattice D N a (S j) HN La Sa ltac:(lia)).
Qed.

Lemma coord_le_norm : forall v d, Rabs (nth d v 0) <= norm v.
Proof.
  intros v d. rewrite norm_sqrt. rewrite <- sqrt_Rsqr_abs. apply sqrt_le_1_alt. unfold Rsqr. revert d.
  induction v as [|x v IH]; intros [|d]; cbn.
  - lra. - lra.
  - pose proof (dot_nonneg v). lra.
  - specialize (IH d). pose proof (Rle_0_sqr x). unfold Rsqr in *. lra.
Qed.
Lemma lattice_apart : forall D N a b tol, (1 <= N)%nat -> length a = (D + 1)%nat -> length b = (D + 1)%nat ->
  list_sum a = N -> list_sum b = N -> a <> b -> tol < 1 / INR N ->
  norm (vsub (lattice_point N a) (lattice_point N b)) > tol.
Proof.
  intros D N a b tol HN La Lb Sa Sb Hne Ht. destruct a as [|x a], b as [|y b]; try (cbn in *; lia).
  assert (Hd : exists d, (d < length a)%nat /\ nth d a O <> nth d b O).
  { assert (a <> b) by (intros ->; apply Hne; rewrite sum_cons in Sa, Sb; f_equal; lia).
    cbn in La, Lb. assert (Hl : length a = length b) by lia. clear - H Hl. revert b H Hl.
    induction a as [|u a IH]; intros [|v b] H Hl; try discriminate; [congruence|].
    destruct (Nat.eq_dec u v) as [-> |Hn]; [|exists O; cbn; split; auto; lia].
    destruct (IH b) as (d & D1 & D2); [congruence|cbn in Hl; lia|]. exists (S d). cbn. split; auto; lia. }
  destruct Hd as (d & Hd1 & Hd2). cbn in La, Lb.
  eapply Rlt_le_trans; [exact Ht|]. eapply Rle_trans; [|apply (coord_le_norm _ d)].
  assert (HN0 : 0 < INR N) by (apply lt_0_INR; lia).
  unfold lattice_point. cbn [tl].
  assert (Ec : nth d (vsub (map (fun x => INR x / INR N) a) (map (fun x => INR x / INR N) b)) 0 =
               (INR (nth d a O) - INR (nth d b O)) / INR N).
  { fold (coord (vsub (map (fun x => INR x / INR N) a) (map (fun x => INR x / INR N) b)) d).
    unfold vsub. rewrite coord_zip by (rewrite map_length; lia). unfold coord.
    set (f := fun x => INR x / INR N). rewrite !(nth_indep _ 0 (f O)) by (rewrite map_length; lia). rewrite !map_nth.
    unfold f. field. lra. }
  rewrite Ec. unfold Rdiv. rewrite Rabs_mult, (Rabs_right (/ INR N)) by (apply Rle_ge; left; apply Rinv_0_lt_compat; auto).
  apply Rmult_le_compat_r; [left; apply Rinv_0_lt_compat; auto|].
  assert (Hz : (1 <= Z.abs (Z.of_nat (nth d a O) - Z.of_nat (nth d b O)))%Z) by lia.
  apply IZR_le in Hz. rewrite abs_IZR, minus_IZR, <- !INR_IZR_INZ in Hz. exact Hz.
Qed.
Lemma vsub_self : forall x, norm (vsub x x) = 0.
Proof.
  intros x. rewrite norm_sqrt. assert (H : dot (vsub x x) (vsub x x) = 0).
  { unfold vsub. induction x as [|a x IH]; [reflexivity|]. cbn [zipR dot]. rewrite IH. ring. }
  rewrite H. apply sqrt_0.
Qed.

Lemma find_node_spec : forall tol x nodes, 0 <= tol -> In x nodes ->
  (forall y, In y nodes -> y <> x -> norm (vsub x y) > tol) -> (forall y z : point, {y = z} + {y <> z}) ->
  exists k, find_node tol x nodes = Some k /\ nth_error nodes k = Some x.
Proof.
  intros tol x nodes Ht Hin Hsep dec. induction nodes as [|y ys IH]; [contradiction|]. cbn [find_node].
  destruct (Rgt_dec (norm (vsub x y)) tol) as [Hg|Hg].
  - destruct Hin as [-> |Hin]; [rewrite vsub_self in Hg; lra|].
    destruct IH as (k & K1 & K2); auto. { intros; apply Hsep; auto; right; auto. }
    exists (S k). rewrite K1. auto.
  - exists O. split; auto. cbn. f_equal. destruct (dec y x) as [|Hne]; auto. exfalso. apply Hg, Hsep; auto. left; auto.
Qed.

Lemma embed_entry : forall K p a j, NoDup p -> length a = length p -> (forall f, In f p -> (f < K)%nat) -> (j < length p)%nat ->
  entry (embed K p a) (nth j p O) = entry a j.
Proof.
  intros K p a j Hn Hl Hr Hj. unfold entry, embed.
  assert (Hf : (nth j p O < K)%nat) by (apply Hr, nth_In; auto).
  rewrite nth_indep with (d' := weight_at p a O) by (rewrite map_length, seq_length; auto).
  rewrite map_nth, seq_nth by auto. cbn [Nat.add]. apply weight_nth; auto.
Qed.

(** node_permutation exists for every permutation p of the vertices: it is a permutation P of the
    nodes, and node P_i has the barycentric coordinates of node i, moved from vertex j to vertex p_j. *)
Theorem node_permutation_correct : forall D conv N tol p, (1 <= D <= 3)%nat -> (1 <= N)%nat ->
  0 <= tol < 1 / INR N -> Permutation p (seq 0 (D + 1)) ->
  let nodes := equidistant_nodes D conv N in
  exists P, node_permutation D tol nodes p = Some P /\ Permutation P (seq 0 (length nodes)) /\
    forall i x y, nth_error nodes i = Some x -> nth_error nodes (nth i P O) = Some y ->
      forall j, (j < D + 1)%nat -> bary y (nth j p O) = bary x j.
Proof.
  intros D conv N tol p HD HN Ht Hp nodes.
  destruct (equidistant_nodes_enumerate D conv N HD HN) as (idx & [I1 I2] & E & _). unfold nodes. rewrite E. clear nodes.
  assert (Lp : length p = (D + 1)%nat) by (rewrite (Permutation_length Hp), seq_length; auto).
  assert (Hr : forall f, In f p -> (f < D + 1)%nat).
  { intros f Hf. apply (Permutation_in _ Hp) in Hf. apply in_seq in Hf. lia. }
  assert (Np : NoDup p) by (apply (Permutation_NoDup (Permutation_sym Hp)), seq_NoDup).
  set (nodes := map (lattice_point N) idx).
  assert (Nn : NoDup nodes) by (apply (lattice_NoDup D); auto; split; auto).
  set (eta := node_eta (referenceSimplexVertices D) p).
  assert (Heta : forall a, In a idx -> eta (lattice_point N a) = lattice_point N (embed (D + 1) p a) /\ In (embed (D + 1) p a) idx).
  { intros a Ha. apply I2 in Ha as [La Sa]. split; [apply eta_lattice; auto|]. apply I2.
    unfold embed at 1. rewrite map_length, seq_length. split; auto. rewrite sum_embed; auto. lia. }
  assert (dec : forall y z : point, {y = z} + {y <> z}) by (apply list_eq_dec, Req_EM_T).
  assert (Hfind : forall a, In a idx -> exists k, find_node tol (lattice_point N a) nodes = Some k /\ nth_error nodes k = Some (lattice_point N a)).
  { intros a Ha. apply find_node_spec; auto; [lra|apply in_map; auto|]. intros y Hy Hne.
    apply in_map_iff in Hy as (b & <- & Hb). assert (a <> b) by congruence. apply I2 in Ha, Hb.
    apply (lattice_apart D); try tauto; try lra. }
  assert (Hpos : forall l, incl l idx -> exists P, node_positions tol nodes (map eta (map (lattice_point N) l)) = Some P /\
            Forall2 (fun a k => nth_error nodes k = Some (lattice_point N (embed (D + 1) p a))) l P).
  { induction l as [|a l IH]; intros Hi; [exists []; split; [reflexivity|constructor]|].
    destruct IH as (P & P1 & P2); [intros x Hx; apply Hi; right; auto|].
    destruct (Heta a) as [E1 E2]; [apply Hi; left; auto|]. destruct (Hfind _ E2) as (k & K1 & K2).
    exists (k :: P). cbn [map node_positions]. rewrite E1, K1, P1. split; auto. }
  destruct (Hpos idx (incl_refl _)) as (P & P1 & P2). fold nodes in P1.
  assert (LP : length P = length nodes).
  { unfold nodes. rewrite map_length. clearbody nodes. clear - P2. induction P2; cbn; auto. }
  assert (HP : forall i a k, nth_error idx i = Some a -> nth_error P i = Some k ->
            nth_error nodes k = Some (lattice_point N (embed (D + 1) p a))).
  { clearbody nodes. clear - P2. induction P2; intros [|i] b m; cbn; intros; try discriminate; try congruence. eauto. }
  assert (NP : NoDup P).
  { apply NoDup_nth_error. intros i i' Hi Hk.
    destruct (nth_error P i) as [k|] eqn:Ek; [|apply nth_error_None in Ek; lia]. symmetry in Hk.
    assert (Hi' : (i' < length P)%nat) by (apply nth_error_Some; congruence).
    destruct (nth_error idx i) as [a|] eqn:Ea; [|apply nth_error_None in Ea; unfold nodes in LP; rewrite map_length in LP; lia].
    destruct (nth_error idx i') as [b|] eqn:Eb; [|apply nth_error_None in Eb; unfold nodes in LP; rewrite map_length in LP; lia].
    pose proof (HP i a k Ea Ek) as H1. pose proof (HP i' b k Eb Hk) as H2. rewrite H1 in H2. injection H2 as H2.
    assert (Ia : In a idx) by (eapply nth_error_In; eauto). assert (Ib : In b idx) by (eapply nth_error_In; eauto).
    assert (Eab : embed (D + 1) p a = embed (D + 1) p b).
    { destruct (Heta a Ia) as [_ Xa], (Heta b Ib) as [_ Xb]. apply I2 in Xa, Xb. eapply (lattice_inj D); eauto; tauto. }
    apply I2 in Ia, Ib. apply embed_inj in Eab; auto; try lia. subst b.
    apply (proj1 (NoDup_nth_error idx) I1); [apply nth_error_Some; congruence|congruence]. }
  assert (PP : Permutation P (seq 0 (length nodes))).
  { apply NoDup_Permutation_bis; auto.
    - rewrite seq_length. lia.
    - intros k Hk. apply In_nth_error in Hk as (i & Hi).
      destruct (nth_error idx i) as [a|] eqn:Ea.
      + pose proof (HP i a k Ea Hi) as H. apply in_seq. assert (k < length nodes)%nat by (apply nth_error_Some; congruence). lia.
      + apply nth_error_None in Ea. assert (i < length P)%nat by (apply nth_error_Some; congruence).
        unfold nodes in LP. rewrite map_length in LP. lia. }
  exists P. split; [|split; auto].
  - unfold node_permutation. fold eta. rewrite P1.
    assert (Hc : forallb (fun pos => Nat.eqb (count_occ Nat.eq_dec P pos) 1) (seq 0 (length nodes)) = true).
    { apply forallb_forall. intros k Hk. apply Nat.eqb_eq. apply NoDup_count_occ'; auto.
      apply (Permutation_in _ (Permutation_sym PP)); auto. }
    rewrite Hc. reflexivity.
  - intros i x y Hx Hy j Hj. unfold nodes in Hx. rewrite nth_error_map in Hx.
    destruct (nth_error idx i) as [a|] eqn:Ea; [|discriminate]. injection Hx as <-.
    assert (Hi : (i < length P)%nat).
    { rewrite LP. unfold nodes. rewrite map_length. apply nth_error_Some. congruence. }
    destruct (nth_error P i) as [k|] eqn:Ek; [|apply nth_error_None in Ek; lia].
    rewrite (nth_error_nth _ _ _ Ek) in Hy. rewrite (HP i a k Ea Ek) in Hy. injection Hy as <-.
    assert (Ia : In a idx) by (eapply nth_error_In; eauto). destruct (Heta a Ia) as [_ Xa].
    apply I2 in Ia as [La Sa], Xa as [Lb Sb].
    assert (Hf : (nth j p O < D + 1)%nat) by (apply Hr, nth_In; lia).
    rewrite (bary_lattice D), (bary_lattice D); auto. f_equal. f_equal. apply embed_entry; auto; lia.
Qed.

(** In one dimension the factory with degree 0 returns two nodes instead of one. *)
Theorem equidistant_degree0_refuted : forall conv, binom (0 + 1) 1 = Some 1%nat /\ length (equidistant_nodes 1 conv 0) = 2%nat.
Proof. intros conv. split; reflexivity. Qed.

(** ** Order of the nodes *)
(** The nodes strictly inside an edge, from its first to its second vertex; the nodes strictly inside a face or the
    tetrahedron are the nodes of a smaller simplex in the same order. *)
Definition along (K N : nat) (e : list nat) : list (list nat) := map (fun k => embed K e [N - k; k]%nat) (seq 1 (N - 1)).
Definition corner (K N v : nat) : list nat := embed K [v] [N].
Fixpoint triangle_order (N : nat) : list (list nat) :=
  match N with
  | O => [[0; 0; 0]]%nat
  | S n => map (corner 3 N) [0; 1; 2]%nat ++ flat_map (along 3 N) [[0; 1]; [1; 2]; [2; 0]]%nat ++
           match n with S (S m) => map (map S) (triangle_order m) | _ => [] end
  end.
Definition inside_triangle (N : nat) : list (list nat) :=
  match N with S (S (S m)) => map (map S) (triangle_order m) | _ => [] end.
Definition gmsh_edges : list (list nat) := [[0; 1]; [1; 2]; [2; 0]; [3; 0]; [3; 2]; [3; 1]]%nat.
Definition gmsh_faces : list (list nat) := [[0; 2; 1]; [0; 1; 3]; [0; 3; 2]; [3; 1; 2]]%nat.
Definition vtk_edges : list (list nat) := [[0; 1]; [1; 2]; [2; 0]; [0; 3]; [1; 3]; [2; 3]]%nat.
Definition vtk_faces : list (list nat) := [[0; 1; 3]; [2; 3; 1]; [0; 3; 2]; [0; 2; 1]]%nat.
Fixpoint tet_order (edges faces : list (list nat)) (N : nat) : list (list nat) :=
  match N with
  | O => [[0; 0; 0; 0]]%nat
  | S n => map (corner 4 N) [0; 1; 2; 3]%nat ++ flat_map (along 4 N) edges ++
           flat_map (fun f => map (embed 4 f) (inside_triangle N)) faces ++
           match n with S (S (S m)) => map (map S) (tet_order edges faces m) | _ => [] end
  end.
Lemma along_inner : forall K N e, map (embed K e) (inner2 N) = along K N e.
Proof. intros. unfold inner2, along. rewrite map_map. reflexivity. Qed.
Lemma tri_idx_order : forall N, tri_idx N = triangle_order N.
Proof.
  induction N as [N IH] using lt_wf_ind. destruct N as [|n]; [reflexivity|].
  cbn [tri_idx triangle_order]. rewrite (flat_map_ext _ _ (along_inner 3 (S n))). f_equal. f_equal.
  destruct n as [|[|m]]; auto. rewrite IH; auto.
Qed.
Lemma inner3_inside : forall N, inner3 N = inside_triangle N.
Proof. intros [|[|[|m]]]; try reflexivity. unfold inner3, inside_triangle. rewrite tri_idx_order. reflexivity. Qed.
Lemma tet_idx_order : forall c N, tet_idx c N = tet_order (tet_edge_convention c) (tet_face_convention c) N.
Proof.
  intros c. induction N as [N IH] using lt_wf_ind. destruct N as [|n]; [reflexivity|].
  cbn [tet_idx tet_order]. rewrite (flat_map_ext _ _ (along_inner 4 (S n))). rewrite inner3_inside.
  f_equal. f_equal. f_equal. destruct n as [|[|[|m]]]; auto. rewrite IH; auto.
Qed.
Theorem equidistant_numbering : forall N, (1 <= N)%nat ->
  (forall c, equidistant_nodes 2 c N = map (lattice_point N) (triangle_order N)) /\
  equidistant_nodes 3 GMSH N = map (lattice_point N) (tet_order gmsh_edges gmsh_faces N) /\
  equidistant_nodes 3 VTK N = map (lattice_point N) (tet_order vtk_edges vtk_faces N).
Proof.
  intros N HN. split; [|split]; intros; rewrite nodes_are_lattice by lia; cbn [node_indices].
  - rewrite tri_idx_order. reflexivity.
  - rewrite tet_idx_order. reflexivity.
  - rewrite tet_idx_order. reflexivity.
Qed.
Print Assumptions equidistant_numbering.

(** ** Number of nodes and degree *)
Lemma binom_grows : forall D N b b', (1 <= D)%nat -> binom (N + D) D = Some b -> binom (N + 1 + D) D = Some b' -> (b < b')%nat.
Proof.
  intros D N b b' HD Hb Hb'. replace (N + 1 + D)%nat with (S (N + D)) in Hb' by lia.
  destruct (binom_spec (N + D) (D - 1)) as (c & C1 & C2); [lia|].
  assert (Hc : (0 < c)%nat).
  { destruct c; [|lia]. cbn in C2. pose proof (Factorial.lt_O_fact (N + D)). lia. }
  pose proof (binom_pascal (N + D) (D - 1) ltac:(lia) c b C1) as Hp. replace (D - 1 + 1)%nat with D in Hp by lia.
  specialize (Hp Hb). rewrite Hp in Hb'. injection Hb' as <-. lia.
Qed.

(** num_nodes_to_degree finds the degree N >= 1 with binom(N+D,D) nodes, if there is one. *)
Theorem num_nodes_to_degree_correct : forall D n, (1 <= D)%nat ->
  exists r, num_nodes_to_degree n D n = Some r /\
    forall N, r = Some N <-> (1 <= N)%nat /\ binom (N + D) D = Some n.
Proof.
  intros D n HD.
  assert (Hex : forall N, exists b, binom (N + D) D = Some b).
  { intros N. destruct (binom_spec (N + D) D) as (b & B & _); [lia|]. eauto. }
  assert (Hmono : forall M N b b', (N < M)%nat -> binom (N + D) D = Some b -> binom (M + D) D = Some b' -> (b < b')%nat).
  { induction M as [|M IH]; intros N b b' Hlt Hb Hb'; [lia|]. destruct (Hex M) as [c Hc].
    assert (c < b')%nat by (eapply (binom_grows D M); eauto; replace (M + 1 + D)%nat with (S M + D)%nat by lia; auto).
    destruct (Nat.eq_dec N M) as [-> |]; [congruence|]. assert (b < c)%nat by (eapply (IH N); eauto; lia). lia. }
  assert (Hge : forall N b, binom (N + D) D = Some b -> (N < b)%nat).
  { induction N as [|N IH]; intros b Hb.
    - destruct (binom_spec (0 + D) D) as (c & C1 & C2); [lia|]. assert (c = b) by congruence. subst c.
      destruct b; [|lia]. cbn in C2. pose proof (Factorial.lt_O_fact (0 + D)). cbn in H. lia.
    - destruct (Hex N) as [c Hc]. specialize (IH c Hc). assert (c < b)%nat by (eapply (Hmono (S N) N); eauto). lia. }
  assert (Hloop : forall fuel N, (n <= fuel + N)%nat -> exists N', (N <= N')%nat /\ degree_loop fuel D n N = Some N' /\
            (forall M b, (N <= M < N')%nat -> binom (M + D) D = Some b -> (b < n)%nat) /\
            (forall b, binom (N' + D) D = Some b -> (n <= b)%nat)).
  { induction fuel as [|fuel IH]; intros N Hf; cbn [degree_loop]; destruct (Hex N) as [b Hb]; rewrite Hb;
      destruct (Nat.ltb_spec b n) as [Hlt|Hge'].
    - apply Hge in Hb. lia.
    - exists N. split; [lia|]. split; auto. split; [intros; lia|]. intros b' Hb'. congruence.
    - destruct (IH (N + 1)%nat) as (N' & A1 & A2 & A3 & A4); [lia|]. exists N'. split; [lia|]. split; auto. split; auto.
      intros M b' HM Hb'. destruct (Nat.eq_dec M N) as [-> |]; [congruence|]. eapply A3; eauto. lia.
    - exists N. split; [lia|]. split; auto. split; [intros; lia|]. intros b' Hb'. congruence. }
  destruct (Hloop n 1%nat) as (N' & A1 & A2 & A3 & A4); [lia|]. unfold num_nodes_to_degree. rewrite A2.
  destruct (Hex N') as [b Hb]. rewrite Hb. eexists. split; [reflexivity|]. intros N.
  destruct (Nat.eqb_spec b n) as [-> |Hne].
  - split; [intros [= <-]; auto|]. intros [HN Hb'].
    destruct (lt_eq_lt_dec N N') as [[Hlt| ->]|Hgt]; auto.
    + exfalso. assert (n < n)%nat by (eapply A3; eauto). lia.
    + exfalso. assert (n < n)%nat by (eapply (Hmono N N'); eauto). lia.
  - split; [discriminate|]. intros [HN Hb']. exfalso.
    destruct (lt_eq_lt_dec N N') as [[Hlt| ->]|Hgt].
    + assert (n < n)%nat by (eapply A3; eauto). lia.
    + congruence.
    + assert (b < n)%nat by (eapply (Hmono N N'); eauto). specialize (A4 b Hb). lia.
Qed.

Print Assumptions equidistant_nodes_enumerate.
Print Assumptions equidistant_nodes_distinct.
Print Assumptions node_permutation_correct.
Print Assumptions num_nodes_to_degree_correct.

(** A concrete case: degree 3 on the triangle. *)
Example tri3 : tri_idx 3 = [[3;0;0];[0;3;0];[0;0;3];[2;1;0];[1;2;0];[0;2;1];[0;1;2];[1;0;2];[2;0;1];[1;1;1]]%nat.
Proof. reflexivity. Qed.
Example tet2 : tet_idx GMSH 2 = [[2;0;0;0];[0;2;0;0];[0;0;2;0];[0;0;0;2];[1;1;0;0];[0;1;1;0];[1;0;1;0];[1;0;0;1];[0;0;1;1];[0;1;0;1]]%nat.
Proof. reflexivity. Qed.
Example degree_ex : num_nodes_to_degree 35 3 35 = Some (Some 4%nat) /\ num_nodes_to_degree 22 3 22 = Some None.
Proof. split; reflexivity. Qed.
Example tol_ex : 0 <= 1 / 1000000000000000 < 1 / INR 8.
Proof. cbn. lra. Qed.
