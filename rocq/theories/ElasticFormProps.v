(** Property theorems: assembled and matrix-free elasticity on the whole, distributed mesh (C57). *)
Require Import List Arith Lia Bool Reals Lra FunctionalExtensionality Permutation.
Require Import Verif.Base Verif.LinAlg Verif.LocalMeshModel Verif.LocalMeshProps Verif.TopoModel Verif.TopoSpec Verif.TopoProofs Verif.TopoProps
  Verif.CommModel Verif.ScatterModel Verif.ScatterProofs Verif.ScatterProps
  Verif.AssembleModel Verif.AssembleSpec Verif.AssembleProofs Verif.AssembleProps Verif.MatFree Verif.ApplyModel Verif.ApplyProps
  Verif.PoissonModel Verif.PoissonProps Verif.SipSpec Verif.SipRank Verif.SipProps
  Verif.ElasticityModel Verif.ElasticitySpec Verif.ElasticityProofs Verif.ElasticityProps Verif.ElasticFormSpec Verif.ElasticFormProofs Verif.ElasticFormRank.
Import ListNotations.
Local Open Scope R_scope.

(** C57: together the ranks assemble the matrix and the right-hand side of the symmetric interior
    penalty method for linear elasticity on the global mesh: for all displacements u, v given by their
    coefficients, V^T A U is the bilinear form and V^T b the linear form, whatever the partition. *)
Theorem elasticity_assembly_is_interior_penalty : forall k procs elems facets bc m Q E fi,
  mesh_parts k procs elems facets bc m -> eproblem_ok k elems facets Q ->
  (forall p, (p < procs)%nat -> erank_data k Q (m p) (E p) /\ p_method (e_geo (E p)) = IP /\ facet_table k (m p) = Some (fi p)) ->
  exists A b,
    (forall p, (p < procs)%nat -> map_opt (to_global (m p)) (assemble (m p) (fi p) (elasticity_mat (E p))) = Some (A p)) /\
    (forall p, (p < procs)%nat -> map_opt (to_global_row (m p)) (rhs (m p) (fi p) (elasticity_vec (E p))) = Some (b p)) /\
    forall U V, let n := block_size (ep_ref Q) in
      pairing n (flat_map A (seq 0 procs)) V U = elastic_form Q elems facets bc U V /\
      vpairing n (flat_map b (seq 0 procs)) V = elastic_load Q elems facets bc V.
Proof.
  intros k procs elems facets bc m Q E fi MP PO H.
  destruct (assembly_complete k procs elems facets bc m (elastic_mat Q) fi (fun p => elasticity_mat (E p)) MP (elastic_mat_symmetric Q)) as (A & HA & PA).
  { intros p Hp. apply (H p Hp). }
  { intros p Hp. destruct (H p Hp) as (RD & Ip & _). apply (erank_evaluates k procs elems facets bc m MP Q PO p (E p) Hp RD Ip). }
  destruct (rhs_complete k procs elems facets bc m (elastic_vec Q) fi (fun p => elasticity_vec (E p)) MP (elastic_vec_symmetric Q)) as (b & Hb & Pb).
  { intros p Hp. apply (H p Hp). }
  { intros p Hp. destruct (H p Hp) as (RD & Ip & _). apply (erank_evaluates_rhs k procs elems facets bc m MP Q PO p (E p) Hp RD Ip). }
  exists A, b. split; auto. split; auto. intros U V. cbv zeta. split.
  - unfold pairing. rewrite (lsum_perm _ _ _ PA). apply eglobal_pair.
  - unfold vpairing. rewrite (lsum_perm _ _ _ Pb). apply (eglobal_vpair Q k elems facets bc V PO).
Qed.
Print Assumptions elasticity_assembly_is_interior_penalty.

(** C57: hence the assembled matrix is symmetric. *)
Lemma contract_hooke Q lam mu A B : contract Q (hooke Q lam mu A) B =
  lam * rsum (p_dim (e_geo (ep_ref Q))) (fun r => A r r) * rsum (p_dim (e_geo (ep_ref Q))) (fun r => B r r)
  + mu * rsum (p_dim (e_geo (ep_ref Q))) (fun i => rsum (p_dim (e_geo (ep_ref Q))) (fun j => (A i j + A j i) * B i j)).
Proof.
  set (d := p_dim (e_geo (ep_ref Q))). unfold contract, hooke. fold d. set (t := rsum d (fun r => A r r)).
  transitivity (rsum d (fun i => lam * t * B i i + mu * rsum d (fun j => (A i j + A j i) * B i j))).
  - apply rsum_ext. intros i Hi. rewrite (rsum_ext d _ (fun j => delta i j * (lam * t * B i j) + mu * ((A i j + A j i) * B i j))) by (intros; unfold delta; ring).
    rewrite rsum_plus, rsum_scale. rewrite (delta_sum d i (fun j => lam * t * B i j)) by auto. reflexivity.
  - rewrite rsum_plus, !rsum_scale. reflexivity.
Qed.
Lemma contract_hooke_sym Q lam mu A B : contract Q (hooke Q lam mu A) B = contract Q (hooke Q lam mu B) A.
Proof.
  rewrite !contract_hooke. set (d := p_dim (e_geo (ep_ref Q))).
  assert (E : rsum d (fun i => rsum d (fun j => (A i j + A j i) * B i j)) = rsum d (fun i => rsum d (fun j => (B i j + B j i) * A i j))).
  { transitivity (rsum d (fun i => rsum d (fun j => A i j * B i j)) + rsum d (fun i => rsum d (fun j => A j i * B i j))).
    - rewrite <- rsum_plus. apply rsum_ext. intros. rewrite <- rsum_plus. apply rsum_ext. intros. ring.
    - rewrite (rsum_swap d d (fun i j => A j i * B i j)). rewrite <- rsum_plus. apply rsum_ext. intros. rewrite <- rsum_plus. apply rsum_ext. intros. ring. }
  rewrite E. ring.
Qed.
Lemma elastic_form_symmetric Q elems facets bc U V : elastic_form Q elems facets bc U V = elastic_form Q elems facets bc V U.
Proof.
  unfold elastic_form. f_equal; apply lsum_ext.
  - intros g _. unfold evol_term. apply rsum_ext. intros. f_equal. apply contract_hooke_sym.
  - intros f _. unfold efacet_term. destruct (elements_of elems f) as [|g [|h [|? ?]]]; auto.
    + destruct (bc f =? BC_Natural); auto. unfold ebnd_term. apply rsum_ext. intros q _. f_equal.
      rewrite (rsum_ext _ (fun i => disp_on Q f g (V g) q i * disp_on Q f g (U g) q i) (fun i => disp_on Q f g (U g) q i * disp_on Q f g (V g) q i)) by (intros; ring). ring.
    + unfold eint_term. apply rsum_ext. intros q _. f_equal.
      rewrite (rsum_ext _ (fun i => (disp_on Q f g (V g) q i - _) * _) (fun i => (disp_on Q f g (U g) q i - disp_on Q f h (U h) q i) * (disp_on Q f g (V g) q i - disp_on Q f h (V h) q i))) by (intros; ring). ring.
Qed.
Theorem elasticity_matrix_symmetric : forall k procs elems facets bc m Q E fi A,
  mesh_parts k procs elems facets bc m -> eproblem_ok k elems facets Q ->
  (forall p, (p < procs)%nat -> erank_data k Q (m p) (E p) /\ p_method (e_geo (E p)) = IP /\ facet_table k (m p) = Some (fi p)) ->
  (forall p, (p < procs)%nat -> map_opt (to_global (m p)) (assemble (m p) (fi p) (elasticity_mat (E p))) = Some (A p)) ->
  forall i j a b, (a < block_size (ep_ref Q))%nat -> (b < block_size (ep_ref Q))%nat ->
    scalar_entry (flat_map A (seq 0 procs)) i j a b = scalar_entry (flat_map A (seq 0 procs)) j i b a.
Proof.
  intros k procs elems facets bc m Q E fi A MP PO H HA i j a b Ha Hb.
  destruct (elasticity_assembly_is_interior_penalty k procs elems facets bc m Q E fi MP PO H) as (A' & b' & HA' & _ & EQ).
  assert (EA : flat_map A (seq 0 procs) = flat_map A' (seq 0 procs)).
  { apply flat_map_ext_in. intros p Hp. apply in_seq in Hp. pose proof (HA p ltac:(lia)). pose proof (HA' p ltac:(lia)). congruence. }
  rewrite EA, <- !(pairing_unit (block_size (ep_ref Q))) by auto.
  rewrite (proj1 (EQ (unit_at j b) (unit_at i a))), (proj1 (EQ (unit_at i a) (unit_at j b))). apply elastic_form_symmetric.
Qed.
Print Assumptions elasticity_matrix_symmetric.

(** * Matrix-free application *)
(** C25 and C57: the overlapped, matrix-free application on any rank gives, for each of its elements,
    the row of the assembled global matrix times the global vector -- whatever the partition, the
    number of ranks and the order in which messages arrive. *)
Theorem elasticity_distributed_apply : forall k procs elems facets bc m Q E fi A
    sm rm (x0 : nat -> list (nat -> R)) es0 s0 q wr t idx ni g w1 evs w2 y (X : nat -> nat -> R) s1 s2 s3 s4,
  mesh_parts k procs elems facets bc m -> dist_mesh k procs m -> eproblem_ok k elems facets Q ->
  (forall p, (p < procs)%nat -> erank_data k Q (m p) (E p) /\ p_method (e_geo (E p)) = IP /\ facet_table k (m p) = Some (fi p)) ->
  (forall p, (p < procs)%nat -> map_opt (to_global (m p)) (assemble (m p) (fi p) (elasticity_mat (E p))) = Some (A p)) ->
  (q < procs)%nat ->
  (forall i, (i < tm_num_local_facets (m q))%nat -> normal_ok (e_geo (E q)) i) -> (forall x, In x (fi q) -> bc_fits x) ->
  plans_of procs (fun p => tm_owner (m p)) (fun p => tm_shared (m p)) sm rm ->
  (forall p, (p < procs)%nat -> length (x0 p) = tm_num_local (m p)) ->
  let pl p := setup (sm p) (rm p) in
  interleaving (all_side_writes k (fi q)) wr -> do_writes (fresh_sides k (m q)) wr = Some t ->
  num_interior q (m q) = Some ni -> sparse_index (recv_indices (pl q)) = Some idx ->
  map snd w1 = seq 0 ni -> map snd w2 = seq ni (tm_num_local (m q) - ni) -> length y = tm_num_local (m q) ->
  run pl es0 (start x0) = Some s0 -> step pl (EBegin q g) s0 = Some s1 ->
  run pl (concat (map fst w1)) s1 = Some s2 -> run pl evs s2 = Some s3 -> idle (procs_of s3 q) = true ->
  run pl (concat (map fst w2)) s3 = Some s4 ->
  quiet q (concat (map fst w1) ++ evs ++ concat (map fst w2)) ->
  let n := length (begins pl q es0 (start x0)) in
  let es := es0 ++ EBegin q g :: concat (map fst w1) ++ evs ++ concat (map fst w2) in
  (forall p x j gj, (p < procs)%nat -> nth_error (begins pl p es (start x0)) n = Some x ->
     nth_error (tm_l2cg (m p)) j = Some gj -> (j < tm_num_local (m p))%nat -> nth_error x j = Some (X gj)) ->
  exists y', apply_run k (elasticity_op (E q) (fi q)) t idx pl q g w1 evs w2 s0 y = Some (s4, y') /\
    length y' = tm_num_local (m q) /\
    forall e ge z, nth_error y' e = Some z -> nth_error (tm_l2cg (m q)) e = Some ge ->
      forall j, (j < block_size (ep_ref Q))%nat -> z j = row_times (block_size (ep_ref Q)) (flat_map A (seq 0 procs)) X ge j.
Proof.
  intros k procs elems facets bc m Q E fi A sm rm x0 es0 s0 q wr t idx ni g w1 evs w2 y X s1 s2 s3 s4
    MP DM PO H HA Hq Nm Bc Pl Lx pl Iw Et Eni Eidx M1 M2 Ly R0 R1 R2 R3 Id R4 Qt n es HX.
  destruct (H q Hq) as (RD & Ip & Efi). pose proof (mp_mesh _ _ _ _ _ _ MP q Hq) as O.
  destruct (apply_overlap_correct k procs m sm rm x0 es0 s0 q (fi q) wr t idx ni (elasticity_op (E q) (fi q)) g w1 evs w2 y X s1 s2 s3 s4
    DM Hq Pl Lx Efi Iw Et Eni Eidx M1 M2 Ly R0 R1 R2 R3 Id R4 Qt HX) as (y' & E' & L' & V').
  exists y'. split; auto. split; [congruence|]. intros e ge z Ez Ege j Hj.
  assert (He : (e < tm_num_local (m q))%nat) by (rewrite <- Ly, <- L'; apply nth_error_Some; congruence).
  destruct (nth_error_lt y e) as [y0 Ey]; [lia|].
  destruct (V' e y0 ge Ey Ege) as (sl & xn & Ls & Hs & Ln & Hn & Ez').
  assert (Msl : map_opt (fun d => nth_error t (e * (k + 1) + d)) (seq 0 (k + 1)) = Some sl).
  { apply map_opt_ext; [rewrite seq_length; auto|]. intros i a Ea.
    assert (Hi : (i < k + 1)%nat) by (rewrite <- (seq_length (k + 1) 0); apply nth_error_Some; congruence).
    rewrite (nth_error_nth' _ 0%nat), seq_nth in Ea by (rewrite ?seq_length; lia). injection Ea as <-. cbn [plus]. symmetry. apply Hs. lia. }
  set (U := fun d => X (nth d (tm_l2cg (m q)) 0%nat)).
  destruct (neighbour_table_correct k (m q) (fi q) wr O Efi Iw) as (t' & Et' & _ & HT). assert (t' = t) by congruence. subst t'.
  assert (Xn : xn = map (fun s => U (si_lid s)) sl).
  { apply nth_error_ext. intro d. rewrite nth_error_map. destruct (nth_error sl d) as [s|] eqn:Es; cbn [option_map].
    - assert (Hd : (d < k + 1)%nat) by (rewrite <- Ls; apply nth_error_Some; congruence).
      destruct (HT e d He ltac:(lia)) as (s' & i & Es' & F & Ok). rewrite <- Hs in Es' by lia. assert (s' = s) by congruence. subst s'.
      destruct Ok as [_ _ Oth _ _]. assert (C : contains (m q) (si_lid s) i) by (apply Oth; auto). apply contains_lt in C as [C _].
      destruct (nth_error_lt (tm_l2cg (m q)) (si_lid s)) as [gd Egd]; [rewrite (to_l2cg _ _ O); auto|].
      rewrite (Hn d gd); [unfold U; rewrite (nth_error_nth _ _ 0%nat Egd); reflexivity|]. exists i, (si_lid s). auto.
    - apply nth_error_None in Es. apply nth_error_None. lia. }
  destruct (elasticity_apply_matches_assembly (E q) k (m q) (fi q) wr t e sl U false O Efi Iw Et Ip Nm Bc He Msl ltac:(discriminate)) as (r & Er & Hr).
  assert (Ue : U e = X ge) by (unfold U; rewrite (nth_error_nth _ _ 0%nat Ege); reflexivity).
  assert (BS : block_size (E q) = block_size (ep_ref Q)) by (unfold block_size; rewrite (er_N _ _ _ _ RD), (er_dim _ _ _ _ RD); reflexivity).
  rewrite Ue in Er. unfold elasticity_op, elasticity_apply in Ez'. rewrite Xn, Er in Ez'. assert (z = r) by congruence. subst z.
  rewrite Hr, BS, Rminus_0_r by (rewrite BS; auto). symmetry.
  apply (global_row k procs elems facets bc m (fun p => elasticity_mat (E p)) fi A); auto.
  intros p Hp. apply (H p Hp).
Qed.
Print Assumptions elasticity_distributed_apply.
