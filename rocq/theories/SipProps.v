(** Property theorems: the assembled and the matrix-free operator on the whole, distributed mesh (C26). *)
Require Import List Arith Lia Bool Reals Lra FunctionalExtensionality Permutation.
Require Import Verif.Base Verif.LinAlg Verif.LocalMeshModel Verif.LocalMeshProps Verif.TopoModel Verif.TopoSpec Verif.TopoProofs Verif.TopoProps
  Verif.CommModel Verif.ScatterModel Verif.ScatterProofs Verif.ScatterProps
  Verif.AssembleModel Verif.AssembleSpec Verif.AssembleProofs Verif.AssembleProps Verif.MatFree Verif.ApplyModel Verif.ApplyProps
  Verif.PoissonModel Verif.PoissonProofs Verif.PoissonProps Verif.SipSpec Verif.SipProofs Verif.SipRank Verif.SipLoad.
Import ListNotations.
Local Open Scope R_scope.

(** C26: together the ranks assemble the matrix and the right-hand side of the symmetric interior
    penalty method on the global mesh: for all functions u, v given by their coefficients, V^T A U is
    the bilinear form and V^T b the linear form, whatever the partition. *)
Theorem assembly_is_interior_penalty : forall k procs elems facets bc m Q P fi,
  mesh_parts k procs elems facets bc m -> problem_ok k elems facets Q ->
  (forall p, (p < procs)%nat -> rank_data k Q (m p) (P p) /\ p_method (P p) = IP /\ facet_table k (m p) = Some (fi p)) ->
  exists A b,
    (forall p, (p < procs)%nat -> map_opt (to_global (m p)) (assemble (m p) (fi p) (poisson_mat (P p))) = Some (A p)) /\
    (forall p, (p < procs)%nat -> map_opt (to_global_row (m p)) (rhs (m p) (fi p) (poisson_vec (P p))) = Some (b p)) /\
    forall U V, let N := p_N (pb_ref Q) in
      pairing N (flat_map A (seq 0 procs)) V U = sip_form Q elems facets bc U V /\
      vpairing N (flat_map b (seq 0 procs)) V = sip_load Q elems facets bc V.
Proof.
  intros k procs elems facets bc m Q P fi MP PO H.
  destruct (assembly_complete k procs elems facets bc m (sip_mat Q) fi (fun p => poisson_mat (P p)) MP (sip_mat_symmetric Q)) as (A & HA & PA).
  { intros p Hp. apply (H p Hp). }
  { intros p Hp. destruct (H p Hp) as (RD & Ip & _). apply (rank_evaluates k procs elems facets bc m MP Q PO p (P p) Hp RD Ip). }
  destruct (rhs_complete k procs elems facets bc m (sip_vec Q) fi (fun p => poisson_vec (P p)) MP (sip_vec_symmetric Q)) as (b & Hb & Pb).
  { intros p Hp. apply (H p Hp). }
  { intros p Hp. destruct (H p Hp) as (RD & Ip & _). apply (rank_evaluates_rhs k procs elems facets bc m MP Q PO p (P p) Hp RD Ip). }
  exists A, b. split; auto. split; auto. intros U V. cbv zeta. split.
  - unfold pairing. rewrite (lsum_perm _ _ _ PA). apply global_pair.
  - unfold vpairing. rewrite (lsum_perm _ _ _ Pb). apply (global_vpair Q k elems facets bc V PO).
Qed.
Print Assumptions assembly_is_interior_penalty.

(** C26: hence the assembled matrix is symmetric. *)
Lemma sip_form_symmetric Q elems facets bc U V : sip_form Q elems facets bc U V = sip_form Q elems facets bc V U.
Proof.
  unfold sip_form. f_equal; apply lsum_ext.
  - intros g _. unfold vol_term. apply rsum_ext. intros. f_equal. apply rsum_ext. intros. ring.
  - intros f _. unfold facet_term. destruct (elements_of elems f) as [|g [|h [|? ?]]]; auto.
    + destruct (bc f =? BC_Natural); auto. unfold bnd_term. apply rsum_ext. intros. ring.
    + unfold int_term. apply rsum_ext. intros. ring.
Qed.
Definition unit_at (i k : nat) : nat -> nat -> R := fun a b => if (a =? i) && (b =? k) then 1 else 0.
(** Scalar entry (k, l) of block (i, j) of the sum. *)
Definition scalar_entry (A : list (nat * nat * (nat -> nat -> R))) (i j k l : nat) : R :=
  lsum (fun '(a, b, B) => if (a =? i) && (b =? j) then B k l else 0) A.
Lemma pairing_unit n A i j k l : (k < n)%nat -> (l < n)%nat -> pairing n A (unit_at i k) (unit_at j l) = scalar_entry A i j k l.
Proof.
  intros Hk Hl. unfold pairing, scalar_entry. apply lsum_ext. intros [[a b] B] _. unfold unit_at.
  destruct (Nat.eqb_spec a i); cbn [andb].
  - rewrite (rsum_single n k); [|auto|intros x _ Hx; destruct (Nat.eqb_spec x k); [congruence|ring]]. rewrite Nat.eqb_refl.
    rewrite (rsum_single n l).
    + destruct (b =? j); cbn [andb]; [rewrite Nat.eqb_refl|]; ring.
    + auto.
    + intros x _ Hx. destruct (Nat.eqb_spec x l); [congruence|]. rewrite andb_false_r. ring.
  - apply rsum_zero. intros. ring.
Qed.
Theorem assembled_matrix_symmetric : forall k procs elems facets bc m Q P fi A,
  mesh_parts k procs elems facets bc m -> problem_ok k elems facets Q ->
  (forall p, (p < procs)%nat -> rank_data k Q (m p) (P p) /\ p_method (P p) = IP /\ facet_table k (m p) = Some (fi p)) ->
  (forall p, (p < procs)%nat -> map_opt (to_global (m p)) (assemble (m p) (fi p) (poisson_mat (P p))) = Some (A p)) ->
  forall i j a b, (a < p_N (pb_ref Q))%nat -> (b < p_N (pb_ref Q))%nat ->
    scalar_entry (flat_map A (seq 0 procs)) i j a b = scalar_entry (flat_map A (seq 0 procs)) j i b a.
Proof.
  intros k procs elems facets bc m Q P fi A MP PO H HA i j a b Ha Hb.
  destruct (assembly_is_interior_penalty k procs elems facets bc m Q P fi MP PO H) as (A' & b' & HA' & _ & E).
  assert (EA : flat_map A (seq 0 procs) = flat_map A' (seq 0 procs)).
  { apply flat_map_ext_in. intros p Hp. apply in_seq in Hp. pose proof (HA p ltac:(lia)). pose proof (HA' p ltac:(lia)). congruence. }
  rewrite EA, <- !(pairing_unit (p_N (pb_ref Q))) by auto.
  rewrite (proj1 (E (unit_at j b) (unit_at i a))), (proj1 (E (unit_at i a) (unit_at j b))). apply sip_form_symmetric.
Qed.
Print Assumptions assembled_matrix_symmetric.

(** * Matrix-free application *)
(** Rows of the global matrix come from the rank that owns the row's element. *)
Lemma to_global_row_times m N A G X ge e j : NoDup (tm_l2cg m) -> map_opt (to_global m) A = Some G -> nth_error (tm_l2cg m) e = Some ge ->
  row_times N G X ge j = row_times N A (fun d => X (nth d (tm_l2cg m) 0%nat)) e j.
Proof.
  intros Nd E Ee. revert G E. induction A as [|[[a b] B] A IH]; intros G E; cbn [map_opt] in E; [injection E as <-; reflexivity|].
  unfold to_global at 1 in E. cbn [fst snd] in E. destruct (nth_error (tm_l2cg m) a) as [ga|] eqn:Ea; [|discriminate]. cbn [bind] in E.
  destruct (nth_error (tm_l2cg m) b) as [gb|] eqn:Eb; [|discriminate]. cbn [bind] in E.
  destruct (map_opt (to_global m) A) as [G'|] eqn:EG; [|discriminate]. cbn [bind] in E. injection E as <-.
  unfold row_times in *. cbn [lsum]. rewrite (IH G' eq_refl). f_equal.
  assert (Hae : (ga =? ge) = (a =? e)).
  { destruct (Nat.eqb_spec a e) as [->|Ne]; [apply Nat.eqb_eq; congruence|]. apply Nat.eqb_neq. intros ->. apply Ne.
    apply (proj1 (NoDup_nth_error _) Nd); [apply nth_error_Some; congruence|congruence]. }
  rewrite Hae, (nth_error_nth _ _ 0%nat Eb). reflexivity.
Qed.
Lemma row_times_none n A X g j : (forall a b B, In (a, b, B) A -> a <> g) -> row_times n A X g j = 0.
Proof.
  intro H. unfold row_times. apply lsum_zero. intros [[a b] B] Hin. destruct (Nat.eqb_spec a g); auto. exfalso. eapply H; eauto.
Qed.
Lemma global_row k procs elems facets bc m (L : nat -> mat_lop (nat -> nat -> R)) fi A N X p e ge j :
  mesh_parts k procs elems facets bc m ->
  (forall p, (p < procs)%nat -> facet_table k (m p) = Some (fi p)) ->
  (forall p, (p < procs)%nat -> map_opt (to_global (m p)) (assemble (m p) (fi p) (L p)) = Some (A p)) ->
  (p < procs)%nat -> (e < tm_num_local (m p))%nat -> nth_error (tm_l2cg (m p)) e = Some ge ->
  row_times N (flat_map A (seq 0 procs)) X ge j = row_times N (assemble (m p) (fi p) (L p)) (fun d => X (nth d (tm_l2cg (m p)) 0%nat)) e j.
Proof.
  intros MP FI HA Hp He Ee. unfold row_times at 1. rewrite lsum_flat_map.
  rewrite (lsum_single _ _ p).
  - apply (to_global_row_times (m p) N _ (A p) X ge e j); auto. apply (mp_nodup _ _ _ _ _ _ MP p Hp).
  - apply seq_NoDup.
  - apply in_seq. lia.
  - intros q Hq Nq. apply in_seq in Hq. assert (Hq' : (q < procs)%nat) by lia.
    apply (row_times_none N (A q) X ge j). intros a b B Hin ->. apply Nq.
    apply In_nth_error in Hin as [r Er]. destruct (nth_map_opt _ _ _ (HA q Hq') r _ Er) as ([[a' b'] B'] & Er' & Eg).
    cbn in Eg. destruct (nth_error (tm_l2cg (m q)) a') as [ga|] eqn:Ea; [|discriminate]. cbn in Eg.
    destruct (nth_error (tm_l2cg (m q)) b') as [gb|]; [|discriminate]. cbn in Eg. injection Eg as E1 E2 E3. subst ga.
    destruct (assembly_within_allocation k q (m q) (fi q) (L q) (mp_mesh _ _ _ _ _ _ MP q Hq') (FI q Hq')) as [Rows _].
    destruct (Rows a' b' B') as [Ha _]; [eapply nth_error_In; eauto|].
    apply (mp_once _ _ _ _ _ _ MP q p a' e ge); auto.
Qed.

(** C25 and C26: the overlapped, matrix-free application on any rank gives, for each of its elements,
    the row of the assembled global matrix times the global vector -- whatever the partition, the
    number of ranks and the order in which messages arrive. *)
Theorem distributed_apply_is_matrix : forall k procs elems facets bc m Q P fi A
    sm rm (x0 : nat -> list (nat -> R)) es0 s0 q wr t idx ni g w1 evs w2 y (X : nat -> nat -> R) s1 s2 s3 s4,
  mesh_parts k procs elems facets bc m -> dist_mesh k procs m -> problem_ok k elems facets Q ->
  (forall p, (p < procs)%nat -> rank_data k Q (m p) (P p) /\ p_method (P p) = IP /\ facet_table k (m p) = Some (fi p)) ->
  (forall p, (p < procs)%nat -> map_opt (to_global (m p)) (assemble (m p) (fi p) (poisson_mat (P p))) = Some (A p)) ->
  (q < procs)%nat ->
  (forall i, (i < tm_num_local_facets (m q))%nat -> normal_ok (P q) i) -> (forall x, In x (fi q) -> bc_fits x) ->
  plans_of procs (fun p => tm_owner (m p)) (fun p => tm_shared (m p)) sm rm ->
  (forall p, (p < procs)%nat -> length (x0 p) = tm_num_local (m p)) ->
  let pl p := setup (sm p) (rm p) in
  interleaving (all_side_writes k (fi q)) wr -> do_writes (fresh_sides k (m q)) wr = Some t ->
  num_interior q (m q) = Some ni -> sparse_index (recv_indices (pl q)) = Some idx ->
  map snd w1 = seq 0 ni -> map snd w2 = seq ni (tm_num_local (m q) - ni) -> length y = tm_num_local (m q) ->
  run pl es0 (start x0) = Some s0 -> step pl (EBegin q g) s0 = Some s1 ->
  run pl (concat (map fst w1)) s1 = Some s2 -> run pl evs s2 = Some s3 -> idle (procs_of s3 q) = true ->
  run pl (concat (map fst w2)) s3 = Some s4 ->
  quiet q (concat (map fst w1) ++ evs ++ concat (map fst w2)) ->
  let n := length (begins pl q es0 (start x0)) in
  let es := es0 ++ EBegin q g :: concat (map fst w1) ++ evs ++ concat (map fst w2) in
  (forall p x j gj, (p < procs)%nat -> nth_error (begins pl p es (start x0)) n = Some x ->
     nth_error (tm_l2cg (m p)) j = Some gj -> (j < tm_num_local (m p))%nat -> nth_error x j = Some (X gj)) ->
  exists y', apply_run k (poisson_op (P q) (fi q)) t idx pl q g w1 evs w2 s0 y = Some (s4, y') /\
    length y' = tm_num_local (m q) /\
    forall e ge z, nth_error y' e = Some z -> nth_error (tm_l2cg (m q)) e = Some ge ->
      forall j, z j = row_times (p_N (pb_ref Q)) (flat_map A (seq 0 procs)) X ge j.
Proof.
  intros k procs elems facets bc m Q P fi A sm rm x0 es0 s0 q wr t idx ni g w1 evs w2 y X s1 s2 s3 s4
    MP DM PO H HA Hq Nm Bc Pl Lx pl Iw Et Eni Eidx M1 M2 Ly R0 R1 R2 R3 Id R4 Qt n es HX.
  destruct (H q Hq) as (RD & Ip & Efi). pose proof (mp_mesh _ _ _ _ _ _ MP q Hq) as O.
  destruct (apply_overlap_correct k procs m sm rm x0 es0 s0 q (fi q) wr t idx ni (poisson_op (P q) (fi q)) g w1 evs w2 y X s1 s2 s3 s4
    DM Hq Pl Lx Efi Iw Et Eni Eidx M1 M2 Ly R0 R1 R2 R3 Id R4 Qt HX) as (y' & E' & L' & V').
  exists y'. split; auto. split; [congruence|]. intros e ge z Ez Ege j.
  assert (He : (e < tm_num_local (m q))%nat) by (rewrite <- Ly, <- L'; apply nth_error_Some; congruence).
  destruct (nth_error_lt y e) as [y0 Ey]; [lia|].
  destruct (V' e y0 ge Ey Ege) as (sl & xn & Ls & Hs & Ln & Hn & Ez').
  assert (Msl : map_opt (fun d => nth_error t (e * (k + 1) + d)) (seq 0 (k + 1)) = Some sl).
  { apply map_opt_ext; [rewrite seq_length; auto|]. intros i a Ea.
    assert (Hi : (i < k + 1)%nat) by (rewrite <- (seq_length (k + 1) 0); apply nth_error_Some; congruence).
    rewrite (nth_error_nth' _ 0%nat), seq_nth in Ea by (rewrite ?seq_length; lia). injection Ea as <-. cbn [plus]. symmetry. apply Hs. lia. }
  set (U := fun d => X (nth d (tm_l2cg (m q)) 0%nat)).
  destruct (neighbour_table_correct k (m q) (fi q) wr O Efi Iw) as (t' & Et' & _ & HT). assert (t' = t) by congruence. subst t'.
  assert (Xn : xn = map (fun s => U (si_lid s)) sl).
  { apply nth_error_ext. intro d. rewrite nth_error_map. destruct (nth_error sl d) as [s|] eqn:Es; cbn [option_map].
    - assert (Hd : (d < k + 1)%nat) by (rewrite <- Ls; apply nth_error_Some; congruence).
      destruct (HT e d He ltac:(lia)) as (s' & i & Es' & F & Ok). rewrite <- Hs in Es' by lia. assert (s' = s) by congruence. subst s'.
      destruct Ok as [_ _ Oth _ _]. assert (C : contains (m q) (si_lid s) i) by (apply Oth; auto). apply contains_lt in C as [C _].
      destruct (nth_error_lt (tm_l2cg (m q)) (si_lid s)) as [gd Egd]; [rewrite (to_l2cg _ _ O); auto|].
      rewrite (Hn d gd); [unfold U; rewrite (nth_error_nth _ _ 0%nat Egd); reflexivity|]. exists i, (si_lid s). auto.
    - apply nth_error_None in Es. apply nth_error_None. lia. }
  destruct (apply_matches_assembly (P q) k (m q) (fi q) wr t e sl U O Efi Iw Et Ip Nm Bc He Msl) as (r & Er & Hr).
  assert (Ue : U e = X ge) by (unfold U; rewrite (nth_error_nth _ _ 0%nat Ege); reflexivity).
  rewrite Ue in Er. unfold poisson_op in Ez'. rewrite Xn, Er in Ez'. assert (z = r) by congruence. subst z.
  rewrite Hr, (rd_N _ _ _ _ RD). symmetry.
  apply (global_row k procs elems facets bc m (fun p => poisson_mat (P p)) fi A); auto.
  intros p Hp. apply (H p Hp).
Qed.
Print Assumptions distributed_apply_is_matrix.
