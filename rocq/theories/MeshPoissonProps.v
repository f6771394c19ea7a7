(** Property theorems: from the vertices of a mesh to a positive semidefinite matrix (C63). *)
Require Import List Arith Lia Bool Reals Lra FunctionalExtensionality Sorting.Sorted.
Require Import Verif.Base Verif.LinAlg Verif.SimplexModel Verif.SimplexProofs Verif.LocalMeshModel Verif.LocalMeshProps Verif.TopoModel Verif.TopoSpec Verif.TopoProofs Verif.TopoProps
  Verif.AssembleModel Verif.AssembleSpec Verif.AssembleProofs Verif.AssembleProps Verif.MatFree Verif.FaultModel Verif.PoissonModel Verif.PenaltyModel
  Verif.SipSpec Verif.SipProofs Verif.SipRank Verif.SipProps Verif.CoerciveProps
  Verif.GeometryModel Verif.GeometryProofs Verif.GeometrySpec Verif.GeometryProps Verif.GeometryStraight Verif.MeshSpec Verif.MeshProofs.
Import ListNotations.
Local Open Scope R_scope.

Section Mesh.
Variables (G : geo_setup) (procs : nat) (elems facets : list (list nat)) (bc : list nat -> nat) (m : nat -> topo_mesh).
Local Notation D := (gs_D G).
Hypothesis MP : mesh_parts D procs elems facets bc m.
Hypothesis VG : valid_geometry G elems facets.
Variable R_ : pdata.
Hypothesis Hdim : p_dim R_ = D.
Variable degree : nat.
Hypothesis Hdeg : (1 <= degree)%nat.
Variables (fi : nat -> list facet_info) (P : nat -> pdata).
Hypothesis RK : forall p, (p < procs)%nat -> poisson_rank G R_ degree (m p) (fi p) (P p).
Hypothesis HN : (0 < p_N R_)%nat.
Local Notation Q := (mesh_problem G elems R_ degree).

Lemma mesh_problem_ok : problem_ok D elems facets Q.
Proof.
  destruct (mesh_good G procs elems facets bc m MP VG R_ Hdim) as (N & _).
  split; cbn [mesh_problem pb_loc pb_n pb_jump].
  - apply (facet_number_spec G procs elems facets bc m MP VG).
  - apply N.
  - intros. ring.
Qed.
(** The matrix does not use the prescribed values: replaced by none. *)
Definition no_data (p : nat) : pdata := let B := P p in {|
  p_dim := p_dim B; p_N := p_N B; p_Nq := p_Nq B; p_nq := p_nq B; p_method := p_method B;
  p_W := p_W B; p_w := p_w B; p_EQ := p_EQ B; p_DxiQ := p_DxiQ B; p_matEQ := p_matEQ B;
  p_E := p_E B; p_Dxi := p_Dxi B; p_matE := p_matE B; p_MinvRef := p_MinvRef B;
  p_J := p_J B; p_GQ := p_GQ B; p_K := p_K B; p_n := p_n B; p_nu := p_nu B; p_nl := p_nl B; p_G0 := p_G0 B; p_G1 := p_G1 B;
  p_pen := p_pen B; p_force := fun e => p_force R_ (nth e (tm_l2cg (m p)) 0%nat); p_dir := fun _ _ _ => 0; p_slip := fun _ _ _ => 0 |}.
Lemma mesh_rank_geometry p : (p < procs)%nat ->
  (forall e g, nth_error (tm_l2cg (m p)) e = Some g -> p_J (P p) e = p_J (with_geometry G elems R_) g /\ p_GQ (P p) e = p_GQ (with_geometry G elems R_) g) /\
  (forall i f x, (i < tm_num_local_facets (m p))%nat -> nth_error (tm_facets (m p)) i = Some f -> facet_record_ok D (m p) i x ->
     p_n (P p) i = mesh_normal G elems f (fi_g0 x) /\ p_nl (P p) i = mesh_length G elems f /\
     p_G0 (P p) i = mesh_inverse G elems f (fi_g0 x) /\ p_G1 (P p) i = mesh_inverse G elems f (fi_g1 x)).
Proof.
  intro Hp. apply (rank_geometry_is_problem G procs elems facets bc m (with_geometry G elems R_) (facet_number D elems) _ _ _ P MP VG
    (mesh_geometry G procs elems facets bc m MP VG R_ Hdim)); auto. intros q Hq. apply (pr_geometry _ _ _ _ _ _ (RK q Hq)).
Qed.
Lemma side_penalty p i f x u g : (p < procs)%nat -> (i < tm_num_local_facets (m p))%nat -> nth_error (tm_facets (m p)) i = Some f -> facet_record_ok D (m p) i x ->
  nth_error (tm_l2cg (m p)) u = Some g -> penalty_side (P p) degree i u = poisson_penalty G elems R_ degree f g.
Proof.
  intros Hp Hi Ef R Eu. pose proof (RK p Hp) as K. destruct (mesh_rank_geometry p Hp) as [V F].
  destruct (V u g Eu) as [HJ _]. destruct (F i f x Hi Ef R) as (_ & Hl & _).
  pose proof (pr_ref _ _ _ _ _ _ K) as SR. unfold penalty_side, poisson_penalty, area, volume, mesh_area, mesh_volume, trace_constant.
  rewrite (sr_N _ _ SR), (sr_dim _ _ SR), (sr_nq _ _ SR), (sr_Nq _ _ SR), (sr_w _ _ SR), (sr_W _ _ SR), HJ, (pr_K _ _ _ _ _ _ K u g Eu), Hl, Hdim.
  rewrite largest_max, smallest_min by auto. replace (degree - 1 + 1)%nat with degree by lia. reflexivity.
Qed.
Lemma mesh_rank_data p : (p < procs)%nat -> rank_data D Q (m p) (no_data p) /\ p_method (no_data p) = IP /\ facet_table D (m p) = Some (fi p).
Proof.
  intro Hp. pose proof (RK p Hp) as K. pose proof (pr_ref _ _ _ _ _ _ K) as SR. destruct (mesh_rank_geometry p Hp) as [V F].
  split; [|split; [exact (pr_method _ _ _ _ _ _ K)|exact (pr_table _ _ _ _ _ _ K)]].
  assert (PN : forall i f x, (i < tm_num_local_facets (m p))%nat -> nth_error (tm_facets (m p)) i = Some f -> facet_record_ok D (m p) i x -> p_pen (P p) i = pb_pen Q f).
  { intros i f x Hi Ef R. pose proof (mp_mesh _ _ _ _ _ _ MP p Hp) as O.
    destruct (facet_table_correct D (m p) O) as (fi' & Efi' & _ & RS). pose proof (pr_table _ _ _ _ _ _ K) as T. assert (fi' = fi p) by congruence. subst fi'.
    destruct (RS i Hi) as (y & Ey & Ry). rewrite (pr_pen _ _ _ _ _ _ K i y Ey). unfold prepare_penalty.
    rewrite (side_penalty p i f y _ _ Hp Hi Ef Ry (fr_g0 _ _ _ _ Ry)), (side_penalty p i f y _ _ Hp Hi Ef Ry (fr_g1 _ _ _ _ Ry)).
    pose proof (facet_elements _ _ _ _ _ _ MP p i y f Hp Hi Ry Ef) as EL. cbn [mesh_problem pb_pen]. rewrite EL.
    destruct (fi_up0 y =? fi_up1 y)%nat; cbn [negb]; [reflexivity|].
    destruct (fi_g0 y <? fi_g1 y)%nat; [reflexivity|]. f_equal. ring. }
  destruct SR. constructor; cbn [no_data p_dim p_N p_Nq p_nq p_W p_w p_EQ p_DxiQ p_matEQ p_E p_Dxi p_matE mesh_problem pb_ref with_geometry]; auto.
  - intros e g Eg. destruct (V e g Eg) as [H1 H2]. split; [exact H1|]. split; [exact H2|]. split; [apply (pr_K _ _ _ _ _ _ K e g Eg)|].
    change (p_force R_ (nth e (tm_l2cg (m p)) 0%nat) = p_force R_ g). rewrite (nth_error_nth _ _ 0%nat Eg). reflexivity.
  - intros i f x Hi Ef R. destruct (F i f x Hi Ef R) as (H1 & H2 & H3 & H4). cbn [p_n p_nl p_pen p_G0 p_G1 no_data].
    split; [exact H1|]. split; [exact H2|]. split; [exact (PN i f x Hi Ef R)|]. split; [exact H3|exact H4].
  - intros. split; intros; cbn; [ring|reflexivity].
Qed.
Lemma mesh_geometry_ok : good_weights (p_Nq R_) (p_W R_) -> good_weights (p_nq R_) (p_w R_) ->
  (forall g l, (g < length elems)%nat -> (l < p_N R_)%nat -> 0 < p_K R_ g l) ->
  (forall q, (q < p_Nq R_)%nat -> convex (p_N R_) (p_matEQ R_ q)) ->
  (forall l q, (l < D + 1)%nat -> (q < p_nq R_)%nat -> convex (p_N R_) (p_matE R_ l q)) ->
  geometry_ok Q elems facets.
Proof.
  intros GW Gw K0 CQ Cq. destruct (mesh_good G procs elems facets bc m MP VG R_ Hdim) as (_ & HJ & HL & HN2).
  split; cbn [mesh_problem pb_ref pb_nl pb_n with_geometry p_dim p_N p_Nq p_nq p_W p_w p_J p_K].
  - apply GW.
  - apply Gw.
  - intros g q Hg _. apply Rlt_le, (HJ g q Hg).
  - intros g Hg. apply (good_weights_pos (p_Nq R_) (p_W R_)); auto.
  - intros f Hf. apply (good_weights_pos (p_nq R_) (p_w R_)); auto. intros q _. apply (HL f q Hf).
  - intros f q Hf _. apply Rlt_le, HL; auto.
  - intros f g q Hf Hg _. rewrite Hdim. apply HN2; auto.
  - exact HN.
  - exact K0.
  - intros g q Hg Hq. apply (convex_between (p_N R_) (p_matEQ R_ q) (p_K R_ g) HN (CQ q Hq)).
  - intros f g q Hf Hg Hq. pose proof (facet_number_lt G procs elems facets bc m MP VG f g Hf Hg) as Hl.
    assert (Hgl : (g < length elems)%nat) by (apply (in_elems elems f g Hg)). pose proof (Cq _ q Hl Hq) as [C1 C2]. split.
    + apply rsum_nonneg. intros l L. apply Rmult_le_pos; [apply Rlt_le, K0; auto|apply C1; auto].
    + apply (convex_between (p_N R_) (p_matE R_ (facet_number D elems f g) q) (p_K R_ g) HN (conj C1 C2)).
Qed.
End Mesh.

(** C63: every rank computes Jacobians, normals, lengths and penalties from the vertices of its own
    part of the mesh.  All ranks together then assemble the matrix of the symmetric interior penalty
    form of the whole mesh, with the penalty stated in [poisson_penalty]; the matrix is symmetric, and
    positive semidefinite if the inverse trace inequality holds with the constant that the code uses. *)
Theorem mesh_gives_interior_penalty : forall G procs elems facets bc m R_ degree fi P,
  mesh_parts (gs_D G) procs elems facets bc m -> valid_geometry G elems facets -> p_dim R_ = gs_D G -> (1 <= degree)%nat -> (0 < p_N R_)%nat ->
  (forall p, (p < procs)%nat -> poisson_rank G R_ degree (m p) (fi p) (P p)) ->
  let Q := mesh_problem G elems R_ degree in
  exists A, (forall p, (p < procs)%nat -> map_opt (to_global (m p)) (assemble (m p) (fi p) (poisson_mat (P p))) = Some (A p)) /\
    (forall U V, pairing (p_N R_) (flat_map A (seq 0 procs)) V U = sip_form Q elems facets bc U V) /\
    (forall U V, pairing (p_N R_) (flat_map A (seq 0 procs)) V U = pairing (p_N R_) (flat_map A (seq 0 procs)) U V) /\
    (good_weights (p_Nq R_) (p_W R_) -> good_weights (p_nq R_) (p_w R_) ->
     (forall g l, (g < length elems)%nat -> (l < p_N R_)%nat -> 0 < p_K R_ g l) ->
     (forall q, (q < p_Nq R_)%nat -> convex (p_N R_) (p_matEQ R_ q)) ->
     (forall l q, (l < gs_D G + 1)%nat -> (q < p_nq R_)%nat -> convex (p_N R_) (p_matE R_ l q)) ->
     trace_inequality Q elems facets degree ->
     forall U, 0 <= pairing (p_N R_) (flat_map A (seq 0 procs)) U U).
Proof.
  intros G procs elems facets bc m R_ degree fi P MP VG Hd Hdeg HN RK Q.
  assert (RD : forall p, (p < procs)%nat -> rank_data (gs_D G) Q (m p) (no_data m R_ P p) /\ p_method (no_data m R_ P p) = IP /\ facet_table (gs_D G) (m p) = Some (fi p)).
  { intros p Hp. apply (mesh_rank_data G procs elems facets bc m MP VG R_ Hd degree Hdeg fi P RK HN p Hp). }
  pose proof (mesh_problem_ok G procs elems facets bc m MP VG R_ Hd degree) as PO.
  destruct (assembly_is_interior_penalty (gs_D G) procs elems facets bc m Q (no_data m R_ P) fi MP PO RD) as (A & b & HA & _ & E).
  exists A. split; [exact HA|]. change (p_N (pb_ref Q)) with (p_N R_) in E. split; [intros U V; apply (E U V)|]. split.
  - intros U V. rewrite (proj1 (E U V)), (proj1 (E V U)). apply sip_form_symmetric.
  - intros GW Gw K0 CQ Cq TI. change (p_N R_) with (p_N (pb_ref Q)).
    apply (assembled_matrix_positive (gs_D G) procs elems facets bc m Q (no_data m R_ P) fi degree A MP PO RD); auto.
    + intros p i x Hp Ex. exact (pr_pen _ _ _ _ _ _ (RK p Hp) i x Ex).
    + destruct (vg_dim _ _ _ VG) as [-> | ->]; lia.
    + apply (mesh_geometry_ok G procs elems facets bc m MP VG R_ Hd degree HN); auto.
Qed.
Print Assumptions mesh_gives_interior_penalty.

(** Piecewise linear functions on straight elements: nothing is left to assume about the discretisation.
    The coefficient is interpolated linearly, too. *)
Record linear_reference (D : nat) (R_ : pdata) : Prop := {
  lr_dim : p_dim R_ = D;
  lr_N : p_N R_ = (D + 1)%nat;
  lr_W : good_weights (p_Nq R_) (p_W R_);
  lr_w : good_weights (p_nq R_) (p_w R_);
  lr_DxiQ : forall l e q, p_DxiQ R_ l e q = match l with O => -1 | S d => if (d =? e)%nat then 1 else 0 end;
  lr_Dxi : forall f l e q, p_Dxi R_ f l e q = match l with O => -1 | S d => if (d =? e)%nat then 1 else 0 end;
  lr_matEQ : forall q, (q < p_Nq R_)%nat -> convex (D + 1) (p_matEQ R_ q);
  lr_matE : forall l q, (l < D + 1)%nat -> (q < p_nq R_)%nat -> convex (D + 1) (p_matE R_ l q) }.
Lemma geo_inverse_ext D A B e i : (D = 2 \/ D = 3)%nat -> (forall i j, (i < D)%nat -> (j < D)%nat -> A i j = B i j) -> (e < D)%nat -> (i < D)%nat ->
  geo_inverse D A e i = geo_inverse D B e i.
Proof.
  intros HD H He Hi. unfold geo_inverse. rewrite (geo_det_ext D A B HD H). f_equal. destruct HD as [-> | ->].
  - destruct e as [|[|e]], i as [|[|i]]; try lia; cbn; rewrite H by lia; reflexivity.
  - destruct e as [|[|[|e]]], i as [|[|[|i]]]; try lia; cbn; rewrite !H by lia; reflexivity.
Qed.
Lemma straight_trace_inequality D X xi chi procs elems facets bc m R_ degree : (D = 2 \/ D = 3)%nat ->
  mesh_parts D procs elems facets bc m -> valid_geometry (linear_setup D X xi chi) elems facets -> linear_reference D R_ ->
  trace_inequality (mesh_problem (linear_setup D X xi chi) elems R_ degree) elems facets 1.
Proof.
  intros HD MP VG LR. set (G := linear_setup D X xi chi) in *. set (Q := mesh_problem G elems R_ degree).
  assert (JA : forall plex x i j, (i < D)%nat -> (j < D)%nat -> jacobian_at G plex x i j = edge_matrix X plex i j).
  { intros plex x i j Hi Hj. apply (proj2 (straight_elements G plex x i (linear_straight D X xi chi) Hi) j Hj). }
  set (Gi g e i := geo_inverse D (edge_matrix X (nth g elems [])) e i).
  set (Dx l e := match l with O => -1 | S d => if (d =? e)%nat then 1 else 0 end).
  destruct (mesh_good G procs elems facets bc m MP VG R_ (lr_dim _ _ LR)) as (_ & HJ & _).
  intros f g u Hf Hg. pose proof (in_elems elems f g Hg) as Hgl.
  set (gr i := rsum (D + 1) (fun l => rsum D (fun e => Gi g e i * Dx l e) * u l)).
  assert (V : 0 < elem_volume Q g).
  { apply (good_weights_pos (p_Nq R_) (p_W R_)); [apply (lr_W _ _ LR)|]. intros q _. apply (HJ g q Hgl). }
  assert (E1 : grad2 Q g u = elem_volume Q g * rsum D (fun i => gr i * gr i)).
  { unfold grad2, elem_volume. change (p_dim (pb_ref Q)) with (p_dim R_). rewrite (lr_dim _ _ LR), <- rsum_scale_r. apply rsum_ext. intros q _. f_equal. apply rsum_ext. intros i Hi.
    assert (grad Q g u i q = gr i); [|congruence]. unfold grad, gr. change (p_N (pb_ref Q)) with (p_N R_). change (p_dim (pb_ref Q)) with (p_dim R_). rewrite (lr_N _ _ LR), (lr_dim _ _ LR).
    apply rsum_ext. intros l _. f_equal. apply rsum_ext. intros e He. f_equal; [|apply (lr_DxiQ _ _ LR)].
    change (geo_inverse D (jacobian_at G (nth g elems []) (gs_xi G q)) e i = Gi g e i). apply geo_inverse_ext; auto. }
  assert (E2 : grad2_on Q f g u = facet_area Q f * rsum D (fun i => gr i * gr i)).
  { unfold grad2_on, facet_area. change (p_dim (pb_ref Q)) with (p_dim R_). rewrite (lr_dim _ _ LR), <- rsum_scale_r. apply rsum_ext. intros q _. f_equal. apply rsum_ext. intros i Hi.
    assert (grad_on Q f g u i q = gr i); [|congruence]. unfold grad_on, gr. change (p_N (pb_ref Q)) with (p_N R_). change (p_dim (pb_ref Q)) with (p_dim R_). rewrite (lr_N _ _ LR), (lr_dim _ _ LR).
    apply rsum_ext. intros l _. f_equal. apply rsum_ext. intros e He. f_equal; [|apply (lr_Dxi _ _ LR)].
    unfold Q. cbn [mesh_problem pb_G]. unfold mesh_inverse. change (gs_D G) with D. apply geo_inverse_ext; auto. }
  assert (Dn : 0 < INR D) by (apply lt_0_INR; destruct HD as [-> | ->]; lia).
  rewrite E1, E2. unfold inverse_trace. change (p_dim (pb_ref Q)) with (p_dim R_). rewrite (lr_dim _ _ LR). cbn [Nat.sub Nat.add INR]. apply Req_le. field. split; lra.
Qed.

(** C63, linear elements: on every mesh of triangles or tetrahedra with linear functions, every positive
    coefficient, number of ranks and partition, the ranks assemble a symmetric positive semidefinite
    matrix. *)
Theorem straight_mesh_matrix_positive : forall D X xi chi procs elems facets bc m R_ fi P, (D = 2 \/ D = 3)%nat ->
  mesh_parts D procs elems facets bc m -> plex_list (D + 1) elems ->
  (forall plex, In plex elems -> geo_det D (edge_matrix X plex) <> 0) ->
  (forall f g h plex1 plex2 a b, In f facets -> elements_of elems f = [g; h] -> nth_error elems g = Some plex1 -> nth_error elems h = Some plex2 ->
     In a plex1 -> ~ In a f -> In b plex2 -> ~ In b f -> separated D X f a b) ->
  linear_reference D R_ -> (forall g l, (g < length elems)%nat -> (l < D + 1)%nat -> 0 < p_K R_ g l) ->
  (forall p, (p < procs)%nat -> poisson_rank (linear_setup D X xi chi) R_ 1 (m p) (fi p) (P p)) ->
  exists A, (forall p, (p < procs)%nat -> map_opt (to_global (m p)) (assemble (m p) (fi p) (poisson_mat (P p))) = Some (A p)) /\
    (forall U V, pairing (D + 1) (flat_map A (seq 0 procs)) V U = pairing (D + 1) (flat_map A (seq 0 procs)) U V) /\
    (forall U, 0 <= pairing (D + 1) (flat_map A (seq 0 procs)) U U).
Proof.
  intros D X xi chi procs elems facets bc m R_ fi P HD MP PE ND SEP LR K0 RK. set (G := linear_setup D X xi chi) in *.
  assert (VG : valid_geometry G elems facets) by (apply straight_mesh_valid; auto; apply (mp_facets _ _ _ _ _ _ MP)).
  destruct (mesh_gives_interior_penalty G procs elems facets bc m R_ 1 fi P MP VG (lr_dim _ _ LR)) as (A & HA & _ & HS & HP); auto.
  { rewrite (lr_N _ _ LR). lia. }
  rewrite (lr_N _ _ LR) in HS, HP. exists A. split; [exact HA|]. split; [exact HS|]. apply HP.
  - apply (lr_W _ _ LR).
  - apply (lr_w _ _ LR).
  - exact K0.
  - apply (lr_matEQ _ _ LR).
  - apply (lr_matE _ _ LR).
  - apply (straight_trace_inequality D X xi chi procs elems facets bc m R_ 1 HD MP VG LR).
Qed.
Print Assumptions straight_mesh_matrix_positive.
