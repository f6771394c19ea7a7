(** Property theorems: from the vertices of a mesh to the elasticity matrix and a stable time step (C64). *)
Require Import List Arith Lia Bool Reals Lra FunctionalExtensionality Sorting.Sorted Permutation.
Require Import Verif.Base Verif.LinAlg Verif.SimplexModel Verif.SimplexProofs Verif.LocalMeshModel Verif.LocalMeshProps Verif.TopoModel Verif.TopoSpec Verif.TopoProofs Verif.TopoProps
  Verif.AssembleModel Verif.AssembleSpec Verif.AssembleProofs Verif.AssembleProps Verif.MatFree Verif.FaultModel Verif.PoissonModel Verif.PenaltyModel
  Verif.SipSpec Verif.SipProofs Verif.SipRank Verif.SipProps Verif.CoerciveProps
  Verif.GeometryModel Verif.GeometryProofs Verif.GeometrySpec Verif.GeometryProps Verif.GeometryStraight Verif.MeshSpec Verif.MeshProofs Verif.MeshPoissonProps
  Verif.ElasticityModel Verif.ElasticitySpec Verif.ElasticityProofs Verif.ElasticFormSpec Verif.ElasticFormProofs Verif.ElasticFormRank Verif.ElasticFormProps
  Verif.ElasticCoerciveProps Verif.ElasticCflModel Verif.ElasticCflProps Verif.MeshElasticSpec.
Import ListNotations.
Local Open Scope R_scope.

Section Mesh.
Variables (G : geo_setup) (procs : nat) (elems facets : list (list nat)) (bc : list nat -> nat) (m : nat -> topo_mesh).
Local Notation D := (gs_D G).
Hypothesis MP : mesh_parts D procs elems facets bc m.
Hypothesis VG : valid_geometry G elems facets.
Variable E_ : edata.
Local Notation R_ := (e_geo E_).
Hypothesis Hdim : p_dim R_ = D.
Variable degree : nat.
Hypothesis Hdeg : (1 <= degree)%nat.
Variables (fi : nat -> list facet_info) (E : nat -> edata).
Hypothesis RK : forall p, (p < procs)%nat -> elastic_rank G E_ degree (m p) (fi p) (E p).
Hypothesis HN : (0 < p_N R_)%nat.
Local Notation Q := (mesh_eproblem G elems E_ degree).

Lemma mesh_eproblem_ok : eproblem_ok D elems facets Q.
Proof.
  destruct (mesh_good G procs elems facets bc m MP VG R_ Hdim) as (N & _).
  split; cbn [mesh_eproblem ep_loc ep_n ep_jump].
  - apply (facet_number_spec G procs elems facets bc m MP VG).
  - apply N.
  - intros. ring.
Qed.
(** The matrix and the time step do not use force and prescribed values: replaced by none. *)
Definition no_edata (p : nat) : edata := {|
  e_geo := e_geo (E p); e_lam := e_lam (E p); e_mu := e_mu (E p); e_rhoInv := e_rhoInv (E p); e_Minv := e_Minv (E p);
  e_force := None; e_dir := None; e_slip := None |}.
Lemma mesh_erank_geometry p : (p < procs)%nat ->
  (forall e g, nth_error (tm_l2cg (m p)) e = Some g -> p_J (e_geo (E p)) e = p_J (with_geometry G elems R_) g /\ p_GQ (e_geo (E p)) e = p_GQ (with_geometry G elems R_) g) /\
  (forall i f x, (i < tm_num_local_facets (m p))%nat -> nth_error (tm_facets (m p)) i = Some f -> facet_record_ok D (m p) i x ->
     p_n (e_geo (E p)) i = mesh_normal G elems f (fi_g0 x) /\ p_nl (e_geo (E p)) i = mesh_length G elems f /\
     p_G0 (e_geo (E p)) i = mesh_inverse G elems f (fi_g0 x) /\ p_G1 (e_geo (E p)) i = mesh_inverse G elems f (fi_g1 x)).
Proof.
  intro Hp. apply (rank_geometry_is_problem G procs elems facets bc m (with_geometry G elems R_) (facet_number D elems) _ _ _ (fun p => e_geo (E p)) MP VG
    (mesh_geometry G procs elems facets bc m MP VG R_ Hdim)); auto. intros q Hq. apply (el_geometry _ _ _ _ _ _ (RK q Hq)).
Qed.
Lemma side_epenalty p i f x u g : (p < procs)%nat -> (i < tm_num_local_facets (m p))%nat -> nth_error (tm_facets (m p)) i = Some f -> facet_record_ok D (m p) i x ->
  nth_error (tm_l2cg (m p)) u = Some g -> ElasticityModel.penalty_side (E p) degree i u = elastic_penalty G elems E_ degree f g.
Proof.
  intros Hp Hi Ef R Eu. pose proof (RK p Hp) as K. destruct (mesh_erank_geometry p Hp) as [V F].
  destruct (V u g Eu) as [HJ _]. destruct (F i f x Hi Ef R) as (_ & Hl & _). destruct (el_material _ _ _ _ _ _ K u g Eu) as (M1 & M2 & _).
  pose proof (el_ref _ _ _ _ _ _ K) as SR. unfold ElasticityModel.penalty_side, elastic_penalty, area, volume, mesh_area, mesh_volume, trace_constant, stiffness_c0, stiffness_c1.
  rewrite (sr_N _ _ SR), (sr_dim _ _ SR), (sr_nq _ _ SR), (sr_Nq _ _ SR), (sr_w _ _ SR), (sr_W _ _ SR), HJ, M1, M2, Hl, Hdim.
  rewrite largest_max, smallest_min by auto. replace (degree - 1 + 1)%nat with degree by lia. reflexivity.
Qed.
Lemma mesh_erank_data p : (p < procs)%nat -> erank_data D Q (m p) (no_edata p) /\ p_method (e_geo (no_edata p)) = IP /\ facet_table D (m p) = Some (fi p).
Proof.
  intro Hp. pose proof (RK p Hp) as K. pose proof (el_ref _ _ _ _ _ _ K) as SR. destruct (mesh_erank_geometry p Hp) as [V F].
  split; [|split; [exact (el_method _ _ _ _ _ _ K)|exact (el_table _ _ _ _ _ _ K)]].
  assert (PN : forall i f x, (i < tm_num_local_facets (m p))%nat -> nth_error (tm_facets (m p)) i = Some f -> facet_record_ok D (m p) i x -> p_pen (e_geo (E p)) i = ep_pen Q f).
  { intros i f x Hi Ef R. pose proof (mp_mesh _ _ _ _ _ _ MP p Hp) as O.
    destruct (facet_table_correct D (m p) O) as (fi' & Efi' & _ & RS). pose proof (el_table _ _ _ _ _ _ K) as T. assert (fi' = fi p) by congruence. subst fi'.
    destruct (RS i Hi) as (y & Ey & Ry). rewrite (el_pen _ _ _ _ _ _ K i y Ey). unfold ElasticityModel.prepare_penalty.
    rewrite (side_epenalty p i f y _ _ Hp Hi Ef Ry (fr_g0 _ _ _ _ Ry)), (side_epenalty p i f y _ _ Hp Hi Ef Ry (fr_g1 _ _ _ _ Ry)).
    pose proof (facet_elements _ _ _ _ _ _ MP p i y f Hp Hi Ry Ef) as EL. cbn [mesh_eproblem ep_pen]. rewrite EL.
    destruct (fi_up0 y =? fi_up1 y)%nat; cbn [negb]; [reflexivity|].
    destruct (fi_g0 y <? fi_g1 y)%nat; [reflexivity|]. f_equal. ring. }
  destruct SR. constructor; cbn [no_edata e_geo e_lam e_mu e_rhoInv e_force e_slip e_dir mesh_eproblem ep_ref ep_has_slip ep_has_dir with_egeometry p_dim p_N p_Nq p_nq p_W p_w p_EQ p_DxiQ p_matEQ p_E p_Dxi p_matE with_geometry]; auto.
  - intros e g Eg. destruct (V e g Eg) as [H1 H2]. split; [exact H1|]. split; [exact H2|]. exact (el_material _ _ _ _ _ _ K e g Eg).
  - intros i f x Hi Ef R. destruct (F i f x Hi Ef R) as (H1 & H2 & H3 & H4).
    split; [exact H1|]. split; [exact H2|]. split; [exact (PN i f x Hi Ef R)|]. split; [exact H3|exact H4].
Qed.
Lemma mesh_egeometry_ok : good_weights (p_Nq R_) (p_W R_) -> good_weights (p_nq R_) (p_w R_) ->
  (forall g l, (g < length elems)%nat -> (l < p_N R_)%nat -> 0 <= e_lam E_ g l /\ 0 < e_mu E_ g l) ->
  (forall q, (q < p_Nq R_)%nat -> convex (p_N R_) (p_matEQ R_ q)) ->
  (forall l q, (l < D + 1)%nat -> (q < p_nq R_)%nat -> convex (p_N R_) (p_matE R_ l q)) ->
  egeometry_ok Q elems facets.
Proof.
  intros GW Gw K0 CQ Cq. destruct (mesh_good G procs elems facets bc m MP VG R_ Hdim) as (_ & HJ & HL & HN2).
  assert (PO : forall c f, convex (p_N R_) c -> (forall l, (l < p_N R_)%nat -> 0 <= f l) -> 0 <= rsum (p_N R_) (fun l => c l * f l)).
  { intros c f [C1 _] H. apply rsum_nonneg. intros l Hl. apply Rmult_le_pos; auto. }
  split; cbn [mesh_eproblem ep_ref ep_nl ep_n with_egeometry e_geo e_lam e_mu with_geometry p_dim p_N p_Nq p_nq p_W p_w p_J].
  - apply GW.
  - apply Gw.
  - intros g q Hg _. apply Rlt_le, (HJ g q Hg).
  - intros g Hg. apply (good_weights_pos (p_Nq R_) (p_W R_)); auto.
  - intros f Hf. apply (good_weights_pos (p_nq R_) (p_w R_)); auto. intros q _. apply (HL f q Hf).
  - intros f q Hf _. apply Rlt_le, HL; auto.
  - intros f g q Hf Hg _. rewrite Hdim. apply HN2; auto.
  - exact HN.
  - exact K0.
  - intros g q Hg Hq. split.
    + apply (PO (p_matEQ R_ q) (e_lam E_ g)); auto. intros l Hl. apply K0; auto.
    + destruct (convex_between (p_N R_) (p_matEQ R_ q) (e_mu E_ g) HN (CQ q Hq)) as [(l & Hl & L) _]. exists l. split; auto.
      eapply Rle_trans; [exact L|]. apply Req_le, rsum_ext. intros. apply Rmult_comm.
  - intros f g q Hf Hg Hq. pose proof (facet_number_lt G procs elems facets bc m MP VG f g Hf Hg) as Hl.
    assert (Hgl : (g < length elems)%nat) by (apply (in_elems elems f g Hg)). pose proof (Cq _ q Hl Hq) as C. split; [|split].
    + apply (PO _ (e_lam E_ g) C). intros l L. apply K0; auto.
    + apply (PO _ (e_mu E_ g) C). intros l L. apply Rlt_le, K0; auto.
    + destruct (convex_between (p_N R_) (p_matE R_ (facet_number D elems f g) q) (fun l => INR (p_dim R_) * e_lam E_ g l + 2 * e_mu E_ g l) HN C) as [_ (l & L1 & L)]. exists l. split; auto.
      eapply Rle_trans; [|exact L]. apply Req_le. unfold lam_on, mu_on. cbn [mesh_eproblem ep_ref ep_loc with_egeometry e_geo e_lam e_mu with_geometry p_N p_matE].
      rewrite <- !rsum_scale, <- rsum_plus. apply rsum_ext. intros. ring.
Qed.
End Mesh.

(** C64: every rank computes Jacobians, normals, lengths and penalties from the vertices of its own
    part of the mesh.  All ranks together then assemble the matrix of the symmetric interior penalty
    form of elasticity on the whole mesh, with the penalty stated in [elastic_penalty]; the matrix is
    symmetric, and positive semidefinite if the inverse trace inequality holds with the constant that
    the code uses. *)
Theorem mesh_gives_elastic_interior_penalty : forall G procs elems facets bc m E_ degree fi E, let R_ := e_geo E_ in
  mesh_parts (gs_D G) procs elems facets bc m -> valid_geometry G elems facets -> p_dim R_ = gs_D G -> (1 <= degree)%nat -> (0 < p_N R_)%nat ->
  (forall p, (p < procs)%nat -> elastic_rank G E_ degree (m p) (fi p) (E p)) ->
  let Q := mesh_eproblem G elems E_ degree in let n := (p_N R_ * gs_D G)%nat in
  exists A, (forall p, (p < procs)%nat -> map_opt (to_global (m p)) (assemble (m p) (fi p) (elasticity_mat (E p))) = Some (A p)) /\
    (forall U V, pairing n (flat_map A (seq 0 procs)) V U = elastic_form Q elems facets bc U V) /\
    (forall U V, pairing n (flat_map A (seq 0 procs)) V U = pairing n (flat_map A (seq 0 procs)) U V) /\
    (good_weights (p_Nq R_) (p_W R_) -> good_weights (p_nq R_) (p_w R_) ->
     (forall g l, (g < length elems)%nat -> (l < p_N R_)%nat -> 0 <= e_lam E_ g l /\ 0 < e_mu E_ g l) ->
     (forall q, (q < p_Nq R_)%nat -> convex (p_N R_) (p_matEQ R_ q)) ->
     (forall l q, (l < gs_D G + 1)%nat -> (q < p_nq R_)%nat -> convex (p_N R_) (p_matE R_ l q)) ->
     etrace_inequality Q elems facets degree ->
     forall U, 0 <= pairing n (flat_map A (seq 0 procs)) U U).
Proof.
  intros G procs elems facets bc m E_ degree fi E R_ MP VG Hd Hdeg HN RK Q n.
  assert (RD : forall p, (p < procs)%nat -> erank_data (gs_D G) Q (m p) (no_edata E p) /\ p_method (e_geo (no_edata E p)) = IP /\ facet_table (gs_D G) (m p) = Some (fi p)).
  { intros p Hp. apply (mesh_erank_data G procs elems facets bc m MP VG E_ Hd degree Hdeg fi E RK HN p Hp). }
  pose proof (mesh_eproblem_ok G procs elems facets bc m MP VG E_ Hd degree) as PO.
  assert (En : block_size (ep_ref Q) = n) by (unfold block_size, n; cbn; fold R_; rewrite Hd; reflexivity).
  destruct (elasticity_assembly_is_interior_penalty (gs_D G) procs elems facets bc m Q (no_edata E) fi MP PO RD) as (A & b & HA & _ & EQ).
  cbn zeta in EQ. rewrite En in EQ.
  exists A. split; [exact HA|]. split; [intros U V; apply (EQ U V)|]. split.
  - intros U V. rewrite (proj1 (EQ U V)), (proj1 (EQ V U)). apply elastic_form_symmetric.
  - intros GW Gw K0 CQ Cq TI. rewrite <- En.
    apply (elasticity_matrix_positive (gs_D G) procs elems facets bc m Q (no_edata E) fi degree A MP PO RD); auto.
    + intros p i x Hp Ex. exact (el_pen _ _ _ _ _ _ (RK p Hp) i x Ex).
    + destruct (vg_dim _ _ _ VG) as [-> | ->]; lia.
    + apply (mesh_egeometry_ok G procs elems facets bc m MP VG E_ Hd degree HN); auto.
Qed.
Print Assumptions mesh_gives_elastic_interior_penalty.
