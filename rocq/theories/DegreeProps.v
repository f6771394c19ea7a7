(** Property theorems: on straight meshes the matrices are positive semidefinite for every polynomial
    degree (C76). *)
Require Import List Arith Lia Bool Reals Lra Psatz FunctionalExtensionality Sorting.Sorted.
Require Import Verif.Base Verif.LinAlg Verif.SimplexModel Verif.SimplexProofs Verif.LocalMeshModel Verif.LocalMeshProps Verif.TopoModel Verif.TopoSpec Verif.TopoProofs Verif.TopoProps
  Verif.AssembleModel Verif.AssembleSpec Verif.AssembleProofs Verif.AssembleProps Verif.MatFree Verif.FaultModel Verif.PoissonModel Verif.PenaltyModel
  Verif.SipSpec Verif.SipProofs Verif.SipRank Verif.SipProps Verif.CoerciveProps
  Verif.GeometryModel Verif.GeometryProofs Verif.GeometrySpec Verif.GeometryProps Verif.GeometryStraight Verif.MeshSpec Verif.MeshProofs Verif.MeshPoissonProps
  Verif.BasisSpec Verif.IntegralSpec Verif.DubinerProofs Verif.DegreeSpec Verif.DegreeProofs
  Verif.ElasticityModel Verif.ElasticitySpec Verif.ElasticityProofs Verif.ElasticFormSpec Verif.ElasticFormProofs Verif.ElasticFormRank Verif.ElasticFormProps
  Verif.ElasticCoerciveProps Verif.ElasticCflModel Verif.ElasticCflProps Verif.MeshElasticSpec Verif.MeshElasticProps.
Import ListNotations.
Local Open Scope R_scope.

Section Mesh.
Variables (G : geo_setup) (procs : nat) (elems facets : list (list nat)) (bc : list nat -> nat) (m : nat -> topo_mesh).
Local Notation D := (gs_D G).
Hypothesis ST : straight G.
Hypothesis MP : mesh_parts D procs elems facets bc m.
Hypothesis VG : valid_geometry G elems facets.
Variables (k : nat) (phi : nat -> (nat -> R) -> R) (R_ : pdata).
Hypothesis RD : reference_of_degree D k (gs_xi G) (gs_chi G) phi R_.
Local Notation N := (p_N R_). Local Notation Xi q := (gs_xi G q). Local Notation Fp s q := (facet_param D (ref_facet D s) (gs_chi G q)).
Local Notation edges g := (edge_matrix (gs_X G) (nth g elems [])).
Lemma dims : (D = 2 \/ D = 3)%nat. Proof. exact (vg_dim _ _ _ VG). Qed.
Lemma jac plex x i j : (i < D)%nat -> (j < D)%nat -> jacobian_at G plex x i j = edge_matrix (gs_X G) plex i j.
Proof. intros Hi Hj. apply (proj2 (straight_elements G plex x i ST Hi) j Hj). Qed.
Definition volume_element (g : nat) : R := Rabs (geo_det D (edges g)).
Lemma const_J g q : p_J (with_geometry G elems R_) g q = volume_element g.
Proof.
  change (p_J (with_geometry G elems R_) g q) with (Rabs (geo_det D (jacobian_at G (nth g elems []) (Xi q)))).
  unfold volume_element. f_equal. apply geo_det_ext; [apply dims|]. intros. apply jac; auto.
Qed.
Lemma const_length f q : mesh_length G elems f q = mesh_length G elems f 0.
Proof.
  unfold mesh_length. destruct (elements_of elems f) as [|g r]; [reflexivity|]. unfold mesh_point, point_data, prepare_bndskl. cbn [fq_length]. unfold vnorm. f_equal. unfold vdot.
  apply rsum_ext. intros i Hi. assert (E : forall q, geo_normal D (geo_det D (jacobian_at G (nth g elems []) (Fp (facet_number D elems f g) q))) (geo_inverse D (jacobian_at G (nth g elems []) (Fp (facet_number D elems f g) q))) (ref_normal D (ref_facet D (facet_number D elems f g))) i
     = geo_normal D (geo_det D (edges g)) (geo_inverse D (edges g)) (ref_normal D (ref_facet D (facet_number D elems f g))) i); [|now rewrite !E].
  intro q'. unfold geo_normal. rewrite (geo_det_ext D _ (edges g) dims (fun i j => jac _ _ i j)). f_equal. apply rsum_ext. intros j Hj. f_equal.
  apply geo_inverse_ext; auto using dims. intros. apply jac; auto.
Qed.
Lemma derivatives : exists dphi : nat -> nat -> (nat -> R) -> R,
  (forall l e, (l < N)%nat -> (e < D)%nat -> polynomial D (k - 1) (dphi l e)) /\
  (forall l e q, (l < N)%nat -> (e < D)%nat -> (q < p_Nq R_)%nat -> p_DxiQ R_ l e q = dphi l e (Xi q)) /\
  (forall s l e q, (s < D + 1)%nat -> (l < N)%nat -> (e < D)%nat -> (q < p_nq R_)%nat -> p_Dxi R_ s l e q = dphi l e (Fp s q)).
Proof.
  destruct (finite_choice N (nat -> (nat -> R) -> R) (fun _ _ => 0) (fun l d => forall e, (e < D)%nat -> polynomial D (k - 1) (d e) /\ forall x, partial_derivative (phi l) e x (d e x))) as (d & Hd).
  { intros l Hl. destruct (finite_choice D ((nat -> R) -> R) (fun _ => 0) (fun e g => polynomial D (k - 1) g /\ forall x, partial_derivative (phi l) e x (g x))) as (d & Hd); [|exists d; exact Hd].
    intros e He. destruct (poly_partial D k (phi l) e (rd_phi _ _ _ _ _ _ RD l Hl) He) as (g & G1 & _ & G2). exists g. split; assumption. }
  exists d. split; [intros l e Hl He; apply (Hd l Hl e He)|]. split.
  - intros l e q Hl He Hq. eapply uniqueness_limite; [apply (rd_DxiQ _ _ _ _ _ _ RD l e q Hl He Hq)|apply (Hd l Hl e He)].
  - intros s l e q Hs Hl He Hq. eapply uniqueness_limite; [apply (rd_Dxi _ _ _ _ _ _ RD s l e q Hs Hl He Hq)|apply (Hd l Hl e He)].
Qed.
(** The gradient of sum u_l phi_l is a polynomial of degree k - 1 in the reference coordinates. *)
Lemma gradients g : exists dx : (nat -> R) -> nat -> (nat -> R) -> R, forall u i, (i < D)%nat ->
  polynomial D (k - 1) (dx u i) /\
  (forall q, (q < p_Nq R_)%nat -> rsum N (fun l => rsum D (fun e => p_GQ (with_geometry G elems R_) g e i q * p_DxiQ R_ l e q) * u l) = dx u i (Xi q)) /\
  (forall f q, (facet_number D elems f g < D + 1)%nat -> (q < p_nq R_)%nat ->
     rsum N (fun l => rsum D (fun e => mesh_inverse G elems f g e i q * p_Dxi R_ (facet_number D elems f g) l e q) * u l) = dx u i (Fp (facet_number D elems f g) q)).
Proof.
  destruct derivatives as (d & D1 & D2 & D3).
  exists (fun u i x => rsum N (fun l => u l * rsum D (fun e => geo_inverse D (edges g) e i * d l e x))). intros u i Hi. split; [|split].
  - apply poly_rsum. intros l Hl. apply poly_scale. apply poly_rsum. intros e He. apply poly_scale. auto.
  - intros q Hq. apply rsum_ext. intros l Hl. rewrite Rmult_comm. f_equal. apply rsum_ext. intros e He. rewrite D2 by auto. f_equal.
    change (geo_inverse D (jacobian_at G (nth g elems []) (Xi q)) e i = geo_inverse D (edges g) e i). apply geo_inverse_ext; auto using dims. intros. apply jac; auto.
  - intros f q Hs Hq. apply rsum_ext. intros l Hl. rewrite Rmult_comm. f_equal. apply rsum_ext. intros e He. rewrite D3 by auto. f_equal.
    unfold mesh_inverse. apply geo_inverse_ext; auto using dims. intros. apply jac; auto.
Qed.
Lemma element_pos g : (g < length elems)%nat -> 0 < volume_element g.
Proof. intro Hg. destruct (mesh_good G procs elems facets bc m MP VG R_ (rd_dim _ _ _ _ _ _ RD)) as (_ & HJ & _). rewrite <- (const_J g 0). apply (HJ g 0%nat Hg). Qed.
Lemma length_pos f q : In f facets -> 0 < mesh_length G elems f q.
Proof. intro Hf. destruct (mesh_good G procs elems facets bc m MP VG R_ (rd_dim _ _ _ _ _ _ RD)) as (_ & _ & HL & _). apply HL; auto. Qed.

(** The inverse trace inequality for a function whose square is a sum of squares of polynomials of
    degree n, at the quadrature points. *)
Lemma mesh_trace n f g (F : (nat -> R) -> R) (FQ Fq : nat -> R) : (n <= k)%nat -> In f facets -> In g (elements_of elems f) -> squares D n F ->
  (forall q, (q < p_Nq R_)%nat -> FQ q = F (Xi q)) -> (forall q, (q < p_nq R_)%nat -> Fq q = F (Fp (facet_number D elems f g) q)) ->
  rsum (p_nq R_) (fun q => p_w R_ q * mesh_length G elems f q * Fq q)
  <= inverse_trace D n * (rsum (p_nq R_) (fun q => p_w R_ q * mesh_length G elems f q) / rsum (p_Nq R_) (fun q => p_W R_ q * p_J (with_geometry G elems R_) g q))
     * rsum (p_Nq R_) (fun q => p_W R_ q * p_J (with_geometry G elems R_) g q * FQ q).
Proof.
  intros Hn Hf Hg S EQ Eq. pose proof (in_elems elems f g Hg) as Hgl. pose proof (facet_number_lt G procs elems facets bc m MP VG f g Hf Hg) as Hs.
  pose proof (squares_scaled D k (gs_xi G) (gs_chi G) phi R_ dims RD n _ F (mesh_length G elems f 0) (volume_element g) Hn Hs S (Rlt_le _ _ (length_pos f 0 Hf)) (element_pos g Hgl)) as T.
  rewrite (rsum_ext (p_nq R_) _ (fun q => p_w R_ q * mesh_length G elems f 0 * F (Fp (facet_number D elems f g) q))) by (intros; rewrite Eq, const_length by auto; reflexivity).
  rewrite (rsum_ext (p_nq R_) (fun q => p_w R_ q * mesh_length G elems f q) (fun q => p_w R_ q * mesh_length G elems f 0)) by (intros; rewrite const_length; reflexivity).
  rewrite (rsum_ext (p_Nq R_) (fun q => p_W R_ q * p_J _ g q * FQ q) (fun q => p_W R_ q * volume_element g * F (Xi q))) by (intros; rewrite EQ, const_J by auto; reflexivity).
  rewrite (rsum_ext (p_Nq R_) (fun q => p_W R_ q * p_J _ g q) (fun q => p_W R_ q * volume_element g)) by (intros; rewrite const_J; reflexivity).
  exact T.
Qed.
Lemma degree_trace_inequality degree : trace_inequality (mesh_problem G elems R_ degree) elems facets k.
Proof.
  intros f g u Hf Hg. destruct (gradients g) as (dx & Hdx). pose proof (facet_number_lt G procs elems facets bc m MP VG f g Hf Hg) as Hs.
  unfold CoerciveProps.grad2_on, CoerciveProps.grad2, facet_area, elem_volume. change (p_dim (pb_ref (mesh_problem G elems R_ degree))) with (p_dim R_). rewrite (rd_dim _ _ _ _ _ _ RD).
  apply (mesh_trace (k - 1) f g (fun x => rsum D (fun i => dx u i x * dx u i x))); auto; [lia| | |].
  - apply sq_rsum. intros i Hi. apply (sq_one D (k - 1) (dx u i)); [apply Hdx; auto|reflexivity].
  - intros q Hq. apply rsum_ext. intros i Hi. unfold grad. change (p_dim (pb_ref (mesh_problem G elems R_ degree))) with (p_dim R_). rewrite (rd_dim _ _ _ _ _ _ RD).
    destruct (Hdx u i Hi) as (_ & E & _). rewrite <- E by auto. reflexivity.
  - intros q Hq. apply rsum_ext. intros i Hi. unfold grad_on. change (p_dim (pb_ref (mesh_problem G elems R_ degree))) with (p_dim R_). rewrite (rd_dim _ _ _ _ _ _ RD).
    destruct (Hdx u i Hi) as (_ & _ & E). rewrite <- E by auto. reflexivity.
Qed.
Lemma range_geometry_ok degree : (forall g l, (g < length elems)%nat -> (l < N)%nat -> 0 < p_K R_ g l) -> (forall g, (g < length elems)%nat -> in_range D R_ (p_K R_ g)) ->
  geometry_ok (mesh_problem G elems R_ degree) elems facets.
Proof.
  intros K0 KR. destruct (mesh_good G procs elems facets bc m MP VG R_ (rd_dim _ _ _ _ _ _ RD)) as (_ & HJ & HL & HN2).
  pose proof (rd_W _ _ _ _ _ _ RD) as GW. pose proof (rd_w _ _ _ _ _ _ RD) as Gw.
  split; cbn [mesh_problem pb_ref pb_nl pb_n with_geometry p_dim p_N p_Nq p_nq p_W p_w p_J p_K].
  - apply GW.
  - apply Gw.
  - intros g q Hg _. apply Rlt_le, (HJ g q Hg).
  - intros g Hg. apply (good_weights_pos (p_Nq R_) (p_W R_)); auto.
  - intros f Hf. apply (good_weights_pos (p_nq R_) (p_w R_)); auto. intros q _. apply (HL f q Hf).
  - intros f q Hf _. apply Rlt_le, HL; auto.
  - intros f g q Hf Hg _. rewrite (rd_dim _ _ _ _ _ _ RD). apply HN2; auto.
  - exact (rd_N _ _ _ _ _ _ RD).
  - exact K0.
  - intros g q Hg Hq. destruct (proj1 (proj1 (KR g Hg) q Hq)) as (l & Hl & L). exists l. split; auto.
    eapply Rle_trans; [exact L|]. apply Req_le, rsum_ext. intros. apply Rmult_comm.
  - intros f g q Hf Hg Hq. pose proof (facet_number_lt G procs elems facets bc m MP VG f g Hf Hg) as Hl. pose proof (in_elems elems f g Hg) as Hgl.
    destruct (proj2 (KR g Hgl) _ q Hl Hq) as [(a & Ha & La) (b & Hb & Lb)].
    assert (E : kappa_on (mesh_problem G elems R_ degree) f g q = rsum N (fun t => p_matE R_ (facet_number D elems f g) q t * p_K R_ g t)) by (apply rsum_ext; intros; apply Rmult_comm).
    rewrite E. split; [|exists b; split; auto]. eapply Rle_trans; [apply Rlt_le, (K0 g a Hgl Ha)|exact La].
Qed.
End Mesh.

(** C76: on every mesh of straight triangles or tetrahedra, for every polynomial degree, number of ranks
    and partition, the ranks assemble a symmetric positive semidefinite matrix for the Poisson problem,
    if the coefficient is positive at the nodes and at the quadrature points within the range of its
    nodal values. *)
Theorem straight_mesh_positive_every_degree : forall G k phi procs elems facets bc m R_ fi P,
  mesh_parts (gs_D G) procs elems facets bc m -> straight G -> valid_geometry G elems facets -> (1 <= k)%nat ->
  reference_of_degree (gs_D G) k (gs_xi G) (gs_chi G) phi R_ ->
  (forall g l, (g < length elems)%nat -> (l < p_N R_)%nat -> 0 < p_K R_ g l) -> (forall g, (g < length elems)%nat -> in_range (gs_D G) R_ (p_K R_ g)) ->
  (forall p, (p < procs)%nat -> poisson_rank G R_ k (m p) (fi p) (P p)) ->
  exists A, (forall p, (p < procs)%nat -> map_opt (to_global (m p)) (assemble (m p) (fi p) (poisson_mat (P p))) = Some (A p)) /\
    (forall U V, pairing (p_N R_) (flat_map A (seq 0 procs)) V U = sip_form (mesh_problem G elems R_ k) elems facets bc U V) /\
    (forall U V, pairing (p_N R_) (flat_map A (seq 0 procs)) V U = pairing (p_N R_) (flat_map A (seq 0 procs)) U V) /\
    (forall U, 0 <= pairing (p_N R_) (flat_map A (seq 0 procs)) U U).
Proof.
  intros G k phi procs elems facets bc m R_ fi P MP ST VG Hk RD K0 KR RK. set (Q := mesh_problem G elems R_ k).
  pose proof (rd_dim _ _ _ _ _ _ RD) as Hd. pose proof (rd_N _ _ _ _ _ _ RD) as HN.
  assert (RDt : forall p, (p < procs)%nat -> rank_data (gs_D G) Q (m p) (no_data m R_ P p) /\ p_method (no_data m R_ P p) = IP /\ facet_table (gs_D G) (m p) = Some (fi p)).
  { intros p Hp. apply (mesh_rank_data G procs elems facets bc m MP VG R_ Hd k Hk fi P RK HN p Hp). }
  destruct (mesh_gives_interior_penalty G procs elems facets bc m R_ k fi P MP VG Hd Hk HN RK) as (A & HA & HF & HS & _).
  exists A. split; [exact HA|]. split; [exact HF|]. split; [exact HS|].
  change (p_N R_) with (p_N (pb_ref Q)).
  apply (assembled_matrix_positive (gs_D G) procs elems facets bc m Q (no_data m R_ P) fi k A MP (mesh_problem_ok G procs elems facets bc m MP VG R_ Hd k) RDt); auto.
  - intros p i x Hp Ex. exact (pr_pen _ _ _ _ _ _ (RK p Hp) i x Ex).
  - destruct (vg_dim _ _ _ VG) as [-> | ->]; lia.
  - apply (range_geometry_ok G procs elems facets bc m MP VG k phi R_ RD k K0 KR).
  - apply (degree_trace_inequality G procs elems facets bc m ST MP VG k phi R_ RD k).
Qed.
Print Assumptions straight_mesh_positive_every_degree.

(** * Elasticity *)
Section Elastic.
Variables (G : geo_setup) (procs : nat) (elems facets : list (list nat)) (bc : list nat -> nat) (m : nat -> topo_mesh).
Local Notation D := (gs_D G).
Hypothesis ST : straight G.
Hypothesis MP : mesh_parts D procs elems facets bc m.
Hypothesis VG : valid_geometry G elems facets.
Variables (k : nat) (phi : nat -> (nat -> R) -> R) (E_ : edata).
Local Notation R_ := (e_geo E_).
Hypothesis RD : reference_of_degree D k (gs_xi G) (gs_chi G) phi R_.
Local Notation N := (p_N R_). Local Notation Xi q := (gs_xi G q). Local Notation Fp s q := (facet_param D (ref_facet D s) (gs_chi G q)).
Variable degree : nat.
Local Notation Q := (mesh_eproblem G elems E_ degree).
Lemma degree_strain_trace : etrace_inequality Q elems facets k.
Proof.
  intros f g u Hf Hg. destruct (gradients G elems facets ST VG k phi R_ RD g) as (dx & Hdx). pose proof (facet_number_lt G procs elems facets bc m MP VG f g Hf Hg) as Hs.
  set (c i l := coef Q u i l). set (H i j x := (dx (c i) j x + dx (c j) i x) * / 2).
  unfold strain2_on, strain2, efacet_area, eelem_volume. change (p_dim (e_geo (ep_ref Q))) with (p_dim R_). rewrite (rd_dim _ _ _ _ _ _ RD).
  apply (mesh_trace G procs elems facets bc m ST MP VG k phi R_ RD (k - 1) f g (fun x => rsum D (fun i => rsum D (fun j => H i j x * H i j x)))); auto; [lia| | |].
  - apply sq_rsum. intros i Hi. apply (sq_rsum D (k - 1) D (fun j x => H i j x * H i j x)). intros j Hj. apply (sq_one D (k - 1) (H i j)); [|reflexivity].
    eapply poly_eq; [|apply (poly_scale D (k - 1) (/ 2)); apply poly_plus; [apply (Hdx (c i) j Hj)|apply (Hdx (c j) i Hi)]]. intro x. cbv beta. unfold H. ring.
  - intros q Hq. unfold sym2. change (p_dim (e_geo (ep_ref Q))) with (p_dim R_). rewrite (rd_dim _ _ _ _ _ _ RD).
    apply rsum_ext. intros i Hi. apply rsum_ext. intros j Hj.
    assert (E : forall i j, (j < D)%nat -> dgrad Q g u q i j = dx (c i) j (Xi q)).
    { intros i' j' Hj'. destruct (Hdx (c i') j' Hj') as (_ & E & _). rewrite <- E by auto. unfold dgrad. change (p_dim (e_geo (ep_ref Q))) with (p_dim R_). rewrite (rd_dim _ _ _ _ _ _ RD). reflexivity. }
    rewrite !E by auto. reflexivity.
  - intros q Hq. unfold sym2. change (p_dim (e_geo (ep_ref Q))) with (p_dim R_). rewrite (rd_dim _ _ _ _ _ _ RD).
    apply rsum_ext. intros i Hi. apply rsum_ext. intros j Hj.
    assert (E : forall i j, (j < D)%nat -> dgrad_on Q f g u q i j = dx (c i) j (Fp (facet_number D elems f g) q)).
    { intros i' j' Hj'. destruct (Hdx (c i') j' Hj') as (_ & _ & E). rewrite <- E by auto. unfold dgrad_on. change (p_dim (e_geo (ep_ref Q))) with (p_dim R_). rewrite (rd_dim _ _ _ _ _ _ RD). reflexivity. }
    rewrite !E by auto. reflexivity.
Qed.
(** The inequality for the displacement itself. *)
Lemma degree_value_trace f g u : In f facets -> In g (elements_of elems f) -> value2 Q f g u <= inverse_trace D k * (efacet_area Q f / eelem_volume Q g) * norm2 Q g u.
Proof.
  intros Hf Hg. pose proof (facet_number_lt G procs elems facets bc m MP VG f g Hf Hg) as Hs.
  set (v i x := rsum N (fun l => coef Q u i l * phi l x)).
  unfold value2, norm2, efacet_area, eelem_volume. change (p_dim (e_geo (ep_ref Q))) with (p_dim R_). rewrite (rd_dim _ _ _ _ _ _ RD).
  apply (mesh_trace G procs elems facets bc m ST MP VG k phi R_ RD k f g (fun x => rsum D (fun i => v i x * v i x))); auto.
  - apply sq_rsum. intros i Hi. apply (sq_one D k (v i)); [|reflexivity]. apply poly_rsum. intros l Hl. apply poly_scale. apply (rd_phi _ _ _ _ _ _ RD l Hl).
  - intros q Hq. apply rsum_ext. intros i Hi. assert (E : disp Q u q i = v i (Xi q)); [|now rewrite E].
    apply rsum_ext. intros l Hl. rewrite Rmult_comm. f_equal. apply (rd_EQ _ _ _ _ _ _ RD l q Hl Hq).
  - intros q Hq. apply rsum_ext. intros i Hi. assert (E : disp_on Q f g u q i = v i (Fp (facet_number D elems f g) q)); [|now rewrite E].
    apply rsum_ext. intros l Hl. rewrite Rmult_comm. f_equal. apply (rd_E _ _ _ _ _ _ RD _ l q Hs Hl Hq).
Qed.
Hypothesis K0 : forall g l, (g < length elems)%nat -> (l < N)%nat -> 0 <= e_lam E_ g l /\ 0 < e_mu E_ g l.
Hypothesis KL : forall g, (g < length elems)%nat -> in_range D R_ (e_lam E_ g).
Hypothesis KM : forall g, (g < length elems)%nat -> in_range D R_ (e_mu E_ g).
Hypothesis KS : forall g, (g < length elems)%nat -> in_range D R_ (fun l => INR D * e_lam E_ g l + 2 * e_mu E_ g l).
Lemma range_egeometry_ok : egeometry_ok Q elems facets.
Proof.
  destruct (mesh_good G procs elems facets bc m MP VG R_ (rd_dim _ _ _ _ _ _ RD)) as (_ & HJ & HL & HN2).
  pose proof (rd_W _ _ _ _ _ _ RD) as GW. pose proof (rd_w _ _ _ _ _ _ RD) as Gw.
  split; cbn [mesh_eproblem ep_ref ep_nl ep_n with_egeometry e_geo e_lam e_mu with_geometry p_dim p_N p_Nq p_nq p_W p_w p_J].
  - apply GW.
  - apply Gw.
  - intros g q Hg _. apply Rlt_le, (HJ g q Hg).
  - intros g Hg. apply (good_weights_pos (p_Nq R_) (p_W R_)); auto.
  - intros f Hf. apply (good_weights_pos (p_nq R_) (p_w R_)); auto. intros q _. apply (HL f q Hf).
  - intros f q Hf _. apply Rlt_le, HL; auto.
  - intros f g q Hf Hg _. rewrite (rd_dim _ _ _ _ _ _ RD). apply HN2; auto.
  - exact (rd_N _ _ _ _ _ _ RD).
  - exact K0.
  - intros g q Hg Hq. destruct (proj1 (proj1 (KL g Hg) q Hq)) as (a & Ha & La). destruct (proj1 (proj1 (KM g Hg) q Hq)) as (b & Hb & Lb). split.
    + eapply Rle_trans; [apply (K0 g a Hg Ha)|exact La].
    + exists b. split; auto.
  - intros f g q Hf Hg Hq. pose proof (facet_number_lt G procs elems facets bc m MP VG f g Hf Hg) as Hl. pose proof (in_elems elems f g Hg) as Hgl.
    destruct (proj1 (proj2 (KL g Hgl) _ q Hl Hq)) as (a & Ha & La). destruct (proj1 (proj2 (KM g Hgl) _ q Hl Hq)) as (b & Hb & Lb).
    destruct (proj2 (proj2 (KS g Hgl) _ q Hl Hq)) as (c & Hc & Lc). split; [|split].
    + eapply Rle_trans; [apply (K0 g a Hgl Ha)|exact La].
    + eapply Rle_trans; [apply Rlt_le, (K0 g b Hgl Hb)|exact Lb].
    + exists c. split; auto. rewrite (rd_dim _ _ _ _ _ _ RD). eapply Rle_trans; [|exact Lc]. apply Req_le. unfold lam_on, mu_on. cbn [mesh_eproblem ep_ref ep_loc with_egeometry e_geo e_lam e_mu with_geometry p_N p_matE].
      rewrite <- !rsum_scale, <- rsum_plus. apply rsum_ext. intros. ring.
Qed.
(** The inverse inequality for gradients is assumed. *)
Definition gradient_inequality (C : R) : Prop := forall g u, (g < length elems)%nat ->
  grad2 Q g u <= C * (boundary_area Q elems facets g / eelem_volume Q g) * (boundary_area Q elems facets g / eelem_volume Q g) * norm2 Q g u.
Lemma degree_wave C : 0 <= C -> gradient_inequality C -> (forall g l, (g < length elems)%nat -> (l < N)%nat -> 0 < e_rhoInv E_ g l) ->
  (forall g, (g < length elems)%nat -> in_range D R_ (e_rhoInv E_ g)) -> wave_ok Q elems facets k C.
Proof.
  intros HC HG Rho RR. split; auto.
  - intros f g u Hf Hg. change (p_dim (e_geo (ep_ref Q))) with (p_dim R_). rewrite (rd_dim _ _ _ _ _ _ RD). apply degree_value_trace; auto.
  - change (p_dim (e_geo (ep_ref Q))) with (p_dim R_). rewrite (rd_dim _ _ _ _ _ _ RD). intros g q Hg Hq. destruct (proj2 (proj1 (KS g Hg) q Hq)) as (c & Hc & Lc). exists c. split; auto.
    eapply Rle_trans; [|exact Lc]. apply Req_le. unfold lam_in, mu_in. cbn [mesh_eproblem ep_ref ep_loc with_egeometry e_geo e_lam e_mu with_geometry p_N p_matEQ].
    rewrite <- !rsum_scale, <- rsum_plus. apply rsum_ext. intros. ring.
  - intros g q Hg Hq. destruct (proj1 (RR g Hg) q Hq) as [(a & Ha & La) (b & Hb & Lb)]. split; [eapply Rlt_le_trans; [apply (Rho g a Hg Ha)|exact La]|exists b; split; auto].
Qed.
End Elastic.

(** C76, elasticity: the same for the elasticity matrix, lambda >= 0 and mu > 0; and with densities of at
    least one the time step bound that the ranks agree on satisfies dt^2 u^T A u <= u^T M u, if C is
    a constant of the inverse inequality for gradients. *)
Theorem straight_mesh_elastic_every_degree : forall G k phi procs elems facets bc m E_ fi E, let R_ := e_geo E_ in
  mesh_parts (gs_D G) procs elems facets bc m -> straight G -> valid_geometry G elems facets -> (1 <= k)%nat ->
  reference_of_degree (gs_D G) k (gs_xi G) (gs_chi G) phi R_ ->
  (forall g l, (g < length elems)%nat -> (l < p_N R_)%nat -> 0 <= e_lam E_ g l /\ 0 < e_mu E_ g l) ->
  (forall g, (g < length elems)%nat -> in_range (gs_D G) R_ (e_lam E_ g) /\ in_range (gs_D G) R_ (e_mu E_ g) /\ in_range (gs_D G) R_ (fun l => INR (gs_D G) * e_lam E_ g l + 2 * e_mu E_ g l)) ->
  (forall p, (p < procs)%nat -> elastic_rank G E_ k (m p) (fi p) (E p)) ->
  let n := (p_N R_ * gs_D G)%nat in let Q := mesh_eproblem G elems E_ k in
  exists A, (forall p, (p < procs)%nat -> map_opt (to_global (m p)) (assemble (m p) (fi p) (elasticity_mat (E p))) = Some (A p)) /\
    (forall U V, pairing n (flat_map A (seq 0 procs)) V U = elastic_form Q elems facets bc U V) /\
    (forall U V, pairing n (flat_map A (seq 0 procs)) V U = pairing n (flat_map A (seq 0 procs)) U V) /\
    (forall U, 0 <= pairing n (flat_map A (seq 0 procs)) U U) /\
    (forall C wr t sl dmax, 0 <= C -> gradient_inequality G elems facets E_ k C ->
     (forall g l, (g < length elems)%nat -> (l < p_N R_)%nat -> 0 < e_rhoInv E_ g l <= 1) -> (forall g, (g < length elems)%nat -> in_range (gs_D G) R_ (e_rhoInv E_ g)) ->
     (forall p, (p < procs)%nat -> interleaving (all_side_writes (gs_D G) (fi p)) (wr p) /\ do_writes (fresh_sides (gs_D G) (m p)) (wr p) = Some (t p)) ->
     (forall p e, (p < procs)%nat -> (e < tm_num_local (m p))%nat -> map_opt (fun d => nth_error (t p) (e * (gs_D G + 1) + d)) (seq 0 (gs_D G + 1)) = Some (sl p e)) ->
     0 < dmax ->
     let dt := cfl_time_step dmax procs (fun p => local_cfl_time_step dmax (tm_num_local (m p)) (fun e => cfl_dt (E p) k C e (sl p e))) in
     0 < dt /\ forall U, dt * dt * pairing n (flat_map A (seq 0 procs)) U U <= mass_form Q elems U U).
Proof.
  intros G k phi procs elems facets bc m E_ fi E R_ MP ST VG Hk RD K0 KR RK n Q.
  pose proof (rd_dim _ _ _ _ _ _ RD) as Hd. pose proof (rd_N _ _ _ _ _ _ RD) as HN.
  assert (RDt : forall p, (p < procs)%nat -> erank_data (gs_D G) Q (m p) (no_edata E p) /\ p_method (e_geo (no_edata E p)) = IP /\ facet_table (gs_D G) (m p) = Some (fi p)).
  { intros p Hp. apply (mesh_erank_data G procs elems facets bc m MP VG E_ Hd k Hk fi E RK HN p Hp). }
  pose proof (mesh_eproblem_ok G procs elems facets bc m MP VG E_ Hd k) as PO.
  assert (En : block_size (ep_ref Q) = n) by (unfold block_size, n; cbn; fold R_; rewrite Hd; reflexivity).
  assert (GE : egeometry_ok Q elems facets) by (apply (range_egeometry_ok G procs elems facets bc m MP VG k phi E_ RD k K0); intros; apply KR; auto).
  pose proof (degree_strain_trace G procs elems facets bc m ST MP VG k phi E_ RD k) as TI.
  assert (D0 : (0 < gs_D G)%nat) by (destruct (vg_dim _ _ _ VG) as [-> | ->]; lia).
  destruct (mesh_gives_elastic_interior_penalty G procs elems facets bc m E_ k fi E MP VG Hd Hk HN RK) as (A & HA & HF & HS & _). fold R_ n in HF, HS.
  exists A. split; [exact HA|]. split; [exact HF|]. split; [exact HS|]. split.
  - rewrite <- En. apply (elasticity_matrix_positive (gs_D G) procs elems facets bc m Q (no_edata E) fi k A MP PO RDt); auto.
    intros p i x Hp Ex. exact (el_pen _ _ _ _ _ _ (RK p Hp) i x Ex).
  - intros C wr t sl dmax HC HG Rho RR TB SL Dm dt. rewrite <- En.
    apply (time_step_bounds_form (gs_D G) procs elems facets bc m Q (no_edata E) fi k C A wr t sl dmax); auto.
    + intros p i x Hp Ex. exact (el_pen _ _ _ _ _ _ (RK p Hp) i x Ex).
    + apply (degree_wave G procs elems facets bc m ST MP VG k phi E_ RD k); auto; [intros; apply KR; auto|intros; apply Rho; auto].
    + intros g l Hg Hl. apply Rho; auto.
Qed.
Print Assumptions straight_mesh_elastic_every_degree.

