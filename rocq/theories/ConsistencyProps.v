(** Property theorems: polynomial solutions of the Poisson problem solve the discrete equations (C79). *)
Require Import List Arith Lia Bool Reals Lra FunctionalExtensionality Sorting.Sorted.
Require Import Verif.Base Verif.LinAlg Verif.SimplexModel Verif.SimplexProofs Verif.LocalMeshModel Verif.TopoModel Verif.TopoSpec Verif.TopoProofs Verif.TopoProps
  Verif.AssembleModel Verif.AssembleSpec Verif.AssembleProofs Verif.AssembleProps Verif.MatFree Verif.FaultModel Verif.PoissonModel Verif.PenaltyModel
  Verif.SipSpec Verif.SipProofs Verif.SipRank Verif.SipProps Verif.CoerciveProps
  Verif.GeometryModel Verif.GeometryProofs Verif.GeometrySpec Verif.GeometryProps Verif.GeometryStraight Verif.MeshSpec Verif.MeshProofs Verif.MeshPoissonProps
  Verif.BasisSpec Verif.IntegralSpec Verif.DubinerProofs Verif.NodesConform Verif.ErrorSpec Verif.ErrorProofs Verif.DegreeSpec Verif.DegreeProofs Verif.DegreeProps
  Verif.TensorModel Verif.BasisModel Verif.QuadratureModel Verif.QuadratureSpec Verif.RefElementSpec Verif.RefElementModel Verif.RefElementProps Verif.OperatorRefModel Verif.OperatorRefProps
  Verif.ConsistencySpec Verif.ConsistencyProofs.
Import ListNotations.
Local Open Scope R_scope.

Section Consistent.
Variables (G : geo_setup) (procs : nat) (elems facets : list (list nat)) (bc : list nat -> nat) (m : nat -> topo_mesh).
Local Notation D := (gs_D G).
Hypothesis ST : straight G.
Hypothesis MP : mesh_parts D procs elems facets bc m.
Hypothesis VG : valid_geometry G elems facets.
Variables (k : nat) (phi : nat -> (nat -> R) -> R) (R_ : pdata).
Hypothesis Hk : (1 <= k)%nat.
Hypothesis RD : reference_of_degree D k (gs_xi G) (gs_chi G) phi R_.
Variables (c w : nat -> vec -> R) (dw : nat -> vec -> vec) (slip : list nat -> nat -> nat -> R) (value : list nat -> nat -> R) (U : nat -> nat -> R).
Hypothesis CS : classical_solution G elems facets bc (p_force R_) slip value (p_Nq R_) (p_nq R_) c w dw.
Hypothesis CO : coefficient_is G elems facets R_ c.
Hypothesis C1 : forall g, (g < length elems)%nat -> polynomial D 1 (c g).
Hypothesis RU : represents G elems R_ phi w U.
Local Notation Q := (data_problem G elems R_ k slip value).
Local Notation N := (p_N R_). Local Notation Xi q := (gs_xi G q). Local Notation Fp s q := (facet_param D (ref_facet D s) (gs_chi G q)).
Local Notation edges g := (edge_matrix (gs_X G) (nth g elems [])).
Let HD := dims G elems facets VG.

(** Values of the discrete functions. *)
Lemma value_is g V q : (q < p_Nq R_)%nat -> SipSpec.value Q g V q = fem phi R_ V (Xi q).
Proof. intro Hq. unfold SipSpec.value, fem. cbn [data_problem pb_ref mesh_problem with_geometry p_N p_EQ]. apply rsum_ext. intros l Hl. rewrite (rd_EQ _ _ _ _ _ _ RD) by auto. ring. Qed.
Lemma trace_is f g V q : In f facets -> In g (elements_of elems f) -> (q < p_nq R_)%nat -> trace Q f g V q = fem phi R_ V (Fp (facet_number D elems f g) q).
Proof.
  intros Hf Hg Hq. pose proof (facet_number_lt G procs elems facets bc m MP VG f g Hf Hg) as Hs.
  unfold trace, fem. cbn [data_problem pb_ref pb_loc mesh_problem with_geometry p_N p_E]. apply rsum_ext. intros l Hl. rewrite (rd_E _ _ _ _ _ _ RD) by auto. ring.
Qed.
Lemma trace_exact f g q : In f facets -> In g (elements_of elems f) -> (q < p_nq R_)%nat -> trace Q f g (U g) q = w g (place_on G elems f g q).
Proof. intros Hf Hg Hq. rewrite trace_is by auto. apply (RU g). apply (in_elems elems f g Hg). Qed.
Lemma kappa_is g q : (g < length elems)%nat -> (q < p_Nq R_)%nat -> kappa Q g q = c g (place_in G elems g (Xi q)).
Proof. intros. apply (proj1 CO); auto. Qed.
Lemma kappa_on_is f g q : In f facets -> In g (elements_of elems f) -> (q < p_nq R_)%nat -> kappa_on Q f g q = c g (place_on G elems f g q).
Proof. intros. apply (proj2 CO); auto. Qed.
(** The gradient of the discrete function with coefficients U is dw. *)
Lemma exact_gradient g : (g < length elems)%nat ->
  exists dx : nat -> vec -> R, (forall i, (i < D)%nat -> polynomial D (k - 1) (dx i)) /\ (forall i xi, (i < D)%nat -> dx i xi = dw g (place_in G elems g xi) i) /\
    (forall i q, (i < D)%nat -> (q < p_Nq R_)%nat -> grad Q g (U g) i q = dx i (Xi q)) /\
    (forall f i q, (i < D)%nat -> In f facets -> In g (elements_of elems f) -> (q < p_nq R_)%nat -> grad_on Q f g (U g) i q = dx i (Fp (facet_number D elems f g) q)).
Proof.
  intro Hg. destruct (fem_gradient G elems facets ST VG k phi R_ RD g (U g)) as (du & dx & H1 & H2 & H3 & H4). exists dx.
  split; [|split; [|split]].
  - intros i Hi. apply (poly_eq D (k - 1) (fun x => rsum D (fun e => geo_inverse D (edges g) e i * du e x))); [intro; symmetry; apply H2|].
    apply poly_rsum. intros e He. apply poly_scale. apply (H1 e He).
  - intros i xi Hi. rewrite H2. rewrite (rsum_ext D _ (fun e => geo_inverse D (edges g) e i * rsum D (fun j => dw g (place_in G elems g xi) j * edges g j e))).
    + apply inverse_contract; auto. apply (det_nonzero G procs elems facets bc m ST MP VG k phi R_ RD). exact Hg.
    + intros e He. f_equal. apply (place_chain G elems ST g (fem phi R_ (U g)) (w g) xi); auto.
      * intro x. symmetry. apply (RU g x Hg).
      * apply (cs_gradient _ _ _ _ _ _ _ _ _ _ _ _ CS g _ Hg).
      * apply (H1 e He).
  - intros i q Hi Hq. rewrite <- H3 by auto. unfold grad. cbn [data_problem pb_ref mesh_problem with_geometry p_N p_dim p_GQ p_DxiQ]. rewrite (rd_dim _ _ _ _ _ _ RD). reflexivity.
  - intros f i q Hi Hf Hgf Hq. rewrite <- H4 by (auto; apply (facet_number_lt G procs elems facets bc m MP VG f g Hf Hgf)).
    unfold grad_on. cbn [data_problem pb_ref pb_loc pb_G mesh_problem with_geometry p_N p_dim p_Dxi]. rewrite (rd_dim _ _ _ _ _ _ RD). reflexivity.
Qed.
Lemma grad_on_exact f g i q : (i < D)%nat -> In f facets -> In g (elements_of elems f) -> (q < p_nq R_)%nat -> grad_on Q f g (U g) i q = dw g (place_on G elems f g q) i.
Proof.
  intros Hi Hf Hg Hq. destruct (exact_gradient g (in_elems elems f g Hg)) as (dx & _ & E & _ & F). rewrite F by auto. apply E; auto.
Qed.

(** Flux of the solution through facet t of element g, against V. *)
Definition side_flux (V : nat -> nat -> R) (g t : nat) : R :=
  rsum (p_nq R_) (fun q => p_w R_ q * (rsum D (fun i => side_normal G elems g t i * (c g (place_in G elems g (Fp t q)) * dw g (place_in G elems g (Fp t q)) i)) * fem phi R_ (V g) (Fp t q))).
Lemma element_parts V g : (g < length elems)%nat -> vol_term Q g U V = vol_load Q g V + rsum (D + 1) (side_flux V g).
Proof.
  intro Hg. destruct (exact_gradient g Hg) as (dx & P1 & P2 & P3 & _).
  destruct (fem_gradient G elems facets ST VG k phi R_ RD g (V g)) as (dv & dxv & V1 & V2 & V3 & _).
  destruct (cs_equation _ _ _ _ _ _ _ _ _ _ _ _ CS) as (dflux & F1 & F2).
  unfold side_flux.
  rewrite <- (flux_parts G procs elems facets bc m ST MP VG k phi R_ Hk RD g (fun x i => c g x * dw g x i) (dflux g) (V g) dv dxv Hg); auto.
  - unfold vol_term, vol_load. change (p_Nq (pb_ref Q)) with (p_Nq R_). rewrite <- rsum_plus. apply rsum_ext. intros q Hq.
    rewrite kappa_is, value_is by auto. change (p_W (pb_ref Q) q) with (p_W R_ q). change (p_force (pb_ref Q) g q) with (p_force R_ g q).
    change (p_J (pb_ref Q) g q) with (p_J (with_geometry G elems R_) g q). change (p_dim (pb_ref Q)) with (p_dim R_). rewrite (rd_dim _ _ _ _ _ _ RD).
    rewrite (const_J G elems facets ST VG), (F2 g q Hg Hq). 
    rewrite (rsum_ext D (fun i => grad Q g (U g) i q * grad Q g (V g) i q) (fun i => dw g (place_in G elems g (Xi q)) i * dxv i (Xi q))).
    + rewrite (rsum_ext D (fun i => c g (place_in G elems g (Xi q)) * dw g (place_in G elems g (Xi q)) i * dxv i (Xi q)) (fun i => c g (place_in G elems g (Xi q)) * (dw g (place_in G elems g (Xi q)) i * dxv i (Xi q)))) by (intros; ring).
      rewrite rsum_scale. ring.
    + intros i Hi. rewrite P3, P2 by auto. f_equal. rewrite <- V3 by auto. unfold grad.
      cbn [data_problem pb_ref mesh_problem with_geometry p_N p_dim p_GQ p_DxiQ]. rewrite (rd_dim _ _ _ _ _ _ RD). reflexivity.
  - intros i Hi. apply (poly_eq D k (fun xi => c g (place_in G elems g xi) * dx i xi)); [intro xi; rewrite P2 by auto; reflexivity|].
    apply (poly_le D (1 + (k - 1))); [lia|]. apply poly_mult; [|apply P1; auto].
    apply (poly_through D D); [apply C1; auto|]. intros j Hj. apply place_poly; auto.
Qed.
Lemma side_flux_on V f g : In f facets -> In g (elements_of elems f) ->
  side_flux V g (facet_number D elems f g) = rsum (p_nq R_) (fun q => p_w R_ q * (rsum D (fun i => kappa_on Q f g q * grad_on Q f g (U g) i q * pb_n Q f g i q) * trace Q f g (V g) q)).
Proof.
  intros Hf Hg. unfold side_flux. apply rsum_ext. intros q Hq. rewrite trace_is, kappa_on_is by auto. do 2 f_equal. apply rsum_ext. intros i Hi.
  rewrite grad_on_exact by auto. change (pb_n Q f g i q) with (mesh_normal G elems f g i q). rewrite (mesh_side_normal G elems facets ST VG f g i q Hi).
  unfold place_on. ring.
Qed.
Lemma facet_consistent V f : In f facets ->
  facet_term Q elems bc f U V + lsum (fun g => side_flux V g (facet_number D elems f g)) (elements_of elems f) = facet_load Q elems bc f V.
Proof.
  intro Hf. destruct (facet_one_or_two _ _ _ _ _ _ MP f Hf) as (g & h & [E|E]); unfold facet_term, facet_load; rewrite E; cbn [lsum].
  - assert (Hg : In g (elements_of elems f)) by (rewrite E; left; reflexivity). rewrite (side_flux_on V f g Hf Hg), Rplus_0_r.
    destruct (bc f =? BC_Natural)%nat eqn:B.
    + apply Nat.eqb_eq in B. assert (HN : has_data (bc f) = false) by (rewrite B; reflexivity). rewrite HN, Rplus_0_l. apply rsum_zero. intros q Hq.
      rewrite (rsum_ext D _ (fun i => c g (place_on G elems f g q) * dw g (place_on G elems f g q) i * mesh_normal G elems f g i q)).
      * rewrite (cs_natural _ _ _ _ _ _ _ _ _ _ _ _ CS f g q Hf E Hq B). ring.
      * intros i Hi. rewrite kappa_on_is, grad_on_exact by auto. reflexivity.
    + apply Nat.eqb_neq in B. unfold bnd_term, bnd_load. change (p_nq (pb_ref Q)) with (p_nq R_). rewrite <- rsum_plus.
      change (p_dim (pb_ref Q)) with (p_dim R_). rewrite (rd_dim _ _ _ _ _ _ RD). change (p_w (pb_ref Q)) with (p_w R_).
      destruct (has_data (bc f)) eqn:HdT; [|symmetry; rewrite <- (rsum_zero (p_nq R_) (fun _ => 0)) by reflexivity; symmetry]; apply rsum_ext; intros q Hq;
        rewrite (trace_exact f g q Hf Hg Hq), (cs_boundary _ _ _ _ _ _ _ _ _ _ _ _ CS f g q Hf E Hq B), HdT;
        rewrite (rsum_ext D (fun i => kappa_on Q f g q * grad_on Q f g (U g) i q * (trace Q f g (V g) q * pb_n Q f g i q))
                  (fun i => kappa_on Q f g q * grad_on Q f g (U g) i q * pb_n Q f g i q * trace Q f g (V g) q)) by (intros; ring); rewrite rsum_scale_r.
      * change (pb_value Q f q) with (value f q). ring.
      * rewrite (rsum_zero D (fun i => kappa_on Q f g q * grad_on Q f g (V g) i q * (0 * pb_n Q f g i q))) by (intros; ring). ring.
  - assert (Hg : In g (elements_of elems f)) by (rewrite E; left; reflexivity). assert (Hh : In h (elements_of elems f)) by (rewrite E; right; left; reflexivity).
    rewrite (side_flux_on V f g Hf Hg), (side_flux_on V f h Hf Hh), Rplus_0_r. rewrite <- rsum_plus.
    destruct (mesh_good G procs elems facets bc m MP VG R_ (rd_dim _ _ _ _ _ _ RD)) as (NN & _).
    assert (Nh : forall i q, pb_n Q f h i q = - pb_n Q f g i q) by (intros; apply (NN f g h); auto).
    unfold int_term, int_load. change (p_nq (pb_ref Q)) with (p_nq R_). rewrite <- rsum_plus.
    change (p_dim (pb_ref Q)) with (p_dim R_). rewrite (rd_dim _ _ _ _ _ _ RD). change (p_w (pb_ref Q)) with (p_w R_).
    set (jmp q := if has_data (bc f) then slip f g q else 0).
    transitivity (rsum (p_nq R_) (fun q => p_w R_ q * (- rsum D (fun i => mean_flux Q f g h V i q * (jmp q * pb_n Q f g i q)) + pb_pen Q f * pb_nl Q f q * jmp q * (trace Q f g (V g) q - trace Q f h (V h) q)))).
    + apply rsum_ext. intros q Hq. destruct (cs_inner _ _ _ _ _ _ _ _ _ _ _ _ CS f g h q Hf E Hq) as [J1 J2]. fold (jmp q) in J1.
      rewrite <- (trace_exact f g q Hf Hg Hq), <- (trace_exact f h q Hf Hh Hq) in J1.
      set (tg := rsum D (fun i => kappa_on Q f g q * grad_on Q f g (U g) i q * pb_n Q f g i q)).
      assert (Th : rsum D (fun i => kappa_on Q f h q * grad_on Q f h (U h) i q * pb_n Q f h i q) = - tg).
      { unfold tg. rewrite (rsum_ext D (fun i => kappa_on Q f h q * grad_on Q f h (U h) i q * pb_n Q f h i q) (fun i => -1 * (kappa_on Q f h q * grad_on Q f h (U h) i q * pb_n Q f g i q))) by (intros; rewrite Nh; ring).
        rewrite rsum_scale. rewrite (rsum_ext D _ (fun i => c h (place_on G elems f h q) * dw h (place_on G elems f h q) i * mesh_normal G elems f g i q)) by (intros; rewrite kappa_on_is, grad_on_exact by auto; reflexivity).
        rewrite <- J2. rewrite (rsum_ext D (fun i => kappa_on Q f g q * grad_on Q f g (U g) i q * pb_n Q f g i q) (fun i => c g (place_on G elems f g q) * dw g (place_on G elems f g q) i * mesh_normal G elems f g i q)) by (intros; rewrite kappa_on_is, grad_on_exact by auto; reflexivity). ring. }
      assert (M : rsum D (fun i => mean_flux Q f g h U i q * jump Q f g h V i q) = tg * (trace Q f g (V g) q - trace Q f h (V h) q)).
      { rewrite (rsum_ext D _ (fun i => 1 / 2 * (trace Q f g (V g) q - trace Q f h (V h) q) * (kappa_on Q f g q * grad_on Q f g (U g) i q * pb_n Q f g i q)
           - 1 / 2 * (trace Q f g (V g) q - trace Q f h (V h) q) * (kappa_on Q f h q * grad_on Q f h (U h) i q * pb_n Q f h i q))).
        - rewrite rsum_minus, !rsum_scale, Th. fold tg. field.
        - intros i Hi. unfold mean_flux, jump. rewrite Nh. field. }
      assert (M2 : rsum D (fun i => mean_flux Q f g h V i q * jump Q f g h U i q) = rsum D (fun i => mean_flux Q f g h V i q * (jmp q * pb_n Q f g i q))).
      { apply rsum_ext. intros i Hi. unfold jump. rewrite Nh, <- J1. ring. }
      rewrite M, M2, Th, J1. ring.
    + unfold jmp. destruct (has_data (bc f)); [reflexivity|]. apply rsum_zero. intros q Hq.
      rewrite (rsum_zero D) by (intros; ring). ring.
Qed.
Theorem form_consistent V : sip_form Q elems facets bc U V = sip_load Q elems facets bc V.
Proof.
  unfold sip_form, sip_load.
  rewrite (lsum_ext (fun g => vol_term Q g U V) (fun g => vol_load Q g V + rsum (D + 1) (side_flux V g))) by (intros g Hg; apply element_parts; apply in_seq in Hg; lia).
  rewrite lsum_plus, (facets_of_elements D procs elems facets bc m MP), Rplus_assoc, <- lsum_plus. f_equal. apply lsum_ext. intros f Hf. rewrite Rplus_comm. apply facet_consistent. exact Hf.
Qed.
End Consistent.

(** Ranks with prescribed values hold their part of the problem. *)
Lemma data_rank G procs elems facets bc m R_ degree fi P slip value p :
  mesh_parts (gs_D G) procs elems facets bc m -> valid_geometry G elems facets -> p_dim R_ = gs_D G -> (1 <= degree)%nat -> (0 < p_N R_)%nat ->
  (forall p, (p < procs)%nat -> poisson_rank G R_ degree (m p) (fi p) (P p)) -> (p < procs)%nat -> holds_data (gs_D G) R_ slip value (m p) (P p) ->
  rank_data (gs_D G) (data_problem G elems R_ degree slip value) (m p) (P p) /\ p_method (P p) = IP /\ facet_table (gs_D G) (m p) = Some (fi p).
Proof.
  intros MP VG Hd Hdeg HN RK Hp HD. destruct (mesh_rank_data G procs elems facets bc m MP VG R_ Hd degree Hdeg fi P RK HN p Hp) as (RD & M & T).
  split; [|split; [exact M|exact T]]. destruct RD as [a1 a2 a3 a4 a5 a6 a7 a8 a9 a10 a11 a12 RE RF _ _]. constructor; auto.
  - intros e g Eg. destruct (RE e g Eg) as (E1 & E2 & E3 & _). split; [exact E1|]. split; [exact E2|]. split; [exact E3|]. apply (hd_force _ _ _ _ _ _ HD e g Eg).
  - apply (hd_skeleton _ _ _ _ _ _ HD).
  - apply (hd_boundary _ _ _ _ _ _ HD).
Qed.

(** C79: on every mesh of straight triangles or tetrahedra, for every polynomial degree k, every number of
    ranks and partition: if the solution of the Poisson problem -- with a coefficient that is linear in
    each element and may jump between them, any force, prescribed slip on faults and values on
    boundaries -- is a polynomial of degree k in each element, then its coefficients solve the equations
    A U = b that the ranks assemble. *)
Theorem polynomial_solutions_are_discrete_solutions : forall G k phi procs elems facets bc m R_ fi P c w dw slip value U,
  mesh_parts (gs_D G) procs elems facets bc m -> straight G -> valid_geometry G elems facets -> (1 <= k)%nat ->
  reference_of_degree (gs_D G) k (gs_xi G) (gs_chi G) phi R_ ->
  (forall p, (p < procs)%nat -> poisson_rank G R_ k (m p) (fi p) (P p) /\ holds_data (gs_D G) R_ slip value (m p) (P p)) ->
  (forall f g h q, In f facets -> elements_of elems f = [g; h] -> slip f h q = - slip f g q) ->
  classical_solution G elems facets bc (p_force R_) slip value (p_Nq R_) (p_nq R_) c w dw ->
  (forall g, (g < length elems)%nat -> polynomial (gs_D G) 1 (c g)) -> coefficient_is G elems facets R_ c -> represents G elems R_ phi w U ->
  exists A b, (forall p, (p < procs)%nat -> map_opt (to_global (m p)) (assemble (m p) (fi p) (poisson_mat (P p))) = Some (A p)) /\
    (forall p, (p < procs)%nat -> map_opt (to_global_row (m p)) (rhs (m p) (fi p) (poisson_vec (P p))) = Some (b p)) /\
    forall V, pairing (p_N R_) (flat_map A (seq 0 procs)) V U = vpairing (p_N R_) (flat_map b (seq 0 procs)) V.
Proof.
  intros G k phi procs elems facets bc m R_ fi P c w dw slip value U MP ST VG Hk RD RK SL CS C1 CO RU. set (Q := data_problem G elems R_ k slip value).
  pose proof (rd_dim _ _ _ _ _ _ RD) as Hd. pose proof (rd_N _ _ _ _ _ _ RD) as HN.
  assert (PO : problem_ok (gs_D G) elems facets Q).
  { destruct (mesh_problem_ok G procs elems facets bc m MP VG R_ Hd k) as [L Nn _]. split; [exact L|exact Nn|exact SL]. }
  destruct (assembly_is_interior_penalty (gs_D G) procs elems facets bc m Q P fi MP PO) as (A & b & HA & Hb & E).
  { intros p Hp. apply (data_rank G procs elems facets bc m R_ k fi P slip value p MP VG Hd Hk HN (fun p Hp => proj1 (RK p Hp)) Hp (proj2 (RK p Hp))). }
  exists A, b. split; [exact HA|]. split; [exact Hb|]. intro V. destruct (E U V) as [E1 E2]. change (p_N (pb_ref Q)) with (p_N R_) in E1, E2. rewrite E1, E2.
  apply (form_consistent G procs elems facets bc m ST MP VG k phi R_ Hk RD c w dw slip value U CS CO C1 RU V).
Qed.
Print Assumptions polynomial_solutions_are_discrete_solutions.

(** With what the constructor of the operator computes: every solution that is a polynomial of degree N in
    each element has coefficients, and they solve the equations that the ranks assemble.  The nodal
    values of the coefficient are those of a function linear in each element. *)
Lemma constructor_keeps_force root wv2 js wv3 inverse m0 D N set mi nodes B R_ :
  Poisson_constructor root wv2 js wv3 inverse m0 D N set mi nodes B = Some R_ -> p_force R_ = p_force B.
Proof.
  unfold Poisson_constructor, operator_reference. destruct (f2v D); cbn [bind]; [|discriminate]. destruct (modal_inverseMassMatrix _ _ _ _ _ _ _ _); cbn [bind]; [|discriminate].
  repeat match goal with |- context [bind ?e _] => destruct e; cbn [bind]; [|discriminate] end. intro E. injection E as <-. reflexivity.
Qed.
Theorem poisson_operator_reproduces_polynomials : forall root wv2 js wv3 inverse m0 D N set mi nodes B X procs elems facets bc m fi P c w dw slip value,
  constructor_data root wv2 js wv3 inverse D N set mi nodes -> (1 <= N)%nat ->
  let order := MinQuadOrder N set in
  let G := linear_setup D X (point (map fst (volRule root wv2 js wv3 D order))) (point (map fst (fctRule root wv2 js wv3 D order))) in
  mesh_parts D procs elems facets bc m -> valid_geometry G elems facets ->
  (forall g, (g < length elems)%nat -> polynomial D 1 (c g) /\ polynomial D N (w g)) ->
  (forall g l, (g < length elems)%nat -> (l < length nodes)%nat -> p_K B g l = c g (place_in G elems g (point nodes l))) ->
  (forall f g h q, In f facets -> elements_of elems f = [g; h] -> slip f h q = - slip f g q) ->
  exists R_, Poisson_constructor root wv2 js wv3 inverse m0 D N set mi nodes B = Some R_ /\
  (classical_solution G elems facets bc (p_force B) slip value (p_Nq R_) (p_nq R_) c w dw ->
   (forall p, (p < procs)%nat -> poisson_rank G R_ N (m p) (fi p) (P p) /\ holds_data D R_ slip value (m p) (P p)) ->
   exists U A b, (forall g x, (g < length elems)%nat -> rsum (length mi) (fun l => U g l * DubinerP D (nth l mi []) x) = w g (place_in G elems g x)) /\
    (forall p, (p < procs)%nat -> map_opt (to_global (m p)) (assemble (m p) (fi p) (poisson_mat (P p))) = Some (A p)) /\
    (forall p, (p < procs)%nat -> map_opt (to_global_row (m p)) (rhs (m p) (fi p) (poisson_vec (P p))) = Some (b p)) /\
    forall V, pairing (length mi) (flat_map A (seq 0 procs)) V U = vpairing (length mi) (flat_map b (seq 0 procs)) V).
Proof.
  intros root wv2 js wv3 inverse m0 D N set mi nodes B X procs elems facets bc m fi P c w dw slip value CD HN order G MP VG HP HK SL.
  destruct (poisson_reference_of_degree root wv2 js wv3 inverse m0 D N set mi nodes B CD) as (R_ & ER & EN & EK & RD & MM & _).
  exists R_. split; [exact ER|]. intros CS RK. pose proof (constructor_keeps_force _ _ _ _ _ _ _ _ _ _ _ _ _ ER) as EF.
  destruct CD as (HD & RT & Ln & Un & HI & _). assert (HD3 : (D = 1 \/ D = 2 \/ D = 3)%nat) by lia.
  destruct (modal_ref_element D N mi HD3 RT) as (_ & _ & Sp & _).
  destruct (nodal_basis_exists_unique inverse D N mi nodes HD3 RT Ln Un HI) as (psi & Hpsi & _ & Rep & _). destruct (MM psi Hpsi) as [M1 M2].
  assert (ST : straight G) by apply linear_straight.
  assert (PL : forall g d f, polynomial D d f -> polynomial D d (fun xi => f (place_in G elems g xi))).
  { intros g d f Hf. apply (poly_through D D); [exact Hf|]. intros i Hi. apply (place_poly G elems ST g i Hi). }
  destruct (finite_choice (length elems) (nat -> R) (fun _ => 0) (fun g u => forall x, rsum (length mi) (fun l => u l * DubinerP D (nth l mi []) x) = w g (place_in G elems g x))) as (U & HU).
  { intros g Hg. destruct (Sp _ (PL g N (w g) (proj2 (HP g Hg)))) as (u & Hu & _). exists u. intro x. symmetry. apply Hu. }
  destruct (polynomial_solutions_are_discrete_solutions G N (fun l => DubinerP D (nth l mi [])) procs elems facets bc m R_ fi P c w dw slip value U MP ST VG HN RD RK SL) as (A & b & HA & Hb & E).
  - rewrite EF. exact CS.
  - intros g Hg. apply (HP g Hg).
  - assert (V : forall g x, (g < length elems)%nat -> rsum (p_N R_) (fun t => p_K R_ g t * psi t x) = c g (place_in G elems g x)).
    { intros g x Hg. rewrite (Rep (fun xi => c g (place_in G elems g xi))) by (apply (poly_le D 1); [exact HN|]; apply PL, (HP g Hg)).
      rewrite EN, <- Ln, EK. apply rsum_ext. intros t Ht. rewrite HK by auto. reflexivity. }
    split.
    + intros g q Hg Hq. rewrite <- V by auto. apply rsum_ext. intros t Ht. rewrite M1 by auto. reflexivity.
    + intros f g q Hf Hg Hq. unfold place_on. rewrite <- V by (apply (in_elems elems f g Hg)). apply rsum_ext. intros t Ht.
      rewrite M2 by (auto; apply (facet_number_lt G procs elems facets bc m MP VG f g Hf Hg)). reflexivity.
  - intros g x Hg. rewrite EN. apply HU. exact Hg.
  - rewrite EN in E. exists U, A, b. split; [intros g x Hg; apply HU; exact Hg|]. auto.
Qed.
Print Assumptions poisson_operator_reproduces_polynomials.
