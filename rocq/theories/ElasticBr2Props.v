(** Property theorems: the second method of Bassi and Rebay for linear elasticity (C90). *)
Require Import List Arith Lia Bool Reals Lra Permutation.
Require Import Verif.Base Verif.LinAlg Verif.SimplexModel Verif.LocalMeshModel Verif.LocalMeshProps Verif.TopoModel Verif.TopoSpec Verif.TopoProofs Verif.TopoProps
  Verif.AssembleModel Verif.AssembleSpec Verif.AssembleProofs Verif.AssembleProps Verif.MatFree Verif.PoissonModel Verif.PoissonProofs Verif.PenaltyModel
  Verif.SipSpec Verif.SipProofs Verif.SipRank Verif.SipProps Verif.CoerciveProps
  Verif.GeometryModel Verif.GeometryProofs Verif.GeometrySpec Verif.GeometryProps Verif.GeometryStraight Verif.MeshSpec Verif.MeshProofs Verif.MeshPoissonProps
  Verif.ElasticityModel Verif.ElasticitySpec Verif.ElasticityProofs Verif.ElasticFormSpec Verif.ElasticFormProofs Verif.ElasticFormRank Verif.ElasticFormProps
  Verif.ElasticCoerciveProps Verif.MeshElasticSpec Verif.MeshElasticProps
  Verif.TensorModel Verif.BasisModel Verif.BasisSpec Verif.IntegralSpec Verif.QuadratureModel Verif.QuadratureSpec Verif.RefElementModel Verif.RefElementSpec Verif.RefElementProps
  Verif.ErrorExactProps Verif.DegreeSpec Verif.DegreeProofs Verif.DegreeProps Verif.OperatorRefModel Verif.OperatorRefProps
  Verif.Br2Props Verif.ElasticBr2Spec Verif.ElasticBr2Proofs Verif.ElasticBr2Rank Verif.ElasticBr2Positive.
Require Verif.RootsProps.
Import ListNotations.
Local Open Scope R_scope.

(** The forms do not use the inverse mass matrices of the problem. *)
Definition with_inverse (Q : eproblem) (X : nat -> nat -> nat -> R) : eproblem := let E := ep_ref Q in {|
  ep_ref := {| e_geo := e_geo E; e_lam := e_lam E; e_mu := e_mu E; e_rhoInv := e_rhoInv E; e_Minv := X; e_force := e_force E; e_dir := e_dir E; e_slip := e_slip E |};
  ep_loc := ep_loc Q; ep_n := ep_n Q; ep_nl := ep_nl Q; ep_G := ep_G Q; ep_pen := ep_pen Q; ep_has_slip := ep_has_slip Q; ep_has_dir := ep_has_dir Q;
  ep_jump := ep_jump Q; ep_value := ep_value Q |}.
Lemma global_inverse k procs elems facets bc m Q E : mesh_parts k procs elems facets bc m ->
  (forall p, (p < procs)%nat -> erank_data k Q (m p) (E p) /\ (forall e, (e < length (tm_l2cg (m p)))%nat -> keeps_inverse (E p) e)) ->
  exists X, forall g, (g < length elems)%nat -> keeps_inverse (ep_ref (with_inverse Q X)) g.
Proof.
  intros MP H. apply (finite_choice (length elems) (nat -> nat -> R) (fun _ _ => 0) (fun g x => forall s u, (s < p_N (e_geo (ep_ref Q)))%nat -> (u < p_N (e_geo (ep_ref Q)))%nat ->
    rsum (p_N (e_geo (ep_ref Q))) (fun t => x s t * mass_matrix (ep_ref Q) g t u) = if (s =? u)%nat then 1 else 0)).
  intros g Hg. destruct (mp_owned _ _ _ _ _ _ MP g Hg) as (p & e & Hp & He & Eg). destruct (H p Hp) as [RD KI].
  assert (Hl : (e < length (tm_l2cg (m p)))%nat) by (apply nth_error_Some; congruence). destruct (er_elem _ _ _ _ RD e g Eg) as (HJ & _).
  exists (e_Minv (E p) e). intros s u Hs Hu. pose proof (KI e Hl) as K. unfold keeps_inverse, mass_matrix in K. rewrite (er_N _ _ _ _ RD), (er_Nq _ _ _ _ RD), (er_W _ _ _ _ RD), (er_EQ _ _ _ _ RD), HJ in K.
  rewrite <- (K s u Hs Hu). reflexivity.
Qed.

(** C90a: the ranks together assemble the method of Bassi and Rebay for elasticity: the lifting of a
    jump exists, and for all u, v the product V^T A U is the bilinear form with the lifting of the jump of u,
    V^T b the linear form with the lifting of the prescribed jump, whatever the mesh, the material, the
    geometry and the partition, if each rank inverts the mass matrices of its elements. *)
Theorem elasticity_assembly_is_br2 : forall k procs elems facets bc m Q E fi,
  mesh_parts k procs elems facets bc m -> eproblem_ok k elems facets Q ->
  (forall p, (p < procs)%nat -> erank_data k Q (m p) (E p) /\ (forall e, (e < length (tm_l2cg (m p)))%nat -> keeps_inverse (E p) e) /\
     p_method (e_geo (E p)) = BR2 /\ facet_table k (m p) = Some (fi p)) ->
  exists A b,
    (forall p, (p < procs)%nat -> map_opt (to_global (m p)) (assemble (m p) (fi p) (elasticity_mat (E p))) = Some (A p)) /\
    (forall p, (p < procs)%nat -> map_opt (to_global_row (m p)) (rhs (m p) (fi p) (elasticity_vec (E p))) = Some (b p)) /\
    (forall U, exists r, elifts_jump Q elems facets U r) /\ (exists r, elifts_data Q elems facets r) /\
    let n := block_size (ep_ref Q) in
    (forall U V r, elifts_jump Q elems facets U r -> pairing n (flat_map A (seq 0 procs)) V U = ebr2_form Q elems facets bc r U V) /\
    (forall V r, elifts_data Q elems facets r -> vpairing n (flat_map b (seq 0 procs)) V = ebr2_load Q elems facets bc r V).
Proof.
  intros k procs elems facets bc m Q0 E fi MP PO0 H0.
  destruct (global_inverse k procs elems facets bc m Q0 E MP) as (X & IM).
  { intros p Hp. destruct (H0 p Hp) as (RD & KI & _). auto. }
  set (Q := with_inverse Q0 X) in *.
  assert (PO : eproblem_ok k elems facets Q) by (destruct PO0; constructor; assumption).
  assert (H : forall p, (p < procs)%nat -> erank_data k Q (m p) (E p) /\ (forall e, (e < length (tm_l2cg (m p)))%nat -> keeps_inverse (E p) e) /\ p_method (e_geo (E p)) = BR2 /\ facet_table k (m p) = Some (fi p)).
  { intros p Hp. destruct (H0 p Hp) as (RD & KI & Me & T). split; [|split; [exact KI|split; [exact Me|exact T]]]. destruct RD; constructor; assumption. }
  change (exists A b,
    (forall p, (p < procs)%nat -> map_opt (to_global (m p)) (assemble (m p) (fi p) (elasticity_mat (E p))) = Some (A p)) /\
    (forall p, (p < procs)%nat -> map_opt (to_global_row (m p)) (rhs (m p) (fi p) (elasticity_vec (E p))) = Some (b p)) /\
    (forall U, exists r, elifts_jump Q elems facets U r) /\ (exists r, elifts_data Q elems facets r) /\
    let n := block_size (ep_ref Q) in
    (forall U V r, elifts_jump Q elems facets U r -> pairing n (flat_map A (seq 0 procs)) V U = ebr2_form Q elems facets bc r U V) /\
    (forall V r, elifts_data Q elems facets r -> vpairing n (flat_map b (seq 0 procs)) V = ebr2_load Q elems facets bc r V)).
  destruct (assembly_complete k procs elems facets bc m (ebr2_mat Q) fi (fun p => elasticity_mat (E p)) MP (ebr2_mat_symmetric Q)) as (A & HA & PA).
  { intros p Hp. apply (H p Hp). }
  { intros p Hp. destruct (H p Hp) as (RD & KI & Me & _). apply (ebr2_evaluates k procs elems facets bc m MP Q PO IM p (E p) Hp RD KI Me). }
  destruct (rhs_complete k procs elems facets bc m (ebr2_vec Q) fi (fun p => elasticity_vec (E p)) MP (ebr2_vec_symmetric Q)) as (b & Hb & Pb).
  { intros p Hp. apply (H p Hp). }
  { intros p Hp. destruct (H p Hp) as (RD & KI & Me & _). apply (ebr2_evaluates_rhs k procs elems facets bc m MP Q PO IM p (E p) Hp RD KI Me). }
  assert (LE : forall (j1 : list nat -> nat -> nat -> nat -> nat -> R) (j2 : list nat -> nat -> nat -> nat -> nat -> nat -> R), exists r : list nat -> nat -> nat -> nat -> nat -> R,
     forall f, In f facets -> (forall g, elements_of elems f = [g] -> is_elifting Q f g 1 (j1 f g) (r f g)) /\
       (forall g h, elements_of elems f = [g; h] -> is_elifting Q f g (1 / 2) (j2 f g h) (r f g) /\ is_elifting Q f h (1 / 2) (j2 f g h) (r f h))).
  { intros j1 j2. exists (fun f g => match elements_of elems f with
      | [_] => ethe_lift Q f g 1 (j1 f g) | [a; c] => ethe_lift Q f g (1 / 2) (j2 f a c) | _ => fun _ _ _ => 0 end).
    intros f _. pose proof (in_elems elems f) as EI. destruct (elements_of elems f) as [|a [|c [|? ?]]]; split; intros g; try discriminate.
    - intro EE. injection EE as <-. apply (elift_exists Q elems IM). apply EI. cbn. auto.
    - intros h EE. injection EE as <- <-. split; apply (elift_exists Q elems IM); apply EI; cbn; auto. }
  exists A, b. split; [exact HA|]. split; [exact Hb|]. split; [intro U; destruct (LE (fun f g => ebjump Q f g U) (fun f g h => djump Q f g h U)) as (r & Hr); exists r; exact Hr|].
  split; [destruct (LE (edvalue Q) (fun f g _ => edjump Q f g)) as (r & Hr); exists r; exact Hr|]. intro n. split.
  - intros U V r LU. unfold pairing. rewrite (lsum_perm _ _ _ PA). apply (ebr2_pair Q elems IM facets bc V U r LU).
  - intros V r LD. unfold vpairing. rewrite (lsum_perm _ _ _ Pb). apply (ebr2_vpair Q elems IM k facets bc V r PO LD).
Qed.
Print Assumptions elasticity_assembly_is_br2.

(** C90b: if moreover the Lame parameters are nonnegative constants in each element and gradients of
    displacements are again, componentwise, trial functions, then the matrix is symmetric and positive
    semidefinite: D + 1 is large enough for the penalty, on every mesh. *)
Theorem elasticity_br2_matrix_positive : forall k procs elems facets bc m Q E fi lam mu A,
  mesh_parts k procs elems facets bc m -> eproblem_ok k elems facets Q ->
  (forall p, (p < procs)%nat -> erank_data k Q (m p) (E p) /\ (forall e, (e < length (tm_l2cg (m p)))%nat -> keeps_inverse (E p) e) /\
     p_method (e_geo (E p)) = BR2 /\ facet_table k (m p) = Some (fi p)) ->
  let P := e_geo (ep_ref Q) in p_dim P = k ->
  (forall g q, (g < length elems)%nat -> (q < p_Nq P)%nat -> 0 <= p_J P g q) -> (forall q, (q < p_Nq P)%nat -> 0 <= p_W P q) ->
  (forall g, (g < length elems)%nat -> 0 <= lam g /\ 0 <= mu g) ->
  (forall g q, (g < length elems)%nat -> (q < p_Nq P)%nat -> lam_in Q g q = lam g /\ mu_in Q g q = mu g) ->
  (forall f g q, In f facets -> In g (elements_of elems f) -> (q < p_nq P)%nat -> lam_on Q f g q = lam g /\ mu_on Q f g q = mu g) ->
  (forall U, exists d, has_dgradient Q elems facets U d) ->
  (forall p, (p < procs)%nat -> map_opt (to_global (m p)) (assemble (m p) (fi p) (elasticity_mat (E p))) = Some (A p)) ->
  let n := block_size (ep_ref Q) in
  (forall U V, pairing n (flat_map A (seq 0 procs)) V U = pairing n (flat_map A (seq 0 procs)) U V) /\
  (forall U, 0 <= pairing n (flat_map A (seq 0 procs)) U U).
Proof.
  intros k procs elems facets bc m Q E fi lam mu A MP PO RK P Hd Jp Wp Kp Kv Kf HG HA n.
  destruct (elasticity_assembly_is_br2 k procs elems facets bc m Q E fi MP PO RK) as (A' & b' & HA' & _ & LU & _ & EE & _). fold n in EE.
  assert (EA : flat_map A (seq 0 procs) = flat_map A' (seq 0 procs)).
  { apply flat_map_ext_in. intros p Hp. apply in_seq in Hp. pose proof (HA p ltac:(lia)). pose proof (HA' p ltac:(lia)). congruence. }
  rewrite EA. split.
  - intros U V. destruct (LU U) as (r & Hr). destruct (LU V) as (s & Hs). destruct (HG U) as (d & Hdu). destruct (HG V) as (e & Hev).
    rewrite (EE U V r Hr), (EE V U s Hs). apply (ebr2_symmetric Q elems facets bc lam mu Kv Kf U V r s d e Hr Hs Hdu Hev).
  - intros U. destruct (LU U) as (r & Hr). destruct (HG U) as (d & Hdu). rewrite (EE U U r Hr).
    apply (ebr2_nonneg k procs elems facets bc m Q lam mu U r d MP Hd Jp Wp Kp Kv Kf Hr Hdu).
Qed.
Print Assumptions elasticity_br2_matrix_positive.

(** * With what the constructor computes *)
(** A rank that computed geometry from its part of the mesh, has the nodal values of the material on its
    elements, inverted the mass matrices of its elements, and uses the method of Bassi and Rebay. *)
Record elastic_br2_rank (inverse : nat -> (nat -> nat -> R) -> nat -> nat -> R) (G : geo_setup) (E_ : edata) (m : topo_mesh) (fi : list facet_info) (E : edata) : Prop := {
  eb_ref : same_reference (e_geo E_) (e_geo E);
  eb_geometry : rank_geometry G m (e_geo E);
  eb_material : forall e g, nth_error (tm_l2cg m) e = Some g -> e_lam E e = e_lam E_ g /\ e_mu E e = e_mu E_ g /\ e_rhoInv E e = e_rhoInv E_ g;
  eb_inverse : forall e, (e < length (tm_l2cg m))%nat -> e_Minv E e = inverse (p_N (e_geo E)) (mass_matrix E e);
  eb_method : p_method (e_geo E) = BR2;
  eb_table : facet_table (gs_D G) m = Some fi }.

(** The same data with the other method and its penalty. *)
Definition with_emethod (M : dg_method) (pen : nat -> R) (E : edata) : edata := let B := e_geo E in {|
  e_geo := {|
    p_dim := p_dim B; p_N := p_N B; p_Nq := p_Nq B; p_nq := p_nq B; p_method := M;
    p_W := p_W B; p_w := p_w B; p_EQ := p_EQ B; p_DxiQ := p_DxiQ B; p_matEQ := p_matEQ B;
    p_E := p_E B; p_Dxi := p_Dxi B; p_matE := p_matE B; p_MinvRef := p_MinvRef B;
    p_J := p_J B; p_GQ := p_GQ B; p_K := p_K B; p_n := p_n B; p_nu := p_nu B; p_nl := p_nl B; p_G0 := p_G0 B; p_G1 := p_G1 B;
    p_pen := pen; p_force := p_force B; p_dir := p_dir B; p_slip := p_slip B |};
  e_lam := e_lam E; e_mu := e_mu E; e_rhoInv := e_rhoInv E; e_Minv := e_Minv E; e_force := e_force E; e_dir := e_dir E; e_slip := e_slip E |}.
Definition ip_pen (E : edata) (degree : nat) (fi : list facet_info) (i : nat) : R := match nth_error fi i with Some x => ElasticityModel.prepare_penalty E degree i x | None => 0 end.
Lemma with_emethod_rank inverse G E_ degree m fi E : elastic_br2_rank inverse G E_ m fi E -> elastic_rank G E_ degree m fi (with_emethod IP (ip_pen E degree fi) E).
Proof.
  intros [SR RG HM KI Me HT]. constructor; auto.
  - destruct SR. constructor; auto.
  - destruct RG. constructor; auto.
  - intros i x Ex. cbn [with_emethod e_geo p_pen]. unfold ip_pen. rewrite Ex. reflexivity.
Qed.

(** An exact inversion of a symmetric matrix is an inverse from both sides. *)
Lemma left_of_right n (M X : nat -> nat -> R) : (forall i j, (i < n)%nat -> (j < n)%nat -> M i j = M j i) ->
  (forall i j, (i < n)%nat -> (j < n)%nat -> rsum n (fun k => M i k * X k j) = if (i =? j)%nat then 1 else 0) ->
  forall i j, (i < n)%nat -> (j < n)%nat -> rsum n (fun k => X i k * M k j) = if (i =? j)%nat then 1 else 0.
Proof.
  intros S R0.
  assert (T : forall i j, (i < n)%nat -> (j < n)%nat -> rsum n (fun k => X k i * M k j) = delta i j).
  { intros i j Hi Hj. rewrite delta_sym. unfold delta. rewrite <- (R0 j i Hj Hi). apply rsum_ext. intros k Hk. rewrite (S j k) by auto. ring. }
  assert (Y : forall i j, (i < n)%nat -> (j < n)%nat -> X j i = X i j).
  { intros i j Hi Hj. transitivity (rsum n (fun k => X k i * rsum n (fun l => M k l * X l j))).
    - rewrite (rsum_ext n _ (fun k => delta j k * X k i)); [rewrite delta_sum; auto|]. intros k Hk. rewrite (R0 k j Hk Hj). unfold delta. rewrite Nat.eqb_sym. ring.
    - rewrite (rsum_ext n _ (fun k => rsum n (fun l => X k i * M k l * X l j))) by (intros; rewrite <- rsum_scale; apply rsum_ext; intros; ring).
      rewrite rsum_swap. rewrite (rsum_ext n _ (fun l => delta i l * X l j)); [rewrite (delta_sum n i (fun l => X l j)); auto|]. intros l Hl. rewrite rsum_scale_r. f_equal. apply T; auto. }
  intros i j Hi Hj. change (rsum n (fun k => X i k * M k j) = delta i j). rewrite <- (T i j Hi Hj). apply rsum_ext. intros k Hk. rewrite (Y i k) by auto. reflexivity.
Qed.
Lemma inverse_nonsingular n (M X : nat -> nat -> R) : (forall i j, (i < n)%nat -> (j < n)%nat -> rsum n (fun k => X i k * M k j) = if (i =? j)%nat then 1 else 0) -> nonsingular n M.
Proof.
  intros L x Hx j Hj. rewrite <- (delta_sum n j x Hj).
  rewrite (rsum_ext n _ (fun l => rsum n (fun k => X j k * M k l) * x l)) by (intros l Hl; rewrite (L j l Hj Hl); reflexivity).
  rewrite (rsum_ext n _ (fun l => rsum n (fun k => X j k * (M k l * x l)))) by (intros; rewrite <- rsum_scale_r; apply rsum_ext; intros; ring).
  rewrite rsum_swap. apply rsum_zero. intros k Hk. rewrite rsum_scale. unfold mat_vec in Hx. rewrite (Hx k Hk). ring.
Qed.
(** On straight elements the mass matrix can be inverted. *)
Section Inverse.
Variables (root : nat -> nat -> nat -> nat -> R) (wv2 js wv3 : table) (inverse : nat -> (nat -> nat -> R) -> nat -> nat -> R) (m0 : mem) (D N set : nat) (mi : list (list nat)) (nodes : list (nat -> R)) (B : pdata).
Variables (X : nat -> nat -> R) (procs : nat) (elems facets : list (list nat)) (bc : list nat -> nat) (m : nat -> topo_mesh) (fi : nat -> list facet_info) (E : nat -> edata) (E_ : edata).
Hypothesis CD : constructor_data root wv2 js wv3 inverse D N set mi nodes.
Hypothesis HN : (1 <= N)%nat.
Let order := MinQuadOrder N set.
Let G := linear_setup D X (point (map fst (volRule root wv2 js wv3 D order))) (point (map fst (fctRule root wv2 js wv3 D order))).
Hypothesis MP : mesh_parts D procs elems facets bc m.
Hypothesis VG : valid_geometry G elems facets.
Hypothesis ER : Elasticity_constructor root wv2 js wv3 inverse m0 D N set mi nodes B = Some (e_geo E_).
Hypothesis RK : forall p, (p < procs)%nat -> elastic_br2_rank inverse G E_ (m p) (fi p) (E p).
Lemma rank_keeps_inverse p e : (p < procs)%nat -> (e < length (tm_l2cg (m p)))%nat -> keeps_inverse (E p) e.
Proof.
  intros Hp He. pose proof CD as (HD & RT & Ln & UU & HI & _ & _ & SQ & _). assert (HD3 : (D = 1 \/ D = 2 \/ D = 3)%nat) by lia.
  destruct (nodal_basis_exists_unique inverse D N mi nodes HD3 RT Ln UU HI) as (psi & Hpsi & _).
  destruct (elastic_reference_of_degree root wv2 js wv3 inverse m0 D N set mi nodes psi B CD Hpsi) as (R_ & ER' & EN & _ & RD & _).
  assert (R_ = e_geo E_) by congruence. subst R_. pose proof (DegreeSpec.rd_dim _ _ _ _ _ _ RD) as Hd. pose proof (DegreeSpec.rd_N _ _ _ _ _ _ RD) as HN0.
  destruct (nth_error (tm_l2cg (m p)) e) as [g|] eqn:Eg; [|apply nth_error_None in Eg; lia]. destruct (mp_elem _ _ _ _ _ _ MP p e g Hp Eg) as [Hg _].
  assert (RK1 : forall p, (p < procs)%nat -> elastic_rank G E_ N (m p) (fi p) (with_emethod IP (ip_pen (E p) N (fi p)) (E p))) by (intros; apply (with_emethod_rank inverse); auto).
  destruct (mesh_erank_data G procs elems facets bc m MP VG E_ Hd N HN fi _ RK1 HN0 p Hp) as (R0 & _ & _). destruct (er_elem _ _ _ _ R0 e g Eg) as (HJ & _).
  pose proof (er_N _ _ _ _ R0) as EN1. pose proof (er_Nq _ _ _ _ R0) as EN2. pose proof (er_W _ _ _ _ R0) as EN3. pose proof (er_EQ _ _ _ _ R0) as EN4.
  cbn [no_edata with_emethod e_geo p_N p_Nq p_W p_EQ p_J mesh_eproblem ep_ref with_egeometry with_geometry] in HJ, EN1, EN2, EN3, EN4.
  set (J := volume_element G elems g). assert (J0 : 0 < J) by (apply (element_pos G procs elems facets bc m (linear_straight _ _ _ _) MP VG N psi (e_geo E_) RD g Hg)).
  destruct (nodal_mass_matrix m0 root wv2 js wv3 inverse D N mi nodes psi HD3 RT Ln UU HI Hpsi SQ) as (M & Mi & _ & _ & HM & HMi).
  assert (MM : forall i j, (i < length nodes)%nat -> (j < length nodes)%nat -> mass_matrix (E p) e i j = J * M i j).
  { intros i j Hi Hj. unfold mass_matrix. rewrite EN2, EN3, EN4, HJ.
    transitivity (J * rsum (p_Nq (e_geo E_)) (fun q => p_W (e_geo E_) q * (psi i (gs_xi G q) * psi j (gs_xi G q)))).
    - rewrite <- rsum_scale. apply rsum_ext. intros q Hq. pose proof (const_J G elems facets (linear_straight _ _ _ _) VG (e_geo E_) g q) as CJ. fold J in CJ.
      change (p_EQ (e_geo E_) i q * p_W (e_geo E_) q * p_J (with_geometry G elems (e_geo E_)) g q * p_EQ (e_geo E_) j q = J * (p_W (e_geo E_) q * (psi i (gs_xi G q) * psi j (gs_xi G q)))).
      rewrite CJ, !(DegreeSpec.rd_EQ _ _ _ _ _ _ RD) by (auto; lia).
      change (gs_xi G q) with (point (map fst (volRule root wv2 js wv3 D (MinQuadOrder N set))) q). ring.
    - f_equal. refine (RootsProps.simplex_integral_unique D _ _ _ ltac:(lia) _ (HM i j Hi Hj)).
      apply (DegreeSpec.rd_volume _ _ _ _ _ _ RD (fun xi => psi i xi * psi j xi)). eapply poly_le; [|apply poly_mult; apply (DegreeSpec.rd_phi _ _ _ _ _ _ RD); lia]. lia. }
  assert (SM : forall i j, mass_matrix (E p) e i j = mass_matrix (E p) e j i) by (intros; apply rsum_ext; intros; ring).
  assert (NS : nonsingular (length nodes) (mass_matrix (E p) e)).
  { apply (inverse_nonsingular _ _ (fun i j => / J * Mi i j)). apply left_of_right; [intros; apply SM|]. intros i j Hi Hj. rewrite <- (HMi i j Hi Hj). apply rsum_ext. intros k Hk. rewrite MM by auto. field. lra. }
  intros s u Hs Hu. rewrite EN1, EN in *. rewrite (eb_inverse _ _ _ _ _ _ (RK p Hp) e He), EN1. apply left_of_right; auto.
Qed.
End Inverse.
(** Gradients of displacements. *)
Section Gradient.
Variables (G : geo_setup) (procs : nat) (elems facets : list (list nat)) (bc : list nat -> nat) (m : nat -> topo_mesh).
Local Notation D := (gs_D G).
Hypothesis ST : straight G.
Hypothesis MP : mesh_parts D procs elems facets bc m.
Hypothesis VG : valid_geometry G elems facets.
Variables (k degree : nat) (phi : nat -> (nat -> R) -> R) (E_ : edata).
Local Notation R_ := (e_geo E_).
Hypothesis RD : reference_of_degree D k (gs_xi G) (gs_chi G) phi R_.
Hypothesis SP : forall f, polynomial D k f -> exists c, forall x, f x = rsum (p_N R_) (fun l => c l * phi l x).
Lemma mesh_dgradient U : exists d, has_dgradient (mesh_eproblem G elems E_ degree) elems facets U d.
Proof.
  set (Q := mesh_eproblem G elems E_ degree). pose proof (DegreeSpec.rd_dim _ _ _ _ _ _ RD) as Hdim.
  destruct (finite_choice D (nat -> nat -> nat -> R) (fun _ _ _ => 0) (fun i d => Br2Positive.has_gradient (mesh_problem G elems R_ degree) elems facets (fun g => coef Q (U g) i) d)) as (d & Hd).
  - intros i _. apply (mesh_gradient G procs elems facets bc m ST MP VG k degree phi R_ RD SP).
  - exists (fun g i => d i g). intros g Hg. split.
    + intros i j q Hi Hj Hq. assert (Hi' : (i < D)%nat) by (rewrite <- Hdim; exact Hi). exact (proj1 (Hd i Hi' g Hg) j q Hj Hq).
    + intros f i j q Hf Hgf Hi Hj Hq. assert (Hi' : (i < D)%nat) by (rewrite <- Hdim; exact Hi). exact (proj2 (Hd i Hi' g Hg) f j q Hf Hgf Hj Hq).
Qed.
End Gradient.

(** C90c: with what the constructor of the elasticity operator computes, on a mesh of straight triangles
    or tetrahedra with nonnegative Lame parameters constant in each element, the method of Bassi and Rebay
    gives a symmetric positive semidefinite matrix for every degree, number of ranks and partition, without
    any tuning of the penalty. *)
Theorem elasticity_br2_operator_positive : forall root wv2 js wv3 inverse m0 D N set mi nodes B X procs elems facets bc m fi E E_ lam mu,
  constructor_data root wv2 js wv3 inverse D N set mi nodes -> (1 <= N)%nat ->
  let order := MinQuadOrder N set in
  let G := linear_setup D X (point (map fst (volRule root wv2 js wv3 D order))) (point (map fst (fctRule root wv2 js wv3 D order))) in
  mesh_parts D procs elems facets bc m -> valid_geometry G elems facets ->
  (forall g, (g < length elems)%nat -> 0 <= lam g /\ 0 <= mu g) ->
  exists R_, Elasticity_constructor root wv2 js wv3 inverse m0 D N set mi nodes B = Some R_ /\
  (e_geo E_ = R_ -> (forall g l, e_lam E_ g l = lam g /\ e_mu E_ g l = mu g) ->
   (forall p, (p < procs)%nat -> elastic_br2_rank inverse G E_ (m p) (fi p) (E p)) ->
   let n := (length nodes * D)%nat in let Q := mesh_eproblem G elems E_ N in
   exists A, (forall p, (p < procs)%nat -> map_opt (to_global (m p)) (assemble (m p) (fi p) (elasticity_mat (E p))) = Some (A p)) /\
    (forall U, exists r, elifts_jump Q elems facets U r) /\
    (forall U V r, elifts_jump Q elems facets U r -> pairing n (flat_map A (seq 0 procs)) V U = ebr2_form Q elems facets bc r U V) /\
    (forall U V, pairing n (flat_map A (seq 0 procs)) V U = pairing n (flat_map A (seq 0 procs)) U V) /\
    (forall U, 0 <= pairing n (flat_map A (seq 0 procs)) U U)).
Proof.
  intros root wv2 js wv3 inverse m0 D N set mi nodes B X procs elems facets bc m fi E E_ lam mu CD HN order G MP VG HL.
  pose proof CD as (HD & RT & Ln & UU & HI & _ & _ & SQ & _). assert (HD3 : (D = 1 \/ D = 2 \/ D = 3)%nat) by lia.
  destruct (nodal_basis_exists_unique inverse D N mi nodes HD3 RT Ln UU HI) as (psi & Hpsi & _ & Rp & _).
  destruct (elastic_reference_of_degree root wv2 js wv3 inverse m0 D N set mi nodes psi B CD Hpsi) as (R_ & ER & EN & EK & RD & _ & _ & CR).
  exists R_. split; [exact ER|]. intros EE HM RK n Q. subst R_.
  pose proof (DegreeSpec.rd_dim _ _ _ _ _ _ RD) as Hd. pose proof (DegreeSpec.rd_N _ _ _ _ _ _ RD) as HN0.
  assert (En : block_size (ep_ref Q) = n) by (unfold block_size, n; cbn [Q mesh_eproblem ep_ref with_egeometry e_geo with_geometry p_N p_dim]; rewrite Hd, EN; reflexivity). rewrite <- En.
  set (E1 := fun p => with_emethod IP (ip_pen (E p) N (fi p)) (E p)).
  assert (RK1 : forall p, (p < procs)%nat -> elastic_rank G E_ N (m p) (fi p) (E1 p)) by (intros p Hp; apply (with_emethod_rank inverse); auto).
  set (E2 := fun p => with_emethod BR2 (ip_pen (E p) N (fi p)) (no_edata E1 p)).
  assert (RD2 : forall p, (p < procs)%nat -> erank_data D Q (m p) (E2 p) /\ (forall e, (e < length (tm_l2cg (m p)))%nat -> keeps_inverse (E2 p) e) /\
     p_method (e_geo (E2 p)) = BR2 /\ facet_table D (m p) = Some (fi p)).
  { intros p Hp. destruct (mesh_erank_data G procs elems facets bc m MP VG E_ Hd N HN fi E1 RK1 HN0 p Hp) as (R0 & _ & T). split; [|split; [|split; [reflexivity|exact T]]].
    - destruct R0. constructor; assumption.
    - intros e He. exact (rank_keeps_inverse root wv2 js wv3 inverse m0 D N set mi nodes B X procs elems facets bc m fi E E_ CD HN MP VG ER RK p e Hp He). }
  assert (EM : forall p, (p < procs)%nat -> elasticity_mat (E2 p) = elasticity_mat (E p)).
  { intros p Hp. pose proof (eb_method _ _ _ _ _ _ (RK p Hp)) as Me. unfold E2, E1, no_edata, with_emethod. destruct (E p) as [B0 ? ? ? ? ? ? ?]. cbn in Me |- *. destruct B0. cbn in Me. subst. reflexivity. }
  pose proof (mesh_eproblem_ok G procs elems facets bc m MP VG E_ Hd N) as PO. fold Q in PO.
  assert (HG : forall U, exists d, has_dgradient Q elems facets U d).
  { intro U. apply (mesh_dgradient G procs elems facets bc m (linear_straight _ _ _ _) MP VG N N psi E_ RD). intros f Hf. rewrite EN. exists (fun l => f (point nodes l)). exact (Rp f Hf). }
  destruct (elasticity_assembly_is_br2 D procs elems facets bc m Q E2 fi MP PO RD2) as (A & b & HA & _ & LU & _ & EQ & _).
  exists A. split; [intros p Hp; rewrite <- (EM p Hp); apply (HA p Hp)|]. split; [exact LU|]. split; [exact EQ|].
  assert (IR : forall v c, (forall l, v l = c) -> in_range D (e_geo E_) v) by (intros v c Hv; apply (CR v c); auto).
  destruct (mesh_good G procs elems facets bc m MP VG (e_geo E_) Hd) as (_ & HJ & _).
  apply (elasticity_br2_matrix_positive D procs elems facets bc m Q E2 fi lam mu A MP PO RD2 Hd); auto.
  - intros g q Hg _. apply Rlt_le, (HJ g q Hg).
  - intros q Hq. apply (DegreeSpec.rd_W _ _ _ _ _ _ RD). exact Hq.
  - intros g q Hg Hq. split.
    + apply (within_constant _ _ _ (lam g) (fun l _ => proj1 (HM g l))). apply (proj1 (IR _ (lam g) (fun l => proj1 (HM g l))) q Hq).
    + apply (within_constant _ _ _ (mu g) (fun l _ => proj2 (HM g l))). apply (proj1 (IR _ (mu g) (fun l => proj2 (HM g l))) q Hq).
  - intros f g q Hf Hg Hq. pose proof (facet_number_lt G procs elems facets bc m MP VG f g Hf Hg) as Hs. split.
    + apply (within_constant _ _ _ (lam g) (fun l _ => proj1 (HM g l))). apply (proj2 (IR _ (lam g) (fun l => proj1 (HM g l))) _ q Hs Hq).
    + apply (within_constant _ _ _ (mu g) (fun l _ => proj2 (HM g l))). apply (proj2 (IR _ (mu g) (fun l => proj2 (HM g l))) _ q Hs Hq).
Qed.
Print Assumptions elasticity_br2_operator_positive.
