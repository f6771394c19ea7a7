(** Property theorems: the equations of the method of Bassi and Rebay for elasticity have exactly one
    solution, and it is the equilibrium where that is a polynomial (C91). *)
Require Import List Arith Lia Bool Reals Lra Psatz Classical Sorting.Sorted.
Require Import Verif.Base Verif.LinAlg Verif.SimplexModel Verif.SimplexProofs Verif.LocalMeshModel Verif.LocalMeshProps Verif.TopoModel Verif.TopoSpec Verif.TopoProofs Verif.TopoProps
  Verif.AssembleModel Verif.AssembleSpec Verif.AssembleProofs Verif.AssembleProps Verif.MatFree Verif.FaultModel Verif.PoissonModel Verif.PenaltyModel
  Verif.SipSpec Verif.SipProofs Verif.SipRank Verif.SipProps Verif.CoerciveProps
  Verif.GeometryModel Verif.GeometryProofs Verif.GeometrySpec Verif.GeometryProps Verif.GeometryStraight Verif.MeshSpec Verif.MeshProofs Verif.MeshPoissonProps
  Verif.BasisSpec Verif.IntegralSpec Verif.QuadratureProps Verif.DubinerProofs Verif.NodesConform Verif.DegreeSpec Verif.DegreeProofs Verif.DegreeProps Verif.DivergenceProofs
  Verif.TensorModel Verif.BasisModel Verif.QuadratureModel Verif.QuadratureSpec Verif.RefElementSpec Verif.RefElementModel Verif.RefElementProps Verif.ErrorExactProps Verif.OperatorRefModel Verif.OperatorRefProps
  Verif.ElasticityModel Verif.ElasticitySpec Verif.ElasticityProofs Verif.ElasticFormSpec Verif.ElasticFormProofs Verif.ElasticFormProps Verif.ElasticCoerciveProps Verif.MeshElasticSpec Verif.MeshElasticProps
  Verif.ElasticModeProps Verif.ConsistencySpec Verif.ConsistencyProofs Verif.ConsistencyProps Verif.ElasticConsistencySpec Verif.ElasticConsistencyProps
  Verif.DefiniteSpec Verif.DefiniteProofs Verif.DefiniteForm Verif.DefiniteMesh Verif.DefiniteProps Verif.SolveProofs Verif.RigidProofs Verif.ElasticDefiniteForm Verif.ElasticDefiniteMesh Verif.ElasticDefiniteProps
  Verif.Br2Props Verif.ElasticBr2Spec Verif.ElasticBr2Proofs Verif.ElasticBr2Rank Verif.ElasticBr2Positive Verif.ElasticBr2Props Verif.ElasticBr2Definite.
Import ListNotations.
Local Open Scope R_scope.

(** The form without the penalty of the other method and with the liftings. *)
Lemma ebr2_bnd_sip Q f g r U V : let P := e_geo (ep_ref Q) in ebr2_bnd Q f g r U V = ebnd_term Q f g U V
  - rsum (p_nq P) (fun q => p_w P q * (ep_pen Q f * ep_nl Q f q * rsum (p_dim P) (fun i => disp_on Q f g (U g) q i * disp_on Q f g (V g) q i)))
  + INR (p_dim P + 1) * elift_term Q f g (ebjump Q f g V) (r g).
Proof.
  intro P. unfold ebr2_bnd, ebnd_term. f_equal. rewrite <- rsum_minus. apply rsum_ext. intros q _. fold P. unfold ebjump. ring.
Qed.
Lemma ebr2_int_sip Q f g h r U V : let P := e_geo (ep_ref Q) in ebr2_int Q f g h r U V = eint_term Q f g h U V
  - rsum (p_nq P) (fun q => p_w P q * (ep_pen Q f * ep_nl Q f q * rsum (p_dim P) (fun i => (disp_on Q f g (U g) q i - disp_on Q f h (U h) q i) * (disp_on Q f g (V g) q i - disp_on Q f h (V h) q i))))
  + INR (p_dim P + 1) * (1 / 2 * elift_term Q f g (djump Q f g h V) (r g) + 1 / 2 * elift_term Q f h (djump Q f g h V) (r h)).
Proof.
  intro P. unfold ebr2_int, eint_term. f_equal. rewrite <- rsum_minus. apply rsum_ext. intros q _. fold P. ring.
Qed.
Lemma ebr2_bnd_load_sip Q f g r V : let P := e_geo (ep_ref Q) in ebr2_bnd_load Q f g r V = ebnd_load Q f g V
  - rsum (p_nq P) (fun q => p_w P q * (ep_pen Q f * ep_nl Q f q * rsum (p_dim P) (fun i => ep_value Q f i q * disp_on Q f g (V g) q i)))
  + INR (p_dim P + 1) * elift_term Q f g (ebjump Q f g V) (r g).
Proof.
  intro P. unfold ebr2_bnd_load, ebnd_load. f_equal. rewrite <- rsum_minus. apply rsum_ext. intros q _. fold P. unfold edvalue. ring.
Qed.
Lemma ebr2_int_load_sip Q f g h r V : let P := e_geo (ep_ref Q) in ebr2_int_load Q f g h r V = eint_load Q f g h V
  - rsum (p_nq P) (fun q => p_w P q * (ep_pen Q f * ep_nl Q f q * rsum (p_dim P) (fun i => ep_jump Q f g i q * (disp_on Q f g (V g) q i - disp_on Q f h (V h) q i))))
  + INR (p_dim P + 1) * (1 / 2 * elift_term Q f g (djump Q f g h V) (r g) + 1 / 2 * elift_term Q f h (djump Q f g h V) (r h)).
Proof.
  intro P. unfold ebr2_int_load, eint_load. f_equal. rewrite <- rsum_minus. apply rsum_ext. intros q _. fold P. unfold edjump. ring.
Qed.
(** The lifted term depends on the jump only. *)
Section Lifts.
Variables (Q : eproblem) (elems facets : list (list nat)) (lam mu : nat -> R).
Local Notation P := (e_geo (ep_ref Q)).
Hypothesis Kf : forall f g q, In f facets -> In g (elements_of elems f) -> (q < p_nq P)%nat -> lam_on Q f g q = lam g /\ mu_on Q f g q = mu g.
Lemma elift_same f g c j j' r s x t : In f facets -> In g (elements_of elems f) -> c <> 0 -> is_elifting Q f g c x t ->
  (forall q i k, (q < p_nq P)%nat -> (i < p_dim P)%nat -> (k < p_dim P)%nat -> j q i k = j' q i k) ->
  is_elifting Q f g c j r -> is_elifting Q f g c j' s -> elift_term Q f g x r = elift_term Q f g x s.
Proof.
  intros Hf Hg C0 LX EJ L1 L2. apply (Rmult_eq_reg_l c); [|exact C0].
  rewrite !(elift_term_ip Q elems facets lam mu Kf f g c x _ t Hf Hg LX), (eip_sym Q lam mu g t r), (eip_sym Q lam mu g t s).
  rewrite (elift_ip Q lam mu f g c j t r L1), (elift_ip Q lam mu f g c j' t s L2). f_equal. apply rsum_ext. intros q Hq. f_equal.
  unfold contract. apply rsum_ext. intros i Hi. apply rsum_ext. intros k Hk. rewrite EJ by auto. reflexivity.
Qed.
Lemma elift_nothing f g c j r x t : In f facets -> In g (elements_of elems f) -> c <> 0 -> is_elifting Q f g c x t ->
  (forall q i k, (q < p_nq P)%nat -> (i < p_dim P)%nat -> (k < p_dim P)%nat -> j q i k = 0) -> is_elifting Q f g c j r -> elift_term Q f g x r = 0.
Proof.
  intros Hf Hg C0 LX EJ L1. apply (Rmult_eq_reg_l c); [|exact C0].
  rewrite (elift_term_ip Q elems facets lam mu Kf f g c x _ t Hf Hg LX), (eip_sym Q lam mu g t r), (elift_ip Q lam mu f g c j t r L1). f_equal. apply rsum_zero. intros q Hq.
  unfold contract. rewrite rsum_zero; [ring|]. intros i Hi. apply rsum_zero. intros k Hk. rewrite EJ by auto. ring.
Qed.
End Lifts.

Section Consistent.
Variables (G : geo_setup) (procs : nat) (elems facets : list (list nat)) (bc : list nat -> nat) (m : nat -> topo_mesh).
Local Notation D := (gs_D G).
Hypothesis ST : straight G.
Hypothesis MP : mesh_parts D procs elems facets bc m.
Hypothesis VG : valid_geometry G elems facets.
Variables (k : nat) (phi : nat -> (nat -> R) -> R) (E_ : edata).
Local Notation R_ := (e_geo E_).
Hypothesis Hk : (1 <= k)%nat.
Hypothesis RD : reference_of_degree D k (gs_xi G) (gs_chi G) phi R_.
Variables (L : loads) (lam mu : nat -> R) (w : nat -> vec -> nat -> R) (dw : nat -> vec -> nat -> vec) (U : nat -> nat -> R).
Hypothesis EQ : equilibrium G elems facets bc L (p_Nq R_) (p_nq R_) (fun g _ => lam g) (fun g _ => mu g) w dw.
Hypothesis LO : parameter_is G elems facets R_ (e_lam E_) (fun g _ => lam g).
Hypothesis MO : parameter_is G elems facets R_ (e_mu E_) (fun g _ => mu g).
Hypothesis RU : represents_displacement G elems R_ phi w U.
Local Notation Q := (load_problem G elems E_ k L).
Let Hd : p_dim R_ = D := rd_dim _ _ _ _ _ _ RD.
Let HdQ : p_dim (e_geo (ep_ref Q)) = D := Hd.
Lemma load_Kf f g q : In f facets -> In g (elements_of elems f) -> (q < p_nq (e_geo (ep_ref Q)))%nat -> lam_on Q f g q = lam g /\ mu_on Q f g q = mu g.
Proof. intros Hf Hg Hq. split; [exact (proj2 LO f g q Hf Hg Hq)|exact (proj2 MO f g q Hf Hg Hq)]. Qed.
Theorem ebr2_consistent r s t V : elifts_jump Q elems facets U r -> elifts_data Q elems facets s -> elifts_jump Q elems facets V t ->
  ebr2_form Q elems facets bc r U V = ebr2_load Q elems facets bc s V.
Proof.
  intros LU LD LV.
  pose proof (elastic_form_consistent G procs elems facets bc m ST MP VG k phi E_ Hk RD L (fun g _ => lam g) (fun g _ => mu g) w dw U EQ LO MO (fun g _ => conj (poly_const D _ 1) (poly_const D _ 1)) RU V) as FC.
  assert (F : forall f, In f facets -> ebr2_facet Q elems bc f (r f) U V - efacet_term Q elems bc f U V = ebr2_facet_load Q elems bc f (s f) V - efacet_load Q elems bc f V).
  { intros f Hf. destruct (LU f Hf) as [U1 U2]. destruct (LD f Hf) as [D1 D2]. destruct (LV f Hf) as [V1 V2]. destruct (facet_one_or_two _ _ _ _ _ _ MP f Hf) as (g & h & El).
    pose proof (disp_exact G procs elems facets bc m MP VG k phi E_ RD L w U RU f) as TE.
    assert (C1 : 1 <> 0) by lra. assert (C2 : 1 / 2 <> 0) by lra.
    unfold ebr2_facet, efacet_term, ebr2_facet_load, efacet_load. change (ehas_data Q (bc f)) with (ld_on L (bc f)). destruct El as [El|El].
    - assert (Hg : In g (elements_of elems f)) by (rewrite El; cbn; auto). rewrite El. pose proof (U1 g El) as Ug. pose proof (D1 g El) as Dg. pose proof (V1 g El) as Vg.
      destruct (Nat.eqb_spec (bc f) BC_Natural) as [B|B].
      + assert (HN : ld_on L (bc f) = false) by (rewrite B; reflexivity). rewrite HN. reflexivity.
      + assert (CB : forall q i, (q < p_nq R_)%nat -> (i < D)%nat -> disp_on Q f g (U g) q i = if ld_on L (bc f) then ld_value L f i q else 0).
        { intros q i Hq Hi. rewrite (TE g q i Hf Hg Hq Hi). apply (eq_boundary _ _ _ _ _ _ _ _ _ _ _ EQ f g i q Hf El Hi Hq B). }
        rewrite ebr2_bnd_sip, HdQ. destruct (ld_on L (bc f)) eqn:HdT.
        * rewrite ebr2_bnd_load_sip, HdQ. rewrite (elift_same Q elems facets lam mu load_Kf f g 1 (ebjump Q f g U) (edvalue Q f g) (r f g) (s f g) _ (t f g) Hf Hg C1 Vg) by
            (auto; rewrite HdQ; intros q i l Hq Hi Hl; unfold ebjump, edvalue; rewrite (CB q i Hq Hi); reflexivity).
          rewrite (rsum_ext _ (fun q => p_w (e_geo (ep_ref Q)) q * (ep_pen Q f * ep_nl Q f q * rsum D (fun i => disp_on Q f g (U g) q i * _))) (fun q => p_w (e_geo (ep_ref Q)) q * (ep_pen Q f * ep_nl Q f q * rsum D (fun i => ep_value Q f i q * disp_on Q f g (V g) q i)))); [ring|].
          intros q Hq. do 2 f_equal. apply rsum_ext. intros i Hi. rewrite (CB q i Hq Hi). reflexivity.
        * rewrite (elift_nothing Q elems facets lam mu load_Kf f g 1 (ebjump Q f g U) (r f g) _ (t f g) Hf Hg C1 Vg) by (auto; rewrite HdQ; intros q i l Hq Hi Hl; unfold ebjump; rewrite (CB q i Hq Hi); ring).
          rewrite rsum_zero; [ring|]. intros q Hq. rewrite rsum_zero; [ring|]. intros i Hi. rewrite (CB q i Hq Hi). ring.
    - assert (Hg : In g (elements_of elems f)) by (rewrite El; cbn; auto). assert (Hh : In h (elements_of elems f)) by (rewrite El; cbn; auto). rewrite El.
      destruct (mesh_good G procs elems facets bc m MP VG R_ Hd) as (NN & _).
      assert (JE : forall q i, (q < p_nq R_)%nat -> (i < D)%nat -> disp_on Q f g (U g) q i - disp_on Q f h (U h) q i = if ld_on L (bc f) then ld_jump L f g i q else 0).
      { intros q i Hq Hi. rewrite (TE g q i Hf Hg Hq Hi), (TE h q i Hf Hh Hq Hi). apply (eq_inner _ _ _ _ _ _ _ _ _ _ _ EQ f g h i q Hf El Hi Hq). }
      assert (JN : forall q i l, djump Q f g h U q i l = (disp_on Q f g (U g) q i - disp_on Q f h (U h) q i) * ep_n Q f g l q).
      { intros q i l. unfold djump. change (ep_n Q f h l q) with (mesh_normal G elems f h l q). rewrite (NN f g h l q Hf El). change (ep_n Q f g l q) with (mesh_normal G elems f g l q). ring. }
      destruct (U2 g h El) as [Ug Uh]. destruct (D2 g h El) as [Dg Dh]. destruct (V2 g h El) as [Vg Vh]. rewrite ebr2_int_sip, HdQ. destruct (ld_on L (bc f)) eqn:HdT.
      + rewrite ebr2_int_load_sip, HdQ.
        assert (JJ : forall q i l, (q < p_nq (e_geo (ep_ref Q)))%nat -> (i < p_dim (e_geo (ep_ref Q)))%nat -> (l < p_dim (e_geo (ep_ref Q)))%nat -> djump Q f g h U q i l = edjump Q f g q i l).
        { rewrite HdQ. intros q i l Hq Hi Hl. rewrite JN, JE by auto. reflexivity. }
        rewrite (elift_same Q elems facets lam mu load_Kf f g (1 / 2) (djump Q f g h U) (edjump Q f g) (r f g) (s f g) _ (t f g) Hf Hg C2 Vg JJ Ug Dg).
        rewrite (elift_same Q elems facets lam mu load_Kf f h (1 / 2) (djump Q f g h U) (edjump Q f g) (r f h) (s f h) _ (t f h) Hf Hh C2 Vh JJ Uh Dh).
        rewrite (rsum_ext _ (fun q => p_w (e_geo (ep_ref Q)) q * (ep_pen Q f * ep_nl Q f q * rsum D (fun i => (disp_on Q f g (U g) q i - _) * _)))
           (fun q => p_w (e_geo (ep_ref Q)) q * (ep_pen Q f * ep_nl Q f q * rsum D (fun i => ep_jump Q f g i q * (disp_on Q f g (V g) q i - disp_on Q f h (V h) q i))))); [ring|].
        intros q Hq. do 2 f_equal. apply rsum_ext. intros i Hi. rewrite JE by auto. reflexivity.
      + assert (JZ : forall q i l, (q < p_nq (e_geo (ep_ref Q)))%nat -> (i < p_dim (e_geo (ep_ref Q)))%nat -> (l < p_dim (e_geo (ep_ref Q)))%nat -> djump Q f g h U q i l = 0).
        { rewrite HdQ. intros q i l Hq Hi Hl. rewrite JN, JE by auto. ring. }
        rewrite (elift_nothing Q elems facets lam mu load_Kf f g (1 / 2) (djump Q f g h U) (r f g) _ (t f g) Hf Hg C2 Vg JZ Ug), (elift_nothing Q elems facets lam mu load_Kf f h (1 / 2) (djump Q f g h U) (r f h) _ (t f h) Hf Hh C2 Vh JZ Uh).
        rewrite rsum_zero; [ring|]. intros q Hq. rewrite rsum_zero; [ring|]. intros i Hi. rewrite JE by auto. ring. }
  unfold ebr2_form, ebr2_load. unfold elastic_form, elastic_load in FC.
  assert (S : lsum (fun f => ebr2_facet Q elems bc f (r f) U V) facets - lsum (fun f => efacet_term Q elems bc f U V) facets = lsum (fun f => ebr2_facet_load Q elems bc f (s f) V) facets - lsum (fun f => efacet_load Q elems bc f V) facets).
  { assert (SM : forall (a b : list nat -> R) l, lsum a l - lsum b l = lsum (fun f => a f - b f) l) by (intros a b l; induction l as [|x l IH]; cbn; [ring|rewrite <- IH; ring]).
    rewrite !SM. apply lsum_ext. exact F. }
  lra.
Qed.
End Consistent.

Lemma with_emethod_loads D L m M pen E : holds_loads D L m E -> holds_loads D L m (with_emethod M pen E).
Proof. intros [A1 A2 A3]. constructor; assumption. Qed.

(** C91: for the operator that Elasticity's constructor builds, with the method of Bassi and Rebay, on a mesh
    of straight triangles or tetrahedra that are all connected with a boundary where displacements are
    prescribed, with lambda >= 0 and mu > 0 constant in each element: the matrix is symmetric positive
    definite and the equations have exactly one solution.  If there is an equilibrium that is a polynomial
    of at most the degree of the elements in each element, then the computed nodal displacements are those
    of the equilibrium. *)
Theorem elastic_br2_operator_exact : forall root wv2 js wv3 inverse m0 D N set mi nodes B X procs elems facets bc m fi E E_ L lam mu,
  constructor_data root wv2 js wv3 inverse D N set mi nodes -> (1 <= N)%nat ->
  let order := MinQuadOrder N set in
  let G := linear_setup D X (point (map fst (volRule root wv2 js wv3 D order))) (point (map fst (fctRule root wv2 js wv3 D order))) in
  mesh_parts D procs elems facets bc m -> valid_geometry G elems facets ->
  (forall g, (g < length elems)%nat -> 0 <= lam g /\ 0 < mu g) ->
  (forall g, (g < length elems)%nat -> anchored elems facets bc g) ->
  (forall f g h i q, In f facets -> elements_of elems f = [g; h] -> ld_jump L f h i q = - ld_jump L f g i q) ->
  let r := length nodes in let n := (r * D)%nat in
  exists R_, Elasticity_constructor root wv2 js wv3 inverse m0 D N set mi nodes B = Some R_ /\
  (e_geo E_ = R_ -> (forall g l, (g < length elems)%nat -> (l < r)%nat -> e_lam E_ g l = lam g /\ e_mu E_ g l = mu g) ->
   (forall p, (p < procs)%nat -> elastic_br2_rank inverse G E_ (m p) (fi p) (E p) /\ holds_loads D L (m p) (E p)) ->
   exists A b U, (forall p, (p < procs)%nat -> map_opt (to_global (m p)) (assemble (m p) (fi p) (elasticity_mat (E p))) = Some (A p)) /\
    (forall p, (p < procs)%nat -> map_opt (to_global_row (m p)) (rhs (m p) (fi p) (elasticity_vec (E p))) = Some (b p)) /\
    (forall V W, pairing n (flat_map A (seq 0 procs)) V W = pairing n (flat_map A (seq 0 procs)) W V) /\
    (forall V, nonzero (length elems) n V -> 0 < pairing n (flat_map A (seq 0 procs)) V V) /\
    solves n (flat_map A (seq 0 procs)) (flat_map b (seq 0 procs)) U /\
    (forall U', solves n (flat_map A (seq 0 procs)) (flat_map b (seq 0 procs)) U' -> forall g l, (g < length elems)%nat -> (l < n)%nat -> U' g l = U g l) /\
    forall w dw, (forall g p, (g < length elems)%nat -> (p < D)%nat -> polynomial D N (fun x => w g x p)) ->
      equilibrium G elems facets bc L (p_Nq R_) (p_nq R_) (fun g _ => lam g) (fun g _ => mu g) w dw ->
      forall g l p, (g < length elems)%nat -> (l < r)%nat -> (p < D)%nat -> U g (l + r * p)%nat = w g (place_in G elems g (point nodes l)) p).
Proof.
  intros root wv2 js wv3 inverse m0 D N set mi nodes B X procs elems facets bc m fi E E_ L lam mu CD HN order G MP VG HL AN SL r n.
  pose proof CD as (HD & RT & Ln & Un & HI & _).
  destruct (nodal_basis_exists_unique inverse D N mi nodes ltac:(lia) RT Ln Un HI) as (psi & Hpsi & _ & Rp & _).
  destruct (elastic_reference_of_degree root wv2 js wv3 inverse m0 D N set mi nodes psi B CD Hpsi) as (R_ & ER & EN & _ & RD & _ & _ & CR).
  exists R_. split; [exact ER|]. intros EE HM RK. subst R_. pose proof (nodal_independent D N nodes psi Hpsi) as LI. fold r in EN, LI.
  pose proof (DegreeSpec.rd_dim _ _ _ _ _ _ RD) as Hd. pose proof (DegreeSpec.rd_N _ _ _ _ _ _ RD) as HN0.
  assert (ST : straight G) by apply linear_straight.
  assert (SP : forall f, polynomial D N f -> exists c, forall x, f x = rsum (p_N (e_geo E_)) (fun l => c l * psi l x)).
  { intros f Hf. rewrite EN. exists (fun l => f (point nodes l)). exact (Rp f Hf). }
  set (Q := load_problem G elems E_ N L). set (Q0 := mesh_eproblem G elems E_ N) in *.
  assert (PI : forall K c, (forall g l, (g < length elems)%nat -> (l < r)%nat -> K g l = c g) -> parameter_is G elems facets (e_geo E_) K (fun g _ => c g)).
  { intros K c HK. rewrite <- EN in HK. assert (IR : forall g, (g < length elems)%nat -> in_range D (e_geo E_) (K g)) by (intros g Hg; apply (CR _ (c g)); intros; apply HK; auto; lia). split.
    - intros g q Hg Hq. apply (within_constant _ _ _ (c g) (fun l Hl => HK g l Hg Hl)). apply (proj1 (IR g Hg) q Hq).
    - intros f g q Hf Hg Hq. pose proof (in_elems elems f g Hg) as Hl. pose proof (facet_number_lt G procs elems facets bc m MP VG f g Hf Hg) as Hs.
      apply (within_constant _ _ _ (c g) (fun l Hll => HK g l Hl Hll)). apply (proj2 (IR g Hl) _ q Hs Hq). }
  pose proof (PI (e_lam E_) lam (fun g l Hg Hl => proj1 (HM g l Hg Hl))) as LO. pose proof (PI (e_mu E_) mu (fun g l Hg Hl => proj2 (HM g l Hg Hl))) as MO.
  assert (Kv : forall g q, (g < length elems)%nat -> (q < p_Nq (e_geo E_))%nat -> lam_in Q0 g q = lam g /\ mu_in Q0 g q = mu g) by (intros g q Hg Hq; split; [exact (proj1 LO g q Hg Hq)|exact (proj1 MO g q Hg Hq)]).
  assert (Kf : forall f g q, In f facets -> In g (elements_of elems f) -> (q < p_nq (e_geo E_))%nat -> lam_on Q0 f g q = lam g /\ mu_on Q0 f g q = mu g) by (intros f g q Hf Hg Hq; split; [exact (proj2 LO f g q Hf Hg Hq)|exact (proj2 MO f g q Hf Hg Hq)]).
  set (E1 := fun p => with_emethod IP (ip_pen (E p) N (fi p)) (E p)). set (E2 := fun p => with_emethod BR2 (ip_pen (E p) N (fi p)) (E1 p)).
  assert (RD2 : forall p, (p < procs)%nat -> erank_data D Q (m p) (E2 p) /\ (forall e, (e < length (tm_l2cg (m p)))%nat -> keeps_inverse (E2 p) e) /\
     p_method (e_geo (E2 p)) = BR2 /\ facet_table D (m p) = Some (fi p)).
  { intros p Hp. destruct (load_rank G procs elems facets bc m E_ N fi E1 L p MP VG Hd HN HN0 (fun p Hp => with_emethod_rank inverse _ _ _ _ _ _ (proj1 (RK p Hp))) Hp (with_emethod_loads _ _ _ _ _ _ (proj2 (RK p Hp)))) as (R0 & _ & T).
    split; [|split; [|split; [reflexivity|exact T]]].
    - destruct R0. constructor; assumption.
    - intros e He. exact (rank_keeps_inverse root wv2 js wv3 inverse m0 D N set mi nodes B X procs elems facets bc m fi E E_ CD HN MP VG ER (fun p Hp => proj1 (RK p Hp)) p e Hp He). }
  assert (EM : forall p, (p < procs)%nat -> elasticity_mat (E2 p) = elasticity_mat (E p) /\ elasticity_vec (E2 p) = elasticity_vec (E p)).
  { intros p Hp. pose proof (eb_method _ _ _ _ _ _ (proj1 (RK p Hp))) as Me. unfold E2, E1, with_emethod. destruct (E p) as [B0 ? ? ? ? ? ? ?]. cbn in Me |- *. destruct B0. cbn in Me. subst. split; reflexivity. }
  assert (PO : eproblem_ok D elems facets Q).
  { destruct (mesh_eproblem_ok G procs elems facets bc m MP VG E_ Hd N) as [La Nn _]. split; [exact La|exact Nn|exact SL]. }
  assert (HG : forall U, exists d, has_dgradient Q0 elems facets U d) by (intro U; apply (mesh_dgradient G procs elems facets bc m ST MP VG N N psi E_ RD SP)).
  destruct (elasticity_assembly_is_br2 D procs elems facets bc m Q E2 fi MP PO RD2) as (A & b & HA & Hb & LU & (s & LD) & EF).
  assert (En : block_size (ep_ref Q) = n) by (unfold block_size, n; change (p_N (e_geo (ep_ref Q))) with (p_N (e_geo E_)); change (p_dim (e_geo (ep_ref Q))) with (p_dim (e_geo E_)); rewrite Hd, EN; reflexivity).
  cbv zeta in EF. rewrite En in EF. destruct EF as [F1 F2].
  destruct (mesh_good G procs elems facets bc m MP VG (e_geo E_) Hd) as (_ & HJ & _).
  destruct (elasticity_br2_matrix_positive D procs elems facets bc m Q E2 fi lam mu A MP PO RD2 Hd) as [SY NN]; auto.
  { intros g q Hg _. apply Rlt_le, (HJ g q Hg). }
  { intros q Hq. apply (DegreeSpec.rd_W _ _ _ _ _ _ RD). exact Hq. }
  { intros g Hg. destruct (HL g Hg). lra. }
  rewrite En in SY, NN.
  assert (HA' : forall p, (p < procs)%nat -> map_opt (to_global (m p)) (assemble (m p) (fi p) (elasticity_mat (E p))) = Some (A p)) by (intros p Hp; rewrite <- (proj1 (EM p Hp)); auto).
  assert (Hb' : forall p, (p < procs)%nat -> map_opt (to_global_row (m p)) (rhs (m p) (fi p) (elasticity_vec (E p))) = Some (b p)) by (intros p Hp; rewrite <- (proj2 (EM p Hp)); auto).
  assert (DF : forall U, pairing n (flat_map A (seq 0 procs)) U U = 0 -> forall g l, (g < length elems)%nat -> (l < n)%nat -> U g l = 0).
  { intros U Z g l Hg Hl. destruct (LU U) as (t & Ht). rewrite (F1 U U t Ht) in Z. destruct (HG U) as (d & HdU). unfold n in Hl.
    assert (r0 : (0 < r)%nat) by lia. set (p := (l / r)%nat). set (i := (l mod r)%nat).
    assert (Hi : (i < r)%nat) by (apply Nat.mod_upper_bound; lia). assert (Hp : (p < D)%nat) by (apply Nat.div_lt_upper_bound; lia).
    assert (El : l = (i + r * p)%nat) by (unfold i, p; pose proof (Nat.div_mod l r ltac:(lia)); lia).
    rewrite El. apply (LI (fun i => U g (i + r * p)%nat)); [|exact Hi]. intro x.
    pose proof (ebr2_zero_anchored G procs elems facets bc m ST MP VG N psi E_ HN RD SP lam mu HL Kv Kf U t d Ht HdU Z g (AN g Hg) p x Hp) as Y.
    unfold fem, coef in Y. change (p_N (e_geo (ep_ref (mesh_eproblem G elems E_ N)))) with (p_N (e_geo E_)) in Y. rewrite EN in Y. exact Y. }
  destruct (solvable (length elems) n (flat_map A (seq 0 procs)) (flat_map b (seq 0 procs))) as (U & S1 & S2).
  { intros i j M. apply (blocks_in_range D procs elems facets bc m _ _ A MP HA). }
  { intros i M. apply (rows_in_range D procs elems facets bc m _ _ b MP Hb). }
  { exact DF. }
  exists A, b, U. split; [exact HA'|]. split; [exact Hb'|]. split; [intros; apply SY|]. split; [|split; [exact S1|split; [exact S2|]]].
  - intros V (g & l & Hg & Hl & Ne). destruct (NN V) as [H|H]; [exact H|]. exfalso. apply Ne. apply (DF V); auto.
  - intros w dw Hw CS g l p Hg Hl Hp.
    assert (PL : forall g d f, polynomial D d f -> polynomial D d (fun xi => f (place_in G elems g xi))).
    { intros g' d f Hf. apply (poly_through D D); [exact Hf|]. intros i Hi. apply (place_poly G elems ST g' i Hi). }
    set (W g i := w g (place_in G elems g (point nodes (i mod r))) (i / r)%nat).
    assert (EW : forall g l p, (l < r)%nat -> W g (l + r * p)%nat = w g (place_in G elems g (point nodes l)) p).
    { intros g' l' p' Hl'. unfold W. rewrite (Nat.mul_comm r p'), Nat.mod_add, Nat.div_add, Nat.mod_small, Nat.div_small by lia. reflexivity. }
    rewrite <- EW by exact Hl. symmetry. apply S2; [|exact Hg|unfold n; nia].
    intro V. destruct (LU W) as (t & Ht). destruct (LU V) as (v & Hv). rewrite (F1 W V t Ht), (F2 V s LD).
    apply (ebr2_consistent G procs elems facets bc m ST MP VG N psi E_ HN RD L lam mu w dw W CS LO MO) with (t := v); auto.
    intros g' p' xi Hg' Hp'. rewrite EN. rewrite (Rp (fun x => w g' (place_in G elems g' x) p')) by (apply (PL g' N (fun x => w g' x p')); apply Hw; auto).
    apply rsum_ext. intros l' Hl'. rewrite EW by exact Hl'. ring.
Qed.
Print Assumptions elastic_br2_operator_exact.
