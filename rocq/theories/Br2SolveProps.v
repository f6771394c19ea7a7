(** Property theorems: the equations of the method of Bassi and Rebay have exactly one solution, and it
    is the exact one where that is a polynomial (C89). *)
Require Import List Arith Lia Bool Reals Lra Psatz Classical.
Require Import Verif.Base Verif.LinAlg Verif.SimplexModel Verif.LocalMeshModel Verif.LocalMeshProps Verif.TopoModel Verif.TopoSpec Verif.TopoProofs Verif.TopoProps
  Verif.AssembleModel Verif.AssembleSpec Verif.AssembleProofs Verif.AssembleProps Verif.MatFree Verif.PoissonModel Verif.PoissonProofs Verif.PenaltyModel
  Verif.SipSpec Verif.SipProofs Verif.SipRank Verif.SipProps Verif.CoerciveProps
  Verif.GeometryModel Verif.GeometryProofs Verif.GeometrySpec Verif.GeometryProps Verif.GeometryStraight Verif.MeshSpec Verif.MeshProofs Verif.MeshPoissonProps
  Verif.TensorModel Verif.BasisModel Verif.BasisSpec Verif.IntegralSpec Verif.IntegralProofs Verif.QuadratureModel Verif.QuadratureSpec Verif.QuadratureProps Verif.RootsProps
  Verif.RefElementModel Verif.RefElementSpec Verif.RefElementProofs Verif.RefElementProps Verif.DubinerProofs Verif.NodesConform
  Verif.ErrorExactProps Verif.DegreeSpec Verif.DegreeProofs Verif.DegreeProps Verif.DivergenceProofs Verif.OperatorRefModel Verif.OperatorRefProps
  Verif.ConsistencySpec Verif.ConsistencyProofs Verif.ConsistencyProps Verif.DefiniteSpec Verif.DefiniteProofs Verif.DefiniteForm Verif.DefiniteMesh Verif.SolveProofs Verif.DefiniteProps
  Verif.Br2Spec Verif.Br2Proofs Verif.Br2Rank Verif.Br2Positive Verif.Br2Props Verif.Br2Definite.
Import ListNotations.
Local Open Scope R_scope.

(** The form without the penalty of the other method and with the liftings. *)
Lemma br2_bnd_sip Q f g r U V : let P := pb_ref Q in br2_bnd Q f g r U V = bnd_term Q f g U V
  - rsum (p_nq P) (fun q => p_w P q * (pb_pen Q f * pb_nl Q f q * trace Q f g (U g) q * trace Q f g (V g) q)) + INR (p_dim P + 1) * lift_term Q f g (bjump Q f g V) (r g).
Proof.
  intro P. unfold br2_bnd, bnd_term. f_equal. rewrite <- rsum_minus. apply rsum_ext. intros q _. fold P. unfold bjump. ring.
Qed.
Lemma br2_int_sip Q f g h r U V : let P := pb_ref Q in br2_int Q f g h r U V = int_term Q f g h U V
  - rsum (p_nq P) (fun q => p_w P q * (pb_pen Q f * pb_nl Q f q * (trace Q f g (U g) q - trace Q f h (U h) q) * (trace Q f g (V g) q - trace Q f h (V h) q)))
  + INR (p_dim P + 1) * (1 / 2 * lift_term Q f g (jump Q f g h V) (r g) + 1 / 2 * lift_term Q f h (jump Q f g h V) (r h)).
Proof.
  intro P. unfold br2_int, int_term. f_equal. rewrite <- rsum_minus. apply rsum_ext. intros q _. fold P. ring.
Qed.
Lemma br2_bnd_load_sip Q f g r V : let P := pb_ref Q in br2_bnd_load Q f g r V = bnd_load Q f g V
  - rsum (p_nq P) (fun q => p_w P q * (pb_pen Q f * pb_nl Q f q * pb_value Q f q * trace Q f g (V g) q)) + INR (p_dim P + 1) * lift_term Q f g (bjump Q f g V) (r g).
Proof.
  intro P. unfold br2_bnd_load, bnd_load. f_equal. rewrite <- rsum_minus. apply rsum_ext. intros q _. fold P. unfold dvalue. ring.
Qed.
Lemma br2_int_load_sip Q f g h r V : let P := pb_ref Q in br2_int_load Q f g h r V = int_load Q f g h V
  - rsum (p_nq P) (fun q => p_w P q * (pb_pen Q f * pb_nl Q f q * pb_jump Q f g q * (trace Q f g (V g) q - trace Q f h (V h) q)))
  + INR (p_dim P + 1) * (1 / 2 * lift_term Q f g (jump Q f g h V) (r g) + 1 / 2 * lift_term Q f h (jump Q f g h V) (r h)).
Proof.
  intro P. unfold br2_int_load, int_load. f_equal. rewrite <- rsum_minus. apply rsum_ext. intros q _. fold P. unfold djump. ring.
Qed.
Section Lifts.
Variables (Q : problem) (elems : list (list nat)) (jac : nat -> R).
Hypothesis CJ : constant_jacobian Q elems jac.
Hypothesis IM : inverts_mass Q.
Local Notation P := (pb_ref Q).
Lemma lift_same f g c j j' r s x : (g < length elems)%nat -> (forall i q, (i < p_dim P)%nat -> (q < p_nq P)%nat -> j i q = j' i q) ->
  is_lifting Q f g c j r -> is_lifting Q f g c j' s -> lift_term Q f g x r = lift_term Q f g x s.
Proof.
  intros Hg E L1 L2. assert (L3 : is_lifting Q f g c j s).
  { intros i t Hi Ht. rewrite (L2 i t Hi Ht). f_equal. apply rsum_ext. intros q Hq. rewrite E by auto. reflexivity. }
  unfold lift_term. apply rsum_ext. intros q Hq. f_equal. apply rsum_ext. intros i Hi. f_equal. unfold trace. apply rsum_ext. intros l Hl. f_equal.
  rewrite (lift_unique Q elems jac CJ IM f g c j r Hg L1 i l Hi Hl), (lift_unique Q elems jac CJ IM f g c j s Hg L3 i l Hi Hl). reflexivity.
Qed.
Lemma lift_nothing f g c j r x : (g < length elems)%nat -> (forall i q, (i < p_dim P)%nat -> (q < p_nq P)%nat -> j i q = 0) -> is_lifting Q f g c j r -> lift_term Q f g x r = 0.
Proof.
  intros Hg E L. rewrite (lift_same f g c j (fun _ _ => 0) r (fun _ _ => 0) x Hg E L).
  - apply rsum_zero. intros. rewrite rsum_zero; [ring|]. intros. unfold trace. rewrite rsum_zero by (intros; ring). ring.
  - intros i t _ _. rewrite (rsum_zero (p_Nq P)) by (intros; unfold value; rewrite rsum_zero by (intros; ring); ring). rewrite rsum_zero by (intros; ring). ring.
Qed.
End Lifts.

Section Consistent.
Variables (G : geo_setup) (procs : nat) (elems facets : list (list nat)) (bc : list nat -> nat) (m : nat -> topo_mesh).
Local Notation D := (gs_D G).
Hypothesis ST : straight G.
Hypothesis MP : mesh_parts D procs elems facets bc m.
Hypothesis VG : valid_geometry G elems facets.
Variables (k : nat) (phi : nat -> (nat -> R) -> R) (R_ : pdata).
Hypothesis Hk : (1 <= k)%nat.
Hypothesis RD : reference_of_degree D k (gs_xi G) (gs_chi G) phi R_.
Variables (c w : nat -> vec -> R) (dw : nat -> vec -> vec) (slip : list nat -> nat -> nat -> R) (val : list nat -> nat -> R) (U : nat -> nat -> R).
Hypothesis CS : classical_solution G elems facets bc (p_force R_) slip val (p_Nq R_) (p_nq R_) c w dw.
Hypothesis CO : coefficient_is G elems facets R_ c.
Hypothesis C1 : forall g, (g < length elems)%nat -> polynomial D 1 (c g).
Hypothesis RU : represents G elems R_ phi w U.
Local Notation Q := (data_problem G elems R_ k slip val).
Hypothesis IM : inverts_mass Q.
Let Hd := rd_dim _ _ _ _ _ _ RD.
Lemma data_CJ : constant_jacobian Q elems (volume_element G elems).
Proof. exact (CJ G procs elems facets bc m ST MP VG k phi R_ RD). Qed.
Theorem br2_consistent r s V : lifts_jump Q elems facets U r -> lifts_data Q elems facets s -> br2_form Q elems facets bc r U V = br2_load Q elems facets bc s V.
Proof.
  intros LU LD. pose proof (form_consistent G procs elems facets bc m ST MP VG k phi R_ Hk RD c w dw slip val U CS CO C1 RU V) as FC.
  assert (F : forall f, In f facets -> br2_facet Q elems bc f (r f) U V - facet_term Q elems bc f U V = br2_facet_load Q elems bc f (s f) V - facet_load Q elems bc f V).
  { intros f Hf. destruct (LU f Hf) as [U1 U2]. destruct (LD f Hf) as [D1 D2]. destruct (facet_one_or_two _ _ _ _ _ _ MP f Hf) as (g & h & El).
    pose proof (trace_exact G procs elems facets bc m MP VG k phi R_ RD w slip val U RU f) as TE.
    unfold br2_facet, facet_term, br2_facet_load, facet_load. destruct El as [El|El]; rewrite El in *.
    - assert (Hg : (g < length elems)%nat) by (apply (in_elems elems f); rewrite El; cbn; auto). specialize (TE g).
      destruct (Nat.eqb_spec (bc f) BC_Natural) as [B|B].
      + assert (HN : has_data (bc f) = false) by (rewrite B; reflexivity). rewrite HN. reflexivity.
      + pose proof (fun q Hq => cs_boundary _ _ _ _ _ _ _ _ _ _ _ _ CS f g q Hf El Hq B) as CB. rewrite br2_bnd_sip.
        destruct (has_data (bc f)) eqn:HdT.
        * rewrite br2_bnd_load_sip. rewrite (lift_same Q elems _ data_CJ IM f g 1 (bjump Q f g U) (dvalue Q f g) (r f g) (s f g) _ Hg) by
            (auto; intros i q Hi Hq; unfold bjump, dvalue; rewrite (TE q Hf ltac:(cbn; auto) Hq), (CB q Hq); reflexivity).
          rewrite (rsum_ext _ (fun q => p_w (pb_ref Q) q * (pb_pen Q f * pb_nl Q f q * trace Q f g (U g) q * _)) (fun q => p_w (pb_ref Q) q * (pb_pen Q f * pb_nl Q f q * pb_value Q f q * trace Q f g (V g) q))) by
            (intros q Hq; rewrite (TE q Hf ltac:(cbn; auto) Hq), (CB q Hq); reflexivity). ring.
        * rewrite (lift_nothing Q elems _ data_CJ IM f g 1 (bjump Q f g U) (r f g) _ Hg) by (auto; intros i q Hi Hq; unfold bjump; rewrite (TE q Hf ltac:(cbn; auto) Hq), (CB q Hq); ring).
          rewrite rsum_zero by (intros q Hq; rewrite (TE q Hf ltac:(cbn; auto) Hq), (CB q Hq); ring). ring.
    - assert (Hg : (g < length elems)%nat) by (apply (in_elems elems f); rewrite El; cbn; auto). assert (Hh : (h < length elems)%nat) by (apply (in_elems elems f); rewrite El; cbn; auto).
      destruct (mesh_good G procs elems facets bc m MP VG R_ Hd) as (NN & _).
      assert (JE : forall q, (q < p_nq R_)%nat -> trace Q f g (U g) q - trace Q f h (U h) q = if has_data (bc f) then slip f g q else 0).
      { intros q Hq. rewrite (TE g q Hf ltac:(cbn; auto) Hq), (TE h q Hf ltac:(cbn; auto) Hq). apply (cs_inner _ _ _ _ _ _ _ _ _ _ _ _ CS f g h q Hf El Hq). }
      assert (JN : forall i q, jump Q f g h U i q = (trace Q f g (U g) q - trace Q f h (U h) q) * pb_n Q f g i q).
      { intros i q. unfold jump. change (pb_n Q f h i q) with (mesh_normal G elems f h i q). rewrite (NN f g h i q Hf El). change (pb_n Q f g i q) with (mesh_normal G elems f g i q). ring. }
      destruct (U2 g h eq_refl) as [Ug Uh]. destruct (D2 g h eq_refl) as [Dg Dh]. rewrite br2_int_sip. destruct (has_data (bc f)) eqn:HdT.
      + rewrite br2_int_load_sip. assert (JJ : forall i q, (i < p_dim (pb_ref Q))%nat -> (q < p_nq (pb_ref Q))%nat -> jump Q f g h U i q = djump Q f g i q) by (intros i q Hi Hq; rewrite JN, JE by auto; reflexivity).
        rewrite (lift_same Q elems _ data_CJ IM f g (1 / 2) (jump Q f g h U) (djump Q f g) (r f g) (s f g) _ Hg JJ Ug Dg).
        rewrite (lift_same Q elems _ data_CJ IM f h (1 / 2) (jump Q f g h U) (djump Q f g) (r f h) (s f h) _ Hh JJ Uh Dh).
        rewrite (rsum_ext _ (fun q => p_w (pb_ref Q) q * (pb_pen Q f * pb_nl Q f q * (trace Q f g (U g) q - _) * _)) (fun q => p_w (pb_ref Q) q * (pb_pen Q f * pb_nl Q f q * pb_jump Q f g q * (trace Q f g (V g) q - trace Q f h (V h) q)))) by
          (intros q Hq; rewrite JE by auto; reflexivity). ring.
      + rewrite (lift_nothing Q elems _ data_CJ IM f g (1 / 2) (jump Q f g h U) (r f g) _ Hg), (lift_nothing Q elems _ data_CJ IM f h (1 / 2) (jump Q f g h U) (r f h) _ Hh) by (auto; intros i q Hi Hq; rewrite JN, JE by auto; ring).
        rewrite rsum_zero by (intros q Hq; rewrite JE by auto; ring). ring. }
  unfold br2_form, br2_load. unfold sip_form, sip_load in FC.
  assert (S : lsum (fun f => br2_facet Q elems bc f (r f) U V) facets - lsum (fun f => facet_term Q elems bc f U V) facets = lsum (fun f => br2_facet_load Q elems bc f (s f) V) facets - lsum (fun f => facet_load Q elems bc f V) facets).
  { assert (SM : forall (a b : list nat -> R) l, lsum a l - lsum b l = lsum (fun f => a f - b f) l) by (intros a b l; induction l as [|x l IH]; cbn; [ring|rewrite <- IH; ring]).
    rewrite !SM. apply lsum_ext. exact F. }
  lra.
Qed.
End Consistent.

Lemma with_method_data D R_ slip val m fi degree M P : holds_data D R_ slip val m P -> holds_data D R_ slip val m (with_method M fi degree P).
Proof. intros [A1 A2 A3]. constructor; assumption. Qed.

(** C89: for the operator that Poisson's constructor builds, with the method of Bassi and Rebay, on a mesh of
    straight triangles or tetrahedra that are all connected with a boundary where values are prescribed,
    with a coefficient that is a positive constant in each element: the matrix is symmetric positive
    definite and the equations have exactly one solution.  If the Poisson problem has a classical solution
    which is a polynomial of at most the degree of the elements in each element, then the computed solution is
    that one, at every point. *)
Theorem br2_operator_exact : forall root wv2 js wv3 inverse m0 D N set mi nodes B X procs elems facets bc m fi P c slip value,
  constructor_data root wv2 js wv3 inverse D N set mi nodes -> (1 <= N)%nat ->
  let order := MinQuadOrder N set in
  let G := linear_setup D X (point (map fst (volRule root wv2 js wv3 D order))) (point (map fst (fctRule root wv2 js wv3 D order))) in
  mesh_parts D procs elems facets bc m -> valid_geometry G elems facets ->
  (forall g l, (g < length elems)%nat -> (l < length mi)%nat -> p_K B g l = c g) -> (forall g, (g < length elems)%nat -> 0 < c g) ->
  (forall g, (g < length elems)%nat -> anchored elems facets bc g) ->
  (forall f g h q, In f facets -> elements_of elems f = [g; h] -> slip f h q = - slip f g q) ->
  exists R_, Poisson_constructor root wv2 js wv3 inverse m0 D N set mi nodes B = Some R_ /\
  ((forall p, (p < procs)%nat -> br2_rank G R_ (m p) (fi p) (P p) /\ holds_data D R_ slip value (m p) (P p)) ->
   exists A b U, (forall p, (p < procs)%nat -> map_opt (to_global (m p)) (assemble (m p) (fi p) (poisson_mat (P p))) = Some (A p)) /\
    (forall p, (p < procs)%nat -> map_opt (to_global_row (m p)) (rhs (m p) (fi p) (poisson_vec (P p))) = Some (b p)) /\
    (forall V W, pairing (length mi) (flat_map A (seq 0 procs)) V W = pairing (length mi) (flat_map A (seq 0 procs)) W V) /\
    (forall V, nonzero (length elems) (length mi) V -> 0 < pairing (length mi) (flat_map A (seq 0 procs)) V V) /\
    solves (length mi) (flat_map A (seq 0 procs)) (flat_map b (seq 0 procs)) U /\
    (forall U', solves (length mi) (flat_map A (seq 0 procs)) (flat_map b (seq 0 procs)) U' -> forall g l, (g < length elems)%nat -> (l < length mi)%nat -> U' g l = U g l) /\
    forall w dw, (forall g, (g < length elems)%nat -> polynomial D N (w g)) ->
      classical_solution G elems facets bc (p_force B) slip value (p_Nq R_) (p_nq R_) (fun g _ => c g) w dw ->
      forall g x, (g < length elems)%nat -> rsum (length mi) (fun l => U g l * DubinerP D (nth l mi []) x) = w g (place_in G elems g x)).
Proof.
  intros root wv2 js wv3 inverse m0 D N set mi nodes B X procs elems facets bc m fi P c slip value CD HN order G MP VG HK Hc AN SL.
  destruct (br2_operator_positive root wv2 js wv3 inverse m0 D N set mi nodes B X procs elems facets bc m fi P c CD HN MP VG HK (fun g Hg => Rlt_le _ _ (Hc g Hg))) as (R_ & ER & POS).
  exists R_. split; [exact ER|]. intro RK.
  destruct (POS (fun p Hp => proj1 (RK p Hp))) as (A1 & HA1 & LU1 & HF1 & SY1 & NN1). clear POS.
  destruct (poisson_reference_of_degree root wv2 js wv3 inverse m0 D N set mi nodes B CD) as (R' & ER' & EN & EK & RD & MM & CR). assert (R' = R_) by congruence. subst R'. clear ER'.
  pose proof CD as (HD & RT & Ln & Un & HI & _ & _ & SQ & _). assert (HD3 : (D = 1 \/ D = 2 \/ D = 3)%nat) by lia.
  pose proof (DegreeSpec.rd_dim _ _ _ _ _ _ RD) as Hd. pose proof (DegreeSpec.rd_N _ _ _ _ _ _ RD) as HN0.
  pose proof (dubiner_independent D N mi HD RT) as LI.
  destruct (modal_ref_element D N mi HD3 RT) as (_ & _ & Sp & _).
  assert (SP : forall f, polynomial D N f -> exists c, forall x, f x = rsum (p_N R_) (fun l => c l * DubinerP D (nth l mi []) x)).
  { intros f Hf. rewrite EN. destruct (Sp f Hf) as (cc & Hcc & _). exists cc. exact Hcc. }
  assert (ST : straight G) by apply linear_straight.
  assert (KC : forall g l, (g < length elems)%nat -> (l < p_N R_)%nat -> p_K R_ g l = c g) by (intros g l Hg Hl; rewrite EK; apply HK; auto; lia).
  assert (KR : forall g, (g < length elems)%nat -> in_range D R_ (p_K R_ g)) by (intros g Hg; apply (CR _ (c g)); intros l Hl; apply KC; auto; lia).
  set (Q := data_problem G elems R_ N slip value). set (Q0 := mesh_problem G elems R_ N) in *.
  assert (Kv : forall g q, (g < length elems)%nat -> (q < p_Nq R_)%nat -> kappa Q0 g q = c g).
  { intros g q Hg Hq. unfold kappa. rewrite (rsum_ext _ _ (fun t => p_matEQ R_ q t * p_K R_ g t)) by (intros; apply Rmult_comm).
    apply (within_constant _ _ _ (c g) (fun l Hl => KC g l Hg Hl)). apply (proj1 (KR g Hg) q Hq). }
  assert (Kf : forall f g q, In f facets -> In g (elements_of elems f) -> (q < p_nq R_)%nat -> kappa_on Q0 f g q = c g).
  { intros f g q Hf Hg Hq. pose proof (in_elems elems f g Hg) as Hl. unfold kappa_on.
    rewrite (rsum_ext _ _ (fun t => p_matE R_ (facet_number D elems f g) q t * p_K R_ g t)) by (intros; apply Rmult_comm).
    apply (within_constant _ _ _ (c g) (fun l Hll => KC g l Hl Hll)). apply (proj2 (KR g Hl)); auto. apply (facet_number_lt G procs elems facets bc m MP VG f g Hf Hg). }
  assert (IM : inverts_mass Q) by exact (constructor_inverts root wv2 js wv3 inverse m0 D N set mi nodes B X elems R_ CD ER).
  set (P1 := fun p => with_method IP (fi p) N (P p)). set (P2 := fun p => with_method BR2 (fi p) N (P1 p)).
  assert (RD2 : forall p, (p < procs)%nat -> rank_data D Q (m p) (P2 p) /\ p_MinvRef (P2 p) = p_MinvRef (pb_ref Q) /\ p_method (P2 p) = BR2 /\ facet_table D (m p) = Some (fi p)).
  { intros p Hp. destruct (data_rank G procs elems facets bc m R_ N fi P1 slip value p MP VG Hd HN HN0 (fun p Hp => with_method_rank _ _ _ _ _ _ (proj1 (RK p Hp))) Hp (with_method_data _ _ _ _ _ _ _ _ _ (proj2 (RK p Hp)))) as (R0 & _ & T).
    split; [|split; [|split; [reflexivity|exact T]]].
    - destruct R0. constructor; assumption.
    - change (p_MinvRef (P2 p)) with (p_MinvRef (P p)). rewrite (br_Minv _ _ _ _ _ (proj1 (RK p Hp))). reflexivity. }
  assert (EM : forall p, (p < procs)%nat -> poisson_mat (P2 p) = poisson_mat (P p) /\ poisson_vec (P2 p) = poisson_vec (P p)).
  { intros p Hp. pose proof (br_method _ _ _ _ _ (proj1 (RK p Hp))) as Me. unfold P2, P1. destruct (P p). cbn in Me. subst. split; reflexivity. }
  assert (PO : problem_ok D elems facets Q).
  { destruct (mesh_problem_ok G procs elems facets bc m MP VG R_ Hd N) as [L Nn _]. split; [exact L|exact Nn|exact SL]. }
  assert (CJ' : constant_jacobian Q elems (volume_element G elems)) by exact (CJ G procs elems facets bc m ST MP VG N _ R_ RD).
  destruct (assembly_is_br2 D procs elems facets bc m Q P2 fi _ MP PO RD2 CJ' IM) as (A & b & HA & Hb & LU & (s & LD) & E1 & E2).
  change (p_N (pb_ref Q)) with (p_N R_) in E1, E2. rewrite EN in E1, E2.
  assert (HA' : forall p, (p < procs)%nat -> map_opt (to_global (m p)) (assemble (m p) (fi p) (poisson_mat (P p))) = Some (A p)) by (intros p Hp; rewrite <- (proj1 (EM p Hp)); auto).
  assert (Hb' : forall p, (p < procs)%nat -> map_opt (to_global_row (m p)) (rhs (m p) (fi p) (poisson_vec (P p))) = Some (b p)) by (intros p Hp; rewrite <- (proj2 (EM p Hp)); auto).
  assert (EA : flat_map A (seq 0 procs) = flat_map A1 (seq 0 procs)).
  { apply flat_map_ext_in. intros p Hp. apply in_seq in Hp. pose proof (HA' p ltac:(lia)). pose proof (HA1 p ltac:(lia)). congruence. }
  assert (DF : forall U, pairing (length mi) (flat_map A (seq 0 procs)) U U = 0 -> forall g l, (g < length elems)%nat -> (l < length mi)%nat -> U g l = 0).
  { intros U Z g l Hg Hl. apply (LI (U g)); [|exact Hl]. intro x. destruct (LU U) as (r & Hr). rewrite (E1 U U r Hr) in Z.
    destruct (mesh_gradient G procs elems facets bc m ST MP VG N N _ R_ RD SP U) as (d & HdU).
    rewrite <- EN. apply (br2_zero_anchored G procs elems facets bc m ST MP VG N _ R_ HN RD SP c Hc Kv Kf U r d Hr HdU Z g (AN g Hg) x). }
  destruct (solvable (length elems) (length mi) (flat_map A (seq 0 procs)) (flat_map b (seq 0 procs))) as (U & S1 & S2).
  { intros i j M. apply (blocks_in_range D procs elems facets bc m _ _ A MP HA). }
  { intros i M. apply (rows_in_range D procs elems facets bc m _ _ b MP Hb). }
  { exact DF. }
  exists A, b, U. split; [exact HA'|]. split; [exact Hb'|]. split; [rewrite EA; intros; apply SY1|]. split; [|split; [exact S1|split; [exact S2|]]].
  - intros V (g & l & Hg & Hl & Ne). assert (Le : 0 <= pairing (length mi) (flat_map A (seq 0 procs)) V V) by (rewrite EA; apply NN1).
    destruct Le as [H|H]; [exact H|]. exfalso. apply Ne. apply (DF V); auto.
  - intros w dw Hw CS g x Hg.
    assert (PL : forall g d f, polynomial D d f -> polynomial D d (fun xi => f (place_in G elems g xi))).
    { intros g' d f Hf. apply (poly_through D D); [exact Hf|]. intros i Hi. apply (place_poly G elems ST g' i Hi). }
    destruct (DegreeProofs.finite_choice (length elems) (nat -> R) (fun _ => 0) (fun g u => forall x, rsum (length mi) (fun l => u l * DubinerP D (nth l mi []) x) = w g (place_in G elems g x))) as (W & HW).
    { intros g' Hg'. destruct (Sp _ (PL g' N (w g') (Hw g' Hg'))) as (u & Hu & _). exists u. intro y. symmetry. apply Hu. }
    rewrite <- (HW g Hg x). apply rsum_ext. intros l Hl. f_equal. symmetry. apply S2; auto.
    intro V. destruct (LU W) as (r & Hr). rewrite (E1 W V r Hr), (E2 V s LD).
    apply (br2_consistent G procs elems facets bc m ST MP VG N (fun l => DubinerP D (nth l mi [])) R_ HN RD (fun g _ => c g) w dw slip value W); auto.
    + rewrite (constructor_keeps_force _ _ _ _ _ _ _ _ _ _ _ _ _ ER). exact CS.
    + split; [intros g' q Hg' Hq; apply (Kv g' q Hg' Hq)|intros f g' q Hf Hg' Hq; apply (Kf f g' q Hf Hg' Hq)].
    + intros g' _. apply poly_const.
    + intros g' y Hg'. rewrite EN. apply HW. exact Hg'.
Qed.
Print Assumptions br2_operator_exact.
