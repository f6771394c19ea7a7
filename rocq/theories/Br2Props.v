(** Property theorems: the second method of Bassi and Rebay (C88). *)
Require Import List Arith Lia Bool Reals Lra Permutation.
Require Import Verif.Base Verif.LinAlg Verif.SimplexModel Verif.LocalMeshModel Verif.LocalMeshProps Verif.TopoModel Verif.TopoSpec Verif.TopoProofs Verif.TopoProps
  Verif.AssembleModel Verif.AssembleSpec Verif.AssembleProofs Verif.AssembleProps Verif.MatFree Verif.PoissonModel Verif.PoissonProofs Verif.PenaltyModel
  Verif.SipSpec Verif.SipProofs Verif.SipRank Verif.SipProps Verif.CoerciveProps
  Verif.GeometryModel Verif.GeometryProofs Verif.GeometrySpec Verif.GeometryProps Verif.GeometryStraight Verif.MeshSpec Verif.MeshPoissonProps
  Verif.TensorModel Verif.BasisModel Verif.BasisSpec Verif.IntegralSpec Verif.IntegralProofs Verif.QuadratureModel Verif.QuadratureSpec Verif.QuadratureProps Verif.RootsProps
  Verif.RefElementModel Verif.RefElementSpec Verif.RefElementProofs Verif.RefElementProps
  Verif.ErrorExactProps Verif.DegreeSpec Verif.DegreeProofs Verif.DegreeProps Verif.OperatorRefModel Verif.OperatorRefProps
  Verif.MeshProofs Verif.Br2Spec Verif.Br2Proofs Verif.Br2Rank Verif.Br2Positive.
Import ListNotations.
Local Open Scope R_scope.

(** C88a: on straight-sided elements the ranks together assemble the method of Bassi and Rebay: the
    lifting of a jump exists, and for all u, v the product V^T A U is the bilinear form with the lifting of
    the jump of u, V^T b the linear form with the lifting of the prescribed jump, whatever the mesh, the
    coefficient and the partition. *)
Theorem assembly_is_br2 : forall k procs elems facets bc m Q P fi jac,
  mesh_parts k procs elems facets bc m -> problem_ok k elems facets Q ->
  (forall p, (p < procs)%nat -> rank_data k Q (m p) (P p) /\ p_MinvRef (P p) = p_MinvRef (pb_ref Q) /\ p_method (P p) = BR2 /\ facet_table k (m p) = Some (fi p)) ->
  constant_jacobian Q elems jac -> inverts_mass Q ->
  exists A b,
    (forall p, (p < procs)%nat -> map_opt (to_global (m p)) (assemble (m p) (fi p) (poisson_mat (P p))) = Some (A p)) /\
    (forall p, (p < procs)%nat -> map_opt (to_global_row (m p)) (rhs (m p) (fi p) (poisson_vec (P p))) = Some (b p)) /\
    (forall U, exists r, lifts_jump Q elems facets U r) /\ (exists r, lifts_data Q elems facets r) /\
    let N := p_N (pb_ref Q) in
    (forall U V r, lifts_jump Q elems facets U r -> pairing N (flat_map A (seq 0 procs)) V U = br2_form Q elems facets bc r U V) /\
    (forall V r, lifts_data Q elems facets r -> vpairing N (flat_map b (seq 0 procs)) V = br2_load Q elems facets bc r V).
Proof.
  intros k procs elems facets bc m Q P fi jac MP PO H CJ IM.
  destruct (assembly_complete k procs elems facets bc m (br2_mat Q) fi (fun p => poisson_mat (P p)) MP (br2_mat_symmetric Q)) as (A & HA & PA).
  { intros p Hp. apply (H p Hp). }
  { intros p Hp. destruct (H p Hp) as (RD & Mi & Ip & _). apply (br2_evaluates k procs elems facets bc m MP Q PO p (P p) Hp RD Mi Ip). }
  destruct (rhs_complete k procs elems facets bc m (br2_vec Q) fi (fun p => poisson_vec (P p)) MP (br2_vec_symmetric Q)) as (b & Hb & Pb).
  { intros p Hp. apply (H p Hp). }
  { intros p Hp. destruct (H p Hp) as (RD & Mi & Ip & _). apply (br2_evaluates_rhs k procs elems facets bc m MP Q PO p (P p) Hp RD Mi Ip). }
  assert (LE : forall (j1 : list nat -> nat -> nat -> nat -> R) (j2 : list nat -> nat -> nat -> nat -> nat -> R), exists r : list nat -> nat -> nat -> nat -> R,
     forall f, In f facets -> (forall g, elements_of elems f = [g] -> is_lifting Q f g 1 (j1 f g) (r f g)) /\
       (forall g h, elements_of elems f = [g; h] -> is_lifting Q f g (1 / 2) (j2 f g h) (r f g) /\ is_lifting Q f h (1 / 2) (j2 f g h) (r f h))).
  { intros j1 j2. exists (fun f g => match elements_of elems f with
      | [_] => the_lift Q f g 1 (j1 f g) | [a; c] => the_lift Q f g (1 / 2) (j2 f a c) | _ => fun _ _ => 0 end).
    intros f _. pose proof (elem_in elems f) as EI. destruct (elements_of elems f) as [|a [|c [|? ?]]]; split; intros g; try discriminate.
    - intro E. injection E as <-. apply (lift_exists Q elems jac CJ IM). apply EI. cbn. auto.
    - intros h E. injection E as <- <-. split; apply (lift_exists Q elems jac CJ IM); apply EI; cbn; auto. }
  exists A, b. split; [exact HA|]. split; [exact Hb|]. split; [intro U; destruct (LE (fun f g => bjump Q f g U) (fun f g h => jump Q f g h U)) as (r & Hr); exists r; exact Hr|].
  split; [destruct (LE (dvalue Q) (fun f g _ => djump Q f g)) as (r & Hr); exists r; exact Hr|]. intro N. split.
  - intros U V r LU. unfold pairing. rewrite (lsum_perm _ _ _ PA). apply (br2_pair Q elems jac CJ IM facets bc V U r LU).
  - intros V r LD. unfold vpairing. rewrite (lsum_perm _ _ _ Pb). apply (br2_vpair Q elems jac CJ IM k facets bc V r PO LD).
Qed.
Print Assumptions assembly_is_br2.

(** C88b: if moreover the coefficient is a nonnegative constant in each element and gradients of trial
    functions are again, componentwise, trial functions, then the matrix is symmetric and positive
    semidefinite: D + 1 is large enough for the penalty, on every mesh. *)
Theorem br2_matrix_positive : forall k procs elems facets bc m Q P fi jac kap A,
  mesh_parts k procs elems facets bc m -> problem_ok k elems facets Q ->
  (forall p, (p < procs)%nat -> rank_data k Q (m p) (P p) /\ p_MinvRef (P p) = p_MinvRef (pb_ref Q) /\ p_method (P p) = BR2 /\ facet_table k (m p) = Some (fi p)) ->
  constant_jacobian Q elems jac -> inverts_mass Q -> p_dim (pb_ref Q) = k ->
  (forall q, (q < p_Nq (pb_ref Q))%nat -> 0 <= p_W (pb_ref Q) q) ->
  (forall g, (g < length elems)%nat -> 0 <= kap g) ->
  (forall g q, (g < length elems)%nat -> (q < p_Nq (pb_ref Q))%nat -> kappa Q g q = kap g) ->
  (forall f g q, In f facets -> In g (elements_of elems f) -> (q < p_nq (pb_ref Q))%nat -> kappa_on Q f g q = kap g) ->
  (forall U, exists d, has_gradient Q elems facets U d) ->
  (forall p, (p < procs)%nat -> map_opt (to_global (m p)) (assemble (m p) (fi p) (poisson_mat (P p))) = Some (A p)) ->
  let N := p_N (pb_ref Q) in
  (forall U V, pairing N (flat_map A (seq 0 procs)) V U = pairing N (flat_map A (seq 0 procs)) U V) /\
  (forall U, 0 <= pairing N (flat_map A (seq 0 procs)) U U).
Proof.
  intros k procs elems facets bc m Q P fi jac kap A MP PO RK CJ IM Hd Wp Kp Kv Kf HG HA N.
  destruct (assembly_is_br2 k procs elems facets bc m Q P fi jac MP PO RK CJ IM) as (A' & b' & HA' & _ & LU & _ & E & _). fold N in E.
  assert (EA : flat_map A (seq 0 procs) = flat_map A' (seq 0 procs)).
  { apply flat_map_ext_in. intros p Hp. apply in_seq in Hp. pose proof (HA p ltac:(lia)). pose proof (HA' p ltac:(lia)). congruence. }
  rewrite EA. split.
  - intros U V. destruct (LU U) as (r & Hr). destruct (LU V) as (s & Hs). destruct (HG U) as (d & Hdu). destruct (HG V) as (e & Hev).
    rewrite (E U V r Hr), (E V U s Hs). apply (br2_symmetric Q elems facets bc kap Kv Kf U V r s d e Hr Hs Hdu Hev).
  - intros U. destruct (LU U) as (r & Hr). destruct (HG U) as (d & Hdu). rewrite (E U U r Hr).
    apply (br2_nonneg k procs elems facets bc m Q jac kap U r d MP Hd CJ Wp Kp Kv Kf Hr Hdu).
Qed.
Print Assumptions br2_matrix_positive.

(** * With what the constructor computes *)
(** A rank that computed geometry from its part of the mesh, has the nodal values of the coefficient on its
    elements, and uses the method of Bassi and Rebay. *)
Record br2_rank (G : geo_setup) (R_ : pdata) (m : topo_mesh) (fi : list facet_info) (P : pdata) : Prop := {
  br_ref : same_reference R_ P;
  br_Minv : p_MinvRef P = p_MinvRef R_;
  br_geometry : rank_geometry G m P;
  br_K : forall e g, nth_error (tm_l2cg m) e = Some g -> p_K P e = p_K R_ g;
  br_method : p_method P = BR2;
  br_table : facet_table (gs_D G) m = Some fi }.

(** The same data with the other method and its penalty. *)
Definition with_method (M : dg_method) (fi : list facet_info) (degree : nat) (B : pdata) : pdata := {|
  p_dim := p_dim B; p_N := p_N B; p_Nq := p_Nq B; p_nq := p_nq B; p_method := M;
  p_W := p_W B; p_w := p_w B; p_EQ := p_EQ B; p_DxiQ := p_DxiQ B; p_matEQ := p_matEQ B;
  p_E := p_E B; p_Dxi := p_Dxi B; p_matE := p_matE B; p_MinvRef := p_MinvRef B;
  p_J := p_J B; p_GQ := p_GQ B; p_K := p_K B; p_n := p_n B; p_nu := p_nu B; p_nl := p_nl B; p_G0 := p_G0 B; p_G1 := p_G1 B;
  p_pen := fun i => match nth_error fi i with Some x => prepare_penalty B degree i x | None => 0 end;
  p_force := p_force B; p_dir := p_dir B; p_slip := p_slip B |}.
Lemma with_method_rank G R_ degree m fi P : br2_rank G R_ m fi P -> poisson_rank G R_ degree m fi (with_method IP fi degree P).
Proof.
  intros [SR Mi RG HK Me HT]. constructor; auto.
  - destruct SR. constructor; auto.
  - destruct RG. constructor; auto.
  - intros i x Ex. cbn [with_method p_pen]. rewrite Ex. reflexivity.
Qed.
Lemma with_method_mat fi degree P : p_method P = BR2 -> poisson_mat (with_method BR2 fi degree P) = poisson_mat P.
Proof. intro Me. destruct P. cbn in Me. subst. reflexivity. Qed.
(** From M X = 1 with a symmetric M. *)
Lemma right_inverts (Q : problem) : let P := pb_ref Q in
  (forall i j, (i < p_N P)%nat -> (j < p_N P)%nat -> rsum (p_N P) (fun k => mref Q i k * p_MinvRef P k j) = if (i =? j)%nat then 1 else 0) -> inverts_mass Q.
Proof.
  intros P R0. set (X := p_MinvRef P) in *. set (N := p_N P) in *.
  assert (L0 : forall s u, (s < N)%nat -> (u < N)%nat -> rsum N (fun t => X t s * mref Q t u) = delta s u).
  { intros s u Hs Hu. transitivity (rsum N (fun t => mref Q u t * X t s)).
    - apply rsum_ext. intros t _. rewrite mref_sym. ring.
    - rewrite R0 by auto. unfold delta. rewrite Nat.eqb_sym. reflexivity. }
  assert (S : forall s u, (s < N)%nat -> (u < N)%nat -> X u s = X s u).
  { intros s u Hs Hu. transitivity (rsum N (fun t => X t s * rsum N (fun r => mref Q t r * X r u))).
    - rewrite (rsum_ext N _ (fun t => X t s * delta t u)); [symmetry; exact (rsum_delta N (fun t => X t s) u Hu)|]. intros t Ht. rewrite R0 by auto. reflexivity.
    - etransitivity; [exact (assoc3 Q (fun a b => X b a) (mref Q) X s u)|]. cbv beta. fold N.
      rewrite (rsum_ext N _ (fun r => delta s r * X r u)) by (intros; rewrite L0; auto). exact (rsum_delta_l N (fun r => X r u) s Hs). }
  intros s u Hs Hu. change (rsum N (fun t => X s t * mref Q t u) = delta s u). rewrite <- (L0 s u Hs Hu). apply rsum_ext. intros t Ht. rewrite (S s t) by auto. reflexivity.
Qed.
Lemma constructor_Minv root wv2 js wv3 inverse m0 D N set mi nodes B R_ : Poisson_constructor root wv2 js wv3 inverse m0 D N set mi nodes B = Some R_ ->
  modal_inverseMassMatrix m0 root wv2 js wv3 D N mi = Some (p_MinvRef R_).
Proof.
  unfold Poisson_constructor, operator_reference. destruct (f2v D); cbn [bind]; [|discriminate]. destruct (modal_inverseMassMatrix _ _ _ _ _ _ _ _); cbn [bind]; [|discriminate].
  destruct (modal_evaluateBasisAt _ _ _ _ _ _); cbn [bind]; [|discriminate]. destruct (modal_evaluateGradientAt _ _ _ _ _ _); cbn [bind]; [|discriminate].
  destruct (map_opt _ _); cbn [bind]; [|discriminate]. destruct (map_opt _ _); cbn [bind]; [|discriminate]. destruct (map_opt _ _); cbn [bind]; [|discriminate].
  destruct (nodal_evaluateBasisAt _ _ _ _); cbn [bind]; [|discriminate]. intro E. injection E as <-. reflexivity.
Qed.
Lemma within_constant n c v k : (forall l, (l < n)%nat -> v l = k) -> within n c v -> rsum n (fun t => c t * v t) = k.
Proof. intros H [(a & Ha & La) (b & Hb & Lb)]. rewrite (H a Ha) in La. rewrite (H b Hb) in Lb. lra. Qed.

(** The gradient is a polynomial of one degree less, hence in the space. *)
Section Gradient.
Variables (G : geo_setup) (procs : nat) (elems facets : list (list nat)) (bc : list nat -> nat) (m : nat -> topo_mesh).
Local Notation D := (gs_D G).
Hypothesis ST : straight G.
Hypothesis MP : mesh_parts D procs elems facets bc m.
Hypothesis VG : valid_geometry G elems facets.
Variables (k degree : nat) (phi : nat -> (nat -> R) -> R) (R_ : pdata).
Hypothesis RD : reference_of_degree D k (gs_xi G) (gs_chi G) phi R_.
Hypothesis SP : forall f, polynomial D k f -> exists c, forall x, f x = rsum (p_N R_) (fun l => c l * phi l x).
Lemma mesh_gradient U : exists d, has_gradient (mesh_problem G elems R_ degree) elems facets U d.
Proof.
  set (Q := mesh_problem G elems R_ degree). pose proof (DegreeSpec.rd_dim _ _ _ _ _ _ RD) as Hd.
  destruct (DegreeProofs.finite_choice (length elems) (nat -> nat -> R) (fun _ _ => 0) (fun g d =>
    (forall i q, (i < D)%nat -> (q < p_Nq R_)%nat -> value Q g (d i) q = grad Q g (U g) i q) /\
    (forall f i q, In f facets -> In g (elements_of elems f) -> (i < D)%nat -> (q < p_nq R_)%nat -> trace Q f g (d i) q = grad_on Q f g (U g) i q))) as (d & Hdd).
  - intros g Hg. destruct (gradients G elems facets ST VG k phi R_ RD g) as (dx & Hdx).
    destruct (DegreeProofs.finite_choice D (nat -> R) (fun _ => 0) (fun i c => forall x, dx (U g) i x = rsum (p_N R_) (fun l => c l * phi l x))) as (d & Hd1).
    { intros i Hi. apply SP. eapply poly_le; [|apply (Hdx (U g) i Hi)]. lia. }
    exists d. split.
    + intros i q Hi Hq. destruct (Hdx (U g) i Hi) as (_ & E & _). unfold value, grad. cbn [Q mesh_problem pb_ref with_geometry p_N p_EQ p_DxiQ p_dim].
      rewrite Hd. etransitivity; [|symmetry; exact (E q Hq)]. rewrite (Hd1 i Hi). apply rsum_ext. intros l Hl. rewrite (DegreeSpec.rd_EQ _ _ _ _ _ _ RD) by auto. ring.
    + intros f i q Hf Hgf Hi Hq. destruct (Hdx (U g) i Hi) as (_ & _ & E). pose proof (facet_number_lt G procs elems facets bc m MP VG f g Hf Hgf) as Hs.
      unfold trace, grad_on. cbn [Q mesh_problem pb_ref pb_loc pb_G with_geometry p_N p_E p_Dxi p_dim].
      rewrite Hd. etransitivity; [|symmetry; exact (E f q Hs Hq)]. rewrite (Hd1 i Hi). apply rsum_ext. intros l Hl. rewrite (DegreeSpec.rd_E _ _ _ _ _ _ RD) by auto. ring.
  - exists d. intros g Hg. unfold Q in *. cbn [mesh_problem pb_ref with_geometry p_dim p_Nq p_nq] in *. rewrite Hd. exact (Hdd g Hg).
Qed.
End Gradient.

(** The constructor keeps the inverse of the mass matrix of the reference element. *)
Lemma constructor_inverts root wv2 js wv3 inverse m0 D N set mi nodes B X elems R_ : constructor_data root wv2 js wv3 inverse D N set mi nodes ->
  Poisson_constructor root wv2 js wv3 inverse m0 D N set mi nodes B = Some R_ -> let order := MinQuadOrder N set in
  let G := linear_setup D X (point (map fst (volRule root wv2 js wv3 D order))) (point (map fst (fctRule root wv2 js wv3 D order))) in
  inverts_mass (mesh_problem G elems R_ N).
Proof.
  intros CD ER order G. set (Q := mesh_problem G elems R_ N).
  destruct (poisson_reference_of_degree root wv2 js wv3 inverse m0 D N set mi nodes B CD) as (R' & ER' & EN & EK & RD & _ & CR). assert (R' = R_) by congruence. subst R'.
  pose proof CD as (HD & RT & _ & _ & _ & _ & _ & SQ & _). assert (HD3 : (D = 1 \/ D = 2 \/ D = 3)%nat) by lia.
  apply right_inverts. cbv zeta. intros i j Hi Hj. destruct (modal_mass_matrix m0 root wv2 js wv3 D N mi HD3 RT SQ) as (M & Mi & _ & EI & HM & HI).
  rewrite (constructor_Minv _ _ _ _ _ _ _ _ _ _ _ _ _ ER) in EI. injection EI as EI.
  change (p_N (pb_ref Q)) with (p_N R_) in *. rewrite EN in *. rewrite <- (HI i j Hi Hj). apply rsum_ext. intros k Hk. change (p_MinvRef (pb_ref Q)) with (p_MinvRef R_). rewrite EI. f_equal.
  refine (simplex_integral_unique D _ _ _ ltac:(lia) _ (HM i k Hi Hk)).
  unfold mref. cbn [Q mesh_problem pb_ref with_geometry p_Nq p_W p_EQ].
  rewrite (rsum_ext _ _ (fun q => p_W R_ q * (DubinerP D (nth i mi []) (gs_xi G q) * DubinerP D (nth k mi []) (gs_xi G q)))).
  - apply (DegreeSpec.rd_volume _ _ _ _ _ _ RD (fun xi => DubinerP D (nth i mi []) xi * DubinerP D (nth k mi []) xi)).
    eapply poly_le; [|apply poly_mult; apply (DegreeSpec.rd_phi _ _ _ _ _ _ RD); lia]. lia.
  - intros q Hq. rewrite !(DegreeSpec.rd_EQ _ _ _ _ _ _ RD) by (auto; lia). apply Rmult_assoc.
Qed.

(** C88c: with what the constructor of the Poisson operator computes, on a mesh of straight triangles or
    tetrahedra with a nonnegative coefficient constant in each element, the method of Bassi and Rebay gives
    a symmetric positive semidefinite matrix for every degree, number of ranks and partition, without any
    tuning of the penalty. *)
Theorem br2_operator_positive : forall root wv2 js wv3 inverse m0 D N set mi nodes B X procs elems facets bc m fi P c,
  constructor_data root wv2 js wv3 inverse D N set mi nodes -> (1 <= N)%nat ->
  let order := MinQuadOrder N set in
  let G := linear_setup D X (point (map fst (volRule root wv2 js wv3 D order))) (point (map fst (fctRule root wv2 js wv3 D order))) in
  mesh_parts D procs elems facets bc m -> valid_geometry G elems facets ->
  (forall g l, (g < length elems)%nat -> (l < length mi)%nat -> p_K B g l = c g) -> (forall g, (g < length elems)%nat -> 0 <= c g) ->
  exists R_, Poisson_constructor root wv2 js wv3 inverse m0 D N set mi nodes B = Some R_ /\
  ((forall p, (p < procs)%nat -> br2_rank G R_ (m p) (fi p) (P p)) ->
   let Q := mesh_problem G elems R_ N in
   exists A, (forall p, (p < procs)%nat -> map_opt (to_global (m p)) (assemble (m p) (fi p) (poisson_mat (P p))) = Some (A p)) /\
    (forall U, exists r, lifts_jump Q elems facets U r) /\
    (forall U V r, lifts_jump Q elems facets U r -> pairing (length mi) (flat_map A (seq 0 procs)) V U = br2_form Q elems facets bc r U V) /\
    (forall U V, pairing (length mi) (flat_map A (seq 0 procs)) V U = pairing (length mi) (flat_map A (seq 0 procs)) U V) /\
    (forall U, 0 <= pairing (length mi) (flat_map A (seq 0 procs)) U U)).
Proof.
  intros root wv2 js wv3 inverse m0 D N set mi nodes B X procs elems facets bc m fi P c CD HN order G MP VG HK Hc.
  destruct (poisson_reference_of_degree root wv2 js wv3 inverse m0 D N set mi nodes B CD) as (R_ & ER & EN & EK & RD & _ & CR).
  exists R_. split; [exact ER|]. intros RK Q. rewrite <- EN. change (p_N R_) with (p_N (pb_ref Q)).
  pose proof CD as (HD & RT & _ & _ & _ & _ & _ & SQ & _). assert (HD3 : (D = 1 \/ D = 2 \/ D = 3)%nat) by lia.
  pose proof (DegreeSpec.rd_dim _ _ _ _ _ _ RD) as Hd. pose proof (DegreeSpec.rd_N _ _ _ _ _ _ RD) as HN0.
  set (P1 := fun p => with_method IP (fi p) N (P p)).
  assert (RK1 : forall p, (p < procs)%nat -> poisson_rank G R_ N (m p) (fi p) (P1 p)) by (intros p Hp; apply with_method_rank; auto).
  set (P2 := fun p => let T := no_data m R_ P1 p in with_method BR2 (fi p) N T).
  assert (RD2 : forall p, (p < procs)%nat -> rank_data D Q (m p) (P2 p) /\ p_MinvRef (P2 p) = p_MinvRef (pb_ref Q) /\ p_method (P2 p) = BR2 /\ facet_table D (m p) = Some (fi p)).
  { intros p Hp. destruct (mesh_rank_data G procs elems facets bc m MP VG R_ Hd N HN fi P1 RK1 HN0 p Hp) as (R0 & _ & T). split; [|split; [|split; [reflexivity|exact T]]].
    - destruct R0 as [z1 z2 z3 z4 z5 z6 z7 z8 z9 z10 z11 z12 z13 z14 z15 z16]. constructor; assumption.
    - change (p_MinvRef (P2 p)) with (p_MinvRef (P p)). rewrite (br_Minv _ _ _ _ _ (RK p Hp)). reflexivity. }
  assert (EM : forall p, (p < procs)%nat -> poisson_mat (P2 p) = poisson_mat (P p)).
  { intros p Hp. pose proof (br_method _ _ _ _ _ (RK p Hp)) as Me. unfold P2, P1, no_data. destruct (P p). cbn in Me. subst. reflexivity. }
  assert (CJ : constant_jacobian Q elems (volume_element G elems)).
  { intros g Hg. split; [apply (element_pos G procs elems facets bc m (linear_straight _ _ _ _) MP VG N _ R_ RD g Hg)|]. intros q _. apply (const_J G elems facets (linear_straight _ _ _ _) VG). }
  assert (IM : inverts_mass Q) by exact (constructor_inverts root wv2 js wv3 inverse m0 D N set mi nodes B X elems R_ CD ER).
  assert (HG : forall U, exists d, has_gradient Q elems facets U d).
  { intro U. apply (mesh_gradient G procs elems facets bc m (linear_straight _ _ _ _) MP VG N N _ R_ RD). intros f Hf. rewrite EN.
    destruct (modal_ref_element D N mi HD3 RT) as (_ & _ & Sp & _). destruct (Sp f Hf) as (cc & Hcc & _). exists cc. exact Hcc. }
  assert (KR : forall g, (g < length elems)%nat -> in_range D R_ (p_K R_ g)) by (intros g Hg; apply (CR _ (c g)); intros l Hl; rewrite EK; apply HK; auto; lia).
  assert (KC : forall g l, (g < length elems)%nat -> (l < p_N R_)%nat -> p_K R_ g l = c g) by (intros g l Hg Hl; rewrite EK; apply HK; auto; lia).
  pose proof (mesh_problem_ok G procs elems facets bc m MP VG R_ Hd N) as PO. fold Q in PO.
  destruct (assembly_is_br2 D procs elems facets bc m Q P2 fi _ MP PO RD2 CJ IM) as (A & b & HA & _ & LU & _ & E & _).
  exists A. split; [intros p Hp; rewrite <- (EM p Hp); apply (HA p Hp)|]. split; [exact LU|]. split; [exact E|].
  apply (br2_matrix_positive D procs elems facets bc m Q P2 fi _ c A MP PO RD2 CJ IM); auto.
  - intros q Hq. apply (DegreeSpec.rd_W _ _ _ _ _ _ RD). exact Hq.
  - intros g q Hg Hq. unfold kappa. rewrite (rsum_ext _ _ (fun t => p_matEQ R_ q t * p_K R_ g t)) by (intros; apply Rmult_comm).
    apply (within_constant _ _ _ (c g) (fun l Hl => KC g l Hg Hl)). apply (proj1 (KR g Hg) q Hq).
  - intros f g q Hf Hg Hq. pose proof (in_elems elems f g Hg) as Hl. unfold kappa_on.
    rewrite (rsum_ext _ _ (fun t => p_matE R_ (facet_number D elems f g) q t * p_K R_ g t)) by (intros; apply Rmult_comm).
    apply (within_constant _ _ _ (c g) (fun l Hll => KC g l Hl Hll)). apply (proj2 (KR g Hl)); auto. apply (facet_number_lt G procs elems facets bc m MP VG f g Hf Hg).
Qed.
Print Assumptions br2_operator_positive.
