(** Functions on a straight mesh for which the interior penalty form vanishes (C81). *)
Require Import List Arith Lia Bool Reals Lra Psatz Classical Sorting.Sorted.
Require Import Verif.Base Verif.LinAlg Verif.SimplexModel Verif.SimplexProofs Verif.LocalMeshModel Verif.TopoModel Verif.TopoSpec Verif.TopoProofs Verif.TopoProps
  Verif.AssembleModel Verif.AssembleSpec Verif.AssembleProofs Verif.AssembleProps Verif.MatFree Verif.FaultModel Verif.PoissonModel Verif.PenaltyModel
  Verif.SipSpec Verif.SipProofs Verif.SipRank Verif.SipProps Verif.CoerciveProps
  Verif.GeometryModel Verif.GeometryProofs Verif.GeometrySpec Verif.GeometryProps Verif.GeometryStraight Verif.MeshSpec Verif.MeshProofs Verif.MeshPoissonProps
  Verif.BasisSpec Verif.IntegralSpec Verif.QuadratureProps Verif.DubinerProofs Verif.NodesConform Verif.DegreeSpec Verif.DegreeProofs Verif.DegreeProps Verif.DivergenceProofs
  Verif.ConsistencySpec Verif.ConsistencyProofs Verif.DefiniteSpec Verif.DefiniteProofs Verif.DefiniteForm.
Import ListNotations.
Local Open Scope R_scope.

Lemma rsum_constant n c : rsum n (fun _ => c) = INR n * c.
Proof. induction n as [|n IH]; [cbn; ring|]. rewrite S_INR. cbn [rsum]. rewrite IH. ring. Qed.
Lemma poly_degree_0 D p : (D = 2 \/ D = 3)%nat -> polynomial D 0 p -> forall x y, p x = p y.
Proof.
  intros HD Hp x y. destruct (polynomial_monos D ltac:(lia) 0 p Hp) as (l & Hl & E). rewrite !E. clear E. induction l as [|[v [[a b] c]] l IH]; [reflexivity|].
  change (v * mono a b c x + msum l x = v * mono a b c y + msum l y). rewrite IH by (intros t Ht; apply Hl; right; exact Ht). f_equal.
  destruct (Hl (v, (a, b, c)) (or_introl eq_refl)) as (H & _). assert (a = 0%nat /\ b = 0%nat /\ c = 0%nat) as (-> & -> & ->) by lia. unfold mono. cbn. ring.
Qed.
(** Every facet of an element is one of the facets of the mesh. *)
Lemma side_facet D procs elems facets bc m g s : mesh_parts D procs elems facets bc m -> (g < length elems)%nat -> (s < D + 1)%nat ->
  exists f, In f facets /\ In g (elements_of elems f) /\ facet_number D elems f g = s.
Proof.
  intros MP Hg Hs. apply NNPP. intro NE.
  pose proof (facets_of_elements D procs elems facets bc m MP (fun g' s' => if (g' =? g)%nat then if (s' =? s)%nat then 1 else 0 else 0)) as E.
  rewrite (lsum_single _ _ g) in E; [|apply seq_NoDup|apply in_seq; lia|].
  - rewrite Nat.eqb_refl, (rsum_single (D + 1) s), Nat.eqb_refl in E; [|exact Hs|intros i _ Hi; destruct (Nat.eqb_spec i s); congruence].
    rewrite lsum_zero in E; [lra|]. intros f Hf. apply lsum_zero. intros g' Hg'. destruct (Nat.eqb_spec g' g); [|reflexivity]. subst g'.
    destruct (Nat.eqb_spec (facet_number D elems f g) s); [|reflexivity]. exfalso. apply NE. exists f. auto.
  - intros g' _ Ne. apply rsum_zero. intros. destruct (Nat.eqb_spec g' g); congruence.
Qed.

Section Mesh.
Variables (G : geo_setup) (procs : nat) (elems facets : list (list nat)) (bc : list nat -> nat) (m : nat -> topo_mesh).
Local Notation D := (gs_D G).
Hypothesis ST : straight G.
Hypothesis MP : mesh_parts D procs elems facets bc m.
Hypothesis VG : valid_geometry G elems facets.
Variables (k : nat) (phi : nat -> (nat -> R) -> R) (R_ : pdata).
Hypothesis Hk : (1 <= k)%nat.
Hypothesis RD : reference_of_degree D k (gs_xi G) (gs_chi G) phi R_.
Local Notation N := (p_N R_). Local Notation Xi q := (gs_xi G q). Local Notation Fp s q := (facet_param D (ref_facet D s) (gs_chi G q)).
Local Notation edges g := (edge_matrix (gs_X G) (nth g elems [])).
Local Notation inv g := (geo_inverse D (edges g)).
Local Notation over := (over (gs_xi G) R_). Local Notation over_facet := (over_facet D (gs_chi G) R_).
Let HD := dims G elems facets VG.
Let Hd := rd_dim _ _ _ _ _ _ RD.

(** Gradients that are parallel to the normals of two facets vanish. *)
Lemma parallel_zero g (d : nat -> R) (s0 s1 : R) : (g < length elems)%nat ->
  (forall i, (i < D)%nat -> rsum D (fun e => inv g e i * d e) = s0 * side_normal G elems g 0 i) ->
  (forall i, (i < D)%nat -> rsum D (fun e => inv g e i * d e) = s1 * side_normal G elems g 1 i) -> forall e, (e < D)%nat -> d e = 0.
Proof.
  intros Hg P0 P1. pose proof (det_nonzero G procs elems facets bc m ST MP VG k phi R_ RD g Hg) as Dn.
  (* back to the reference element *)
  assert (B : forall s t, (forall i, (i < D)%nat -> rsum D (fun e => inv g e i * d e) = t * side_normal G elems g s i) ->
     exists c, forall e, (e < D)%nat -> d e = c * ref_normal D (ref_facet D s) e).
  { intros s t P. exists (t * Rabs (geo_det D (edges g))). intros e He.
    pose proof (inverse_left D (edges g) HD Dn) as IL.
    transitivity (rsum D (fun i => edges g i e * rsum D (fun e' => inv g e' i * d e'))).
    - symmetry. rewrite (rsum_ext D _ (fun i => rsum D (fun e' => inv g e' i * edges g i e * d e'))) by (intros; rewrite <- rsum_scale; apply rsum_ext; intros; ring).
      rewrite rsum_swap. rewrite (rsum_ext D _ (fun e' => (if (e' =? e)%nat then 1 else 0) * d e')) by (intros e' He'; rewrite rsum_scale_r; f_equal; apply IL; auto).
      rewrite (rsum_single D e); [rewrite Nat.eqb_refl; ring|exact He|]. intros i _ Hi. destruct (Nat.eqb_spec i e); [congruence|ring].
    - rewrite (rsum_ext D _ (fun i => t * (edges g i e * side_normal G elems g s i))) by (intros i Hi; rewrite P by exact Hi; ring). rewrite rsum_scale, Rmult_assoc. f_equal.
      unfold side_normal, geo_normal.
      rewrite (rsum_ext D _ (fun i => Rabs (geo_det D (edges g)) * rsum D (fun e' => inv g e' i * edges g i e * ref_normal D (ref_facet D s) e'))) by (intros i Hi; rewrite <- !rsum_scale; apply rsum_ext; intros; ring).
      rewrite rsum_scale. f_equal. rewrite rsum_swap.
      rewrite (rsum_ext D _ (fun e' => (if (e' =? e)%nat then 1 else 0) * ref_normal D (ref_facet D s) e')) by (intros e' He'; rewrite rsum_scale_r; f_equal; apply IL; auto).
      rewrite (rsum_single D e); [rewrite Nat.eqb_refl; ring|exact He|]. intros i _ Hi. destruct (Nat.eqb_spec i e); [congruence|ring]. }
  destruct (B 0%nat s0 P0) as (c0 & E0). destruct (B 1%nat s1 P1) as (c1 & E1). intros e He.
  assert (A : forall s e, (s < 2)%nat -> (e < D)%nat -> (s + e <> D - 1)%nat -> ref_normal D (ref_facet D s) e = 0).
  { intros s e' Hs He' Ne. rewrite ref_normal_axis by (auto; lia). unfold axis. destruct (Nat.eqb_spec s D); [lia|]. destruct (Nat.eqb_spec (s + e') (D - 1)); [contradiction|reflexivity]. }
  destruct (Nat.eq_dec e (D - 1)) as [-> | Ne].
  - rewrite E1, A by lia. ring.
  - rewrite E0, A by lia. ring.
Qed.
(** Polynomials of degree k - 1 >= 1 that attain the trace inequality on all facets of an element. *)
Lemma attained_zero g n (v : nat -> vec -> R) : (2 <= k)%nat -> (g < length elems)%nat -> (forall i, (i < n)%nat -> polynomial D (k - 1) (v i)) ->
  (forall f, In f facets -> In g (elements_of elems f) ->
    rsum (p_nq R_) (fun q => p_w R_ q * mesh_length G elems f q * rsum n (fun i => v i (Fp (facet_number D elems f g) q) * v i (Fp (facet_number D elems f g) q)))
    = inverse_trace D (k - 1) * (rsum (p_nq R_) (fun q => p_w R_ q * mesh_length G elems f q) / rsum (p_Nq R_) (fun q => p_W R_ q * p_J (with_geometry G elems R_) g q))
      * rsum (p_Nq R_) (fun q => p_W R_ q * p_J (with_geometry G elems R_) g q * rsum n (fun i => v i (Xi q) * v i (Xi q)))) ->
  forall i x, (i < n)%nat -> v i x = 0.
Proof.
  intros K2 Hg Pv At. pose proof (element_pos G procs elems facets bc m ST MP VG k phi R_ RD g Hg) as Vp. pose proof (weight_pos D k _ _ phi R_ HD RD) as Wp.
  assert (Gz : forall s i, (s < D + 1)%nat -> (i < n)%nat -> gap D (gs_xi G) (gs_chi G) R_ (k - 1) s (v i) (v i) = 0).
  { intros s i Hs Hi. destruct (side_facet D procs elems facets bc m g s MP Hg Hs) as (f & Hf & Hgf & Es). specialize (At f Hf Hgf). rewrite Es in At.
    pose proof (length_pos G procs elems facets bc m MP VG k phi R_ RD f 0 Hf) as Lp. set (len := mesh_length G elems f 0) in *. set (J := volume_element G elems g) in *.
    rewrite (rsum_ext (p_nq R_) (fun q => p_w R_ q * mesh_length G elems f q * _) (fun q => len * rsum n (fun i => p_w R_ q * (v i (Fp s q) * v i (Fp s q))))) in At by (intros; rewrite (const_length G elems facets ST VG f), rsum_scale; unfold len; ring).
    rewrite (rsum_ext (p_nq R_) (fun q => p_w R_ q * mesh_length G elems f q) (fun q => len * p_w R_ q)) in At by (intros; rewrite (const_length G elems facets ST VG f); unfold len; ring).
    rewrite (rsum_ext (p_Nq R_) (fun q => p_W R_ q * p_J _ g q * _) (fun q => J * rsum n (fun i => p_W R_ q * (v i (Xi q) * v i (Xi q))))) in At by (intros; rewrite (const_J G elems facets ST VG), rsum_scale; unfold J; ring).
    rewrite (rsum_ext (p_Nq R_) (fun q => p_W R_ q * p_J _ g q) (fun q => J * p_W R_ q)) in At by (intros; rewrite (const_J G elems facets ST VG); unfold J; ring).
    rewrite !rsum_scale, (rsum_swap (p_nq R_) n), (rsum_swap (p_Nq R_) n) in At.
    change (len * rsum n (fun i => over_facet s (fun x => v i x * v i x)) = inverse_trace D (k - 1) * (len * rsum (p_nq R_) (p_w R_) / (J * rsum (p_Nq R_) (p_W R_))) * (J * rsum n (fun i => over (fun x => v i x * v i x)))) in At.
    assert (Z : rsum n (fun i => gap D (gs_xi G) (gs_chi G) R_ (k - 1) s (v i) (v i)) = 0).
    { unfold gap. rewrite rsum_minus, rsum_scale. unfold sharp_constant. apply (Rmult_eq_reg_l len); [|lra]. rewrite Rmult_minus_distr_l. rewrite At. field. lra. }
    apply (rsum_nonneg_zero n (fun i => gap D (gs_xi G) (gs_chi G) R_ (k - 1) s (v i) (v i))); auto.
    intros j Hj. apply (gap_nonneg D k _ _ phi R_ HD RD); [lia|exact Hs|apply Pv; exact Hj]. }
  intros i x Hi. apply (sharp_zero D k _ _ phi R_ HD RD (k - 1) (v i)); [lia|lia|apply Pv; exact Hi|]. intros s Hs. apply Gz; auto.
Qed.

Hypothesis K0 : forall g l, (g < length elems)%nat -> (l < N)%nat -> 0 < p_K R_ g l.
Hypothesis KR : forall g, (g < length elems)%nat -> in_range D R_ (p_K R_ g).
Local Notation Q := (mesh_problem G elems R_ k).
Lemma GE : geometry_ok Q elems facets.
Proof. apply (range_geometry_ok G procs elems facets bc m MP VG k phi R_ RD k K0 KR). Qed.
Lemma TI : trace_inequality Q elems facets k.
Proof. apply (degree_trace_inequality G procs elems facets bc m ST MP VG k phi R_ RD k). Qed.
Lemma Hdim : (0 < p_dim (pb_ref Q))%nat.
Proof. change (p_dim (pb_ref Q)) with (p_dim R_). rewrite Hd. lia. Qed.
Lemma NL f q : In f facets -> 0 < pb_nl Q f q.
Proof. apply (length_pos G procs elems facets bc m MP VG k phi R_ RD). Qed.
Lemma pen_is f g : poisson_penalty G elems R_ k f g = pen_of Q k f g.
Proof.
  pose proof (rd_N _ _ _ _ _ _ RD) as HN. unfold poisson_penalty, pen_of, kmax, kmin, trace_constant. change (p_N (pb_ref Q)) with N. change (p_K (pb_ref Q)) with (p_K R_).
  rewrite smallest_min, largest_max by exact HN. change (p_dim (pb_ref Q)) with (p_dim R_). rewrite Hd. replace (k - 1 + 1)%nat with k by lia. reflexivity.
Qed.
Lemma PEN f : In f facets ->
  (forall g, elements_of elems f = [g] -> pb_pen Q f = pen_of Q k f g) /\
  (forall g h, elements_of elems f = [g; h] -> pb_pen Q f = (pen_of Q k f g + pen_of Q k f h) / 4 /\ forall i q, pb_n Q f h i q = - pb_n Q f g i q).
Proof.
  intro Hf. destruct (mesh_good G procs elems facets bc m MP VG R_ Hd) as (NN & _). split; intros g.
  - intro E. cbn [mesh_problem pb_pen]. rewrite E. apply pen_is.
  - intros h E. split; [cbn [mesh_problem pb_pen]; rewrite E, !pen_is; reflexivity|]. intros i q. apply (NN f g h i q Hf E).
Qed.
Lemma COUNT (T : nat -> R) : lsum (fun g => INR (p_dim (pb_ref Q) + 1) * T g) (seq 0 (length elems)) = lsum (fun f => lsum T (elements_of elems f)) facets.
Proof.
  change (p_dim (pb_ref Q)) with (p_dim R_). rewrite Hd. etransitivity; [|exact (facets_of_elements D procs elems facets bc m MP (fun g _ => T g))]. apply lsum_ext. intros g _. now rewrite rsum_constant.
Qed.
Lemma grad_is g u : exists du dx, (forall e, (e < D)%nat -> polynomial D (k - 1) (du e) /\ forall x, partial_derivative (fem phi R_ u) e x (du e x)) /\
  (forall i x, dx i x = rsum D (fun e => inv g e i * du e x)) /\ (forall i, (i < D)%nat -> polynomial D (k - 1) (dx i)) /\
  (forall i q, (i < D)%nat -> (q < p_Nq R_)%nat -> grad Q g u i q = dx i (Xi q)) /\
  (forall f i q, (i < D)%nat -> In f facets -> In g (elements_of elems f) -> (q < p_nq R_)%nat -> grad_on Q f g u i q = dx i (Fp (facet_number D elems f g) q)).
Proof.
  destruct (fem_gradient G elems facets ST VG k phi R_ RD g u) as (du & dx & H1 & H2 & H3 & H4). exists du, dx. split; [exact H1|]. split; [exact H2|]. split; [|split].
  - intros i Hi. apply (poly_eq D (k - 1) (fun x => rsum D (fun e => inv g e i * du e x))); [intro; symmetry; apply H2|]. apply poly_rsum. intros e He. apply poly_scale. apply (H1 e He).
  - intros i q Hi Hq. rewrite <- H3 by auto. unfold grad. cbn [pb_ref mesh_problem with_geometry p_N p_dim p_GQ p_DxiQ]. rewrite Hd. reflexivity.
  - intros f i q Hi Hf Hgf Hq. rewrite <- H4 by (auto; apply (facet_number_lt G procs elems facets bc m MP VG f g Hf Hgf)).
    unfold grad_on. cbn [pb_ref pb_loc pb_G mesh_problem with_geometry p_N p_dim p_Dxi]. rewrite Hd. reflexivity.
Qed.
Lemma grad2_polys g u dx : (forall i q, (i < D)%nat -> (q < p_Nq R_)%nat -> grad Q g u i q = dx i (Xi q)) ->
  grad2 Q g u = rsum (p_Nq R_) (fun q => p_W R_ q * p_J (with_geometry G elems R_) g q * rsum D (fun i => dx i (Xi q) * dx i (Xi q))).
Proof.
  intro E. unfold grad2. change (p_dim (pb_ref Q)) with (p_dim R_). rewrite Hd. apply rsum_ext. intros q Hq. f_equal. apply rsum_ext. intros i Hi. now rewrite E.
Qed.
Lemma zero_energy_gradient g u dx : (g < length elems)%nat -> (forall i, (i < D)%nat -> polynomial D (k - 1) (dx i)) ->
  (forall i q, (i < D)%nat -> (q < p_Nq R_)%nat -> grad Q g u i q = dx i (Xi q)) -> grad2 Q g u = 0 -> forall i x, (i < D)%nat -> dx i x = 0.
Proof.
  intros Hg Pd E Z i x Hi. rewrite (grad2_polys g u dx E) in Z. pose proof (element_pos G procs elems facets bc m ST MP VG k phi R_ RD g Hg) as Vp. set (J := volume_element G elems g) in *.
  rewrite (rsum_ext (p_Nq R_) _ (fun q => J * rsum D (fun i => p_W R_ q * (dx i (Xi q) * dx i (Xi q))))) in Z by (intros; rewrite (const_J G elems facets ST VG), rsum_scale; unfold J; ring).
  rewrite rsum_scale, rsum_swap in Z. apply Rmult_integral in Z as [Z|Z]; [lra|].
  apply (over_zero D k _ _ phi R_ HD RD (k - 1) (dx i)); [lia|apply Pd; exact Hi|].
  apply (rsum_nonneg_zero D (fun i => over (fun x => dx i x * dx i x))); auto.
  intros j Hj. apply rsum_nonneg. intros q Hq. pose proof (proj1 (rd_W _ _ _ _ _ _ RD) q Hq). pose proof (Rle_0_sqr (dx j (Xi q))) as S. unfold Rsqr in S. nra.
Qed.
(** The gradients vanish. *)
Lemma zero_gradient U g : sip_form Q elems facets bc U U = 0 -> (g < length elems)%nat ->
  exists dx, (forall i x, (i < D)%nat -> dx i x = 0) /\ (forall e x, (e < D)%nat -> partial_derivative (fem phi R_ (U g)) e x 0) /\
    (forall i q, (i < D)%nat -> (q < p_Nq R_)%nat -> grad Q g (U g) i q = 0) /\
    (forall f i q, (i < D)%nat -> In f facets -> In g (elements_of elems f) -> (q < p_nq R_)%nat -> grad_on Q f g (U g) i q = 0) /\
    (forall i q, (i < D)%nat -> (q < p_Nq R_)%nat -> grad Q g (U g) i q = dx i (Xi q)).
Proof.
  intros Z Hg. destruct (grad_is g (U g)) as (du & dx & H1 & H2 & H3 & H4 & H5).
  assert (DZ : forall i x, (i < D)%nat -> dx i x = 0).
  { pose proof (zero_form Q elems facets bc k GE TI Hdim NL PEN (facet_one_or_two _ _ _ _ _ _ MP) COUNT U Z) as ZF.
    destruct (Req_dec (energy Q g U) 0) as [E0|E0].
    - apply (zero_energy_gradient g (U g) dx Hg H3 H4). pose proof (energy_ge Q elems facets GE g U Hg) as E. pose proof (ge_min _ _ _ GE g Hg) as Hm. fold (kmin Q g) in Hm.
      pose proof (grad2_nonneg Q elems facets GE g (U g) Hg). nra.
    - assert (SH : forall f, In f facets -> In g (elements_of elems f) -> normal2_on Q f g (U g) = grad2_on Q f g (U g) /\
         grad2_on Q f g (U g) = trace_constant D (k - 1) * (facet_area Q f / elem_volume Q g) * grad2 Q g (U g)).
      { intros f Hf Hgf. specialize (ZF f g Hf Hgf). pose proof (proj2 (share_bound Q elems facets k GE TI Hdim NL f g U Hf Hgf)) as B.
        change (p_dim (pb_ref Q)) with (p_dim R_) in B, ZF. rewrite Hd in B, ZF. apply B. rewrite <- ZF. unfold taken in *.
        destruct (elements_of elems f) as [|a [|b l]]; auto. destruct (bc f =? BC_Natural)%nat; auto. exfalso. apply E0.
        assert (0 < INR (D + 1)) by (apply lt_0_INR; lia). apply (Rmult_eq_reg_r (/ INR (D + 1))); [unfold Rdiv in ZF; lra|apply Rinv_neq_0_compat; lra]. }
      assert (G2 : forall f, In f facets -> In g (elements_of elems f) -> grad2_on Q f g (U g) =
         rsum (p_nq R_) (fun q => p_w R_ q * mesh_length G elems f q * rsum D (fun i => dx i (Fp (facet_number D elems f g) q) * dx i (Fp (facet_number D elems f g) q)))).
      { intros f Hf Hgf. unfold grad2_on. change (p_dim (pb_ref Q)) with (p_dim R_). rewrite Hd. apply rsum_ext. intros q Hq. f_equal. apply rsum_ext. intros i Hi. now rewrite H5. }
      destruct (le_lt_dec 2 k) as [K2|K2].
      + intros i x Hi. apply (attained_zero g D dx K2 Hg H3); auto. intros f Hf Hgf. destruct (SH f Hf Hgf) as [_ S2].
        rewrite (G2 f Hf Hgf), (grad2_polys g (U g) dx H4) in S2. exact S2.
      + assert (k = 1%nat) by lia.
        assert (Cst : forall i x y, (i < D)%nat -> dx i x = dx i y) by (intros i x y Hi; apply (poly_degree_0 D (dx i) HD); replace 0%nat with (k - 1)%nat by lia; auto).
        assert (Dst : forall e x y, (e < D)%nat -> du e x = du e y) by (intros e x y He; apply (poly_degree_0 D (du e) HD); replace 0%nat with (k - 1)%nat by lia; apply (H1 e He)).
        (* the gradient is normal to each facet *)
        assert (PR : forall s, (s < D + 1)%nat -> exists t, forall i, (i < D)%nat -> rsum D (fun e => inv g e i * du e (fun _ => 0)) = t * side_normal G elems g s i).
        { intros s Hs. destruct (side_facet D procs elems facets bc m g s MP Hg Hs) as (f & Hf & Hgf & Es). destruct (SH f Hf Hgf) as [S1 _].
          destruct (rd_w _ _ _ _ _ _ RD) as (W0 & q & Hq & Wq). pose proof (NL f q Hf) as Lq.
          assert (Sq : normal_flux Q f g (U g) q * normal_flux Q f g (U g) q = pb_nl Q f q * pb_nl Q f q * rsum D (fun i => dx i (Fp s q) * dx i (Fp s q))).
          { assert (Dq : p_w R_ q * pb_nl Q f q * rsum (p_dim (pb_ref Q)) (fun i => grad_on Q f g (U g) i q * grad_on Q f g (U g) i q) - p_w R_ q * (normal_flux Q f g (U g) q * normal_flux Q f g (U g) q / pb_nl Q f q) = 0).
            { apply (rsum_nonneg_zero (p_nq R_) (fun q => p_w R_ q * pb_nl Q f q * rsum (p_dim (pb_ref Q)) (fun i => grad_on Q f g (U g) i q * grad_on Q f g (U g) i q) - p_w R_ q * (normal_flux Q f g (U g) q * normal_flux Q f g (U g) q / pb_nl Q f q))); auto.
              - intros q' Hq'. pose proof (flux_le Q elems facets GE NL f g (U g) q' Hf Hgf Hq') as FL. specialize (W0 q' Hq'). 
                rewrite Rmult_assoc, <- Rmult_minus_distr_l. apply Rmult_le_pos; lra.
              - rewrite rsum_minus. unfold normal2_on, grad2_on in S1. change (p_nq (pb_ref Q)) with (p_nq R_) in S1. change (p_w (pb_ref Q)) with (p_w R_) in S1. lra. }
            change (p_dim (pb_ref Q)) with (p_dim R_) in Dq. rewrite Hd in Dq. rewrite (rsum_ext D _ (fun i => dx i (Fp s q) * dx i (Fp s q))) in Dq by (intros; rewrite H5, Es by auto; reflexivity).
            rewrite Rmult_assoc, <- Rmult_minus_distr_l in Dq. apply Rmult_integral in Dq as [Dq|Dq]; [lra|].
            apply (Rmult_eq_reg_r (/ pb_nl Q f q)); [|apply Rinv_neq_0_compat; lra]. replace (pb_nl Q f q * pb_nl Q f q * rsum D (fun i => dx i (Fp s q) * dx i (Fp s q)) * / pb_nl Q f q) with (pb_nl Q f q * rsum D (fun i => dx i (Fp s q) * dx i (Fp s q))) by (field; lra). unfold Rdiv in Dq. lra. }
          set (nf := normal_flux Q f g (U g) q) in *. set (nl := pb_nl Q f q) in *.
          assert (NF : nf = rsum D (fun i => dx i (Fp s q) * pb_n Q f g i q)).
          { unfold nf, normal_flux. change (p_dim (pb_ref Q)) with (p_dim R_). rewrite Hd. apply rsum_ext. intros i Hi. rewrite H5, Es by auto. reflexivity. }
          pose proof (ge_n _ _ _ GE f g q Hf Hgf Hq) as N2. change (p_dim (pb_ref Q)) with (p_dim R_) in N2. rewrite Hd in N2. fold nl in N2.
          exists (nf / (nl * nl)). intros i Hi.
          assert (E : rsum D (fun i => (nl * nl * dx i (Fp s q) - nf * pb_n Q f g i q) * (nl * nl * dx i (Fp s q) - nf * pb_n Q f g i q)) = 0).
          { rewrite (rsum_ext D _ (fun i => (nl * nl * (nl * nl)) * (dx i (Fp s q) * dx i (Fp s q)) + (- 2 * (nl * nl) * nf) * (dx i (Fp s q) * pb_n Q f g i q) + (nf * nf) * (pb_n Q f g i q * pb_n Q f g i q))) by (intros; ring).
            rewrite !rsum_plus, !rsum_scale, N2, <- NF. replace (nl * nl * (nl * nl) * rsum D (fun i0 => dx i0 (Fp s q) * dx i0 (Fp s q))) with (nl * nl * (nf * nf)) by (rewrite Sq; ring). ring. }
          pose proof (rsum_nonneg_zero D _ (fun j _ => Rle_0_sqr (nl * nl * dx j (Fp s q) - nf * pb_n Q f g j q)) E i Hi) as Ei. unfold Rsqr in Ei.
          assert (Ei' : nl * nl * dx i (Fp s q) = nf * pb_n Q f g i q) by (apply Rmult_integral in Ei; lra).
          change (pb_n Q f g i q) with (mesh_normal G elems f g i q) in Ei'. rewrite (mesh_side_normal G elems facets ST VG f g i q Hi), Es in Ei'.
          rewrite <- (H2 i (fun _ => 0)), (Cst i (fun _ => 0) (Fp s q) Hi). apply (Rmult_eq_reg_l (nl * nl)); [|nra]. rewrite Ei'. field. lra. }
        destruct (PR 0%nat ltac:(lia)) as (t0 & P0). destruct (PR 1%nat ltac:(lia)) as (t1 & P1).
        pose proof (parallel_zero g (fun e => du e (fun _ => 0)) t0 t1 Hg P0 P1) as PZ.
        intros i x Hi. rewrite H2. apply rsum_zero. intros e He. rewrite (Dst e x (fun _ => 0) He), (PZ e He). ring. }
  exists dx. split; [exact DZ|]. split; [|split; [|split]].
  - intros e x He. assert (du e x = 0); [|rewrite <- H; apply (H1 e He)].
    apply (parallel_zero g (fun e => du e x) 0 0 Hg); auto; intros i Hi; rewrite Rmult_0_l, <- H2; apply DZ; exact Hi.
  - intros i q Hi Hq. rewrite H4 by auto. apply DZ; auto.
  - intros f i q Hi Hf Hgf Hq. rewrite H5 by auto. apply DZ; auto.
  - exact H4.
Qed.
End Mesh.
