(** Displacements on a straight mesh for which the interior penalty form of elasticity vanishes (C82). *)
Require Import List Arith Lia Bool Reals Lra Psatz Sorting.Sorted.
Require Import Verif.Base Verif.LinAlg Verif.SimplexModel Verif.SimplexProofs Verif.LocalMeshModel Verif.TopoModel Verif.TopoSpec Verif.TopoProofs Verif.TopoProps
  Verif.AssembleModel Verif.AssembleSpec Verif.AssembleProofs Verif.AssembleProps Verif.MatFree Verif.FaultModel Verif.PoissonModel Verif.PenaltyModel
  Verif.SipSpec Verif.SipProofs Verif.SipRank Verif.SipProps Verif.CoerciveProps
  Verif.GeometryModel Verif.GeometryProofs Verif.GeometrySpec Verif.GeometryProps Verif.GeometryStraight Verif.MeshSpec Verif.MeshProofs Verif.MeshPoissonProps
  Verif.BasisSpec Verif.IntegralSpec Verif.QuadratureProps Verif.DubinerProofs Verif.NodesConform Verif.DegreeSpec Verif.DegreeProofs Verif.DegreeProps Verif.DivergenceProofs
  Verif.ElasticityModel Verif.ElasticitySpec Verif.ElasticityProofs Verif.ElasticFormSpec Verif.ElasticFormProofs Verif.ElasticFormProps Verif.ElasticCoerciveProps Verif.MeshElasticSpec Verif.MeshElasticProps
  Verif.InterpolationProps Verif.ConsistencySpec Verif.ConsistencyProofs Verif.DefiniteSpec Verif.DefiniteProofs Verif.DefiniteForm Verif.DefiniteMesh Verif.RigidProofs Verif.ElasticDefiniteForm.
Import ListNotations.
Local Open Scope R_scope.

(** A square table of numbers as one list. *)
Lemma rsum_square D (a : nat -> nat -> R) : rsum D (fun i => rsum D (fun j => a i j)) = rsum (D * D) (fun m => a (m / D)%nat (m mod D)%nat).
Proof.
  rewrite rsum_blocks. apply rsum_ext. intros i Hi. apply rsum_ext. intros j Hj.
  rewrite Nat.div_add, Nat.mod_add, Nat.div_small, Nat.mod_small by lia. reflexivity.
Qed.

Section Mesh.
Variables (G : geo_setup) (procs : nat) (elems facets : list (list nat)) (bc : list nat -> nat) (m : nat -> topo_mesh).
Local Notation D := (gs_D G).
Hypothesis ST : straight G.
Hypothesis MP : mesh_parts D procs elems facets bc m.
Hypothesis VG : valid_geometry G elems facets.
Variables (k : nat) (phi : nat -> (nat -> R) -> R) (E_ : edata).
Local Notation R_ := (e_geo E_).
Hypothesis Hk : (1 <= k)%nat.
Hypothesis RD : reference_of_degree D k (gs_xi G) (gs_chi G) phi R_.
Local Notation N := (p_N R_). Local Notation Xi q := (gs_xi G q). Local Notation Fp s q := (facet_param D (ref_facet D s) (gs_chi G q)).
Local Notation edges g := (edge_matrix (gs_X G) (nth g elems [])).
Local Notation inv g := (geo_inverse D (edges g)).
Local Notation over := (over (gs_xi G) R_).
Local Notation Q := (mesh_eproblem G elems E_ k).
Let HD := dims G elems facets VG.
Let Hd : p_dim R_ = D := rd_dim _ _ _ _ _ _ RD.
Let HdQ : p_dim (e_geo (ep_ref Q)) = D := Hd.
Hypothesis K0 : forall g l, (g < length elems)%nat -> (l < N)%nat -> 0 <= e_lam E_ g l /\ 0 < e_mu E_ g l.
Hypothesis KR : forall g, (g < length elems)%nat -> in_range D R_ (e_lam E_ g) /\ in_range D R_ (e_mu E_ g) /\ in_range D R_ (fun l => INR D * e_lam E_ g l + 2 * e_mu E_ g l).

Lemma eGE : egeometry_ok Q elems facets.
Proof. apply (range_egeometry_ok G procs elems facets bc m MP VG k phi E_ RD k K0); intros; apply KR; auto. Qed.
Lemma eTI : etrace_inequality Q elems facets k.
Proof. apply (degree_strain_trace G procs elems facets bc m ST MP VG k phi E_ RD k). Qed.
Lemma eHdim : (2 <= p_dim (e_geo (ep_ref Q)))%nat.
Proof. rewrite HdQ. lia. Qed.
Lemma eNL f q : In f facets -> 0 < ep_nl Q f q.
Proof. apply (length_pos G procs elems facets bc m MP VG k phi R_ RD). Qed.
Lemma epen_is f g : elastic_penalty G elems E_ k f g = epen_of Q k f g.
Proof.
  pose proof (rd_N _ _ _ _ _ _ RD) as HN. unfold elastic_penalty, epen_of, stiffness_c1, stiffness_c0, trace_constant. rewrite HdQ.
  change (p_N (e_geo (ep_ref Q))) with N. change (e_lam (ep_ref Q)) with (e_lam E_). change (e_mu (ep_ref Q)) with (e_mu E_).
  rewrite smallest_min, largest_max by exact HN. replace (k - 1 + 1)%nat with k by lia. reflexivity.
Qed.
Lemma ePEN f : In f facets ->
  (forall g, elements_of elems f = [g] -> ep_pen Q f = epen_of Q k f g) /\
  (forall g h, elements_of elems f = [g; h] -> ep_pen Q f = (epen_of Q k f g + epen_of Q k f h) / 4 /\ forall i q, ep_n Q f h i q = - ep_n Q f g i q).
Proof.
  intro Hf. destruct (mesh_good G procs elems facets bc m MP VG R_ Hd) as (NN & _). split; intros g.
  - intro E. cbn [mesh_eproblem ep_pen]. rewrite E. apply epen_is.
  - intros h E. split; [cbn [mesh_eproblem ep_pen]; rewrite E, !epen_is; reflexivity|]. intros i q. apply (NN f g h i q Hf E).
Qed.
Lemma epen_positive f : In f facets -> 0 < ep_pen Q f.
Proof.
  intro Hf. destruct (ePEN f Hf) as [P1 P2]. assert (D0 : (0 < p_dim (e_geo (ep_ref Q)))%nat) by (pose proof eHdim; lia).
  assert (PO : forall g, In g (elements_of elems f) -> 0 < epen_of Q k f g) by (intros g Hg; apply (epen_pos Q elems facets k eGE D0 f g Hf Hg)).
  destruct (facet_one_or_two _ _ _ _ _ _ MP f Hf) as (g & h & [El|El]).
  - rewrite (P1 g El). apply PO. rewrite El. cbn. auto.
  - rewrite (proj1 (P2 g h El)). assert (0 < epen_of Q k f g) by (apply PO; rewrite El; cbn; auto). assert (0 < epen_of Q k f h) by (apply PO; rewrite El; cbn; auto). lra.
Qed.
Lemma eCOUNT (T : nat -> R) : lsum (fun g => INR (p_dim (e_geo (ep_ref Q)) + 1) * T g) (seq 0 (length elems)) = lsum (fun f => lsum T (elements_of elems f)) facets.
Proof.
  rewrite HdQ. etransitivity; [|exact (facets_of_elements D procs elems facets bc m MP (fun g _ => T g))]. apply lsum_ext. intros g _. now rewrite rsum_constant.
Qed.
Lemma disp_on_fem f g u q i : In f facets -> In g (elements_of elems f) -> (q < p_nq R_)%nat -> disp_on Q f g u q i = fem phi R_ (coef Q u i) (Fp (facet_number D elems f g) q).
Proof.
  intros Hf Hg Hq. pose proof (facet_number_lt G procs elems facets bc m MP VG f g Hf Hg) as Hs.
  unfold disp_on, fem. cbn [mesh_eproblem ep_ref ep_loc with_egeometry e_geo with_geometry p_N p_E]. apply rsum_ext. intros l Hl. rewrite (rd_E _ _ _ _ _ _ RD) by auto. ring.
Qed.
(** Derivatives of the components, in reference coordinates and in space. *)
Lemma dgrad_is g u : exists du dx : nat -> nat -> vec -> R,
  (forall p e, (p < D)%nat -> (e < D)%nat -> polynomial D (k - 1) (du p e) /\ forall x, partial_derivative (fem phi R_ (coef Q u p)) e x (du p e x)) /\
  (forall p i x, (p < D)%nat -> dx p i x = rsum D (fun e => inv g e i * du p e x)) /\
  (forall p i, (p < D)%nat -> (i < D)%nat -> polynomial D (k - 1) (dx p i)) /\
  (forall p i q, (p < D)%nat -> (i < D)%nat -> (q < p_Nq R_)%nat -> dgrad Q g u q p i = dx p i (Xi q)) /\
  (forall f p i q, (p < D)%nat -> (i < D)%nat -> In f facets -> In g (elements_of elems f) -> (q < p_nq R_)%nat -> dgrad_on Q f g u q p i = dx p i (Fp (facet_number D elems f g) q)).
Proof.
  destruct (finite_choice D ((nat -> vec -> R) * (nat -> vec -> R)) (fun _ _ => 0, fun _ _ => 0) (fun p d =>
    (forall e, (e < D)%nat -> polynomial D (k - 1) (fst d e) /\ forall x, partial_derivative (fem phi R_ (coef Q u p)) e x (fst d e x)) /\
    (forall i x, snd d i x = rsum D (fun e => inv g e i * fst d e x)) /\
    (forall i q, (i < D)%nat -> (q < p_Nq R_)%nat -> dgrad Q g u q p i = snd d i (Xi q)) /\
    (forall f i q, (i < D)%nat -> In f facets -> In g (elements_of elems f) -> (q < p_nq R_)%nat -> dgrad_on Q f g u q p i = snd d i (Fp (facet_number D elems f g) q)))) as (d & Hdd).
  { intros p Hp. destruct (fem_gradient G elems facets ST VG k phi R_ RD g (coef Q u p)) as (du & dx & H1 & H2 & H3 & H4). exists (du, dx). cbn [fst snd].
    split; [exact H1|]. split; [exact H2|]. split.
    - intros i q Hi Hq. rewrite <- H3 by auto. unfold dgrad. cbn [mesh_eproblem ep_ref with_egeometry e_geo with_geometry p_N p_dim p_GQ p_DxiQ]. rewrite Hd. reflexivity.
    - intros f i q Hi Hf Hgf Hq. rewrite <- H4 by (auto; apply (facet_number_lt G procs elems facets bc m MP VG f g Hf Hgf)).
      unfold dgrad_on. cbn [mesh_eproblem ep_ref ep_loc ep_G with_egeometry e_geo with_geometry p_N p_dim p_Dxi]. rewrite Hd. reflexivity. }
  exists (fun p => fst (d p)), (fun p => snd (d p)). split; [|split; [|split; [|split]]].
  - intros p e Hp He. apply (proj1 (Hdd p Hp) e He).
  - intros p i x Hp. apply (proj1 (proj2 (Hdd p Hp))).
  - intros p i Hp Hi. destruct (Hdd p Hp) as (H1 & H2 & _). apply (poly_eq D (k - 1) (fun x => rsum D (fun e => inv g e i * fst (d p) e x))); [intro; symmetry; apply H2|].
    apply poly_rsum. intros e He. apply poly_scale. apply (H1 e He).
  - intros p i q Hp Hi Hq. apply (proj1 (proj2 (proj2 (Hdd p Hp)))); auto.
  - intros f p i q Hp Hi Hf Hgf Hq. apply (proj2 (proj2 (proj2 (Hdd p Hp)))); auto.
Qed.
Definition sym (dx : nat -> nat -> vec -> R) (i j : nat) (x : vec) : R := (dx i j x + dx j i x) / 2.
Lemma sym_poly dx : (forall p i, (p < D)%nat -> (i < D)%nat -> polynomial D (k - 1) (dx p i)) -> forall i j, (i < D)%nat -> (j < D)%nat -> polynomial D (k - 1) (sym dx i j).
Proof.
  intros P i j Hi Hj. apply (poly_eq D (k - 1) (fun x => / 2 * (dx i j x + dx j i x))); [intro; unfold sym; field|]. apply poly_scale. apply poly_plus; apply P; auto.
Qed.
(** The strains vanish. *)
Lemma zero_strain U g : elastic_form Q elems facets bc U U = 0 -> (g < length elems)%nat ->
  exists du dx : nat -> nat -> vec -> R,
    (forall p e x, (p < D)%nat -> (e < D)%nat -> partial_derivative (fem phi R_ (coef Q (U g) p)) e x (du p e x)) /\
    (forall p i x, (p < D)%nat -> dx p i x = rsum D (fun e => inv g e i * du p e x)) /\
    (forall p i x, (p < D)%nat -> (i < D)%nat -> dx p i x + dx i p x = 0) /\
    (forall p i q, (p < D)%nat -> (i < D)%nat -> (q < p_Nq R_)%nat -> dgrad Q g (U g) q p i = dx p i (Xi q)) /\
    (forall f p i q, (p < D)%nat -> (i < D)%nat -> In f facets -> In g (elements_of elems f) -> (q < p_nq R_)%nat -> dgrad_on Q f g (U g) q p i = dx p i (Fp (facet_number D elems f g) q)).
Proof.
  intros Z Hg. destruct (dgrad_is g (U g)) as (du & dx & H1 & H2 & H3 & H4 & H5). exists du, dx.
  split; [intros p e x Hp He; apply (H1 p e Hp He)|]. split; [exact H2|]. split; [|split; [exact H4|exact H5]].
  assert (SZ : forall i j x, (i < D)%nat -> (j < D)%nat -> sym dx i j x = 0); [|intros p i x Hp Hi; specialize (SZ p i x Hp Hi); unfold sym in SZ; lra].
  pose proof (sym_poly dx H3) as SP. pose proof eGE as GEo.
  assert (S2 : strain2 Q g (U g) = rsum (p_Nq R_) (fun q => p_W R_ q * p_J (with_geometry G elems R_) g q * rsum (D * D) (fun l => sym dx (l / D) (l mod D) (Xi q) * sym dx (l / D) (l mod D) (Xi q)))).
  { apply rsum_ext. intros q Hq. rewrite <- (rsum_square D (fun i j => sym dx i j (Xi q) * sym dx i j (Xi q))). unfold sym2. rewrite HdQ. f_equal.
    apply rsum_ext. intros i Hi. apply rsum_ext. intros j Hj. rewrite !H4 by auto. reflexivity. }
  assert (Dv : forall l, (l < D * D)%nat -> (l / D < D)%nat /\ (l mod D < D)%nat).
  { intros l Hl. split; [apply Nat.div_lt_upper_bound; lia|apply Nat.mod_upper_bound; lia]. }
  assert (BACK : (forall l x, (l < D * D)%nat -> sym dx (l / D) (l mod D) x = 0) -> forall i j x, (i < D)%nat -> (j < D)%nat -> sym dx i j x = 0).
  { intros B i j x Hi Hj. specialize (B (j + i * D)%nat x ltac:(nia)). rewrite Nat.div_add, Nat.mod_add, Nat.div_small, Nat.mod_small in B by lia. exact B. }
  destruct (Req_dec (eenergy Q g U) 0) as [E0|E0].
  - apply BACK. intros l x Hl.
    assert (Z2 : strain2 Q g (U g) = 0).
    { pose proof (eenergy_ge Q elems facets GEo g U Hg) as E. pose proof (eg_c0 _ _ _ GEo g Hg) as Hm. pose proof (strain2_nonneg Q elems facets GEo g (U g) Hg). nra. }
    rewrite S2 in Z2. pose proof (element_pos G procs elems facets bc m ST MP VG k phi R_ RD g Hg) as Vp. set (J := volume_element G elems g) in *.
    rewrite (rsum_ext (p_Nq R_) _ (fun q => J * rsum (D * D) (fun l => p_W R_ q * (sym dx (l / D) (l mod D) (Xi q) * sym dx (l / D) (l mod D) (Xi q))))) in Z2 by (intros; rewrite (const_J G elems facets ST VG), rsum_scale; unfold J; ring).
    rewrite rsum_scale, rsum_swap in Z2. apply Rmult_integral in Z2 as [Z2|Z2]; [lra|]. destruct (Dv l Hl) as [D1 D2].
    apply (over_zero D k _ _ phi R_ HD RD (k - 1) (sym dx (l / D) (l mod D))); [lia|apply SP; auto|].
    apply (rsum_nonneg_zero (D * D) (fun l => over (fun x => sym dx (l / D) (l mod D) x * sym dx (l / D) (l mod D) x))); auto.
    intros l' _. apply rsum_nonneg. intros q Hq. pose proof (proj1 (rd_W _ _ _ _ _ _ RD) q Hq). pose proof (Rle_0_sqr (sym dx (l' / D) (l' mod D) (Xi q))) as S. unfold Rsqr in S. nra.
  - pose proof (elastic_zero_form Q elems facets bc k GEo eTI eHdim eNL ePEN (facet_one_or_two _ _ _ _ _ _ MP) eCOUNT U Z) as ZF.
    assert (SH : forall f, In f facets -> In g (elements_of elems f) ->
       strain2_on Q f g (U g) = trace_constant D (k - 1) * (efacet_area Q f / eelem_volume Q g) * strain2 Q g (U g) /\
       forall q, (q < p_nq R_)%nat -> 0 < p_w R_ q -> forall i j, (i < D)%nat -> (j < D)%nat ->
         ep_nl Q f q * ep_nl Q f q * strain_of (dgrad_on Q f g (U g) q) i j = strain_n Q (dgrad_on Q f g (U g) q) (fun j => ep_n Q f g j q) i * ep_n Q f g j q).
    { intros f Hf Hgf. specialize (ZF f g Hf Hgf). pose proof (proj2 (eshare_bound Q elems facets k GEo eTI eHdim eNL f g U Hf Hgf)) as B.
      rewrite HdQ in B, ZF. apply B. rewrite <- ZF. unfold etaken in *.
      destruct (elements_of elems f) as [|a [|b l]]; auto. destruct (bc f =? BC_Natural)%nat; auto. exfalso. apply E0.
      assert (0 < INR (D + 1)) by (apply lt_0_INR; lia). apply (Rmult_eq_reg_r (/ INR (D + 1))); [unfold Rdiv in ZF; lra|apply Rinv_neq_0_compat; lra]. }
    destruct (le_lt_dec 2 k) as [K2|K2].
    + apply BACK. intros l x Hl. apply (attained_zero G procs elems facets bc m ST MP VG k phi R_ Hk RD g (D * D) (fun l => sym dx (l / D) (l mod D)) K2 Hg); auto.
      * intros l' Hl'. destruct (Dv l' Hl'). apply SP; auto.
      * intros f Hf Hgf. destruct (SH f Hf Hgf) as [S3 _]. rewrite S2 in S3.
        assert (F2 : strain2_on Q f g (U g) = rsum (p_nq R_) (fun q => p_w R_ q * mesh_length G elems f q *
           rsum (D * D) (fun l => sym dx (l / D) (l mod D) (Fp (facet_number D elems f g) q) * sym dx (l / D) (l mod D) (Fp (facet_number D elems f g) q)))).
        { apply rsum_ext. intros q Hq. rewrite <- (rsum_square D (fun i j => sym dx i j (Fp (facet_number D elems f g) q) * sym dx i j (Fp (facet_number D elems f g) q))). unfold sym2. rewrite HdQ. f_equal.
          apply rsum_ext. intros i Hi. apply rsum_ext. intros j Hj. rewrite !H5 by auto. reflexivity. }
        rewrite F2 in S3. exact S3.
    + assert (k = 1%nat) by lia.
      assert (Cst : forall i j x y, (i < D)%nat -> (j < D)%nat -> sym dx i j x = sym dx i j y) by (intros i j x y Hi Hj; apply (poly_degree_0 D (sym dx i j) HD); replace 0%nat with (k - 1)%nat by lia; auto).
      set (o := fun _ : nat => 0).
      (* each row of the strain is normal to each facet *)
      assert (PR : forall s i, (s < D + 1)%nat -> (i < D)%nat -> exists t, forall j, (j < D)%nat -> sym dx i j o = t * side_normal G elems g s j).
      { intros s i Hs Hi. destruct (side_facet D procs elems facets bc m g s MP Hg Hs) as (f & Hf & Hgf & Es). destruct (SH f Hf Hgf) as [_ S1].
        destruct (rd_w _ _ _ _ _ _ RD) as (W0 & q & Hq & Wq). pose proof (eNL f q Hf) as Lq. specialize (S1 q Hq Wq i). set (nl := ep_nl Q f q) in *. set (y := strain_n Q _ _ i) in S1.
        exists (y / (nl * nl)). intros j Hj. specialize (S1 j Hi Hj). unfold strain_of in S1. rewrite !H5, Es in S1 by auto. fold (sym dx i j (Fp s q)) in S1.
        change (ep_n Q f g j q) with (mesh_normal G elems f g j q) in S1. rewrite (mesh_side_normal G elems facets ST VG f g j q Hj), Es, (Cst i j _ o Hi Hj) in S1.
        apply (Rmult_eq_reg_l (nl * nl)); [|nra]. rewrite S1. field. lra. }
      intros i j x Hi Hj. rewrite (Cst i j x o Hi Hj). destruct (PR 0%nat i ltac:(lia) Hi) as (t0 & P0). destruct (PR 1%nat i ltac:(lia) Hi) as (t1 & P1).
      pose proof (det_nonzero G procs elems facets bc m ST MP VG k phi R_ RD g Hg) as DN.
      set (w e := rsum D (fun j => sym dx i j o * edges g j e)).
      assert (IC : forall j, (j < D)%nat -> rsum D (fun e => inv g e j * w e) = sym dx i j o) by (intros j' Hj'; apply (inverse_contract D (edges g) (fun j => sym dx i j o) j' HD DN Hj')).
      rewrite <- (IC j Hj). apply rsum_zero. intros e He.
      rewrite (parallel_zero G procs elems facets bc m ST MP VG k phi R_ Hk RD g w t0 t1 Hg); [ring| | |exact He]; intros j' Hj'; rewrite IC by exact Hj'; auto.
Qed.
Section Zero.
Variable U : nat -> nat -> R.
(** The displacement gradients of U are antisymmetric at the quadrature points. *)
Hypothesis GQ : forall g p i q, (g < length elems)%nat -> (p < D)%nat -> (i < D)%nat -> (q < p_Nq R_)%nat -> dgrad Q g (U g) q p i + dgrad Q g (U g) q i p = 0.
Hypothesis GF : forall f g p i q, In f facets -> In g (elements_of elems f) -> (p < D)%nat -> (i < D)%nat -> (q < p_nq R_)%nat -> dgrad_on Q f g (U g) q p i + dgrad_on Q f g (U g) q i p = 0.
Lemma hooke_skew lam mu H i j : (i < D)%nat -> (j < D)%nat -> (forall a b, (a < D)%nat -> (b < D)%nat -> H a b + H b a = 0) -> hooke Q lam mu H i j = 0.
Proof.
  intros Hi Hj S. unfold hooke. rewrite S by auto. rewrite HdQ, rsum_zero; [ring|]. intros r Hr. specialize (S r r Hr Hr). lra.
Qed.
Lemma contract_zero S T : (forall i j, (i < D)%nat -> (j < D)%nat -> S i j = 0) -> contract Q S T = 0.
Proof. intro Z. unfold contract. rewrite HdQ. apply rsum_zero. intros i Hi. apply rsum_zero. intros j Hj. rewrite Z by auto. ring. Qed.
Lemma stress_free f g q i j : In f facets -> In g (elements_of elems f) -> (q < p_nq R_)%nat -> (i < D)%nat -> (j < D)%nat -> stress_on Q f g (U g) q i j = 0.
Proof. intros Hf Hg Hq Hi Hj. apply hooke_skew; auto. Qed.
Lemma free_vol g V : (g < length elems)%nat -> evol_term Q g U V = 0.
Proof.
  intro Hg. apply rsum_zero. intros q Hq. rewrite contract_zero; [ring|]. intros i j Hi Hj. apply hooke_skew; auto.
Qed.
Lemma free_int f g h V : In f facets -> elements_of elems f = [g; h] -> eint_term Q f g h U V =
  rsum (p_nq R_) (fun q => p_w R_ q * (- contract Q (mean_stress Q f g h V q) (djump Q f g h U q)
     + ep_pen Q f * ep_nl Q f q * rsum D (fun i => (disp_on Q f g (U g) q i - disp_on Q f h (U h) q i) * (disp_on Q f g (V g) q i - disp_on Q f h (V h) q i)))).
Proof.
  intros Hf El. assert (Hg : In g (elements_of elems f)) by (rewrite El; cbn; auto). assert (Hh : In h (elements_of elems f)) by (rewrite El; cbn; auto).
  apply rsum_ext. intros q Hq. rewrite (contract_zero (mean_stress Q f g h U q)); [rewrite HdQ; change (p_w (e_geo (ep_ref Q))) with (p_w R_); ring|].
  intros i j Hi Hj. unfold mean_stress. rewrite !stress_free by auto. ring.
Qed.
Lemma free_bnd f g V : In f facets -> elements_of elems f = [g] -> ebnd_term Q f g U V =
  rsum (p_nq R_) (fun q => p_w R_ q * (- contract Q (stress_on Q f g (V g) q) (fun i j => disp_on Q f g (U g) q i * ep_n Q f g j q)
     + ep_pen Q f * ep_nl Q f q * rsum D (fun i => disp_on Q f g (U g) q i * disp_on Q f g (V g) q i))).
Proof.
  intros Hf El. assert (Hg : In g (elements_of elems f)) by (rewrite El; cbn; auto).
  apply rsum_ext. intros q Hq. rewrite (contract_zero (stress_on Q f g (U g) q)); [rewrite HdQ; change (p_w (e_geo (ep_ref Q))) with (p_w R_); ring|].
  intros i j Hi Hj. apply stress_free; auto.
Qed.
End Zero.
(** A displacement for which the form vanishes is zero on anchored elements. *)
Lemma rest_on_anchored U : elastic_form Q elems facets bc U U = 0 -> forall g, anchored elems facets bc g -> forall p x, (p < D)%nat -> fem phi R_ (coef Q (U g) p) x = 0.
Proof.
  intro Z.
  assert (ZS : forall g, (g < length elems)%nat -> _) by exact (fun g Hg => zero_strain U g Z Hg).
  assert (GQ : forall g p i q, (g < length elems)%nat -> (p < D)%nat -> (i < D)%nat -> (q < p_Nq R_)%nat -> dgrad Q g (U g) q p i + dgrad Q g (U g) q i p = 0).
  { intros g p i q Hg Hp Hi Hq. destruct (ZS g Hg) as (du & dx & _ & _ & S & E & _). rewrite !E by auto. apply S; auto. }
  assert (GF : forall f g p i q, In f facets -> In g (elements_of elems f) -> (p < D)%nat -> (i < D)%nat -> (q < p_nq R_)%nat -> dgrad_on Q f g (U g) q p i + dgrad_on Q f g (U g) q i p = 0).
  { intros f g p i q Hf Hg Hp Hi Hq. destruct (ZS g (in_elems elems f g Hg)) as (du & dx & _ & _ & S & _ & E). rewrite !E by auto. apply S; auto. }
  pose proof (rd_w _ _ _ _ _ _ RD) as (W0 & _).
  (* the jumps *)
  set (jf f i q := match elements_of elems f with
     | [g] => if (bc f =? BC_Natural)%nat then 0 else disp_on Q f g (U g) q i
     | [g; h] => disp_on Q f g (U g) q i - disp_on Q f h (U h) q i
     | _ => 0 end).
  assert (FT : forall f, In f facets -> efacet_term Q elems bc f U U = ep_pen Q f * rsum (p_nq R_) (fun q => p_w R_ q * ep_nl Q f q * rsum D (fun i => jf f i q * jf f i q))).
  { intros f Hf. rewrite <- rsum_scale. destruct (facet_one_or_two _ _ _ _ _ _ MP f Hf) as (g & h & [El|El]); unfold efacet_term, jf; rewrite El.
    - assert (Hg : In g (elements_of elems f)) by (rewrite El; cbn; auto). destruct (bc f =? BC_Natural)%nat.
      + symmetry. apply rsum_zero. intros q Hq. rewrite rsum_zero by (intros; ring). ring.
      + rewrite (free_bnd U GF f g U Hf El). apply rsum_ext. intros q Hq. rewrite (contract_zero (stress_on Q f g (U g) q)); [ring|]. intros i j Hi Hj. apply (stress_free U GF); auto.
    - assert (Hg : In g (elements_of elems f)) by (rewrite El; cbn; auto). assert (Hh : In h (elements_of elems f)) by (rewrite El; cbn; auto).
      rewrite (free_int U GF f g h U Hf El). apply rsum_ext. intros q Hq. rewrite (contract_zero (mean_stress Q f g h U q)); [ring|].
      intros i j Hi Hj. unfold mean_stress. rewrite !(stress_free U GF) by auto. ring. }
  assert (J0 : forall f, In f facets -> 0 <= rsum (p_nq R_) (fun q => p_w R_ q * ep_nl Q f q * rsum D (fun i => jf f i q * jf f i q))).
  { intros f Hf. apply rsum_nonneg. intros q Hq. pose proof (eNL f q Hf). apply Rmult_le_pos; [apply Rmult_le_pos; [apply W0; exact Hq|lra]|]. apply rsum_nonneg. intros. apply Rle_0_sqr. }
  assert (JZ : forall f i q, In f facets -> (i < D)%nat -> (q < p_nq R_)%nat -> p_w R_ q * (jf f i q * jf f i q) = 0).
  { intros f i q Hf Hi Hq. unfold elastic_form in Z. rewrite lsum_zero in Z by (intros g Hg; apply in_seq in Hg; apply (free_vol U GQ); lia). rewrite Rplus_0_l in Z.
    assert (T : efacet_term Q elems bc f U U = 0).
    { apply (lsum_nonneg_zero (fun f => efacet_term Q elems bc f U U) facets); auto. intros f' Hf'. rewrite FT by exact Hf'. pose proof (epen_positive f' Hf'). pose proof (J0 f' Hf'). apply Rmult_le_pos; lra. }
    rewrite FT in T by exact Hf. pose proof (epen_positive f Hf) as Pp. apply Rmult_integral in T as [T|T]; [lra|].
    assert (Tq : p_w R_ q * ep_nl Q f q * rsum D (fun i => jf f i q * jf f i q) = 0).
    { apply (rsum_nonneg_zero (p_nq R_) (fun q => p_w R_ q * ep_nl Q f q * rsum D (fun i => jf f i q * jf f i q))); auto. intros q' Hq'. pose proof (eNL f q' Hf).
      apply Rmult_le_pos; [apply Rmult_le_pos; [apply W0; exact Hq'|lra]|]. apply rsum_nonneg. intros. apply Rle_0_sqr. }
    pose proof (eNL f q Hf) as Lq. apply Rmult_integral in Tq as [Tq|Tq].
    - assert (p_w R_ q = 0) by (apply Rmult_integral in Tq; lra). rewrite H. ring.
    - rewrite (rsum_nonneg_zero D (fun i => jf f i q * jf f i q)); [ring| |exact Tq|exact Hi]. intros. apply Rle_0_sqr. }
  (* an element that rests on a facet rests *)
  assert (RZ : forall f g, In f facets -> In g (elements_of elems f) ->
     (forall i q, (i < D)%nat -> (q < p_nq R_)%nat -> p_w R_ q * (disp_on Q f g (U g) q i * disp_on Q f g (U g) q i) = 0) -> forall p x, (p < D)%nat -> fem phi R_ (coef Q (U g) p) x = 0).
  { intros f g Hf Hg T. pose proof (in_elems elems f g Hg) as Hgl. pose proof (facet_number_lt G procs elems facets bc m MP VG f g Hf Hg) as Hs. destruct (ZS g Hgl) as (du & dx & E1 & E2 & E3 & _).
    apply (rigid_zero D k (edges g) HD (det_nonzero G procs elems facets bc m ST MP VG k phi R_ RD g Hgl) (fun p => fem phi R_ (coef Q (U g) p)) du) with (s := facet_number D elems f g); [| | |exact Hs|].
    - intros p Hp. apply (fem_poly G k phi R_ RD).
    - intros p e x Hp He. apply E1; auto.
    - intros p i x Hp Hi. rewrite <- !E2 by auto. apply E3; auto.
    - intros p c Hp. apply (over_facet_zero D k (gs_xi G) (gs_chi G) phi R_ HD RD k (facet_number D elems f g) (fem phi R_ (coef Q (U g) p)) (Nat.le_refl k) (fem_poly G k phi R_ RD _)).
      apply rsum_zero. intros q Hq. rewrite <- !(disp_on_fem f g) by auto. apply T; auto. }
  intros g Ag. induction Ag as [f g Hf El Nn | f g h Hf Hg Hh Ag IH].
  - assert (Hg : In g (elements_of elems f)) by (rewrite El; cbn; auto). apply (RZ f g Hf Hg). intros i q Hi Hq. specialize (JZ f i q Hf Hi Hq). unfold jf in JZ. rewrite El in JZ. apply Nat.eqb_neq in Nn. rewrite Nn in JZ. exact JZ.
  - apply (RZ f h Hf Hh). intros i q Hi Hq. specialize (JZ f i q Hf Hi Hq). unfold jf in JZ.
    assert (Tg : disp_on Q f g (U g) q i = 0) by (rewrite disp_on_fem by auto; apply IH; exact Hi).
    destruct (facet_one_or_two _ _ _ _ _ _ MP f Hf) as (a & b & [El|El]); rewrite El in *; cbn in Hg, Hh.
    + assert (g = h) by (destruct Hg as [<-|[]]; destruct Hh as [<-|[]]; reflexivity). subst h. rewrite Tg. ring.
    + destruct Hg as [<-|[<-|[]]]; destruct Hh as [<-|[<-|[]]]; rewrite ?Tg in *; try ring; rewrite <- JZ; ring.
Qed.
End Mesh.
