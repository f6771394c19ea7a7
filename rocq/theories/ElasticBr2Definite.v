(** The elastic form of Bassi and Rebay vanishes only for zero, if the elements are anchored (C91). *)
Require Import List Arith Lia Bool Reals Lra Psatz Classical Sorting.Sorted.
Require Import Verif.Base Verif.LinAlg Verif.SimplexModel Verif.SimplexProofs Verif.LocalMeshModel Verif.TopoModel Verif.TopoSpec Verif.TopoProofs Verif.TopoProps
  Verif.AssembleModel Verif.AssembleSpec Verif.AssembleProofs Verif.AssembleProps Verif.MatFree Verif.FaultModel Verif.PoissonModel Verif.PenaltyModel
  Verif.SipSpec Verif.SipProofs Verif.SipRank Verif.SipProps Verif.CoerciveProps
  Verif.GeometryModel Verif.GeometryProofs Verif.GeometrySpec Verif.GeometryProps Verif.GeometryStraight Verif.MeshSpec Verif.MeshProofs Verif.MeshPoissonProps
  Verif.BasisSpec Verif.IntegralSpec Verif.QuadratureProps Verif.DubinerProofs Verif.NodesConform Verif.DegreeSpec Verif.DegreeProofs Verif.DegreeProps Verif.DivergenceProofs
  Verif.ElasticityModel Verif.ElasticitySpec Verif.ElasticityProofs Verif.ElasticFormSpec Verif.ElasticFormProofs Verif.ElasticFormProps Verif.ElasticCoerciveProps Verif.MeshElasticSpec Verif.MeshElasticProps
  Verif.InterpolationProps Verif.ConsistencySpec Verif.ConsistencyProofs Verif.DefiniteSpec Verif.DefiniteProofs Verif.DefiniteForm Verif.DefiniteMesh Verif.RigidProofs Verif.ElasticDefiniteForm Verif.ElasticDefiniteMesh
  Verif.ElasticBr2Spec Verif.ElasticBr2Proofs Verif.ElasticBr2Positive.
Import ListNotations.
Local Open Scope R_scope.

(** A tensor without energy has no symmetric part. *)
Lemma no_energy Q l u A i j : 0 <= l -> 0 < u -> contract Q (hooke Q l u A) A = 0 -> (i < p_dim (e_geo (ep_ref Q)))%nat -> (j < p_dim (e_geo (ep_ref Q)))%nat -> A i j + A j i = 0.
Proof.
  intros Hl Hu Z Hi Hj. rewrite energy_density in Z. pose proof (sym2_nonneg Q A) as S0. set (t := rsum _ _) in Z.
  assert (T : 0 <= l * (t * t)) by (apply Rmult_le_pos; [exact Hl|apply Rle_0_sqr]). assert (S1 : sym2 Q A = 0) by nra. unfold sym2 in S1.
  pose proof (rsum_nonneg_zero _ _ (fun i _ => rsum_nonneg _ _ (fun j _ => Rle_0_sqr ((A i j + A j i) / 2))) S1 i Hi) as S2. cbv beta in S2.
  pose proof (rsum_nonneg_zero _ _ (fun j _ => Rle_0_sqr ((A i j + A j i) / 2)) S2 j Hj) as S3. cbv beta in S3. apply Rmult_integral in S3. lra.
Qed.
(** Twice the symmetric part of a tensor field. *)
Definition symf (Q : eproblem) (g : nat) (a : nat -> nat -> nat -> R) (i j q : nat) : R := field Q g (a i j) q + field Q g (a j i) q.
(** Where the estimate for a facet is attained, the symmetric parts are multiples. *)
Lemma eattained Q (lam mu : nat -> R) g (r d : nat -> nat -> nat -> R) : let P := e_geo (ep_ref Q) in let D := INR (p_dim P + 1) in
  (forall q, (q < p_Nq P)%nat -> 0 < p_J P g q) -> (forall q, (q < p_Nq P)%nat -> 0 <= p_W P q) -> 0 <= lam g -> 0 < mu g ->
  eip Q lam mu g d d / D + (- 2 * eip Q lam mu g r d + D * eip Q lam mu g r r) = 0 ->
  forall i j q, (i < p_dim P)%nat -> (j < p_dim P)%nat -> (q < p_Nq P)%nat -> p_W P q * symf Q g d i j q = D * (p_W P q * symf Q g r i j q).
Proof.
  intros P D Jp Wp Hl Hu Z i j q Hi Hj Hq. assert (Dp : 0 < D) by (apply lt_0_INR; lia).
  set (A q := fun i k => field Q g (r i k) q + - / D * field Q g (d i k) q).
  assert (S : rsum (p_Nq P) (fun q => p_W P q * p_J P g q * (D * contract Q (hooke Q (lam g) (mu g) (A q)) (A q))) = 0).
  { rewrite <- Z. unfold eip. unfold Rdiv. rewrite <- rsum_scale_r, <- !rsum_scale, <- !rsum_plus. apply rsum_ext. intros q' Hq'. fold P. unfold A. rewrite hooke_square. field. lra. }
  assert (T : forall q, (q < p_Nq P)%nat -> 0 <= p_W P q * p_J P g q * (D * contract Q (hooke Q (lam g) (mu g) (A q)) (A q))).
  { intros q' Hq'. pose proof (Wp q' Hq'). pose proof (Jp q' Hq'). apply Rmult_le_pos; [apply Rmult_le_pos; lra|]. apply Rmult_le_pos; [lra|]. apply hooke_nonneg; lra. }
  pose proof (rsum_nonneg_zero _ _ T S q Hq) as S1. cbv beta in S1. pose proof (Jp q Hq) as J0. apply Rmult_integral in S1 as [S1|S1].
  - apply Rmult_integral in S1 as [S1|S1]; [rewrite S1; ring|lra].
  - apply Rmult_integral in S1 as [S1|S1]; [lra|]. pose proof (no_energy Q _ _ _ i j Hl Hu S1 Hi Hj) as E. unfold A in E. unfold symf.
    assert (E' : field Q g (d i j) q + field Q g (d j i) q = D * (field Q g (r i j) q + field Q g (r j i) q)).
    { apply (Rmult_eq_reg_l (/ D)); [rewrite <- Rmult_assoc, Rinv_l, Rmult_1_l by lra; lra|apply Rinv_neq_0_compat; lra]. }
    rewrite E'. ring.
Qed.

Section Definite.
Variables (G : geo_setup) (procs : nat) (elems facets : list (list nat)) (bc : list nat -> nat) (m : nat -> topo_mesh).
Local Notation D := (gs_D G).
Hypothesis ST : straight G.
Hypothesis MP : mesh_parts D procs elems facets bc m.
Hypothesis VG : valid_geometry G elems facets.
Variables (k : nat) (phi : nat -> (nat -> R) -> R) (E_ : edata).
Local Notation R_ := (e_geo E_).
Hypothesis Hk : (1 <= k)%nat.
Hypothesis RD : reference_of_degree D k (gs_xi G) (gs_chi G) phi R_.
Hypothesis SP : forall f, polynomial D k f -> exists c, forall x, f x = rsum (p_N R_) (fun l => c l * phi l x).
Variables lam mu : nat -> R.
Local Notation Q := (mesh_eproblem G elems E_ k).
Hypothesis Kp : forall g, (g < length elems)%nat -> 0 <= lam g /\ 0 < mu g.
Hypothesis Kv : forall g q, (g < length elems)%nat -> (q < p_Nq R_)%nat -> lam_in Q g q = lam g /\ mu_in Q g q = mu g.
Hypothesis Kf : forall f g q, In f facets -> In g (elements_of elems f) -> (q < p_nq R_)%nat -> lam_on Q f g q = lam g /\ mu_on Q f g q = mu g.
Local Notation Xi q := (gs_xi G q). Local Notation Fp s q := (facet_param D (ref_facet D s) (gs_chi G q)).
Local Notation edges g := (edge_matrix (gs_X G) (nth g elems [])).
Local Notation inv g := (geo_inverse D (edges g)).
Local Notation P := (e_geo (ep_ref Q)).
Let HD := dims G elems facets VG.
Let Hd : p_dim R_ = D := rd_dim _ _ _ _ _ _ RD.
Let HdQ : p_dim P = D := Hd.
Lemma eJp g q : (g < length elems)%nat -> (q < p_Nq R_)%nat -> 0 < p_J P g q.
Proof. intros Hg _. destruct (mesh_good G procs elems facets bc m MP VG R_ Hd) as (_ & HJ & _). apply (HJ g q Hg). Qed.
Lemma eJ0 g q : (g < length elems)%nat -> (q < p_Nq R_)%nat -> 0 <= p_J P g q.
Proof. intros. apply Rlt_le, eJp; auto. Qed.
Lemma eWp q : (q < p_Nq R_)%nat -> 0 <= p_W R_ q.
Proof. apply (rd_W _ _ _ _ _ _ RD). Qed.
Lemma eKp0 g : (g < length elems)%nat -> 0 <= lam g /\ 0 <= mu g.
Proof. intro Hg. destruct (Kp g Hg). lra. Qed.
Lemma field_fem g u q : (q < p_Nq R_)%nat -> field Q g u q = fem phi R_ u (Xi q).
Proof. intro Hq. unfold field, fem. cbn [mesh_eproblem ep_ref with_egeometry e_geo with_geometry p_N p_EQ]. apply rsum_ext. intros l Hl. rewrite (rd_EQ _ _ _ _ _ _ RD) by auto. ring. Qed.
Lemma field_on_fem f g u q : In f facets -> In g (elements_of elems f) -> (q < p_nq R_)%nat -> field_on Q f g u q = fem phi R_ u (Fp (facet_number D elems f g) q).
Proof.
  intros Hf Hg Hq. pose proof (facet_number_lt G procs elems facets bc m MP VG f g Hf Hg) as Hs.
  unfold field_on, fem. cbn [mesh_eproblem ep_ref ep_loc with_egeometry e_geo with_geometry p_N p_E]. apply rsum_ext. intros l Hl. rewrite (rd_E _ _ _ _ _ _ RD) by auto. ring.
Qed.
Lemma disp_field f g (u : nat -> R) q i : disp_on Q f g u q i = field_on Q f g (coef Q u i) q.
Proof. reflexivity. Qed.

Section Zero.
Variables (U : nat -> nat -> R) (r : list nat -> nat -> nat -> nat -> nat -> R) (d : nat -> nat -> nat -> nat -> R).
Hypothesis LU : elifts_jump Q elems facets U r.
Hypothesis HG : has_dgradient Q elems facets U d.
Hypothesis Z : ebr2_form Q elems facets bc r U U = 0.
Definition free_facet (f : list nat) : Prop := (exists g, elements_of elems f = [g]) /\ bc f = BC_Natural.
(** Nothing is lost in the estimates. *)
Lemma etight f g i j q : In f facets -> In g (elements_of elems f) -> (i < D)%nat -> (j < D)%nat -> (q < p_Nq R_)%nat ->
  (free_facet f /\ p_W R_ q * symf Q g (d g) i j q = 0) \/ (~ free_facet f /\ p_W R_ q * symf Q g (d g) i j q = INR (D + 1) * (p_W R_ q * symf Q g (r f g) i j q)).
Proof.
  intros Hf Hg Hi Hj Hq. assert (Dp : 0 < INR (D + 1)) by (apply lt_0_INR; lia).
  set (T g := evol_term Q g U U / INR (p_dim P + 1)). set (slack f := ebr2_facet Q elems bc f (r f) U U + lsum T (elements_of elems f)).
  assert (S0 : forall f, In f facets -> 0 <= slack f).
  { intros f' Hf'. pose proof (efacet_bound Q elems facets bc lam mu eJ0 eWp eKp0 Kv Kf U r d f' Hf' LU HG (facet_one_or_two _ _ _ _ _ _ MP f' Hf')) as B. fold T in B. unfold slack. lra. }
  assert (SZ : lsum slack facets = 0).
  { unfold slack. rewrite lsum_plus, <- (eCOUNT G procs elems facets bc m MP k phi E_ RD T). rewrite <- Z. unfold ebr2_form. rewrite Rplus_comm. f_equal. apply lsum_ext. intros g' _. unfold T.
    rewrite HdQ. field. lra. }
  pose proof (lsum_nonneg_zero slack facets S0 SZ f Hf) as Sf. unfold slack, T in Sf. rewrite HdQ in Sf.
  assert (VE : forall g, (g < length elems)%nat -> evol_term Q g U U = eip Q lam mu g (d g) (d g)) by (intros; apply (evol_ip Q elems facets lam mu Kv U U d d); auto).
  pose proof (LU f Hf) as [L1 L2].
  assert (AT : forall h t, (h < length elems)%nat -> eip Q lam mu h (d h) (d h) / INR (D + 1) + (- eip Q lam mu h t (d h) - eip Q lam mu h t (d h) + INR (D + 1) * eip Q lam mu h t t) = 0 ->
     p_W R_ q * symf Q h (d h) i j q = INR (D + 1) * (p_W R_ q * symf Q h t i j q)).
  { intros h t Hh Ze. pose proof (eattained Q lam mu h t (d h)) as A. cbv zeta in A. rewrite HdQ in A. destruct (Kp h Hh). apply A; auto.
    - intros. apply eJp; auto.
    - intros. apply eWp; auto.
    - rewrite <- Ze. field. lra. }
  assert (LB : forall h t, (h < length elems)%nat -> 0 <= eip Q lam mu h (d h) (d h) / INR (D + 1) + (- eip Q lam mu h t (d h) - eip Q lam mu h t (d h) + INR (D + 1) * eip Q lam mu h t t)).
  { intros h t Hh. pose proof (eip_bound Q elems lam mu eJ0 eWp eKp0 h t (d h) Hh) as B. rewrite HdQ in B. lra. }
  destruct (facet_one_or_two _ _ _ _ _ _ MP f Hf) as (a & b & El).
  pose proof (in_elems elems f) as IE. unfold ebr2_facet in Sf. destruct El as [El|El]; rewrite El in *; cbn [lsum] in Sf.
  - destruct Hg as [<-|[]]. pose proof (IE a (or_introl eq_refl)) as Ha. rewrite (VE a Ha) in Sf. destruct (Nat.eqb_spec (bc f) BC_Natural) as [En|En].
    + left. split; [split; [exists a; exact El|exact En]|].
      rewrite (AT a (fun _ _ _ => 0) Ha).
      * unfold symf, field. rewrite !rsum_zero by (intros; ring). ring.
      * assert (V0 : forall x, eip Q lam mu a (fun _ _ _ => 0) x = 0).
        { intro x. rewrite eip_sym. apply rsum_zero. intros q' Hq'. unfold contract. rewrite (rsum_zero (p_dim P)); [ring|]. intros i' _. apply rsum_zero. intros j' _. unfold field at 2. rewrite (rsum_zero (p_N P)) by (intros; ring). ring. }
        rewrite !V0. lra.
    + right. split; [intros [_ N]; contradiction|]. apply (AT a (r f a) Ha). pose proof (ebnd_ip Q elems facets lam mu Kf f a U U (r f) (r f) d d Hf El HG HG (L1 a eq_refl) (L1 a eq_refl)) as B.
      rewrite HdQ in B. rewrite B in Sf. lra.
  - right. split; [intros [[x Ex] _]; rewrite El in Ex; discriminate Ex|].
    pose proof (IE a (or_introl eq_refl)) as Ha. pose proof (IE b (or_intror (or_introl eq_refl))) as Hb. rewrite (VE a Ha), (VE b Hb) in Sf. destruct (L2 a b eq_refl) as [La Lb].
    pose proof (eint_ip Q elems facets lam mu Kf f a b U U (r f) (r f) d d Hf El HG HG La Lb La Lb) as B. rewrite HdQ in B. rewrite B in Sf.
    pose proof (LB a (r f a) Ha) as Ba. pose proof (LB b (r f b) Hb) as Bb.
    destruct Hg as [<-|[<-|[]]]; [apply (AT a (r f a) Ha)|apply (AT b (r f b) Hb)]; lra.
Qed.
Lemma elift_of f g : In f facets -> In g (elements_of elems f) -> exists c j, is_elifting Q f g c j (r f g).
Proof.
  intros Hf Hg. destruct (LU f Hf) as [L1 L2]. destruct (facet_one_or_two _ _ _ _ _ _ MP f Hf) as (a & b & [El|El]); rewrite El in *.
  - destruct Hg as [<-|[]]. eexists _, _. apply (L1 a eq_refl).
  - destruct (L2 a b eq_refl). destruct Hg as [<-|[<-|[]]]; eexists _, _; eassumption.
Qed.
(** Testing the symmetric part of a lifting. *)
Lemma sym_test f g c j v i l : (g < length elems)%nat -> is_elifting Q f g c j (r f g) -> (i < D)%nat -> (l < D)%nat ->
  volume_element G elems g * rsum (p_Nq R_) (fun q => p_W R_ q * symf Q g (r f g) i l q * field Q g v q) = c * rsum (p_nq R_) (fun q => p_w R_ q * (j q i l + j q l i) * field_on Q f g v q).
Proof.
  intros Hg L Hi Hl. assert (Hi' : (i < p_dim P)%nat) by (rewrite HdQ; exact Hi). assert (Hl' : (l < p_dim P)%nat) by (rewrite HdQ; exact Hl).
  pose proof (elift_test Q f g c j (r f g) v i l Hi' Hl' L) as T1. pose proof (elift_test Q f g c j (r f g) v l i Hl' Hi' L) as T2.
  rewrite (rsum_ext (p_nq R_) _ (fun q => p_w P q * j q i l * field_on Q f g v q + p_w P q * j q l i * field_on Q f g v q)) by (intros; change (p_w P) with (p_w R_); ring).
  change (p_nq R_) with (p_nq P). rewrite rsum_plus, Rmult_plus_distr_l. rewrite <- T1, <- T2, <- rsum_plus, <- rsum_scale. change (p_Nq P) with (p_Nq R_). apply rsum_ext. intros q Hq.
  change (p_J P g q) with (p_J (with_geometry G elems R_) g q). rewrite (const_J G elems facets ST VG). change (p_W P q) with (p_W R_ q). unfold symf. ring.
Qed.
(** The strain is orthogonal to the functions that vanish on a facet. *)
Lemma strain_orthogonal f g i l v : In f facets -> In g (elements_of elems f) -> (i < D)%nat -> (l < D)%nat -> (forall q, (q < p_nq R_)%nat -> field_on Q f g v q = 0) ->
  rsum (p_Nq R_) (fun q => p_W R_ q * symf Q g (d g) i l q * field Q g v q) = 0.
Proof.
  intros Hf Hg Hi Hl Tv. pose proof (in_elems elems f g Hg) as Hgl. destruct (classic (free_facet f)) as [N|N].
  - apply rsum_zero. intros q Hq. destruct (etight f g i l q Hf Hg Hi Hl Hq) as [[_ E]|[C _]]; [rewrite E; ring|contradiction].
  - destruct (elift_of f g Hf Hg) as (c & j & L). pose proof (sym_test f g c j v i l Hgl L Hi Hl) as T.
    rewrite (rsum_zero (p_nq R_)) in T by (intros q Hq; rewrite Tv by exact Hq; ring). rewrite Rmult_0_r in T.
    pose proof (element_pos G procs elems facets bc m ST MP VG k phi R_ RD g Hgl) as J0. apply Rmult_integral in T as [T|T]; [lra|].
    rewrite (rsum_ext _ _ (fun q => INR (D + 1) * (p_W R_ q * symf Q g (r f g) i l q * field Q g v q))).
    + rewrite rsum_scale, T. ring.
    + intros q Hq. destruct (etight f g i l q Hf Hg Hi Hl Hq) as [[C _]|[_ E]]; [contradiction|]. rewrite E. ring.
Qed.
Lemma ebr2_strain g : (g < length elems)%nat -> exists du dx : nat -> nat -> vec -> R,
    (forall p e x, (p < D)%nat -> (e < D)%nat -> partial_derivative (fem phi R_ (coef Q (U g) p)) e x (du p e x)) /\
    (forall p i x, (p < D)%nat -> dx p i x = rsum D (fun e => inv g e i * du p e x)) /\
    (forall p i x, (p < D)%nat -> (i < D)%nat -> dx p i x + dx i p x = 0) /\
    (forall p i q, (p < D)%nat -> (i < D)%nat -> (q < p_Nq R_)%nat -> symf Q g (d g) p i q = 0).
Proof.
  intro Hg. destruct (dgrad_is G procs elems facets bc m ST MP VG k phi E_ RD g (U g)) as (du & dx & H1 & H2 & H3 & H4 & _).
  assert (VD : forall i l q, (i < D)%nat -> (l < D)%nat -> (q < p_Nq R_)%nat -> symf Q g (d g) i l q = 2 * sym dx i l (Xi q)).
  { intros i l q Hi Hl Hq. unfold symf, sym. assert (Hi' : (i < p_dim P)%nat) by (rewrite HdQ; exact Hi). assert (Hl' : (l < p_dim P)%nat) by (rewrite HdQ; exact Hl).
    rewrite (proj1 (HG g Hg) i l q Hi' Hl' Hq), (proj1 (HG g Hg) l i q Hl' Hi' Hq), !H4 by auto. field. }
  pose proof (sym_poly G k dx H3) as PS.
  assert (DX : forall i l x, (i < D)%nat -> (l < D)%nat -> sym dx i l x = 0).
  { intros i l x Hi Hl. apply (over_zero D k _ _ phi R_ HD RD (k - 1) (sym dx i l)); [lia|apply PS; auto|]. unfold over.
    transitivity (rsum (D + 1) (fun s => rsum (p_Nq R_) (fun q => p_W R_ q * (sym dx i l (Xi q) * (bary D s (Xi q) * sym dx i l (Xi q)))))).
    - rewrite rsum_swap. apply rsum_ext. intros q _. rewrite (rsum_ext (D + 1) _ (fun s => p_W R_ q * (sym dx i l (Xi q) * sym dx i l (Xi q)) * bary D s (Xi q))) by (intros; ring). rewrite rsum_scale, bary_one by exact HD. ring.
    - apply rsum_zero. intros s Hs. destruct (side_facet D procs elems facets bc m g s MP Hg Hs) as (f & Hf & Hgf & Es).
      destruct (SP (fun x => bary D s x * sym dx i l x)) as (v & Hv).
      { apply (poly_le D (1 + (k - 1))); [lia|]. apply poly_mult; [apply bary_poly; lia|apply PS; auto]. }
      apply (Rmult_eq_reg_l 2); [|lra]. rewrite Rmult_0_r, <- (strain_orthogonal f g i l v Hf Hgf Hi Hl).
      + rewrite <- rsum_scale. apply rsum_ext. intros q Hq. rewrite (field_fem g v q Hq). unfold fem. rewrite <- (Hv (Xi q)), VD by auto. ring.
      + intros q Hq. rewrite (field_on_fem f g v q Hf Hgf Hq). unfold fem. rewrite <- Hv, Es, bary_facet by auto. ring. }
  exists du, dx. split; [intros p e x Hp He; apply (H1 p e Hp He)|]. split; [exact H2|]. split.
  - intros p i x Hp Hi. specialize (DX p i x Hp Hi). unfold sym in DX. lra.
  - intros p i q Hp Hi Hq. rewrite VD, DX by auto. ring.
Qed.
(** So the symmetric parts of the jumps are orthogonal to the space. *)
Lemma jump_orthogonal f g c j v i l : In f facets -> In g (elements_of elems f) -> ~ free_facet f -> is_elifting Q f g c j (r f g) -> c <> 0 -> (i < D)%nat -> (l < D)%nat ->
  rsum (p_nq R_) (fun q => p_w R_ q * (j q i l + j q l i) * field_on Q f g v q) = 0.
Proof.
  intros Hf Hg Nn L C0 Hi Hl. pose proof (in_elems elems f g Hg) as Hgl. destruct (ebr2_strain g Hgl) as (_ & _ & _ & _ & _ & DZ).
  assert (Dp : 0 < INR (D + 1)) by (apply lt_0_INR; lia). pose proof (sym_test f g c j v i l Hgl L Hi Hl) as T.
  rewrite rsum_zero in T.
  - rewrite Rmult_0_r in T. symmetry in T. apply Rmult_integral in T as [T|T]; [contradiction|exact T].
  - intros q Hq. destruct (etight f g i l q Hf Hg Hi Hl Hq) as [[C _]|[_ E]]; [contradiction|]. rewrite (DZ i l q Hi Hl Hq), Rmult_0_r in E.
    assert (E' : p_W R_ q * symf Q g (r f g) i l q = 0) by (apply (Rmult_eq_reg_l (INR (D + 1))); lra). rewrite E'. ring.
Qed.
(** A jump a (x) n, with a in the span of the traces, is zero. *)
Lemma enormal_jump f g (a : nat -> nat -> R) : In f facets -> In g (elements_of elems f) ->
  (forall i l p, (i < D)%nat -> (l < D)%nat -> (p < D)%nat ->
     rsum (p_nq R_) (fun q => p_w R_ q * (a q i * mesh_normal G elems f g l q + a q l * mesh_normal G elems f g i q) * a q p) = 0) ->
  forall i q, (i < D)%nat -> (q < p_nq R_)%nat -> p_w R_ q * (a q i * a q i) = 0.
Proof.
  intros Hf Hg O i q Hi Hq. destruct (rd_w _ _ _ _ _ _ RD) as (W0 & _). set (n := side_normal G elems g (facet_number D elems f g)) in *.
  assert (NE : forall i q, (i < D)%nat -> mesh_normal G elems f g i q = n i) by (intros i' q' Hi'; apply (mesh_side_normal G elems facets ST VG f g i' q' Hi')).
  set (nn := rsum D (fun l => n l * n l)). set (aa q := rsum D (fun i => a q i * a q i)). set (an q := rsum D (fun i => a q i * n i)).
  assert (S : rsum (p_nq R_) (fun q => p_w R_ q * (nn * aa q + an q * an q)) = 0).
  { transitivity (rsum D (fun i => rsum D (fun l => n l * rsum (p_nq R_) (fun q => p_w R_ q * (a q i * n l + a q l * n i) * a q i)))).
    - rewrite (rsum_ext D _ (fun i => rsum (p_nq R_) (fun q => rsum D (fun l => n l * (p_w R_ q * (a q i * n l + a q l * n i) * a q i))))).
      2: { intros i' _. rewrite rsum_swap. apply rsum_ext. intros l _. rewrite rsum_scale. reflexivity. }
      rewrite rsum_swap. apply rsum_ext. intros q' _.
      rewrite (rsum_ext D _ (fun i => (p_w R_ q' * nn) * (a q' i * a q' i) + (p_w R_ q' * an q') * (a q' i * n i))).
      2: { intros i' _. rewrite (rsum_ext D _ (fun l => (p_w R_ q' * (a q' i' * a q' i')) * (n l * n l) + (p_w R_ q' * (a q' i' * n i')) * (a q' l * n l))) by (intros; ring).
           rewrite rsum_plus, !rsum_scale. fold nn. fold (an q'). ring. }
      rewrite rsum_plus, !rsum_scale. fold (aa q') (an q'). ring.
    - apply rsum_zero. intros i' Hi'. apply rsum_zero. intros l Hl. rewrite <- (O i' l i' Hi' Hl Hi') at 1. 
      rewrite (rsum_ext (p_nq R_) _ (fun q => p_w R_ q * (a q i' * mesh_normal G elems f g l q + a q l * mesh_normal G elems f g i' q) * a q i')) by (intros; rewrite !NE by auto; reflexivity).
      rewrite (O i' l i' Hi' Hl Hi'). ring. }
  assert (Sn : 0 < nn).
  { destruct (mesh_good G procs elems facets bc m MP VG R_ Hd) as (_ & _ & _ & LEN).
    pose proof (length_pos G procs elems facets bc m MP VG k phi R_ RD f q Hf) as Lp. pose proof (LEN f g q Hf Hg) as N2. unfold nn.
    rewrite (rsum_ext D _ (fun i => mesh_normal G elems f g i q * mesh_normal G elems f g i q)) by (intros i' Hi'; rewrite NE by auto; reflexivity). rewrite N2. nra. }
  assert (A0 : forall q, 0 <= aa q) by (intro; apply rsum_nonneg; intros; apply Rle_0_sqr).
  assert (N0 : forall q, 0 <= nn * aa q + an q * an q) by (intro q'; pose proof (Rle_0_sqr (an q')) as X; unfold Rsqr in X; pose proof (A0 q'); nra).
  pose proof (rsum_nonneg_zero _ _ (fun q Hq => Rmult_le_pos _ _ (W0 q Hq) (N0 q)) S q Hq) as S1. cbv beta in S1. apply Rmult_integral in S1 as [S1|S1]; [rewrite S1; ring|].
  assert (aa q = 0) by (pose proof (Rle_0_sqr (an q)) as X; unfold Rsqr in X; pose proof (A0 q); nra).
  pose proof (rsum_nonneg_zero D (fun i => a q i * a q i) (fun i _ => Rle_0_sqr (a q i)) H i Hi) as S2. cbv beta in S2. rewrite S2. ring.
Qed.
Lemma ebr2_zero_anchored g : anchored elems facets bc g -> forall p x, (p < D)%nat -> fem phi R_ (coef Q (U g) p) x = 0.
Proof.
  (* an element that rests on a facet rests *)
  assert (RZ : forall f g, In f facets -> In g (elements_of elems f) ->
     (forall i q, (i < D)%nat -> (q < p_nq R_)%nat -> p_w R_ q * (disp_on Q f g (U g) q i * disp_on Q f g (U g) q i) = 0) -> forall p x, (p < D)%nat -> fem phi R_ (coef Q (U g) p) x = 0).
  { intros f g' Hf Hg T. pose proof (in_elems elems f g' Hg) as Hgl. pose proof (facet_number_lt G procs elems facets bc m MP VG f g' Hf Hg) as Hs. destruct (ebr2_strain g' Hgl) as (du & dx & E1 & E2 & E3 & _).
    apply (rigid_zero D k (edges g') HD (det_nonzero G procs elems facets bc m ST MP VG k phi R_ RD g' Hgl) (fun p => fem phi R_ (coef Q (U g') p)) du) with (s := facet_number D elems f g'); [| | |exact Hs|].
    - intros p Hp. apply (fem_poly G k phi R_ RD).
    - intros p e x Hp He. apply E1; auto.
    - intros p i x Hp Hi. rewrite <- !E2 by auto. apply E3; auto.
    - intros p c Hp. apply (over_facet_zero D k (gs_xi G) (gs_chi G) phi R_ HD RD k (facet_number D elems f g') (fem phi R_ (coef Q (U g') p)) (Nat.le_refl k) (fem_poly G k phi R_ RD _)).
      apply rsum_zero. intros q Hq. rewrite <- !(disp_on_fem G procs elems facets bc m MP VG k phi E_ RD f g') by auto. apply T; auto. }
  intro Ag. induction Ag as [f g Hf El Nn | f g h Hf Hg Hh Ag IH].
  - assert (Hg : In g (elements_of elems f)) by (rewrite El; cbn; auto). apply (RZ f g Hf Hg). apply (enormal_jump f g (fun q i => disp_on Q f g (U g) q i) Hf Hg).
    intros i l p Hi Hl Hp. apply (jump_orthogonal f g 1 (ebjump Q f g U) (coef Q (U g) p) i l Hf Hg); [intros [_ E]; contradiction|apply (proj1 (LU f Hf) g El)|lra|exact Hi|exact Hl].
  - destruct (Nat.eq_dec g h) as [->|Ne]; [apply IH|]. apply (RZ f h Hf Hh).
    assert (Tg : forall i q, (i < D)%nat -> (q < p_nq R_)%nat -> disp_on Q f g (U g) q i = 0) by (intros i q Hi Hq; rewrite (disp_on_fem G procs elems facets bc m MP VG k phi E_ RD) by auto; apply IH; exact Hi).
    apply (enormal_jump f h (fun q i => disp_on Q f h (U h) q i) Hf Hh). intros i l p Hi Hl Hp.
    destruct (facet_one_or_two _ _ _ _ _ _ MP f Hf) as (a & b & [El|El]).
    + exfalso. rewrite El in Hg, Hh. destruct Hg as [<-|[]]. destruct Hh as [<-|[]]. contradiction.
    + destruct (proj2 (LU f Hf) a b El) as [La Lb]. assert (NF : ~ free_facet f) by (intros [[y Ey] _]; rewrite El in Ey; discriminate Ey).
      assert (Lh : is_elifting Q f h (1 / 2) (djump Q f a b U) (r f h)) by (rewrite El in Hh; destruct Hh as [<-|[<-|[]]]; assumption).
      rewrite <- (jump_orthogonal f h (1 / 2) (djump Q f a b U) (coef Q (U h) p) i l Hf Hh NF Lh ltac:(lra) Hi Hl). apply rsum_ext. intros q Hq. rewrite disp_field.
      assert (JE : forall i l, (i < D)%nat -> djump Q f a b U q i l = disp_on Q f h (U h) q i * mesh_normal G elems f h l q).
      { intros i' l' Hi'. unfold djump. rewrite El in Hg, Hh. specialize (Tg i' q Hi' Hq). change (ep_n Q f) with (mesh_normal G elems f).
        destruct Hg as [<-|[<-|[]]]; destruct Hh as [<-|[<-|[]]]; try contradiction; rewrite Tg; ring. }
      rewrite !JE by auto. rewrite !disp_field. reflexivity.
Qed.
End Zero.
End Definite.
