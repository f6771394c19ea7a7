(** The form of Bassi and Rebay vanishes only for zero, if the elements are anchored (C89). *)
Require Import List Arith Lia Bool Reals Lra Psatz Classical.
Require Import Verif.Base Verif.LinAlg Verif.SimplexModel Verif.LocalMeshModel Verif.LocalMeshProps Verif.TopoModel Verif.TopoSpec Verif.TopoProofs Verif.TopoProps
  Verif.AssembleModel Verif.AssembleSpec Verif.AssembleProofs Verif.AssembleProps Verif.MatFree Verif.PoissonModel Verif.PoissonProofs Verif.PenaltyModel
  Verif.SipSpec Verif.SipProofs Verif.CoerciveProps
  Verif.GeometryModel Verif.GeometryProofs Verif.GeometrySpec Verif.GeometryProps Verif.GeometryStraight Verif.MeshSpec Verif.MeshProofs Verif.MeshPoissonProps
  Verif.BasisSpec Verif.IntegralSpec Verif.QuadratureProps Verif.DubinerProofs Verif.NodesConform Verif.DegreeSpec Verif.DegreeProofs Verif.DegreeProps Verif.DivergenceProofs
  Verif.ErrorExactProps Verif.ConsistencySpec Verif.ConsistencyProofs Verif.ConsistencyProps Verif.DefiniteSpec Verif.DefiniteProofs Verif.DefiniteForm Verif.DefiniteMesh Verif.DefiniteProps
  Verif.Br2Spec Verif.Br2Proofs Verif.Br2Positive.
Import ListNotations.
Local Open Scope R_scope.

(** Where the estimate for a facet is attained, the lifting is a multiple of the gradient. *)
Lemma attained (Q : problem) elems jac g (r d : nat -> nat -> R) : let P := pb_ref Q in let D := INR (p_dim P + 1) in
  constant_jacobian Q elems jac -> (forall q, (q < p_Nq P)%nat -> 0 <= p_W P q) -> (g < length elems)%nat ->
  ip Q g d d / D + (- 2 * ip Q g r d + D * ip Q g r r) = 0 ->
  forall i q, (i < p_dim P)%nat -> (q < p_Nq P)%nat -> p_W P q * value Q g (d i) q = D * (p_W P q * value Q g (r i) q).
Proof.
  intros P D CJ Wp Hg Z i q Hi Hq. assert (Dp : 0 < D) by (apply lt_0_INR; lia). destruct (CJ g Hg) as [J0 J]. fold P in J.
  assert (S : rsum (p_Nq P) (fun q => p_W P q * p_J P g q * rsum (p_dim P) (fun i => D * ((value Q g (r i) q - / D * value Q g (d i) q) * (value Q g (r i) q - / D * value Q g (d i) q)))) = 0).
  { rewrite <- Z. unfold ip. unfold Rdiv. rewrite <- rsum_scale_r, <- !rsum_scale, <- !rsum_plus. apply rsum_ext. intros q' Hq'. fold P.
    rewrite (rsum_ext (p_dim P) (fun i => D * _) (fun i => / D * (value Q g (d i) q' * value Q g (d i) q') + (- 2 * (value Q g (r i) q' * value Q g (d i) q') + D * (value Q g (r i) q' * value Q g (r i) q')))) by (intros; field; lra).
    rewrite !rsum_plus, !rsum_scale. ring. }
  assert (T : forall q, (q < p_Nq P)%nat -> forall i, (i < p_dim P)%nat -> 0 <= D * ((value Q g (r i) q - / D * value Q g (d i) q) * (value Q g (r i) q - / D * value Q g (d i) q))).
  { intros. apply Rmult_le_pos; [lra|apply Rle_0_sqr]. }
  assert (WJ : forall q, (q < p_Nq P)%nat -> 0 <= p_W P q * p_J P g q) by (intros q' Hq'; rewrite (J q' Hq'); pose proof (Wp q' Hq'); nra).
  pose proof (rsum_nonneg_zero _ _ (fun q Hq => Rmult_le_pos (p_W P q * p_J P g q) _ (WJ q Hq) (rsum_nonneg _ _ (T q Hq))) S q Hq) as S1. cbv beta in S1.
  rewrite (J q Hq) in S1. apply Rmult_integral in S1 as [S1|S1].
  - apply Rmult_integral in S1 as [S1|S1]; [fold P in S1; rewrite S1; ring|lra].
  - pose proof (rsum_nonneg_zero _ _ (T q Hq) S1 i Hi) as S2. cbv beta in S2. apply Rmult_integral in S2 as [S2|S2]; [lra|].
    apply Rmult_integral in S2. assert (E : value Q g (d i) q = D * value Q g (r i) q) by (apply (Rmult_eq_reg_l (/ D)); [rewrite <- Rmult_assoc, Rinv_l, Rmult_1_l by lra; lra|apply Rinv_neq_0_compat; lra]).
    rewrite E. ring.
Qed.

Section Definite.
Variables (G : geo_setup) (procs : nat) (elems facets : list (list nat)) (bc : list nat -> nat) (m : nat -> topo_mesh).
Local Notation D := (gs_D G).
Hypothesis ST : straight G.
Hypothesis MP : mesh_parts D procs elems facets bc m.
Hypothesis VG : valid_geometry G elems facets.
Variables (k : nat) (phi : nat -> (nat -> R) -> R) (R_ : pdata).
Hypothesis Hk : (1 <= k)%nat.
Hypothesis RD : reference_of_degree D k (gs_xi G) (gs_chi G) phi R_.
Hypothesis SP : forall f, polynomial D k f -> exists c, forall x, f x = rsum (p_N R_) (fun l => c l * phi l x).
Variable kap : nat -> R.
Local Notation Q := (mesh_problem G elems R_ k).
Hypothesis Kp : forall g, (g < length elems)%nat -> 0 < kap g.
Hypothesis Kv : forall g q, (g < length elems)%nat -> (q < p_Nq R_)%nat -> kappa Q g q = kap g.
Hypothesis Kf : forall f g q, In f facets -> In g (elements_of elems f) -> (q < p_nq R_)%nat -> kappa_on Q f g q = kap g.
Local Notation Xi q := (gs_xi G q). Local Notation Fp s q := (facet_param D (ref_facet D s) (gs_chi G q)).
Let HD := dims G elems facets VG.
Let Hd := rd_dim _ _ _ _ _ _ RD.
Lemma CJ : constant_jacobian Q elems (volume_element G elems).
Proof.
  intros g Hg. split; [apply (element_pos G procs elems facets bc m ST MP VG k _ R_ RD g Hg)|]. intros q _. apply (const_J G elems facets ST VG).
Qed.
Lemma Wp q : (q < p_Nq R_)%nat -> 0 <= p_W R_ q.
Proof. apply (rd_W _ _ _ _ _ _ RD). Qed.
Lemma value_fem g u q : (q < p_Nq R_)%nat -> value Q g u q = fem phi R_ u (Xi q).
Proof. intro Hq. unfold value, fem. cbn [pb_ref mesh_problem with_geometry p_N p_EQ]. apply rsum_ext. intros l Hl. rewrite (rd_EQ _ _ _ _ _ _ RD) by auto. ring. Qed.

Section Zero.
Variables (U : nat -> nat -> R) (r : list nat -> nat -> nat -> nat -> R) (d : nat -> nat -> nat -> R).
Hypothesis LU : lifts_jump Q elems facets U r.
Hypothesis HG : has_gradient Q elems facets U d.
Hypothesis Z : br2_form Q elems facets bc r U U = 0.
Definition natural (f : list nat) : Prop := (exists g, elements_of elems f = [g]) /\ bc f = BC_Natural.
(** Nothing is lost in the estimates. *)
Lemma tight f g i q : In f facets -> In g (elements_of elems f) -> (i < D)%nat -> (q < p_Nq R_)%nat ->
  (natural f /\ p_W R_ q * value Q g (d g i) q = 0) \/ (~ natural f /\ p_W R_ q * value Q g (d g i) q = INR (D + 1) * (p_W R_ q * value Q g (r f g i) q)).
Proof.
  intros Hf Hg Hi Hq. assert (Dp : 0 < INR (D + 1)) by (apply lt_0_INR; lia).
  assert (Kp' : forall g, (g < length elems)%nat -> 0 <= kap g) by (intros; apply Rlt_le; auto).
  set (E g := vol_term Q g U U / INR (p_dim (pb_ref Q) + 1)). set (slack f := br2_facet Q elems bc f (r f) U U + lsum E (elements_of elems f)).
  assert (S0 : forall f, In f facets -> 0 <= slack f).
  { intros f' Hf'. pose proof (facet_bound Q elems facets bc _ kap CJ Wp Kp' Kv Kf U r d f' Hf' LU HG (facet_one_or_two _ _ _ _ _ _ MP f' Hf')). fold E in H. unfold slack. lra. }
  assert (SZ : lsum slack facets = 0).
  { unfold slack. rewrite lsum_plus, <- (COUNT G procs elems facets bc m MP k phi R_ RD E). rewrite <- Z. unfold br2_form. rewrite Rplus_comm. f_equal. apply lsum_ext. intros g' _. unfold E.
    change (p_dim (pb_ref Q)) with (p_dim R_). rewrite Hd. field. lra. }
  pose proof (lsum_nonneg_zero slack facets S0 SZ f Hf) as Sf. unfold slack, E in Sf. change (p_dim (pb_ref Q)) with (p_dim R_) in Sf. rewrite Hd in Sf.
  assert (VE : forall g, (g < length elems)%nat -> vol_term Q g U U = kap g * ip Q g (d g) (d g)) by (intros; apply (vol_ip Q elems facets kap Kv U U d d); auto).
  pose proof (LU f Hf) as [L1 L2].
  assert (AT : forall h t, (h < length elems)%nat -> kap h * ip Q h (d h) (d h) / INR (D + 1) + kap h * (- ip Q h t (d h) - ip Q h t (d h) + INR (D + 1) * ip Q h t t) = 0 ->
     p_W R_ q * value Q h (d h i) q = INR (D + 1) * (p_W R_ q * value Q h (t i) q)).
  { intros h t Hh Ze. pose proof (attained Q elems _ h t (d h) CJ Wp Hh) as A. cbv zeta in A. change (p_dim (pb_ref Q)) with (p_dim R_) in A. rewrite Hd in A. apply A; auto.
    apply (Rmult_eq_reg_l (kap h)); [|pose proof (Kp h Hh); lra]. rewrite Rmult_0_r, <- Ze. field. lra. }
  assert (LB : forall h t, (h < length elems)%nat -> 0 <= kap h * ip Q h (d h) (d h) / INR (D + 1) + kap h * (- ip Q h t (d h) - ip Q h t (d h) + INR (D + 1) * ip Q h t t)).
  { intros h t Hh. pose proof (ip_bound Q elems _ CJ Wp h t (d h) Hh) as B. change (p_dim (pb_ref Q)) with (p_dim R_) in B. rewrite Hd in B.
    replace (kap h * ip Q h (d h) (d h) / INR (D + 1) + kap h * (- ip Q h t (d h) - ip Q h t (d h) + INR (D + 1) * ip Q h t t)) with (kap h * (ip Q h (d h) (d h) / INR (D + 1) + (- 2 * ip Q h t (d h) + INR (D + 1) * ip Q h t t))) by (field; lra).
    apply Rmult_le_pos; [apply Kp'; exact Hh|lra]. }
  destruct (facet_one_or_two _ _ _ _ _ _ MP f Hf) as (a & b & El).
  pose proof (in_elems elems f) as IE. unfold br2_facet in Sf. destruct El as [El|El]; rewrite El in *; cbn [lsum] in Sf.
  - destruct Hg as [<-|[]]. pose proof (IE a (or_introl eq_refl)) as Ha. rewrite (VE a Ha) in Sf. destruct (Nat.eqb_spec (bc f) BC_Natural) as [En|En].
    + left. split; [split; [exists a; exact El|exact En]|].
      assert (Z0 : kap a * ip Q a (d a) (d a) / INR (D + 1) = 0) by lra. assert (Z1 : ip Q a (d a) (d a) = 0).
      { apply (Rmult_eq_reg_l (kap a)); [|pose proof (Kp a Ha); lra]. apply (Rmult_eq_reg_r (/ INR (D + 1))); [unfold Rdiv in Z0; lra|apply Rinv_neq_0_compat; lra]. }
      rewrite (AT a (fun _ _ => 0) Ha).
      * unfold value. rewrite rsum_zero by (intros; ring). ring.
      * rewrite Z1. assert (V0 : forall x, ip Q a (fun _ _ => 0) x = 0) by (intro x; apply rsum_zero; intros; rewrite rsum_zero; [ring|]; intros; unfold value at 1; rewrite rsum_zero by (intros; ring); ring). rewrite !V0. field. lra.
    + right. split; [intros [_ N]; contradiction|]. apply (AT a (r f a) Ha). pose proof (bnd_ip Q elems facets kap Kf f a U U (r f) (r f) d d Hf El HG HG (L1 a eq_refl) (L1 a eq_refl)) as B.
      change (p_dim (pb_ref Q)) with (p_dim R_) in B. rewrite Hd in B. rewrite B in Sf. lra.
  - right. split; [intros [[x Ex] _]; rewrite El in Ex; discriminate Ex|].
    pose proof (IE a (or_introl eq_refl)) as Ha. pose proof (IE b (or_intror (or_introl eq_refl))) as Hb. rewrite (VE a Ha), (VE b Hb) in Sf. destruct (L2 a b eq_refl) as [La Lb].
    pose proof (int_ip Q elems facets kap Kf f a b U U (r f) (r f) d d Hf El HG HG La Lb La Lb) as B. change (p_dim (pb_ref Q)) with (p_dim R_) in B. rewrite Hd in B. rewrite B in Sf.
    pose proof (LB a (r f a) Ha) as Ba. pose proof (LB b (r f b) Hb) as Bb.
    destruct Hg as [<-|[<-|[]]]; [apply (AT a (r f a) Ha)|apply (AT b (r f b) Hb)]; lra.
Qed.
Lemma lift_of f g : In f facets -> In g (elements_of elems f) -> exists c j, is_lifting Q f g c j (r f g).
Proof.
  intros Hf Hg. destruct (LU f Hf) as [L1 L2]. destruct (facet_one_or_two _ _ _ _ _ _ MP f Hf) as (a & b & [El|El]); rewrite El in *.
  - destruct Hg as [<-|[]]. eexists _, _. apply (L1 a eq_refl).
  - destruct (L2 a b eq_refl). destruct Hg as [<-|[<-|[]]]; eexists _, _; eassumption.
Qed.
(** The gradient is orthogonal to the functions that vanish on a facet. *)
Lemma gradient_orthogonal f g i v : In f facets -> In g (elements_of elems f) -> (i < D)%nat -> (forall q, (q < p_nq R_)%nat -> trace Q f g v q = 0) ->
  rsum (p_Nq R_) (fun q => p_W R_ q * value Q g (d g i) q * value Q g v q) = 0.
Proof.
  intros Hf Hg Hi Tv. pose proof (in_elems elems f g Hg) as Hl. destruct (classic (natural f)) as [N|N].
  - apply rsum_zero. intros q Hq. destruct (tight f g i q Hf Hg Hi Hq) as [[_ E]|[C _]]; [rewrite E; ring|contradiction].
  - destruct (lift_of f g Hf Hg) as (c & j & L). pose proof (lift_test Q f g c j (r f g) v i) as T. change (p_dim (pb_ref Q)) with (p_dim R_) in T. rewrite Hd in T. specialize (T Hi L).
    rewrite (rsum_zero (p_nq (pb_ref Q))) in T by (intros q Hq; rewrite Tv by exact Hq; ring). rewrite Rmult_0_r in T.
    destruct (CJ g Hl) as [J0 J].
    rewrite (rsum_ext (p_Nq (pb_ref Q)) _ (fun q => volume_element G elems g * (p_W R_ q * value Q g (r f g i) q * value Q g v q))) in T by (intros q Hq; rewrite (J q Hq); change (p_W (pb_ref Q)) with (p_W R_); ring).
    rewrite rsum_scale in T. apply Rmult_integral in T as [T|T]; [lra|].
    rewrite (rsum_ext _ _ (fun q => INR (D + 1) * (p_W R_ q * value Q g (r f g i) q * value Q g v q))).
    + rewrite rsum_scale. change (p_Nq R_) with (p_Nq (pb_ref Q)). rewrite T. ring.
    + intros q Hq. destruct (tight f g i q Hf Hg Hi Hq) as [[C _]|[_ E]]; [contradiction|]. rewrite E. ring.
Qed.
Lemma gradient_zero g : (g < length elems)%nat -> exists du, (forall e x, (e < D)%nat -> partial_derivative (fem phi R_ (U g)) e x (du e x)) /\
  (forall e x, (e < D)%nat -> du e x = 0) /\ (forall i q, (i < D)%nat -> (q < p_Nq R_)%nat -> value Q g (d g i) q = 0).
Proof.
  intro Hg. destruct (grad_is G procs elems facets bc m ST MP VG k phi R_ RD g (U g)) as (du & dx & H1 & H2 & H3 & H4 & _).
  assert (VD : forall i q, (i < D)%nat -> (q < p_Nq R_)%nat -> value Q g (d g i) q = dx i (Xi q)).
  { intros i q Hi Hq. rewrite <- H4 by auto. apply (proj1 (HG g Hg) i q); [|exact Hq]. change (p_dim (pb_ref Q)) with (p_dim R_). rewrite Hd. exact Hi. }
  assert (DX : forall i x, (i < D)%nat -> dx i x = 0).
  { intros i x Hi. apply (over_zero D k _ _ phi R_ HD RD (k - 1) (dx i)); [lia|apply H3; exact Hi|]. unfold over.
    transitivity (rsum (D + 1) (fun s => rsum (p_Nq R_) (fun q => p_W R_ q * (dx i (Xi q) * (bary D s (Xi q) * dx i (Xi q)))))).
    - rewrite rsum_swap. apply rsum_ext. intros q _. rewrite (rsum_ext (D + 1) _ (fun s => p_W R_ q * (dx i (Xi q) * dx i (Xi q)) * bary D s (Xi q))) by (intros; ring). rewrite rsum_scale, bary_one by exact HD. ring.
    - apply rsum_zero. intros s Hs. destruct (side_facet D procs elems facets bc m g s MP Hg Hs) as (f & Hf & Hgf & Es).
      destruct (SP (fun x => bary D s x * dx i x)) as (v & Hv).
      { apply (poly_le D (1 + (k - 1))); [lia|]. apply poly_mult; [apply bary_poly; lia|apply H3; exact Hi]. }
      rewrite <- (gradient_orthogonal f g i v Hf Hgf Hi).
      + apply rsum_ext. intros q Hq. rewrite (value_fem g v q Hq). unfold fem. rewrite <- (Hv (Xi q)), VD by auto. ring.
      + intros q Hq. rewrite (trace_fem G procs elems facets bc m MP VG k phi R_ RD f g v q Hf Hgf Hq). unfold fem. rewrite <- Hv, Es, bary_facet by auto. ring. }
  exists du. split; [intros e x He; apply (H1 e He)|]. split.
  - intros e x He. apply (parallel_zero G procs elems facets bc m ST MP VG k phi R_ Hk RD g (fun e => du e x) 0 0 Hg); auto; intros i Hi; rewrite Rmult_0_l, <- H2; apply DX; exact Hi.
  - intros i q Hi Hq. rewrite VD by auto. apply DX; exact Hi.
Qed.
Lemma constant_fem g x y : (g < length elems)%nat -> fem phi R_ (U g) x = fem phi R_ (U g) y.
Proof.
  intro Hg. destruct (gradient_zero g Hg) as (du & H1 & H2 & _). apply (partials_zero D k (fem phi R_ (U g)) HD (fem_poly G k phi R_ RD (U g))).
  intros e z He. rewrite <- (H2 e z He). apply H1. exact He.
Qed.
(** So the integrals of the jumps vanish. *)
Lemma jump_integral f g c j i : In f facets -> In g (elements_of elems f) -> ~ natural f -> is_lifting Q f g c j (r f g) -> c <> 0 -> (i < D)%nat ->
  rsum (p_nq R_) (fun q => p_w R_ q * j i q) = 0.
Proof.
  intros Hf Hg Nn L C0 Hi. pose proof (in_elems elems f g Hg) as Hl. destruct (SP (fun _ => 1)) as (v & Hv); [apply poly_const|]. destruct (gradient_zero g Hl) as (_ & _ & _ & DZ).
  assert (Dp : 0 < INR (D + 1)) by (apply lt_0_INR; lia).
  pose proof (lift_test Q f g c j (r f g) v i) as T. change (p_dim (pb_ref Q)) with (p_dim R_) in T. rewrite Hd in T. specialize (T Hi L).
  rewrite rsum_zero in T.
  - symmetry in T. apply Rmult_integral in T as [T|T]; [contradiction|]. rewrite <- T. apply rsum_ext. intros q Hq. change (p_w (pb_ref Q)) with (p_w R_).
    rewrite (trace_fem G procs elems facets bc m MP VG k phi R_ RD f g v q Hf Hg Hq). unfold fem. rewrite <- Hv. ring.
  - intros q Hq. destruct (tight f g i q Hf Hg Hi Hq) as [[C _]|[_ E]]; [contradiction|]. rewrite (DZ i q Hi Hq), Rmult_0_r in E.
    assert (E' : p_W R_ q * value Q g (r f g i) q = 0) by (apply (Rmult_eq_reg_l (INR (D + 1))); lra). change (p_W (pb_ref Q)) with (p_W R_).
    transitivity (p_J (pb_ref Q) g q * (p_W R_ q * value Q g (r f g i) q) * value Q g v q); [ring|]. rewrite E'. ring.
Qed.
Lemma no_jump f g c j a : In f facets -> In g (elements_of elems f) -> ~ natural f -> is_lifting Q f g c j (r f g) -> c <> 0 ->
  (forall i q, (i < D)%nat -> (q < p_nq R_)%nat -> j i q = a * mesh_normal G elems f g i q) -> a = 0.
Proof.
  intros Hf Hg Nn L C0 Ja. destruct (rd_w _ _ _ _ _ _ RD) as (W0 & q0 & Hq0 & Wq0).
  assert (S : rsum D (fun i => side_normal G elems g (facet_number D elems f g) i * rsum (p_nq R_) (fun q => p_w R_ q * j i q)) = 0).
  { apply rsum_zero. intros i Hi. rewrite (jump_integral f g c j i Hf Hg Nn L C0 Hi). ring. }
  set (n := side_normal G elems g (facet_number D elems f g)) in *.
  assert (NE : forall i q, (i < D)%nat -> mesh_normal G elems f g i q = n i) by (intros i q Hi; apply (mesh_side_normal G elems facets ST VG f g i q Hi)).
  rewrite (rsum_ext D _ (fun i => (a * rsum (p_nq R_) (p_w R_)) * (n i * n i))) in S.
  2: { intros i Hi. rewrite (rsum_ext (p_nq R_) _ (fun q => (a * n i) * p_w R_ q)) by (intros q Hq; rewrite Ja, NE by auto; ring). rewrite rsum_scale. ring. }
  rewrite rsum_scale in S.
  assert (Sw : 0 < rsum (p_nq R_) (p_w R_)).
  { destruct (Rle_lt_or_eq_dec _ _ (rsum_nonneg _ _ W0)) as [H|H]; [exact H|]. symmetry in H. pose proof (rsum_nonneg_zero _ _ W0 H q0 Hq0). lra. }
  assert (Sn : 0 < rsum D (fun i => n i * n i)).
  { destruct (mesh_good G procs elems facets bc m MP VG R_ Hd) as (_ & _ & _ & LEN).
    pose proof (length_pos G procs elems facets bc m MP VG k phi R_ RD f q0 Hf) as Lp. pose proof (LEN f g q0 Hf Hg) as N2.
    rewrite (rsum_ext D _ (fun i => mesh_normal G elems f g i q0 * mesh_normal G elems f g i q0)) by (intros i Hi; rewrite NE by auto; reflexivity). rewrite N2. nra. }
  apply Rmult_integral in S as [S|S]; [|lra]. apply Rmult_integral in S as [S|S]; [exact S|lra].
Qed.
Lemma br2_zero_anchored g : anchored elems facets bc g -> forall x, fem phi R_ (U g) x = 0.
Proof.
  intro Ag. induction Ag as [f g Hf El Nn | f g h Hf Hg Hh Ag IH]; intro x.
  - assert (Hg : In g (elements_of elems f)) by (rewrite El; cbn; auto). pose proof (in_elems elems f g Hg) as Hl.
    apply (no_jump f g 1 (bjump Q f g U) _ Hf Hg); [intros [_ E]; contradiction|apply (proj1 (LU f Hf) g El)|lra|].
    intros i q Hi Hq. unfold bjump. rewrite (trace_fem G procs elems facets bc m MP VG k phi R_ RD f g (U g) q Hf Hg Hq), (constant_fem g _ x Hl). reflexivity.
  - destruct (Nat.eq_dec g h) as [->|Ne]; [apply IH|].
    destruct (facet_one_or_two _ _ _ _ _ _ MP f Hf) as (a & b & [El|El]).
    + rewrite El in *. destruct Hg as [<-|[]]. destruct Hh as [<-|[]]. contradiction.
    + destruct (proj2 (LU f Hf) a b El) as [La _]. assert (Ia : In a (elements_of elems f)) by (rewrite El; cbn; auto). assert (Ib : In b (elements_of elems f)) by (rewrite El; cbn; auto).
      pose proof (in_elems elems f a Ia) as Ha. pose proof (in_elems elems f b Ib) as Hb. destruct (mesh_good G procs elems facets bc m MP VG R_ Hd) as (NN & _).
      assert (J : fem phi R_ (U a) x - fem phi R_ (U b) x = 0).
      { apply (no_jump f a (1 / 2) (jump Q f a b U) _ Hf Ia); [intros [[y Ey] _]; rewrite El in Ey; discriminate Ey|exact La|lra|].
        intros i q Hi Hq. unfold jump. rewrite !(trace_fem G procs elems facets bc m MP VG k phi R_ RD f) by auto. rewrite (constant_fem a _ x Ha), (constant_fem b _ x Hb).
        change (pb_n Q f b i q) with (mesh_normal G elems f b i q). change (pb_n Q f a i q) with (mesh_normal G elems f a i q). rewrite (NN f a b i q Hf El). ring. }
      rewrite El in Hg, Hh. specialize (IH x). destruct Hg as [<-|[<-|[]]]; destruct Hh as [<-|[<-|[]]]; try contradiction; lra.
Qed.
End Zero.
End Definite.
