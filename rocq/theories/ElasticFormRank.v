(** A rank's elasticity operator evaluates the global form on its part. *)
Require Import List Arith Lia Bool Reals Lra FunctionalExtensionality Permutation.
Require Import Verif.Base Verif.LinAlg Verif.SimplexModel Verif.SimplexProofs Verif.SimplexProps Verif.LocalMeshModel Verif.LocalMeshProofs Verif.LocalMeshProps
  Verif.TopoModel Verif.TopoSpec Verif.TopoProofs Verif.TopoProps
  Verif.AssembleModel Verif.AssembleSpec Verif.AssembleProofs Verif.AssembleProps Verif.MatFree Verif.PoissonModel Verif.SipSpec Verif.SipRank
  Verif.ElasticityModel Verif.ElasticitySpec Verif.ElasticityProofs Verif.ElasticFormSpec Verif.ElasticFormProofs.
Import ListNotations.
Local Open Scope R_scope.

Section Rank.
Variables (k procs : nat) (elems facets : list (list nat)) (bc : list nat -> nat) (m : nat -> topo_mesh).
Hypothesis MP : mesh_parts k procs elems facets bc m.
Variable Q : eproblem.
Hypothesis PO : eproblem_ok k elems facets Q.
Local Notation R_ := (ep_ref Q).

Lemma elocal_pos p i f e g l : (p < procs)%nat -> nth_error (tm_facets (m p)) i = Some f -> facet_at k (m p) e l i ->
  nth_error (tm_l2cg (m p)) e = Some g -> l = ep_loc Q f g.
Proof.
  intros Hp Ef Fa Eg. pose proof (mp_mesh _ _ _ _ _ _ MP p Hp) as O.
  destruct (facet_at_contains k (m p) O e l i Fa) as [(plex & f' & Ep & Ef' & I) _]. assert (f' = f) by congruence. subst f'.
  destruct (mp_elem _ _ _ _ _ _ MP p e g Hp Eg) as [_ Eq]. rewrite Ep in Eq.
  destruct (facet_at_downward k (m p) e l i f plex O Fa Ef Ep) as (ds & Eds & El & Nd).
  assert (Hf : In f facets).
  { apply (mp_facets_all _ _ _ _ _ _ MP). destruct (to_facets _ _ O) as [_ Sf]. destruct (Sf f) as [Lf Sf']; [eapply nth_error_In; eauto|].
    split; auto. split; auto. exists plex. split; auto. eapply nth_error_In; eauto. }
  destruct (eo_loc _ _ _ _ PO f g plex Hf Eq I) as (ds' & Eds' & El'). assert (ds' = ds) by congruence. subst ds'.
  apply (proj1 (NoDup_nth_error ds) Nd); [apply nth_error_Some; congruence | congruence].
Qed.

(** The pieces of a facet seen through its record. *)
Lemma efacet_pieces p E i f x : (p < procs)%nat -> erank_data k Q (m p) E -> (i < tm_num_local_facets (m p))%nat ->
  nth_error (tm_facets (m p)) i = Some f -> facet_record_ok k (m p) i x ->
  (forall s, let g := match s with O => fi_g0 x | _ => fi_g1 x end in
     lam_q E x s = lam_on Q f g /\ mu_q E x s = mu_on Q f g /\ Dx_side E i x s = Dxon Q f g /\ E_side (e_geo E) x s = Bon Q f g) /\
  p_n (e_geo E) i = ep_n Q f (fi_g0 x) /\ p_nl (e_geo E) i = ep_nl Q f /\ p_pen (e_geo E) i = ep_pen Q f /\
  (fi_up0 x <> fi_up1 x -> ep_n Q f (fi_g1 x) = fun j q => - ep_n Q f (fi_g0 x) j q) /\
  (fi_up0 x <> fi_up1 x -> ep_jump Q f (fi_g1 x) = fun j q => - ep_jump Q f (fi_g0 x) j q).
Proof.
  intros Hp RD Hi Ef R. destruct (er_facet _ _ _ _ RD i f x Hi Ef R) as (H1 & H2 & H3 & H4 & H5).
  pose proof (fr_g0 _ _ _ _ R) as G0. pose proof (fr_g1 _ _ _ _ R) as G1.
  destruct (er_elem _ _ _ _ RD _ _ G0) as (_ & _ & L0 & M0 & _). destruct (er_elem _ _ _ _ RD _ _ G1) as (_ & _ & L1 & M1 & _).
  pose proof (elocal_pos p i f _ _ _ Hp Ef (fr_local0 _ _ _ _ R) G0) as P0.
  pose proof (elocal_pos p i f _ _ _ Hp Ef (fr_local1 _ _ _ _ R) G1) as P1.
  split; [|split; [|split; [|split; [|split]]]]; auto.
  - intros [|s]; cbv zeta.
    + unfold lam_q, mu_q, lam_on, mu_on, Dx_side, Dxon, Dx_q, E_side, Bon. cbn [local_side up_side G_side].
      rewrite (er_N _ _ _ _ RD), (er_dim _ _ _ _ RD), (er_matE _ _ _ _ RD), (er_Dxi _ _ _ _ RD), (er_E _ _ _ _ RD), L0, M0, H4, P0. auto.
    + unfold lam_q, mu_q, lam_on, mu_on, Dx_side, Dxon, Dx_q, E_side, Bon. cbn [local_side up_side G_side].
      rewrite (er_N _ _ _ _ RD), (er_dim _ _ _ _ RD), (er_matE _ _ _ _ RD), (er_Dxi _ _ _ _ RD), (er_E _ _ _ _ RD), L1, M1, H5, P1. auto.
  - intros Nu. apply functional_extensionality. intro j. apply functional_extensionality. intro q.
    pose proof (facet_elements _ _ _ _ _ _ MP p i x f Hp Hi R Ef) as EL.
    destruct (Nat.eqb_spec (fi_up0 x) (fi_up1 x)); [congruence|].
    destruct (fi_g0 x <? fi_g1 x); pose proof (eo_n _ _ _ _ PO f _ _ j q (record_facet_in k procs elems facets bc m MP p i f x Hp Ef R) EL) as X; lra.
  - intros Nu. apply functional_extensionality. intro j. apply functional_extensionality. intro q.
    pose proof (facet_elements _ _ _ _ _ _ MP p i x f Hp Hi R Ef) as EL.
    destruct (Nat.eqb_spec (fi_up0 x) (fi_up1 x)); [congruence|].
    destruct (fi_g0 x <? fi_g1 x); pose proof (eo_jump _ _ _ _ PO f _ _ j q (record_facet_in k procs elems facets bc m MP p i f x Hp Ef R) EL) as X; lra.
Qed.

(** Index functions and the traction operator depend on the sizes only. *)
Lemma bf_same E : p_N (e_geo E) = p_N (e_geo R_) -> bf E = bf R_.
Proof. intro H. unfold bf. rewrite H. reflexivity. Qed.
Lemma cp_same E : p_N (e_geo E) = p_N (e_geo R_) -> cp E = cp R_.
Proof. intro H. unfold cp. rewrite H. reflexivity. Qed.
Lemma top_same E : p_dim (e_geo E) = p_dim (e_geo R_) -> traction_op E = traction_op R_.
Proof. intro H. unfold traction_op. rewrite H. reflexivity. Qed.
Lemma test_same E : p_dim (e_geo E) = p_dim (e_geo R_) -> traction_test E = traction_test R_.
Proof. intro H. unfold traction_test. rewrite H. reflexivity. Qed.

Lemma surface_form E c0 c1 c2 Ea Eb Ta Tb Lb K L : surface E c0 c1 c2 Ea Eb Ta Tb Lb K L =
  rsum (p_nq (e_geo E)) (fun q => p_w (e_geo E) q * (c0 * (Ea (bf E K) q * Tb (bf E L) (cp E L) (cp E K) q)
    + c1 * (Eb (bf E L) q * Ta (bf E K) (cp E K) (cp E L) q) + c2 * (Ea (bf E K) q * Lb (bf E L) (cp E K) (cp E L) q))).
Proof. unfold surface. cbv zeta. rewrite <- !rsum_plus. apply rsum_ext. intros. ring. Qed.

Lemma erank_evaluates p E : (p < procs)%nat -> erank_data k Q (m p) E -> p_method (e_geo E) = IP ->
  evaluates k (elastic_mat Q) (m p) (elasticity_mat E).
Proof.
  intros Hp RD Ip. pose proof (er_N _ _ _ _ RD) as HN. pose proof (er_dim _ _ _ _ RD) as HD. split.
  - intros e g He Eg. destruct (er_elem _ _ _ _ RD e g Eg) as (HJ & HG & HL & HM & _). split; [|reflexivity].
    cbn [a_volume elasticity_mat f_volume elastic_mat]. f_equal. apply functional_extensionality. intro a. apply functional_extensionality. intro b.
    unfold assemble_volume, Dx_Q, lam_W_J, mu_W_J. cbv zeta.
    rewrite (bf_same E HN), (cp_same E HN), HN, HD, (er_Nq _ _ _ _ RD), (er_W _ _ _ _ RD), (er_matEQ _ _ _ _ RD), (er_DxiQ _ _ _ _ RD), HJ, HG, HL, HM. reflexivity.
  - intros i f x Hi Ef R. destruct (efacet_pieces p E i f x Hp RD Hi Ef R) as (Hs & Hn & Hl & Hpen & Hopp & _).
    destruct (Hs 0%nat) as (L0 & M0 & D0 & B0). destruct (Hs 1%nat) as (L1 & M1 & D1 & B1). cbv zeta in L0, M0, D0, B0, L1, M1, D1, B1.
    split.
    + intro Nu. specialize (Hopp Nu). cbn [a_skeleton elasticity_mat f_skeleton elastic_mat]. f_equal. unfold assemble_skeleton, penalty, traction_op_side. rewrite Ip. cbv zeta.
      rewrite L0, M0, D0, B0, L1, M1, D1, B1, Hpen, Hn, (top_same E HD).
      f_equal; [f_equal; [f_equal|]|]; apply functional_extensionality; intro a; apply functional_extensionality; intro b; rewrite surface_form;
        unfold ediag_block, eoff_block, Ton, lift_ip; cbv zeta; rewrite Hl, (er_nq _ _ _ _ RD), (er_w _ _ _ _ RD), (bf_same E HN), (cp_same E HN), ?Hopp;
        apply rsum_ext; intros q _; unfold epsilon; rewrite ?top_opp; field.
    + intro Eu. cbn [a_boundary elasticity_mat f_boundary elastic_mat]. unfold assemble_boundary. destruct (fi_bc x =? BC_Natural); auto. f_equal.
      unfold penalty, traction_op_side. rewrite Ip, L0, M0, D0, B0, Hpen, Hn, (top_same E HD). cbv zeta.
      apply functional_extensionality; intro a; apply functional_extensionality; intro b; rewrite surface_form;
        unfold ediag_block, Ton, lift_ip; cbv zeta. rewrite Hl, (er_nq _ _ _ _ RD), (er_w _ _ _ _ RD), (bf_same E HN), (cp_same E HN).
      apply rsum_ext; intros q _; unfold epsilon. ring.
Qed.

Lemma test_opp n d lam mu Dx l s q : traction_test R_ (fun j q => - n j q) lam mu Dx (fun j q => - d j q) l s q = traction_test R_ n lam mu Dx d l s q.
Proof.
  unfold traction_test. f_equal; [apply rsum_ext; intros; ring|]. f_equal. f_equal; apply rsum_ext; intros; ring.
Qed.
Lemma ekernel_form E i c1 c2 lam mu Dx Eb f fl K : rhs_facet_kernel E i c1 c2 lam mu Dx Eb f fl K =
  rsum (p_nq (e_geo E)) (fun q => p_w (e_geo E) q * (c1 * traction_test E (p_n (e_geo E) i) lam mu Dx f (bf E K) (cp E K) q + c2 * (Eb (bf E K) q * fl (cp E K) q))).
Proof. unfold rhs_facet_kernel. rewrite <- rsum_plus. apply rsum_ext. intros. ring. Qed.

Lemma erank_evaluates_rhs p E : (p < procs)%nat -> erank_data k Q (m p) E -> p_method (e_geo E) = IP ->
  evaluates_rhs k (elastic_vec Q) (m p) (elasticity_vec E).
Proof.
  intros Hp RD Ip. pose proof (er_N _ _ _ _ RD) as HN. pose proof (er_dim _ _ _ _ RD) as HD. split.
  - intros e g He Eg. destruct (er_elem _ _ _ _ RD e g Eg) as (HJ & _). pose proof (er_force _ _ _ _ RD) as HF. split; [|reflexivity].
    cbn [r_volume elasticity_vec v_volume elastic_vec]. unfold rhs_volume.
    destruct (e_force R_) as [F|], (e_force E) as [F'|]; try contradiction; [|reflexivity]. f_equal.
    apply functional_extensionality. intro a.
    rewrite (bf_same E HN), (cp_same E HN), (er_Nq _ _ _ _ RD), (er_W _ _ _ _ RD), (er_EQ _ _ _ _ RD), HJ, (HF e g Eg). reflexivity.
  - intros i f x Hi Ef R. destruct (efacet_pieces p E i f x Hp RD Hi Ef R) as (Hs & Hn & Hl & Hpen & Hopp & Hj).
    destruct (Hs 0%nat) as (L0 & M0 & D0 & B0). destruct (Hs 1%nat) as (L1 & M1 & D1 & B1). cbv zeta in L0, M0, D0, B0, L1, M1, D1, B1.
    pose proof (er_slip _ _ _ _ RD) as Sl. pose proof (er_dir _ _ _ _ RD) as Di.
    split.
    + intro Nu. specialize (Hopp Nu). specialize (Hj Nu). cbn [r_skeleton elasticity_vec v_skeleton elastic_vec].
      assert (D : bc_skeleton E i (fi_bc x) = if ehas_data Q (fi_bc x) then Some (ep_jump Q f (fi_g0 x)) else None).
      { unfold bc_skeleton, ehas_data. destruct (Nat.eqb_spec (fi_bc x) BC_Fault) as [Eb|Nb].
        - rewrite Eb. change (BC_Fault =? BC_Dirichlet) with false. cbn [andb orb]. rewrite orb_false_r. destruct (e_slip E) as [s|]; [|rewrite Sl; reflexivity].
          destruct Sl as [-> S']. destruct (S' i f x Hi Ef R Eb) as [S1 _]. rewrite (S1 Nu). reflexivity.
        - destruct (Nat.eqb_spec (fi_bc x) BC_Dirichlet) as [Eb|Nb']; cbn [andb orb]; [|reflexivity].
          destruct (e_dir E) as [d|]; [|rewrite Di; reflexivity]. destruct Di as [-> S']. destruct (S' i f x Hi Ef R Eb) as [S1 _]. rewrite (S1 Nu). reflexivity. }
      unfold rhs_skeleton. rewrite D. destruct (ehas_data Q (fi_bc x)); [|reflexivity]. unfold penalty. rewrite Ip. cbv zeta. f_equal.
      rewrite L0, M0, D0, B0, L1, M1, D1, B1, Hpen.
      f_equal; apply functional_extensionality; intro a; rewrite ekernel_form; unfold eload_block, rhs_lift_ip;
        rewrite Hn, Hl, (er_nq _ _ _ _ RD), (er_w _ _ _ _ RD), (bf_same E HN), (cp_same E HN), (test_same E HD), ?Hopp, ?Hj; apply rsum_ext; intros q _; unfold epsilon; rewrite ?test_opp; field.
    + intro Eu. cbn [r_boundary elasticity_vec v_boundary elastic_vec].
      assert (D : bc_boundary E i (fi_bc x) = if ehas_data Q (fi_bc x) then Some (ep_value Q f) else None).
      { unfold bc_boundary, ehas_data. destruct (Nat.eqb_spec (fi_bc x) BC_Fault) as [Eb|Nb].
        - rewrite Eb. change (BC_Fault =? BC_Dirichlet) with false. cbn [andb orb]. rewrite orb_false_r. destruct (e_slip E) as [s|]; [|rewrite Sl; reflexivity].
          destruct Sl as [-> S']. destruct (S' i f x Hi Ef R Eb) as [_ S1]. f_equal. apply functional_extensionality. intro a. apply functional_extensionality. intro q. apply (S1 Eu).
        - destruct (Nat.eqb_spec (fi_bc x) BC_Dirichlet) as [Eb|Nb']; cbn [andb orb]; [|reflexivity].
          destruct (e_dir E) as [d|]; [|rewrite Di; reflexivity]. destruct Di as [-> S']. destruct (S' i f x Hi Ef R Eb) as [_ S1]. rewrite (S1 Eu). reflexivity. }
      unfold rhs_boundary. rewrite D. destruct (ehas_data Q (fi_bc x)); [|reflexivity]. unfold penalty. rewrite Ip. f_equal.
      rewrite L0, M0, D0, B0, Hpen. apply functional_extensionality; intro a; rewrite ekernel_form; unfold eload_block, rhs_lift_ip.
      rewrite Hn, Hl, (er_nq _ _ _ _ RD), (er_w _ _ _ _ RD), (bf_same E HN), (cp_same E HN), (test_same E HD); apply rsum_ext; intros q _; unfold epsilon. ring.
Qed.
End Rank.
