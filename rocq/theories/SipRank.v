(** A rank's operator evaluates the global form on its part. *)
Require Import List Arith Lia Bool Reals Lra FunctionalExtensionality Permutation.
Require Import Verif.Base Verif.LinAlg Verif.SimplexModel Verif.SimplexProofs Verif.SimplexProps Verif.LocalMeshModel Verif.LocalMeshProofs Verif.LocalMeshProps
  Verif.TopoModel Verif.TopoSpec Verif.TopoProofs Verif.TopoProps
  Verif.AssembleModel Verif.AssembleSpec Verif.AssembleProofs Verif.AssembleProps Verif.MatFree Verif.PoissonModel Verif.PoissonProofs Verif.SipSpec Verif.SipProofs.
Import ListNotations.
Local Open Scope R_scope.

(** The local number in a facet record is the position in downward(). *)
Lemma facet_at_downward k m e l i f plex : topo_ok k m -> facet_at k m e l i -> nth_error (tm_facets m) i = Some f ->
  nth_error (tm_elems m) e = Some plex -> exists ds, downward k plex = Some ds /\ nth_error ds l = Some f /\ NoDup ds.
Proof.
  intros O (plex' & d & Ep & Ed & El) Ef Ep'. assert (plex' = plex) by congruence. subst plex'.
  destruct (to_elems _ _ O) as [_ Se]. destruct (to_facets _ _ O) as [Nf Sf].
  destruct (Se plex) as [Lp Sp]; [eapply nth_error_In; eauto|].
  destruct (downward_spec k plex ltac:(lia) Sp) as (ds & Eds & Ids & Nds & _).
  assert (Inc : incl ds (tm_facets m)).
  { intros x Hx. apply Ids in Hx. destruct Hx as (A & C & D). eapply (to_all _ _ O); eauto. eapply nth_error_In; eauto. }
  destruct (lids_of_spec (tm_facets m) ds Nf Inc) as (d' & Ed' & Ld & Hd).
  unfold mesh_downward in Ed. rewrite Eds in Ed. cbn [bind] in Ed. assert (d' = d) by congruence. subst d'.
  exists ds. split; auto. split; auto.
  assert (Hl : (l < length ds)%nat) by (rewrite <- Ld; apply nth_error_Some; congruence).
  destruct (nth_error_lt ds l Hl) as [y Ey]. destruct (Hd l y Ey) as (j & Ej & Fj). congruence.
Qed.

Section Rank.
Variables (k procs : nat) (elems facets : list (list nat)) (bc : list nat -> nat) (m : nat -> topo_mesh).
Hypothesis MP : mesh_parts k procs elems facets bc m.
Variable Q : problem.
Hypothesis PO : problem_ok k elems facets Q.
Local Notation R_ := (pb_ref Q).

Lemma local_pos p i f e g l : (p < procs)%nat -> nth_error (tm_facets (m p)) i = Some f -> facet_at k (m p) e l i ->
  nth_error (tm_l2cg (m p)) e = Some g -> l = pb_loc Q f g.
Proof.
  intros Hp Ef Fa Eg. pose proof (mp_mesh _ _ _ _ _ _ MP p Hp) as O.
  destruct (facet_at_contains k (m p) O e l i Fa) as [(plex & f' & Ep & Ef' & I) _]. assert (f' = f) by congruence. subst f'.
  destruct (mp_elem _ _ _ _ _ _ MP p e g Hp Eg) as [_ Eq]. rewrite Ep in Eq.
  destruct (facet_at_downward k (m p) e l i f plex O Fa Ef Ep) as (ds & Eds & El & Nd).
  assert (Hf : In f facets).
  { apply (mp_facets_all _ _ _ _ _ _ MP). destruct (to_facets _ _ O) as [_ Sf]. destruct (Sf f) as [Lf Sf']; [eapply nth_error_In; eauto|].
    split; auto. split; auto. exists plex. split; auto. eapply nth_error_In; eauto. }
  destruct (po_loc _ _ _ _ PO f g plex Hf Eq I) as (ds' & Eds' & El'). assert (ds' = ds) by congruence. subst ds'.
  apply (proj1 (NoDup_nth_error ds) Nd); [apply nth_error_Some; congruence | congruence].
Qed.

Lemma record_facet_in p i f x : (p < procs)%nat -> nth_error (tm_facets (m p)) i = Some f -> facet_record_ok k (m p) i x -> In f facets.
Proof.
  intros Hp Ef R. pose proof (mp_mesh _ _ _ _ _ _ MP p Hp) as O.
  destruct (facet_at_contains k (m p) O _ _ i (fr_local0 _ _ _ _ R)) as [(plex & f' & Ep & Ef' & I) _]. assert (f' = f) by congruence. subst f'.
  destruct (mp_elem _ _ _ _ _ _ MP p _ _ Hp (fr_g0 _ _ _ _ R)) as [_ Eq]. rewrite Ep in Eq.
  apply (mp_facets_all _ _ _ _ _ _ MP). destruct (to_facets _ _ O) as [_ Sf]. destruct (Sf f) as [Lf Sf']; [eapply nth_error_In; eauto|].
  split; auto. split; auto. exists plex. split; auto. eapply nth_error_In; eauto.
Qed.
(** The pieces of a facet seen through its record. *)
Lemma facet_pieces p P i f x : (p < procs)%nat -> rank_data k Q (m p) P -> (i < tm_num_local_facets (m p))%nat ->
  nth_error (tm_facets (m p)) i = Some f -> facet_record_ok k (m p) i x ->
  compute_K_Dx P i x 0 = KD Q f (fi_g0 x) /\ compute_K_Dx P i x 1 = KD Q f (fi_g1 x) /\
  E_side P x 0 = Eon Q f (fi_g0 x) /\ E_side P x 1 = Eon Q f (fi_g1 x) /\
  p_n P i = pb_n Q f (fi_g0 x) /\ p_nl P i = pb_nl Q f /\ p_pen P i = pb_pen Q f /\
  (fi_up0 x <> fi_up1 x -> forall j q, pb_n Q f (fi_g1 x) j q = - pb_n Q f (fi_g0 x) j q) /\
  (fi_up0 x <> fi_up1 x -> forall q, pb_jump Q f (fi_g1 x) q = - pb_jump Q f (fi_g0 x) q).
Proof.
  intros Hp RD Hi Ef R. destruct (rd_facet _ _ _ _ RD i f x Hi Ef R) as (H1 & H2 & H3 & H4 & H5).
  pose proof (fr_g0 _ _ _ _ R) as G0. pose proof (fr_g1 _ _ _ _ R) as G1.
  destruct (rd_elem _ _ _ _ RD _ _ G0) as (_ & _ & K0 & _). destruct (rd_elem _ _ _ _ RD _ _ G1) as (_ & _ & K1 & _).
  pose proof (local_pos p i f _ _ _ Hp Ef (fr_local0 _ _ _ _ R) G0) as L0.
  pose proof (local_pos p i f _ _ _ Hp Ef (fr_local1 _ _ _ _ R) G1) as L1.
  split; [|split; [|split; [|split; [|split; [|split; [|split; [|split]]]]]]]; auto.
  - unfold compute_K_Dx, KD, K_Dx. rewrite (rd_N _ _ _ _ RD), (rd_dim _ _ _ _ RD), (rd_matE _ _ _ _ RD), (rd_Dxi _ _ _ _ RD), K0, H4, L0. reflexivity.
  - unfold compute_K_Dx, KD, K_Dx. rewrite (rd_N _ _ _ _ RD), (rd_dim _ _ _ _ RD), (rd_matE _ _ _ _ RD), (rd_Dxi _ _ _ _ RD), K1, H5, L1. reflexivity.
  - unfold E_side, Eon. rewrite (rd_E _ _ _ _ RD), L0. reflexivity.
  - unfold E_side, Eon. rewrite (rd_E _ _ _ _ RD), L1. reflexivity.
  - intros Nu j q. pose proof (facet_elements _ _ _ _ _ _ MP p i x f Hp Hi R Ef) as EL.
    destruct (Nat.eqb_spec (fi_up0 x) (fi_up1 x)); [congruence|].
    destruct (fi_g0 x <? fi_g1 x); pose proof (po_n _ _ _ _ PO f _ _ j q (record_facet_in p i f x Hp Ef R) EL) as E; lra.
  - intros Nu q. pose proof (facet_elements _ _ _ _ _ _ MP p i x f Hp Hi R Ef) as EL.
    destruct (Nat.eqb_spec (fi_up0 x) (fi_up1 x)); [congruence|].
    destruct (fi_g0 x <? fi_g1 x); pose proof (po_jump _ _ _ _ PO f _ _ q (record_facet_in p i f x Hp Ef R) EL) as E; lra.
Qed.

Lemma ndot_neg d n n' V j q : (forall i, n' i q = - n i q) -> ndot d n' V j q = - ndot d n V j q.
Proof.
  intro H. rewrite <- ndot_opp. unfold ndot. apply rsum_ext. intros i _. rewrite H. reflexivity.
Qed.

Lemma rank_evaluates p P : (p < procs)%nat -> rank_data k Q (m p) P -> p_method P = IP ->
  evaluates k (sip_mat Q) (m p) (poisson_mat P).
Proof.
  intros Hp RD Ip. split.
  - intros e g He Eg. destruct (rd_elem _ _ _ _ RD e g Eg) as (HJ & HG & HK & _). split; [|reflexivity].
    cbn [a_volume poisson_mat f_volume sip_mat]. f_equal. unfold vol_block. apply functional_extensionality. intro a. apply functional_extensionality. intro b.
    unfold assemble_volume, Dx_Q.
    rewrite (rd_N _ _ _ _ RD), (rd_Nq _ _ _ _ RD), (rd_dim _ _ _ _ RD), (rd_W _ _ _ _ RD), (rd_matEQ _ _ _ _ RD), (rd_DxiQ _ _ _ _ RD), HJ, HG, HK. reflexivity.
  - intros i f x Hi Ef R. destruct (facet_pieces p P i f x Hp RD Hi Ef R) as (K0 & K1 & E0 & E1 & Hn & Hl & Hpen & Hopp & _).
    split.
    + intro Nu. specialize (Hopp Nu). cbn [a_skeleton poisson_mat f_skeleton sip_mat]. f_equal. unfold assemble_skeleton, penalty. rewrite Ip. cbv zeta.
      rewrite K0, K1, E0, E1, Hpen. f_equal; [f_equal; [f_equal|]|];
        apply functional_extensionality; intro a; apply functional_extensionality; intro b; rewrite surface_form;
        unfold diag_block, off_block, Dn, lift_ip; rewrite ?Hn, ?Hl, (rd_nq _ _ _ _ RD), (rd_dim _ _ _ _ RD), (rd_w _ _ _ _ RD); apply rsum_ext; intros q _; unfold epsilon;
        rewrite ?(fun V j => ndot_neg (p_dim R_) (pb_n Q f (fi_g0 x)) (pb_n Q f (fi_g1 x)) V j q (fun i => Hopp i q)); field.
    + intro Eu. cbn [a_boundary poisson_mat f_boundary sip_mat]. unfold assemble_boundary. destruct (fi_bc x =? BC_Natural); auto. f_equal.
      unfold penalty. rewrite Ip. rewrite K0, E0, Hpen. apply functional_extensionality; intro a; apply functional_extensionality; intro b; rewrite surface_form;
        unfold diag_block, Dn, lift_ip. rewrite Hn, Hl, (rd_nq _ _ _ _ RD), (rd_dim _ _ _ _ RD), (rd_w _ _ _ _ RD). apply rsum_ext; intros q _; unfold epsilon. ring.
Qed.
End Rank.
