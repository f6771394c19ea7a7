(** The right-hand side of the Poisson operator and the linear form. *)
Require Import List Arith Lia Bool Reals Lra FunctionalExtensionality Permutation.
Require Import Verif.Base Verif.LinAlg Verif.TopoModel Verif.TopoSpec Verif.TopoProofs Verif.TopoProps
  Verif.AssembleModel Verif.AssembleSpec Verif.AssembleProofs Verif.AssembleProps Verif.MatFree Verif.PoissonModel Verif.PoissonProofs Verif.SipSpec Verif.SipProofs Verif.SipRank.
Import ListNotations.
Local Open Scope R_scope.

Section Load.
Variable Q : problem.
Local Notation P := (pb_ref Q).
Local Notation N := (p_N P). Local Notation dim := (p_dim P). Local Notation nq := (p_nq P). Local Notation w := (p_w P).

Definition load_block (c : R) (f : list nat) (a : nat) (d : nat -> R) (k : nat) : R :=
  rsum nq (fun q => w q * (- c * (Dn Q f a a k q * d q) + pb_pen Q f * pb_nl Q f q * (Eon Q f a k q * d q))).
Definition sip_vec : vec_form (nat -> R) := {|
  v_volume g := Some (rhs_volume P g);
  v_skeleton f bc g h := if has_data bc then Some (load_block (1 / 2) f g (pb_jump Q f g), load_block (1 / 2) f h (pb_jump Q f h)) else None;
  v_boundary f bc g := if has_data bc then Some (load_block 1 f g (pb_value Q f)) else None;
  v_post _ := None |}.
Lemma sip_vec_symmetric : vform_symmetric sip_vec.
Proof. intros f bc g h. cbn. destruct (has_data bc); reflexivity. Qed.

Lemma load_pair c f a d V : rsum N (fun k => V k * load_block c f a d k) =
  rsum nq (fun q => w q * (- c * (tr N (Dn Q f a a) V q * d q) + pb_pen Q f * pb_nl Q f q * (trace Q f a V q * d q))).
Proof.
  unfold load_block. rewrite (rsum_ext N _ (fun k => rsum nq (fun q => V k * (w q * (- c * (Dn Q f a a k q * d q) + pb_pen Q f * pb_nl Q f q * (Eon Q f a k q * d q)))))).
  2: { intros. rewrite rsum_scale. reflexivity. }
  rewrite rsum_swap. apply rsum_ext. intros q _. rewrite <- trace_on. unfold tr.
  transitivity ((w q * (- c * d q)) * rsum N (fun l => Dn Q f a a l q * V l) + (w q * (pb_pen Q f * pb_nl Q f q * d q)) * rsum N (fun l => Eon Q f a l q * V l)); [|ring].
  rewrite <- !rsum_scale, <- rsum_plus. apply rsum_ext. intros. ring.
Qed.
Lemma vpair_app A B V : vpairing N (A ++ B) V = vpairing N A V + vpairing N B V.
Proof. apply lsum_app. Qed.
Lemma vpair_flat {T} (F : T -> list (nat * (nat -> R))) l V : vpairing N (flat_map F l) V = lsum (fun a => vpairing N (F a) V) l.
Proof. apply lsum_flat_map. Qed.

Lemma vol_load_pair g V : vpairing N [(g, rhs_volume P g)] V = vol_load Q g V.
Proof.
  unfold vpairing, vol_load. cbn [lsum]. rewrite Rplus_0_r. unfold rhs_volume.
  rewrite (rsum_ext N _ (fun k => rsum (p_Nq P) (fun q => V g k * (p_J P g q * p_W P q * p_EQ P k q * p_force P g q)))) by (intros; rewrite rsum_scale; reflexivity).
  rewrite rsum_swap. apply rsum_ext. intros q _. unfold value. rewrite <- rsum_scale. apply rsum_ext. intros. ring.
Qed.
Lemma int_load_pair f g h V : (forall q i, pb_n Q f h i q = - pb_n Q f g i q) -> (forall q, pb_jump Q f h q = - pb_jump Q f g q) ->
  vpairing N [(g, load_block (1 / 2) f g (pb_jump Q f g)); (h, load_block (1 / 2) f h (pb_jump Q f h))] V = int_load Q f g h V.
Proof.
  intros Hn Hj. unfold vpairing. cbn [lsum]. rewrite !load_pair, Rplus_0_r, <- rsum_plus. unfold int_load. apply rsum_ext. intros q _.
  rewrite (rsum_ext dim _ (fun i => 1 / 2 * pb_jump Q f g q * (kappa_on Q f g q * grad_on Q f g (V g) i q * pb_n Q f g i q
     + kappa_on Q f h q * grad_on Q f h (V h) i q * pb_n Q f g i q))).
  2: { intros. unfold mean_flux. ring. }
  rewrite rsum_scale, rsum_plus, <- !flux_dot, Hj.
  assert (E : tr N (Dn Q f h h) (V h) q = - tr N (Dn Q f h g) (V h) q).
  { rewrite !flux_dot. rewrite (rsum_ext dim _ (fun i => -1 * (kappa_on Q f h q * grad_on Q f h (V h) i q * pb_n Q f g i q))) by (intros; rewrite Hn; ring).
    rewrite rsum_scale. ring. }
  rewrite E. field.
Qed.
Lemma bnd_load_pair f g V : vpairing N [(g, load_block 1 f g (pb_value Q f))] V = bnd_load Q f g V.
Proof.
  unfold vpairing. cbn [lsum]. rewrite load_pair, Rplus_0_r. unfold bnd_load. apply rsum_ext. intros q _.
  rewrite (rsum_ext dim _ (fun i => pb_value Q f q * (kappa_on Q f g q * grad_on Q f g (V g) i q * pb_n Q f g i q))) by (intros; ring).
  rewrite rsum_scale, <- flux_dot. ring.
Qed.
Lemma global_vpair k elems facets bc V : problem_ok k elems facets Q ->
  vpairing N (global_vector elems facets bc sip_vec) V = sip_load Q elems facets bc V.
Proof.
  intro PO. unfold global_vector, sip_load. rewrite !vpair_app, !vpair_flat. cbn [sip_vec v_volume v_skeleton v_boundary v_post if_some].
  rewrite (lsum_ext _ (fun g => vol_load Q g V)) by (intros; apply vol_load_pair).
  rewrite (lsum_ext _ (fun f => facet_load Q elems bc f V)).
  - rewrite (lsum_zero (fun a => vpairing N [] V)) by reflexivity. ring.
  - intros f Hf. unfold facet_load. destruct (elements_of elems f) as [|g [|h [|? ?]]] eqn:EL; try (destruct (has_data (bc f)); reflexivity).
    + destruct (has_data (bc f)); cbn [if_some]; [apply bnd_load_pair|reflexivity].
    + destruct (has_data (bc f)); cbn [if_some]; [|reflexivity]. apply int_load_pair.
      * intros. apply (po_n _ _ _ _ PO f g h); auto.
      * intros. apply (po_jump _ _ _ _ PO f g h); auto.
Qed.
End Load.

Section Rank.
Variables (k procs : nat) (elems facets : list (list nat)) (bc : list nat -> nat) (m : nat -> topo_mesh).
Hypothesis MP : mesh_parts k procs elems facets bc m.
Variable Q : problem.
Hypothesis PO : problem_ok k elems facets Q.
Local Notation R_ := (pb_ref Q).

Lemma rhs_kernel_form P i c1 c2 KD_ E f fl j : rhs_facet_kernel P i c1 c2 KD_ E f fl j =
  rsum (p_nq P) (fun q => p_w P q * (c1 * (ndot (p_dim P) (p_n P i) KD_ j q * f q) + c2 * (E j q * fl q))).
Proof.
  unfold rhs_facet_kernel. rewrite <- rsum_plus. apply rsum_ext. intros q _. unfold ndot.
  rewrite (rsum_ext (p_dim P) _ (fun r => (c1 * p_w P q * f q) * (p_n P i r q * KD_ j r q))) by (intros; ring).
  rewrite rsum_scale. ring.
Qed.

Lemma rank_evaluates_rhs p P : (p < procs)%nat -> rank_data k Q (m p) P -> p_method P = IP ->
  evaluates_rhs k (sip_vec Q) (m p) (poisson_vec P).
Proof.
  intros Hp RD Ip. split.
  - intros e g He Eg. destruct (rd_elem _ _ _ _ RD e g Eg) as (HJ & HG & HK & HF). split; [|reflexivity].
    cbn [r_volume poisson_vec v_volume sip_vec]. f_equal. apply functional_extensionality. intro a.
    unfold rhs_volume. rewrite (rd_Nq _ _ _ _ RD), (rd_W _ _ _ _ RD), (rd_EQ _ _ _ _ RD), HJ, HF. reflexivity.
  - intros i f x Hi Ef R. destruct (facet_pieces k procs elems facets bc m MP Q PO p P i f x Hp RD Hi Ef R) as (K0 & K1 & E0 & E1 & Hn & Hl & Hpen & Hopp & Hj).
    split.
    + intro Nu. specialize (Hopp Nu). specialize (Hj Nu). cbn [r_skeleton poisson_vec v_skeleton sip_vec].
      destruct (rd_skeleton _ _ _ _ RD i f x Hi Ef R Nu) as [Sl Di].
      assert (D : bc_skeleton P i (fi_bc x) = if has_data (fi_bc x) then Some (pb_jump Q f (fi_g0 x)) else None).
      { unfold bc_skeleton, has_data. destruct (Nat.eqb_spec (fi_bc x) BC_Fault); [rewrite Sl by auto; reflexivity|].
        destruct (Nat.eqb_spec (fi_bc x) BC_Dirichlet); [rewrite Di by auto; reflexivity|reflexivity]. }
      unfold rhs_skeleton. rewrite D. destruct (has_data (fi_bc x)); [|reflexivity]. unfold penalty. rewrite Ip. cbv zeta. f_equal.
      rewrite K0, K1, E0, E1, Hpen. f_equal; apply functional_extensionality; intro a; rewrite rhs_kernel_form;
        unfold load_block, Dn, rhs_lift_ip; rewrite Hn, Hl, (rd_nq _ _ _ _ RD), (rd_dim _ _ _ _ RD), (rd_w _ _ _ _ RD); apply rsum_ext; intros q _; unfold epsilon.
      * field.
      * rewrite (ndot_neg (p_dim R_) (pb_n Q f (fi_g0 x)) (pb_n Q f (fi_g1 x)) _ a q (fun i => Hopp i q)), Hj. field.
    + intro Eu. cbn [r_boundary poisson_vec v_boundary sip_vec]. destruct (rd_boundary _ _ _ _ RD i f x Hi Ef R Eu) as [Sl Di].
      assert (D : bc_boundary P i (fi_bc x) = if has_data (fi_bc x) then Some (pb_value Q f) else None).
      { unfold bc_boundary, has_data. destruct (Nat.eqb_spec (fi_bc x) BC_Fault); [cbn [orb]; f_equal; apply functional_extensionality; auto|].
        destruct (Nat.eqb_spec (fi_bc x) BC_Dirichlet); [rewrite Di by auto; reflexivity|reflexivity]. }
      unfold rhs_boundary. rewrite D. destruct (has_data (fi_bc x)); [|reflexivity]. unfold penalty. rewrite Ip. f_equal.
      rewrite K0, E0, Hpen. apply functional_extensionality; intro a; rewrite rhs_kernel_form;
        unfold load_block, Dn, rhs_lift_ip; rewrite Hn, Hl, (rd_nq _ _ _ _ RD), (rd_dim _ _ _ _ RD), (rd_w _ _ _ _ RD); apply rsum_ext; intros q _; unfold epsilon. ring.
Qed.
End Rank.
