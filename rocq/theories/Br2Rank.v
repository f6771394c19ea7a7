(** A rank's operator evaluates the form of Bassi and Rebay on its part. *)
Require Import List Arith Lia Bool Reals Lra FunctionalExtensionality Permutation.
Require Import Verif.Base Verif.LinAlg Verif.SimplexModel Verif.TopoModel Verif.TopoSpec Verif.TopoProofs Verif.TopoProps
  Verif.AssembleModel Verif.AssembleSpec Verif.AssembleProofs Verif.AssembleProps Verif.MatFree Verif.PoissonModel Verif.PoissonProofs
  Verif.SipSpec Verif.SipProofs Verif.SipRank Verif.SipLoad Verif.Br2Spec Verif.Br2Proofs.
Import ListNotations.
Local Open Scope R_scope.

Section Load.
Variable Q : problem.
Local Notation P := (pb_ref Q).
Local Notation N := (p_N P). Local Notation dim := (p_dim P). Local Notation nq := (p_nq P). Local Notation w := (p_w P).
(** c (D + 1) int_f phi_k^a n^a . Z(d). *)
Definition lift_load (c : R) (z : nat -> nat -> R) (f : list nat) (a : nat) (d : nat -> nat -> R) (k : nat) : R :=
  rsum nq (fun q => w q * (INR (dim + 1) * (Eon Q f a k q * rsum dim (fun i => c * pb_n Q f a i q * kern Q z (d i) q)))).
Definition br2_load_block (c : R) z f a (d : nat -> R) k : R := load_block (no_pen Q) c f a d k + lift_load c z f a (fun i q => d q * pb_n Q f a i q) k.
Definition br2_vec : vec_form (nat -> R) := {|
  v_volume g := Some (rhs_volume P g);
  v_skeleton f bc g h := if has_data bc then let z := z_int Q f g h in
    Some (br2_load_block (1 / 2) z f g (pb_jump Q f g), br2_load_block (1 / 2) z f h (pb_jump Q f h)) else None;
  v_boundary f bc g := if has_data bc then Some (br2_load_block 1 (zk Q 1 f g) f g (pb_value Q f)) else None;
  v_post _ := None |}.
Lemma br2_vec_symmetric : vform_symmetric br2_vec.
Proof. intros f bc g h. cbn. destruct (has_data bc); [|reflexivity]. rewrite (z_int_sym Q f h g). reflexivity. Qed.
Lemma lift_load_pair c z f a d V : rsum N (fun k => V k * lift_load c z f a d k) = lp Q c z f (fun i q => trace Q f a V q * pb_n Q f a i q) d.
Proof.
  unfold lift_load, lp. rewrite (rsum_ext N _ (fun k => rsum nq (fun q => V k * (w q * (INR (dim + 1) * (Eon Q f a k q * rsum dim (fun i => c * pb_n Q f a i q * kern Q z (d i) q))))))) by (intros; rewrite rsum_scale; reflexivity).
  rewrite rsum_swap, <- rsum_scale. apply rsum_ext. intros q _. set (s := rsum dim (fun i => c * pb_n Q f a i q * _)).
  rewrite (rsum_ext N _ (fun k => (p_E P (pb_loc Q f a) k q * V k) * (w q * INR (dim + 1) * s))) by (intros; unfold Eon; ring).
  rewrite rsum_scale_r. fold (trace Q f a V q). unfold s.
  replace (trace Q f a V q * (w q * INR (dim + 1) * rsum dim (fun i => c * pb_n Q f a i q * kern Q z (d i) q)))
    with (INR (dim + 1) * (w q * (trace Q f a V q * rsum dim (fun i => c * pb_n Q f a i q * kern Q z (d i) q)))) by ring.
  f_equal. f_equal. rewrite <- rsum_scale. apply rsum_ext. intros. ring.
Qed.
Lemma lp_ext c z f x y y' : (forall i q, y i q = y' i q) -> lp Q c z f x y = lp Q c z f x y'.
Proof.
  intro E. unfold lp. f_equal. apply rsum_ext. intros q _. f_equal. apply rsum_ext. intros i _. f_equal. apply kern_ext. auto.
Qed.
Lemma vblock_split (A B V : nat -> R) : rsum N (fun k => V k * (A k + B k)) = rsum N (fun k => V k * A k) + rsum N (fun k => V k * B k).
Proof. rewrite <- rsum_plus. apply rsum_ext. intros. ring. Qed.
Variables (elems : list (list nat)) (jac : nat -> R).
Hypothesis ST : constant_jacobian Q elems jac.
Hypothesis IM : inverts_mass Q.
Lemma br2_vpair k facets bc V r : problem_ok k elems facets Q -> lifts_data Q elems facets r ->
  vpairing N (global_vector elems facets bc br2_vec) V = br2_load Q elems facets bc r V.
Proof.
  intros PO LD. unfold global_vector, br2_load. rewrite !vpair_app, !vpair_flat. cbn [br2_vec v_volume v_skeleton v_boundary v_post if_some].
  rewrite (lsum_ext _ (fun g => vol_load Q g V)) by (intros; apply vol_load_pair).
  rewrite (lsum_ext _ (fun f => br2_facet_load Q elems bc f (r f) V)).
  - rewrite (lsum_zero (fun a => vpairing N [] V)) by reflexivity. ring.
  - intros f Hf. destruct (LD f Hf) as [L1 L2]. unfold br2_facet_load. pose proof (elem_in elems f) as EI.
    destruct (elements_of elems f) as [|g [|h [|? ?]]] eqn:EL; try (destruct (has_data (bc f)); reflexivity).
    + destruct (has_data (bc f)); cbn [if_some]; [|reflexivity].
      transitivity (bnd_load (no_pen Q) f g V + lp Q 1 (zk Q 1 f g) f (bjump Q f g V) (dvalue Q f g)).
      { rewrite <- bnd_load_pair. unfold vpairing. cbn [lsum]. unfold br2_load_block. rewrite vblock_split, lift_load_pair. unfold bjump, dvalue. cbn [no_pen pb_ref pb_value]. ring. }
      rewrite (lp_bnd Q elems jac ST IM f g 1 (dvalue Q f g) _ (r f g)) by (auto; apply EI; cbn; auto).
      unfold br2_bnd_load, bnd_load. cbn [no_pen pb_ref pb_pen]. rewrite Rmult_1_l. f_equal. apply rsum_ext. intros q _. f_equal.
      unfold dvalue. cbn [no_pen pb_n pb_value]. change (kappa_on (no_pen Q)) with (kappa_on Q). change (grad_on (no_pen Q)) with (grad_on Q). ring.
    + destruct (has_data (bc f)); cbn [if_some]; [|reflexivity]. cbv zeta.
      assert (Hn : forall q i, pb_n Q f h i q = - pb_n Q f g i q) by (intros; apply (po_n _ _ _ _ PO f g h); auto).
      assert (Hj : forall q, pb_jump Q f h q = - pb_jump Q f g q) by (intros; apply (po_jump _ _ _ _ PO f g h); auto).
      transitivity (int_load (no_pen Q) f g h V + lp Q (1 / 2) (z_int Q f g h) f (jump Q f g h V) (djump Q f g)).
      { rewrite <- int_load_pair by auto. unfold vpairing. cbn [lsum]. unfold br2_load_block. rewrite !vblock_split, !lift_load_pair.
        unfold jump. rewrite lp_plus_l. rewrite (lp_ext _ _ _ _ (fun i q => pb_jump Q f h q * pb_n Q f h i q) (djump Q f g)) by (intros; unfold djump; rewrite Hn, Hj; ring).
        change (fun i q => pb_jump Q f g q * pb_n Q f g i q) with (djump Q f g). cbn [no_pen pb_ref pb_jump]. ring. }
      destruct (L2 g h eq_refl) as [Lg Lh].
      rewrite (lp_int Q elems jac ST IM f g h (djump Q f g) _ (r f g) (r f h)) by (auto; apply EI; cbn; auto).
      unfold br2_int_load, int_load. cbn [no_pen pb_ref pb_pen]. f_equal. apply rsum_ext. intros q _. f_equal.
      unfold djump. cbn [no_pen pb_n pb_jump]. change (mean_flux (no_pen Q)) with (mean_flux Q). ring.
Qed.
End Load.

Section Rank.
Variables (k procs : nat) (elems facets : list (list nat)) (bc : list nat -> nat) (m : nat -> topo_mesh).
Hypothesis MP : mesh_parts k procs elems facets bc m.
Variable Q : problem.
Hypothesis PO : problem_ok k elems facets Q.
Local Notation R_ := (pb_ref Q).
Lemma mass_global p P e g a b : (p < procs)%nat -> rank_data k Q (m p) P -> p_MinvRef P = p_MinvRef R_ -> nth_error (tm_l2cg (m p)) e = Some g ->
  inverse_mass P e a b = inverse_mass R_ g a b.
Proof.
  intros Hp RD Mi Eg. destruct (rd_elem _ _ _ _ RD e g Eg) as (HJ & _). unfold inverse_mass.
  rewrite (rd_N _ _ _ _ RD), (rd_Nq _ _ _ _ RD), (rd_W _ _ _ _ RD), (rd_EQ _ _ _ _ RD), Mi, HJ. reflexivity.
Qed.
(** The code's lifting of phi_l^y n in terms of the kernel. *)
Lemma kern_code P (K : R) (E : nat -> nat -> R) Minv (c : R) (j : nat -> R) q :
  rsum (p_N P) (fun u => K * E u q * rsum (p_N P) (fun t => rsum (p_nq P) (fun q' => c * Minv u t * E t q' * j q' * p_w P q'))) =
  rsum (p_nq P) (fun q' => K * rsum (p_N P) (fun u => E u q * rsum (p_N P) (fun t => Minv u t * (c * p_w P q' * E t q'))) * j q').
Proof.
  rewrite (rsum_ext (p_nq P) _ (fun q' => rsum (p_N P) (fun u => K * (E u q * rsum (p_N P) (fun t => Minv u t * (c * p_w P q' * E t q'))) * j q'))).
  2: { intros q' _. rewrite rsum_scale_r, rsum_scale. reflexivity. }
  rewrite rsum_swap. apply rsum_ext. intros u _.
  rewrite (rsum_ext (p_nq P) _ (fun q' => K * E u q * rsum (p_N P) (fun t => Minv u t * (c * p_w P q' * E t q') * j q'))) by (intros; rewrite rsum_scale_r; ring).
  rewrite rsum_scale. f_equal. rewrite rsum_swap. apply rsum_ext. intros q' _. apply rsum_ext. intros. ring.
Qed.
Section Facet.
Variables (p : nat) (P : pdata) (i : nat) (f : list nat) (x : facet_info).
Hypothesis Hp : (p < procs)%nat.
Hypothesis RD : rank_data k Q (m p) P.
Hypothesis Mi : p_MinvRef P = p_MinvRef R_.
Hypothesis Hi : (i < tm_num_local_facets (m p))%nat.
Hypothesis Ef : nth_error (tm_facets (m p)) i = Some f.
Hypothesis RO : facet_record_ok k (m p) i x.
Lemma K_side : (forall q, compute_K_q P x 0 q = kappa_on Q f (fi_g0 x) q) /\ (forall q, compute_K_q P x 1 q = kappa_on Q f (fi_g1 x) q).
Proof.
  pose proof (fr_g0 _ _ _ _ RO) as G0. pose proof (fr_g1 _ _ _ _ RO) as G1.
  destruct (rd_elem _ _ _ _ RD _ _ G0) as (_ & _ & K0 & _). destruct (rd_elem _ _ _ _ RD _ _ G1) as (_ & _ & K1 & _).
  pose proof (local_pos k procs elems facets bc m MP Q PO p i f _ _ _ Hp Ef (fr_local0 _ _ _ _ RO) G0) as L0.
  pose proof (local_pos k procs elems facets bc m MP Q PO p i f _ _ _ Hp Ef (fr_local1 _ _ _ _ RO) G1) as L1.
  split; intro q; unfold compute_K_q, kappa_on.
  - rewrite (rd_N _ _ _ _ RD), (rd_matE _ _ _ _ RD), K0, L0. reflexivity.
  - rewrite (rd_N _ _ _ _ RD), (rd_matE _ _ _ _ RD), K1, L1. reflexivity.
Qed.
Lemma side_kern (s : nat) g (c : R) (j : nat -> R) q : s = 0%nat /\ g = fi_g0 x \/ s = 1%nat /\ g = fi_g1 x ->
  rsum (p_N P) (fun u => compute_K_q P x s q * E_side P x s u q * rsum (p_N P) (fun t => rsum (p_nq P) (fun q' =>
    c * inverse_mass P (up_side x s) u t * E_side P x s t q' * j q' * p_w P q'))) = kern Q (zk Q c f g) j q.
Proof.
  intro S. destruct (facet_pieces k procs elems facets bc m MP Q PO p P i f x Hp RD Hi Ef RO) as (_ & _ & E0 & E1 & _).
  destruct K_side as [K0 K1]. pose proof (fr_g0 _ _ _ _ RO) as G0. pose proof (fr_g1 _ _ _ _ RO) as G1.
  assert (Es : E_side P x s = Eon Q f g) by (destruct S as [[-> ->]|[-> ->]]; auto).
  assert (Ks : compute_K_q P x s q = kappa_on Q f g q) by (destruct S as [[-> ->]|[-> ->]]; auto).
  assert (Ms : forall u t, inverse_mass P (up_side x s) u t = inverse_mass R_ g u t).
  { intros. apply (mass_global p); auto. destruct S as [[-> ->]|[-> ->]]; auto. }
  rewrite (rsum_ext (p_N P) _ (fun u => kappa_on Q f g q * Eon Q f g u q * rsum (p_N P) (fun t => rsum (p_nq P) (fun q' =>
    c * inverse_mass R_ g u t * Eon Q f g t q' * j q' * p_w P q')))).
  2: { intros u _. rewrite Ks, Es. f_equal. apply rsum_ext. intros t _. apply rsum_ext. intros q' _. rewrite Ms. reflexivity. }
  rewrite (kern_code P). unfold kern, zk. rewrite (rd_N _ _ _ _ RD), (rd_nq _ _ _ _ RD), (rd_w _ _ _ _ RD). reflexivity.
Qed.
Lemma kern_sum2 z z' j q : kern Q z j q + kern Q z' j q = kern Q (fun a b => z a b + z' a b) j q.
Proof. unfold kern. rewrite <- rsum_plus. apply rsum_ext. intros. ring. Qed.
Lemma skeleton_code (y l q : nat) Ey : E_side P x y = Ey ->
  lift_skeleton P i x y l q = rsum (p_dim R_) (fun r => 1 / 2 * pb_n Q f (fi_g0 x) r q * kern Q (z_int Q f (fi_g0 x) (fi_g1 x)) (fun q' => Ey l q' * pb_n Q f (fi_g0 x) r q') q).
Proof.
  intros E. destruct (facet_pieces k procs elems facets bc m MP Q PO p P i f x Hp RD Hi Ef RO) as (_ & _ & _ & _ & Hn & _).
  unfold lift_skeleton. rewrite (rd_dim _ _ _ _ RD). apply rsum_ext. intros r _. rewrite Hn. f_equal.
  change (z_int Q f (fi_g0 x) (fi_g1 x)) with (fun a b => zk Q (1 / 2) f (fi_g0 x) a b + zk Q (1 / 2) f (fi_g1 x) a b). rewrite <- kern_sum2.
  rewrite <- (side_kern 0 (fi_g0 x)), <- (side_kern 1 (fi_g1 x)) by auto. unfold Lift. rewrite E, Hn.
  f_equal; apply rsum_ext; intros u _; f_equal; apply rsum_ext; intros t _; apply rsum_ext; intros q' _; ring.
Qed.
Lemma boundary_code (l q : nat) :
  lift_boundary P i x l q = rsum (p_dim R_) (fun r => 1 * pb_n Q f (fi_g0 x) r q * kern Q (zk Q 1 f (fi_g0 x)) (fun q' => Eon Q f (fi_g0 x) l q' * pb_n Q f (fi_g0 x) r q') q).
Proof.
  destruct (facet_pieces k procs elems facets bc m MP Q PO p P i f x Hp RD Hi Ef RO) as (_ & _ & E0 & _ & Hn & _).
  unfold lift_boundary. rewrite (rd_dim _ _ _ _ RD). apply rsum_ext. intros r _.
  rewrite <- (side_kern 0 (fi_g0 x)) by auto. rewrite Hn, <- rsum_scale. apply rsum_ext. intros u _. unfold Lift. rewrite E0, Hn, Rmult_1_l.
  rewrite !Rmult_assoc. f_equal. f_equal. f_equal. apply rsum_ext; intros t _; apply rsum_ext; intros q' _; ring.
Qed.
Lemma rhs_skeleton_code d (q : nat) :
  rhs_lift_skeleton P i x d q = rsum (p_dim R_) (fun r => 1 / 2 * pb_n Q f (fi_g0 x) r q * kern Q (z_int Q f (fi_g0 x) (fi_g1 x)) (fun q' => d q' * pb_n Q f (fi_g0 x) r q') q).
Proof.
  destruct (facet_pieces k procs elems facets bc m MP Q PO p P i f x Hp RD Hi Ef RO) as (_ & _ & _ & _ & Hn & _).
  unfold rhs_lift_skeleton. rewrite (rd_dim _ _ _ _ RD). apply rsum_ext. intros r _. rewrite Hn. f_equal.
  change (z_int Q f (fi_g0 x) (fi_g1 x)) with (fun a b => zk Q (1 / 2) f (fi_g0 x) a b + zk Q (1 / 2) f (fi_g1 x) a b). rewrite <- kern_sum2.
  rewrite <- (side_kern 0 (fi_g0 x)), <- (side_kern 1 (fi_g1 x)) by auto. unfold f_lifted. rewrite Hn.
  f_equal; apply rsum_ext; intros u _; f_equal; apply rsum_ext; intros t _; apply rsum_ext; intros q' _; ring.
Qed.
Lemma rhs_boundary_code d (q : nat) :
  rhs_lift_boundary P i x d q = rsum (p_dim R_) (fun r => 1 * pb_n Q f (fi_g0 x) r q * kern Q (zk Q 1 f (fi_g0 x)) (fun q' => d q' * pb_n Q f (fi_g0 x) r q') q).
Proof.
  destruct (facet_pieces k procs elems facets bc m MP Q PO p P i f x Hp RD Hi Ef RO) as (_ & _ & _ & _ & Hn & _).
  unfold rhs_lift_boundary. rewrite (rd_dim _ _ _ _ RD). apply rsum_ext. intros r _.
  rewrite <- (side_kern 0 (fi_g0 x)) by auto. rewrite Hn, <- rsum_scale. apply rsum_ext. intros u _. unfold f_lifted. rewrite Hn, Rmult_1_l.
  rewrite !Rmult_assoc. f_equal. f_equal. f_equal. apply rsum_ext; intros t _; apply rsum_ext; intros q' _; ring.
Qed.
End Facet.

(** Signs of the two normals. *)
Lemma sum_sign (s t : R) n c (a b : nat -> R) z (d : nat -> nat -> R) q : 
  rsum n (fun r => c * (s * a r) * kern Q z (fun q' => d r q' * t) q) = s * t * rsum n (fun r => c * a r * kern Q z (d r) q).
Proof.
  rewrite <- rsum_scale. apply rsum_ext. intros r _.
  replace (kern Q z (fun q' => d r q' * t) q) with (t * kern Q z (d r) q); [ring|].
  unfold kern. rewrite <- rsum_scale. apply rsum_ext. intros. ring.
Qed.

Lemma br2_evaluates p P : (p < procs)%nat -> rank_data k Q (m p) P -> p_MinvRef P = p_MinvRef R_ -> p_method P = BR2 ->
  evaluates k (br2_mat Q) (m p) (poisson_mat P).
Proof.
  intros Hp RD Mi Ip. split.
  - intros e g He Eg. destruct (rd_elem _ _ _ _ RD e g Eg) as (HJ & HG & HK & _). split; [|reflexivity].
    cbn [a_volume poisson_mat f_volume br2_mat]. f_equal. unfold vol_block. apply functional_extensionality. intro a. apply functional_extensionality. intro b.
    unfold assemble_volume, Dx_Q.
    rewrite (rd_N _ _ _ _ RD), (rd_Nq _ _ _ _ RD), (rd_dim _ _ _ _ RD), (rd_W _ _ _ _ RD), (rd_matEQ _ _ _ _ RD), (rd_DxiQ _ _ _ _ RD), HJ, HG, HK. reflexivity.
  - intros i f x Hi Ef RO. destruct (facet_pieces k procs elems facets bc m MP Q PO p P i f x Hp RD Hi Ef RO) as (K0 & K1 & E0 & E1 & Hn & Hl & Hpen & Hopp & _).
    split.
    + intro Nu. specialize (Hopp Nu). cbn [a_skeleton poisson_mat f_skeleton br2_mat]. cbv zeta. f_equal. unfold assemble_skeleton, penalty. rewrite Ip. cbv zeta.
      rewrite K0, K1, E0, E1. f_equal; [f_equal; [f_equal|]|];
        apply functional_extensionality; intro a; apply functional_extensionality; intro b; rewrite surface_form;
        unfold br2_diag, br2_off, diag_block, off_block, lift_block; cbn [no_pen pb_ref pb_pen pb_nl];
        change (Eon (no_pen Q)) with (Eon Q); change (Dn (no_pen Q)) with (Dn Q); unfold Dn;
        rewrite <- rsum_plus; rewrite ?Hn, (rd_nq _ _ _ _ RD), (rd_dim _ _ _ _ RD), (rd_w _ _ _ _ RD); apply rsum_ext; intros q _; unfold epsilon;
        first [ rewrite (skeleton_code p P i f x Hp RD Mi Hi Ef RO 0 b q _ E0) | rewrite (skeleton_code p P i f x Hp RD Mi Hi Ef RO 1 b q _ E1) ];
        rewrite ?(fun V j => ndot_neg (p_dim R_) (pb_n Q f (fi_g0 x)) (pb_n Q f (fi_g1 x)) V j q (fun i => Hopp i q)).
      * field.
      * replace (rsum (p_dim R_) (fun r => 1 / 2 * pb_n Q f (fi_g0 x) r q * kern Q (z_int Q f (fi_g0 x) (fi_g1 x)) (fun q' => Eon Q f (fi_g1 x) b q' * pb_n Q f (fi_g1 x) r q') q))
          with (1 * -1 * rsum (p_dim R_) (fun r => 1 / 2 * pb_n Q f (fi_g0 x) r q * kern Q (z_int Q f (fi_g0 x) (fi_g1 x)) (fun q' => Eon Q f (fi_g1 x) b q' * pb_n Q f (fi_g0 x) r q') q)); [field|].
        rewrite <- (sum_sign 1 (-1) _ _ _ (fun _ => 0)). apply rsum_ext. intros r _. rewrite Rmult_1_l. f_equal. apply kern_ext. intros q' _. rewrite Hopp. ring.
      * replace (rsum (p_dim R_) (fun r => 1 / 2 * pb_n Q f (fi_g1 x) r q * kern Q (z_int Q f (fi_g0 x) (fi_g1 x)) (fun q' => Eon Q f (fi_g0 x) b q' * pb_n Q f (fi_g0 x) r q') q))
          with (-1 * 1 * rsum (p_dim R_) (fun r => 1 / 2 * pb_n Q f (fi_g0 x) r q * kern Q (z_int Q f (fi_g0 x) (fi_g1 x)) (fun q' => Eon Q f (fi_g0 x) b q' * pb_n Q f (fi_g0 x) r q') q)); [field|].
        rewrite <- (sum_sign (-1) 1 _ _ _ (fun _ => 0)). apply rsum_ext. intros r _. rewrite (Hopp r q). f_equal; [ring|]. apply kern_ext. intros q' _. ring.
      * replace (rsum (p_dim R_) (fun r => 1 / 2 * pb_n Q f (fi_g1 x) r q * kern Q (z_int Q f (fi_g0 x) (fi_g1 x)) (fun q' => Eon Q f (fi_g1 x) b q' * pb_n Q f (fi_g1 x) r q') q))
          with (-1 * -1 * rsum (p_dim R_) (fun r => 1 / 2 * pb_n Q f (fi_g0 x) r q * kern Q (z_int Q f (fi_g0 x) (fi_g1 x)) (fun q' => Eon Q f (fi_g1 x) b q' * pb_n Q f (fi_g0 x) r q') q)); [field|].
        rewrite <- (sum_sign (-1) (-1) _ _ _ (fun _ => 0)). apply rsum_ext. intros r _. rewrite (Hopp r q). f_equal; [ring|]. apply kern_ext. intros q' _. rewrite Hopp. ring.
    + intro Eu. cbn [a_boundary poisson_mat f_boundary br2_mat]. unfold assemble_boundary. destruct (fi_bc x =? BC_Natural); auto. f_equal.
      unfold penalty. rewrite Ip. rewrite K0, E0. apply functional_extensionality; intro a; apply functional_extensionality; intro b; rewrite surface_form.
      unfold br2_diag, diag_block, lift_block; cbn [no_pen pb_ref pb_pen pb_nl]. change (Eon (no_pen Q)) with (Eon Q); change (Dn (no_pen Q)) with (Dn Q); unfold Dn.
      rewrite <- rsum_plus. rewrite Hn, (rd_nq _ _ _ _ RD), (rd_dim _ _ _ _ RD), (rd_w _ _ _ _ RD). apply rsum_ext; intros q _; unfold epsilon.
      rewrite (boundary_code p P i f x Hp RD Mi Hi Ef RO). ring.
Qed.

Lemma br2_evaluates_rhs p P : (p < procs)%nat -> rank_data k Q (m p) P -> p_MinvRef P = p_MinvRef R_ -> p_method P = BR2 ->
  evaluates_rhs k (br2_vec Q) (m p) (poisson_vec P).
Proof.
  intros Hp RD Mi Ip. split.
  - intros e g He Eg. destruct (rd_elem _ _ _ _ RD e g Eg) as (HJ & HG & HK & HF). split; [|reflexivity].
    cbn [r_volume poisson_vec v_volume br2_vec]. f_equal. apply functional_extensionality. intro a.
    unfold rhs_volume. rewrite (rd_Nq _ _ _ _ RD), (rd_W _ _ _ _ RD), (rd_EQ _ _ _ _ RD), HJ, HF. reflexivity.
  - intros i f x Hi Ef RO. destruct (facet_pieces k procs elems facets bc m MP Q PO p P i f x Hp RD Hi Ef RO) as (K0 & K1 & E0 & E1 & Hn & Hl & Hpen & Hopp & Hj).
    split.
    + intro Nu. specialize (Hopp Nu). specialize (Hj Nu). cbn [r_skeleton poisson_vec v_skeleton br2_vec].
      destruct (rd_skeleton _ _ _ _ RD i f x Hi Ef RO Nu) as [Sl Di].
      assert (D : bc_skeleton P i (fi_bc x) = if has_data (fi_bc x) then Some (pb_jump Q f (fi_g0 x)) else None).
      { unfold bc_skeleton, has_data. destruct (Nat.eqb_spec (fi_bc x) BC_Fault); [rewrite Sl by auto; reflexivity|].
        destruct (Nat.eqb_spec (fi_bc x) BC_Dirichlet); [rewrite Di by auto; reflexivity|reflexivity]. }
      unfold rhs_skeleton. rewrite D. destruct (has_data (fi_bc x)); [|reflexivity]. unfold penalty. rewrite Ip. cbv zeta. f_equal.
      rewrite K0, K1, E0, E1. f_equal; apply functional_extensionality; intro a; rewrite rhs_kernel_form;
        unfold br2_load_block, load_block, lift_load; cbn [no_pen pb_ref pb_pen pb_nl];
        change (Eon (no_pen Q)) with (Eon Q); change (Dn (no_pen Q)) with (Dn Q); unfold Dn;
        rewrite <- rsum_plus; rewrite Hn, (rd_nq _ _ _ _ RD), (rd_dim _ _ _ _ RD), (rd_w _ _ _ _ RD); apply rsum_ext; intros q _; unfold epsilon;
        rewrite (rhs_skeleton_code p P i f x Hp RD Mi Hi Ef RO).
      * field.
      * rewrite (ndot_neg (p_dim R_) (pb_n Q f (fi_g0 x)) (pb_n Q f (fi_g1 x)) _ a q (fun i => Hopp i q)), Hj.
        replace (rsum (p_dim R_) (fun r => 1 / 2 * pb_n Q f (fi_g1 x) r q * kern Q (z_int Q f (fi_g0 x) (fi_g1 x)) (fun q' => pb_jump Q f (fi_g1 x) q' * pb_n Q f (fi_g1 x) r q') q))
          with (-1 * 1 * rsum (p_dim R_) (fun r => 1 / 2 * pb_n Q f (fi_g0 x) r q * kern Q (z_int Q f (fi_g0 x) (fi_g1 x)) (fun q' => pb_jump Q f (fi_g0 x) q' * pb_n Q f (fi_g0 x) r q') q)); [field|].
        rewrite <- (sum_sign (-1) 1 _ _ _ (fun _ => 0)). apply rsum_ext. intros r _. rewrite (Hopp r q). f_equal; [ring|]. apply kern_ext. intros q' _. rewrite Hopp, Hj. ring.
    + intro Eu. cbn [r_boundary poisson_vec v_boundary br2_vec]. destruct (rd_boundary _ _ _ _ RD i f x Hi Ef RO Eu) as [Sl Di].
      assert (D : bc_boundary P i (fi_bc x) = if has_data (fi_bc x) then Some (pb_value Q f) else None).
      { unfold bc_boundary, has_data. destruct (Nat.eqb_spec (fi_bc x) BC_Fault); [cbn [orb]; f_equal; apply functional_extensionality; auto|].
        destruct (Nat.eqb_spec (fi_bc x) BC_Dirichlet); [rewrite Di by auto; reflexivity|reflexivity]. }
      unfold rhs_boundary. rewrite D. destruct (has_data (fi_bc x)); [|reflexivity]. unfold penalty. rewrite Ip. f_equal.
      rewrite K0, E0. apply functional_extensionality; intro a; rewrite rhs_kernel_form.
      unfold br2_load_block, load_block, lift_load; cbn [no_pen pb_ref pb_pen pb_nl].
      change (Eon (no_pen Q)) with (Eon Q); change (Dn (no_pen Q)) with (Dn Q); unfold Dn.
      rewrite <- rsum_plus. rewrite Hn, (rd_nq _ _ _ _ RD), (rd_dim _ _ _ _ RD), (rd_w _ _ _ _ RD). apply rsum_ext; intros q _; unfold epsilon.
      rewrite (rhs_boundary_code p P i f x Hp RD Mi Hi Ef RO). ring.
Qed.
End Rank.
