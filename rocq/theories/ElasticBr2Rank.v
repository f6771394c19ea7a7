(** A rank's elasticity operator evaluates the form of Bassi and Rebay on its part. *)
Require Import List Arith Lia Bool Reals Lra FunctionalExtensionality Permutation.
Require Import Verif.Base Verif.LinAlg Verif.SimplexModel Verif.TopoModel Verif.TopoSpec Verif.TopoProofs Verif.TopoProps
  Verif.AssembleModel Verif.AssembleSpec Verif.AssembleProofs Verif.AssembleProps Verif.MatFree Verif.PoissonModel Verif.SipSpec Verif.SipRank
  Verif.ElasticityModel Verif.ElasticitySpec Verif.ElasticityProofs Verif.ElasticFormSpec Verif.ElasticFormProofs Verif.ElasticFormRank
  Verif.ElasticBr2Spec Verif.ElasticBr2Proofs.
Import ListNotations.
Local Open Scope R_scope.

Section Rank.
Variables (k procs : nat) (elems facets : list (list nat)) (bc : list nat -> nat) (m : nat -> topo_mesh).
Hypothesis MP : mesh_parts k procs elems facets bc m.
Variable Q : eproblem.
Hypothesis PO : eproblem_ok k elems facets Q.
Hypothesis IM : forall g, (g < length elems)%nat -> keeps_inverse (ep_ref Q) g.
Local Notation R_ := (ep_ref Q).

(** Two inverses of one mass matrix. *)
Lemma inverse_same p E e g : (p < procs)%nat -> erank_data k Q (m p) E -> nth_error (tm_l2cg (m p)) e = Some g -> keeps_inverse E e ->
  forall s u, (s < p_N (e_geo R_))%nat -> (u < p_N (e_geo R_))%nat -> e_Minv E e s u = e_Minv R_ g s u.
Proof.
  intros Hp RD Eg KI s u Hs Hu. pose proof (er_N _ _ _ _ RD) as HN. destruct (er_elem _ _ _ _ RD e g Eg) as (HJ & _).
  destruct (mp_elem _ _ _ _ _ _ MP p e g Hp Eg) as [Hg _].
  assert (MM : forall a b, mass_matrix E e a b = mass_matrix R_ g a b).
  { intros. unfold mass_matrix. rewrite (er_Nq _ _ _ _ RD), (er_W _ _ _ _ RD), (er_EQ _ _ _ _ RD), HJ. reflexivity. }
  set (N := p_N (e_geo R_)) in *.
  transitivity (rsum N (fun t => e_Minv E e s t * rsum N (fun r => mass_matrix R_ g t r * e_Minv R_ g r u))).
  - rewrite (rsum_ext N _ (fun t => delta u t * e_Minv E e s t)); [rewrite delta_sum; auto|]. intros t Ht. pose proof (einv_right Q elems IM g t u Hg Ht Hu) as IR. cbv beta in IR. fold N in IR. rewrite IR. rewrite (delta_sym t u). ring.
  - etransitivity; [exact (eassoc3 Q (e_Minv E e) (mass_matrix R_ g) (e_Minv R_ g) s u)|]. cbv beta. fold N.
    rewrite (rsum_ext N _ (fun t => delta s t * e_Minv R_ g t u)); [rewrite (delta_sum N s (fun t => e_Minv R_ g t u) Hs); reflexivity|].
    intros t Ht. f_equal. unfold N in *. rewrite <- HN in Hs, Ht |- *. unfold delta. rewrite <- (KI s t Hs Ht). apply rsum_ext. intros. rewrite MM. reflexivity.
Qed.

Section Facet.
Variables (p : nat) (E : edata) (i : nat) (f : list nat) (x : facet_info).
Hypothesis Hp : (p < procs)%nat.
Hypothesis RD : erank_data k Q (m p) E.
Hypothesis KI : forall e, (e < length (tm_l2cg (m p)))%nat -> keeps_inverse E e.
Hypothesis Hi : (i < tm_num_local_facets (m p))%nat.
Hypothesis Ef : nth_error (tm_facets (m p)) i = Some f.
Hypothesis RO : facet_record_ok k (m p) i x.
Definition gside (s : nat) : nat := match s with O => fi_g0 x | _ => fi_g1 x end.
Lemma side_minv s a b : (a < p_N (e_geo R_))%nat -> (b < p_N (e_geo R_))%nat -> e_Minv E (up_side x s) a b = e_Minv R_ (gside s) a b.
Proof.
  assert (G : nth_error (tm_l2cg (m p)) (up_side x s) = Some (gside s)) by (destruct s; [apply (fr_g0 _ _ _ _ RO)|apply (fr_g1 _ _ _ _ RO)]).
  apply (inverse_same p E _ _ Hp RD G). apply KI. apply nth_error_Some. congruence.
Qed.
(** The code's kernels in terms of the lifting of one side. *)
Lemma eside_code s (c : R) (j : nat -> nat -> R) u a q :
  rsum (p_dim (e_geo E)) (fun t => rsum (p_N (e_geo E)) (fun mm => test_normal E i x s u t a q * E_side (e_geo E) x s mm q *
    rsum (p_N (e_geo E)) (fun o => rsum (p_nq (e_geo E)) (fun q' => c * e_Minv E (up_side x s) mm o * p_w (e_geo E) q' * E_side (e_geo E) x s o q' * j t q')))) =
  eside Q c f (gside s) (ep_n Q f (fi_g0 x)) j u a q.
Proof.
  destruct (efacet_pieces k procs elems facets bc m MP Q PO p E i f x Hp RD Hi Ef RO) as (Hs & Hn & _).
  destruct (Hs s) as (L0 & M0 & _ & B0). cbv zeta in L0, M0, B0. fold (gside s) in L0, M0, B0.
  unfold eside. rewrite (er_dim _ _ _ _ RD). apply rsum_ext. intros t _.
  assert (T : test_normal E i x s u t a q = tnf (lam_on Q f (gside s)) (mu_on Q f (gside s)) (ep_n Q f (fi_g0 x)) u t a q).
  { unfold test_normal, tnf. rewrite L0, M0, Hn. reflexivity. }
  rewrite T. rewrite (rsum_ext _ _ (fun mm => tnf (lam_on Q f (gside s)) (mu_on Q f (gside s)) (ep_n Q f (fi_g0 x)) u t a q * (Bon Q f (gside s) mm q *
    rsum (p_N (e_geo R_)) (fun o => rsum (p_nq (e_geo R_)) (fun q' => c * e_Minv R_ (gside s) mm o * p_w (e_geo R_) q' * Bon Q f (gside s) o q' * j t q'))))).
  - rewrite rsum_scale. f_equal. rewrite (er_N _ _ _ _ RD). unfold ekern, elk.
    rewrite (rsum_ext (p_nq (e_geo R_)) (fun q' => _ * j t q') (fun q' => rsum (p_N (e_geo R_)) (fun mm => Bon Q f (gside s) mm q * rsum (p_N (e_geo R_)) (fun o => e_Minv R_ (gside s) mm o * (c * p_w (e_geo R_) q' * Bon Q f (gside s) o q')) * j t q'))) by (intros; rewrite rsum_scale_r; reflexivity).
    rewrite rsum_swap. apply rsum_ext. intros mm _.
    rewrite (rsum_ext (p_nq (e_geo R_)) _ (fun q' => Bon Q f (gside s) mm q * rsum (p_N (e_geo R_)) (fun o => e_Minv R_ (gside s) mm o * (c * p_w (e_geo R_) q' * Bon Q f (gside s) o q') * j t q'))) by (intros; rewrite rsum_scale_r; ring).
    rewrite rsum_scale. f_equal. rewrite rsum_swap. apply rsum_ext. intros q' _. apply rsum_ext. intros. ring.
  - intros mm Hm. rewrite B0, Rmult_assoc. f_equal. f_equal. rewrite (er_N _ _ _ _ RD) in *. apply rsum_ext. intros o Ho. rewrite (er_nq _ _ _ _ RD), (er_w _ _ _ _ RD). apply rsum_ext. intros q' _.
    rewrite side_minv by auto. reflexivity.
Qed.
Lemma skel_code y l a u q : lift_skeleton E i x y l a u q =
  1 / 2 * eside Q (1 / 2) f (fi_g0 x) (ep_n Q f (fi_g0 x)) (fun t q' => Bon Q f (gside y) l q' * ep_n Q f (fi_g0 x) t q') u a q +
  1 / 2 * eside Q (1 / 2) f (fi_g1 x) (ep_n Q f (fi_g0 x)) (fun t q' => Bon Q f (gside y) l q' * ep_n Q f (fi_g0 x) t q') u a q.
Proof.
  destruct (efacet_pieces k procs elems facets bc m MP Q PO p E i f x Hp RD Hi Ef RO) as (Hs & Hn & _).
  destruct (Hs y) as (_ & _ & _ & By). cbv zeta in By. fold (gside y) in By.
  unfold lift_skeleton. rewrite <- Rmult_plus_distr_l. f_equal. change (fi_g0 x) with (gside 0) at 1. change (fi_g1 x) with (gside 1) at 1. rewrite <- !eside_code.
  f_equal; apply rsum_ext; intros t _; apply rsum_ext; intros mm _; f_equal; unfold Lift; apply rsum_ext; intros o _; apply rsum_ext; intros q' _; rewrite By, Hn; ring.
Qed.
Lemma bnd_code l a u q : lift_boundary E i x l a u q =
  1 * eside Q 1 f (fi_g0 x) (ep_n Q f (fi_g0 x)) (fun t q' => Bon Q f (fi_g0 x) l q' * ep_n Q f (fi_g0 x) t q') u a q.
Proof.
  destruct (efacet_pieces k procs elems facets bc m MP Q PO p E i f x Hp RD Hi Ef RO) as (Hs & Hn & _).
  destruct (Hs 0%nat) as (_ & _ & _ & By). cbv zeta in By.
  unfold lift_boundary. rewrite Rmult_1_l. change (fi_g0 x) with (gside 0) at 1. rewrite <- eside_code.
  apply rsum_ext; intros t _; apply rsum_ext; intros mm _; f_equal; unfold Lift; apply rsum_ext; intros o _; apply rsum_ext; intros q' _; rewrite By, Hn; ring.
Qed.
Lemma rskel_code d a q : rhs_lift_skeleton E i x d a q =
  1 / 2 * rsum (p_dim (e_geo R_)) (fun u => eside Q (1 / 2) f (fi_g0 x) (ep_n Q f (fi_g0 x)) (fun t q' => d u q' * ep_n Q f (fi_g0 x) t q') u a q) +
  1 / 2 * rsum (p_dim (e_geo R_)) (fun u => eside Q (1 / 2) f (fi_g1 x) (ep_n Q f (fi_g0 x)) (fun t q' => d u q' * ep_n Q f (fi_g0 x) t q') u a q).
Proof.
  destruct (efacet_pieces k procs elems facets bc m MP Q PO p E i f x Hp RD Hi Ef RO) as (Hs & Hn & _).
  unfold rhs_lift_skeleton. rewrite <- Rmult_plus_distr_l. f_equal. rewrite <- (er_dim _ _ _ _ RD).
  f_equal; apply rsum_ext; intros u _; [change (fi_g0 x) with (gside 0) at 1|change (fi_g1 x) with (gside 1) at 1]; rewrite <- eside_code;
    apply rsum_ext; intros t _; apply rsum_ext; intros mm _; f_equal; unfold f_lifted; apply rsum_ext; intros o _; apply rsum_ext; intros q' _; rewrite Hn; ring.
Qed.
Lemma rbnd_code d a q : rhs_lift_boundary E i x d a q =
  1 * rsum (p_dim (e_geo R_)) (fun u => eside Q 1 f (fi_g0 x) (ep_n Q f (fi_g0 x)) (fun t q' => d u q' * ep_n Q f (fi_g0 x) t q') u a q).
Proof.
  destruct (efacet_pieces k procs elems facets bc m MP Q PO p E i f x Hp RD Hi Ef RO) as (Hs & Hn & _).
  unfold rhs_lift_boundary. rewrite Rmult_1_l. rewrite <- (er_dim _ _ _ _ RD). apply rsum_ext; intros u _. change (fi_g0 x) with (gside 0) at 1. rewrite <- eside_code.
  apply rsum_ext; intros t _; apply rsum_ext; intros mm _; f_equal; unfold f_lifted; apply rsum_ext; intros o _; apply rsum_ext; intros q' _; rewrite Hn; ring.
Qed.
End Facet.

(** Signs of the two normals. *)
Lemma eside_signs (s t : R) c f g n j u a q : eside Q c f g (fun b q => s * n b q) (fun b q' => t * j b q') u a q = s * t * eside Q c f g n j u a q.
Proof.
  unfold eside. rewrite <- rsum_scale. apply rsum_ext. intros b _.
  replace (ekern Q (elk Q c f g) (fun q' => t * j b q') q) with (t * ekern Q (elk Q c f g) (j b) q); [unfold tnf; ring|].
  unfold ekern. rewrite <- rsum_scale. apply rsum_ext. intros. ring.
Qed.
Lemma eside_sign (s t : R) c f g n n' j j' u a q : (forall b q, n' b q = s * n b q) -> (forall b q, j' b q = t * j b q) ->
  eside Q c f g n' j' u a q = s * t * eside Q c f g n j u a q.
Proof.
  intros H1 H2. rewrite <- eside_signs. unfold eside. apply rsum_ext. intros b _. f_equal; [unfold tnf; rewrite !H1; reflexivity|]. apply ekern_ext. intros. apply H2.
Qed.

Lemma ebr2_evaluates p E : (p < procs)%nat -> erank_data k Q (m p) E -> (forall e, (e < length (tm_l2cg (m p)))%nat -> keeps_inverse E e) -> p_method (e_geo E) = BR2 ->
  evaluates k (ebr2_mat Q) (m p) (elasticity_mat E).
Proof.
  intros Hp RD KI Ip. pose proof (er_N _ _ _ _ RD) as HN. pose proof (er_dim _ _ _ _ RD) as HD. split.
  - intros e g He Eg. destruct (er_elem _ _ _ _ RD e g Eg) as (HJ & HG & HL & HM & _). split; [|reflexivity].
    cbn [a_volume elasticity_mat f_volume ebr2_mat]. f_equal. apply functional_extensionality. intro a. apply functional_extensionality. intro b.
    unfold assemble_volume, Dx_Q, lam_W_J, mu_W_J. cbv zeta.
    rewrite (bf_same Q E HN), (cp_same Q E HN), HN, HD, (er_Nq _ _ _ _ RD), (er_W _ _ _ _ RD), (er_matEQ _ _ _ _ RD), (er_DxiQ _ _ _ _ RD), HJ, HG, HL, HM. reflexivity.
  - intros i f x Hi Ef RO. destruct (efacet_pieces k procs elems facets bc m MP Q PO p E i f x Hp RD Hi Ef RO) as (Hs & Hn & Hl & Hpen & Hopp & _).
    destruct (Hs 0%nat) as (L0 & M0 & D0 & B0). destruct (Hs 1%nat) as (L1 & M1 & D1 & B1). cbv zeta in L0, M0, D0, B0, L1, M1, D1, B1.
    split.
    + intro Nu. specialize (Hopp Nu). cbn [a_skeleton elasticity_mat f_skeleton ebr2_mat]. f_equal. unfold assemble_skeleton, penalty, traction_op_side. rewrite Ip. cbv zeta.
      rewrite L0, M0, D0, B0, L1, M1, D1, B1, Hn, (top_same Q E HD).
      assert (O1 : forall b q, ep_n Q f (fi_g1 x) b q = -1 * ep_n Q f (fi_g0 x) b q) by (intros; rewrite Hopp; ring).
      f_equal; [f_equal; [f_equal|]|]; apply functional_extensionality; intro a; apply functional_extensionality; intro b; rewrite surface_form;
        unfold ebr2_diag, ebr2_off, ediag_block, eoff_block, Ton, sblock; cbn [eno_pen ep_ref ep_pen ep_nl ep_n]; cbv zeta;
        change (Dxon (eno_pen Q)) with (Dxon Q); change (Bon (eno_pen Q)) with (Bon Q); change (lam_on (eno_pen Q)) with (lam_on Q); change (mu_on (eno_pen Q)) with (mu_on Q);
        rewrite (er_nq _ _ _ _ RD), (er_w _ _ _ _ RD), (bf_same Q E HN), (cp_same Q E HN), HD, <- !rsum_plus;
        apply rsum_ext; intros q _; unfold epsilon; rewrite (skel_code p E i f x Hp RD KI Hi Ef RO); cbn [gside]; rewrite ?Hopp, ?top_opp.
      * field.
      * set (T := ep_n Q f (fi_g0 x)) in *.
        rewrite (eside_sign 1 (-1) (1 / 2) f (fi_g0 x) T T (fun t q' => Bon Q f (fi_g1 x) (bf R_ b) q' * T t q') (fun s q' => Bon Q f (fi_g1 x) (bf R_ b) q' * - T s q')) by (intros; ring).
        rewrite (eside_sign 1 (-1) (1 / 2) f (fi_g1 x) T T (fun t q' => Bon Q f (fi_g1 x) (bf R_ b) q' * T t q') (fun s q' => Bon Q f (fi_g1 x) (bf R_ b) q' * - T s q')) by (intros; ring). field.
      * set (T := ep_n Q f (fi_g0 x)) in *.
        rewrite (eside_sign (-1) 1 (1 / 2) f (fi_g0 x) T (fun j q => - T j q) (fun t q' => Bon Q f (fi_g0 x) (bf R_ b) q' * T t q') (fun t q' => Bon Q f (fi_g0 x) (bf R_ b) q' * T t q')) by (intros; ring).
        rewrite (eside_sign (-1) 1 (1 / 2) f (fi_g1 x) T (fun j q => - T j q) (fun t q' => Bon Q f (fi_g0 x) (bf R_ b) q' * T t q') (fun t q' => Bon Q f (fi_g0 x) (bf R_ b) q' * T t q')) by (intros; ring). field.
      * set (T := ep_n Q f (fi_g0 x)) in *.
        rewrite (eside_sign (-1) (-1) (1 / 2) f (fi_g0 x) T (fun j q => - T j q) (fun t q' => Bon Q f (fi_g1 x) (bf R_ b) q' * T t q') (fun t q' => Bon Q f (fi_g1 x) (bf R_ b) q' * - T t q')) by (intros; ring).
        rewrite (eside_sign (-1) (-1) (1 / 2) f (fi_g1 x) T (fun j q => - T j q) (fun t q' => Bon Q f (fi_g1 x) (bf R_ b) q' * T t q') (fun t q' => Bon Q f (fi_g1 x) (bf R_ b) q' * - T t q')) by (intros; ring). field.
    + intro Eu. cbn [a_boundary elasticity_mat f_boundary ebr2_mat]. unfold assemble_boundary. destruct (fi_bc x =? BC_Natural); auto. f_equal.
      unfold penalty, traction_op_side. rewrite Ip, L0, M0, D0, B0, Hn, (top_same Q E HD). cbv zeta.
      apply functional_extensionality; intro a; apply functional_extensionality; intro b; rewrite surface_form;
        unfold ebr2_one, ediag_block, Ton, sblock; cbn [eno_pen ep_ref ep_pen ep_nl ep_n]; cbv zeta;
        change (Dxon (eno_pen Q)) with (Dxon Q); change (Bon (eno_pen Q)) with (Bon Q); change (lam_on (eno_pen Q)) with (lam_on Q); change (mu_on (eno_pen Q)) with (mu_on Q).
      rewrite (er_nq _ _ _ _ RD), (er_w _ _ _ _ RD), (bf_same Q E HN), (cp_same Q E HN), HD, <- !rsum_plus.
      apply rsum_ext; intros q _; unfold epsilon. rewrite (bnd_code p E i f x Hp RD KI Hi Ef RO). ring.
Qed.

Lemma ebr2_evaluates_rhs p E : (p < procs)%nat -> erank_data k Q (m p) E -> (forall e, (e < length (tm_l2cg (m p)))%nat -> keeps_inverse E e) -> p_method (e_geo E) = BR2 ->
  evaluates_rhs k (ebr2_vec Q) (m p) (elasticity_vec E).
Proof.
  intros Hp RD KI Ip. pose proof (er_N _ _ _ _ RD) as HN. pose proof (er_dim _ _ _ _ RD) as HD. split.
  - intros e g He Eg. destruct (er_elem _ _ _ _ RD e g Eg) as (HJ & _). pose proof (er_force _ _ _ _ RD) as HF. split; [|reflexivity].
    cbn [r_volume elasticity_vec v_volume ebr2_vec]. unfold rhs_volume.
    destruct (e_force R_) as [F|], (e_force E) as [F'|]; try contradiction; [|reflexivity]. f_equal.
    apply functional_extensionality. intro a.
    rewrite (bf_same Q E HN), (cp_same Q E HN), (er_Nq _ _ _ _ RD), (er_W _ _ _ _ RD), (er_EQ _ _ _ _ RD), HJ, (HF e g Eg). reflexivity.
  - intros i f x Hi Ef RO. destruct (efacet_pieces k procs elems facets bc m MP Q PO p E i f x Hp RD Hi Ef RO) as (Hs & Hn & Hl & Hpen & Hopp & Hj).
    destruct (Hs 0%nat) as (L0 & M0 & D0 & B0). destruct (Hs 1%nat) as (L1 & M1 & D1 & B1). cbv zeta in L0, M0, D0, B0, L1, M1, D1, B1.
    pose proof (er_slip _ _ _ _ RD) as Sl. pose proof (er_dir _ _ _ _ RD) as Di.
    split.
    + intro Nu. specialize (Hopp Nu). specialize (Hj Nu). cbn [r_skeleton elasticity_vec v_skeleton ebr2_vec].
      assert (D : bc_skeleton E i (fi_bc x) = if ehas_data Q (fi_bc x) then Some (ep_jump Q f (fi_g0 x)) else None).
      { unfold bc_skeleton, ehas_data. destruct (Nat.eqb_spec (fi_bc x) BC_Fault) as [Eb|Nb].
        - rewrite Eb. change (BC_Fault =? BC_Dirichlet) with false. cbn [andb orb]. rewrite orb_false_r. destruct (e_slip E) as [s|]; [|rewrite Sl; reflexivity].
          destruct Sl as [-> S']. destruct (S' i f x Hi Ef RO Eb) as [S1 _]. rewrite (S1 Nu). reflexivity.
        - destruct (Nat.eqb_spec (fi_bc x) BC_Dirichlet) as [Eb|Nb']; cbn [andb orb]; [|reflexivity].
          destruct (e_dir E) as [d|]; [|rewrite Di; reflexivity]. destruct Di as [-> S']. destruct (S' i f x Hi Ef RO Eb) as [S1 _]. rewrite (S1 Nu). reflexivity. }
      unfold rhs_skeleton. rewrite D. destruct (ehas_data Q (fi_bc x)); [|reflexivity]. unfold penalty. rewrite Ip. cbv zeta. f_equal.
      rewrite L0, M0, D0, B0, L1, M1, D1, B1.
      assert (O1 : forall b q, ep_n Q f (fi_g1 x) b q = -1 * ep_n Q f (fi_g0 x) b q) by (intros; rewrite Hopp; ring).
      assert (J1 : forall b q, ep_jump Q f (fi_g1 x) b q = -1 * ep_jump Q f (fi_g0 x) b q) by (intros; rewrite Hj; ring).
      f_equal; apply functional_extensionality; intro a; rewrite ekernel_form; unfold ebr2_int_block, eload_block, sload; cbn [eno_pen ep_ref ep_pen ep_nl ep_n];
        change (Dxon (eno_pen Q)) with (Dxon Q); change (Bon (eno_pen Q)) with (Bon Q); change (lam_on (eno_pen Q)) with (lam_on Q); change (mu_on (eno_pen Q)) with (mu_on Q);
        rewrite Hn, (er_nq _ _ _ _ RD), (er_w _ _ _ _ RD), (bf_same Q E HN), (cp_same Q E HN), (test_same Q E HD), HD, <- !rsum_plus; apply rsum_ext; intros q _; unfold epsilon;
        rewrite (rskel_code p E i f x Hp RD KI Hi Ef RO).
      * field.
      * assert (SS : forall g, rsum (p_dim (e_geo R_)) (fun u => eside Q (1 / 2) f g (ep_n Q f (fi_g1 x)) (fun s q' => ep_jump Q f (fi_g1 x) u q' * ep_n Q f (fi_g1 x) s q') u (cp R_ a) q) =
          -1 * rsum (p_dim (e_geo R_)) (fun u => eside Q (1 / 2) f g (ep_n Q f (fi_g0 x)) (fun s q' => ep_jump Q f (fi_g0 x) u q' * ep_n Q f (fi_g0 x) s q') u (cp R_ a) q)).
        { intro g. rewrite <- rsum_scale. apply rsum_ext. intros u _.
          rewrite (eside_sign (-1) 1 (1 / 2) f g (ep_n Q f (fi_g0 x)) (ep_n Q f (fi_g1 x)) (fun s q' => ep_jump Q f (fi_g0 x) u q' * ep_n Q f (fi_g0 x) s q')) by (intros; rewrite ?O1, ?J1; ring). ring. }
        rewrite !SS. rewrite Hopp, Hj, test_opp. field.
    + intro Eu. cbn [r_boundary elasticity_vec v_boundary ebr2_vec].
      assert (D : bc_boundary E i (fi_bc x) = if ehas_data Q (fi_bc x) then Some (ep_value Q f) else None).
      { unfold bc_boundary, ehas_data. destruct (Nat.eqb_spec (fi_bc x) BC_Fault) as [Eb|Nb].
        - rewrite Eb. change (BC_Fault =? BC_Dirichlet) with false. cbn [andb orb]. rewrite orb_false_r. destruct (e_slip E) as [s|]; [|rewrite Sl; reflexivity].
          destruct Sl as [-> S']. destruct (S' i f x Hi Ef RO Eb) as [_ S1]. f_equal. apply functional_extensionality. intro a. apply functional_extensionality. intro q. apply (S1 Eu).
        - destruct (Nat.eqb_spec (fi_bc x) BC_Dirichlet) as [Eb|Nb']; cbn [andb orb]; [|reflexivity].
          destruct (e_dir E) as [d|]; [|rewrite Di; reflexivity]. destruct Di as [-> S']. destruct (S' i f x Hi Ef RO Eb) as [_ S1]. rewrite (S1 Eu). reflexivity. }
      unfold rhs_boundary. rewrite D. destruct (ehas_data Q (fi_bc x)); [|reflexivity]. unfold penalty. rewrite Ip. f_equal.
      rewrite L0, M0, D0, B0. apply functional_extensionality; intro a; rewrite ekernel_form; unfold ebr2_bnd_block, eload_block, sload; cbn [eno_pen ep_ref ep_pen ep_nl ep_n];
        change (Dxon (eno_pen Q)) with (Dxon Q); change (Bon (eno_pen Q)) with (Bon Q); change (lam_on (eno_pen Q)) with (lam_on Q); change (mu_on (eno_pen Q)) with (mu_on Q).
      rewrite Hn, (er_nq _ _ _ _ RD), (er_w _ _ _ _ RD), (bf_same Q E HN), (cp_same Q E HN), (test_same Q E HD), HD, <- !rsum_plus; apply rsum_ext; intros q _; unfold epsilon.
      rewrite (rbnd_code p E i f x Hp RD KI Hi Ef RO). ring.
Qed.
End Rank.
