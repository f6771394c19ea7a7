(** Property theorems: the Poisson operator, matrix-free and assembled (C26). *)
Require Import List Arith Lia Bool Reals Lra.
Require Import Verif.Base Verif.LinAlg Verif.LocalMeshModel Verif.LocalMeshProps Verif.TopoModel Verif.TopoSpec Verif.TopoProofs
  Verif.TopoProps Verif.AssembleModel Verif.ApplyModel Verif.MatFree Verif.PoissonModel Verif.PoissonProofs.
Import ListNotations.
Local Open Scope R_scope.

(** * Specification *)
(** The length and direction of the facet's normal, at every quadrature point. *)
Definition normal_ok (P : pdata) (fct : nat) : Prop := forall q, (q < p_nq P)%nat ->
  p_nl P fct q = sqrt (rsum (p_dim P) (fun i => p_n P fct i q * p_n P fct i q)) /\
  forall i, (i < p_dim P)%nat -> p_n P fct i q = p_nl P fct q * p_nu P fct i q.
(** Boundary conditions that fit the facet: no Natural between two elements, and not None on the
    boundary. *)
Definition bc_fits (x : facet_info) : Prop :=
  (fi_bc x = BC_None \/ fi_bc x = BC_Natural \/ fi_bc x = BC_Fault \/ fi_bc x = BC_Dirichlet) /\
  (fi_up0 x <> fi_up1 x -> fi_bc x <> BC_Natural) /\ (fi_up0 x = fi_up1 x -> fi_bc x <> BC_None).

(** * Lemmas *)
Lemma normal_unit P fct q : normal_ok P fct -> (q < p_nq P)%nat ->
  rsum (p_dim P) (fun r => p_n P fct r q * p_nu P fct r q) = p_nl P fct q.
Proof.
  intros H Hq. destruct (H q Hq) as [Hl Hn]. set (n := rsum (p_dim P) _) in Hl.
  assert (N0 : 0 <= n). { apply rsum_nonneg. intros. apply Rle_0_sqr. }
  assert (L2 : p_nl P fct q * p_nl P fct q = n). { rewrite Hl. apply sqrt_sqrt. auto. }
  destruct (Req_dec (p_nl P fct q) 0) as [Hz|Hz].
  - rewrite rsum_zero; [auto|]. intros i Hi. rewrite Hn, Hz by auto. ring.
  - apply (Rmult_eq_reg_l (p_nl P fct q)); auto. rewrite L2, <- rsum_scale. apply rsum_ext. intros i Hi. rewrite Hn by auto. ring.
Qed.

Section Rows.
Variable P : pdata.
Local Notation N := (p_N P). Local Notation dim := (p_dim P).
Hypothesis Ip : p_method P = IP.

Lemma tr_lift fct x s U q : tr N (lift_ip P fct (E_side P x s)) U q = p_nl P fct q * tr N (E_side P x s) U q.
Proof. unfold tr, lift_ip. rewrite <- rsum_scale. apply rsum_ext. intros. ring. Qed.

Lemma flux_u_form E0 E1 U Ue q : flux_u_skeleton P E0 E1 U Ue q = (1 / 2) * (- tr N E0 U q + tr N E1 Ue q).
Proof. unfold flux_u_skeleton. fold (tr N (fun l q => - E0 l q) U q). rewrite tr_opp. reflexivity. Qed.
Lemma flux_u_b_form E0 U q : flux_u_boundary P E0 U q = - tr N E0 U q.
Proof. unfold flux_u_boundary. fold (tr N (fun l q => - E0 l q) U q). rewrite tr_opp. reflexivity. Qed.

(** The facet of slot d contributes the same to both. *)
Lemma side_matches fi e d s x U : normal_ok P (si_fct s) -> bc_fits x -> nth_error fi (si_fct s) = Some x ->
  si_bc s = fi_bc x -> fi_inside0 x = true -> (fi_up1 x = e -> fi_inside1 x = true) -> slot_case e d s x ->
  exists y, apply_side P fi e d s (U e) (U (si_lid s)) = Some y /\
    forall j, y j = row_times N (assemble_facet (poisson_mat P) (si_fct s) x) U e j.
Proof.
  intros Nm (Bv & Bi & Bb) Ex Ebc In0 In1 C. unfold apply_side. rewrite Ex, Ebc.
  assert (Pen : forall f, penalty P f = p_pen P f) by (intro; unfold penalty; rewrite Ip; reflexivity).
  destruct C as [U0 U1 Ul L0 | U0 U1 Ne L0 L1 Sd | U1 U0 Ne L1 L0 Sd].
  - (* boundary *)
    rewrite Ul, Nat.eqb_refl. cbn [negb andb orb]. specialize (Bb ltac:(congruence)).
    unfold assemble_facet. rewrite U0, U1, Nat.eqb_refl, In0. cbn [negb a_boundary poisson_mat]. unfold assemble_boundary. rewrite Ip.
    destruct (Nat.eqb_spec (fi_bc x) BC_None) as [|_]; [contradiction|].
    assert (D : fi_bc x = BC_Natural \/ ((fi_bc x =? BC_Fault) || (fi_bc x =? BC_Dirichlet) = true /\ (fi_bc x =? BC_Natural) = false)).
    { destruct Bv as [B|[B|[B|B]]]; [contradiction| left; auto | right | right]; rewrite B; split; reflexivity. }
    cbn [orb]. destruct D as [Dn | [Dt Df]].
    + rewrite Dn. cbn. exists (fun _ => 0). auto.
    + rewrite Dt, Df. eexists. split; [reflexivity|]. intro j. cbn [if_some]. unfold row_times. cbn [lsum]. rewrite Nat.eqb_refl, Rplus_0_r.
      rewrite surface_mul. subst d.
      rewrite (apply_facet_form P (p_n P (si_fct s)) (si_fct s) x 0). apply rsum_ext. intros q Hq.
      rewrite sigma_boundary_normal, flux_u_b_form, tr_lift, normal_unit, !Pen by auto.
      change (p_E P (fi_local0 x)) with (E_side P x 0). unfold epsilon. ring.
  - (* first *)
    destruct (Nat.eqb_spec e (si_lid s)) as [|_]; [contradiction|]. cbn [negb andb]. rewrite Sd. cbn [Nat.eqb].
    specialize (Bi ltac:(congruence)).
    assert (Dt : (fi_bc x =? BC_None) || ((fi_bc x =? BC_Fault) || (fi_bc x =? BC_Dirichlet)) = true).
    { destruct Bv as [B|[B|[B|B]]]; try contradiction; rewrite B; reflexivity. }
    rewrite Dt. eexists. split; [reflexivity|]. intro j.
    unfold assemble_facet. rewrite U0, U1. destruct (Nat.eqb_spec e (si_lid s)) as [|_]; [contradiction|].
    cbn [negb a_skeleton poisson_mat if_some]. unfold assemble_skeleton. rewrite Ip, In0. cbv zeta. unfold row_times.
    rewrite lsum_app. cbn [lsum]. rewrite !Nat.eqb_refl.
    replace (lsum _ (if fi_inside1 x then _ else [])) with 0.
    2: { destruct (fi_inside1 x); cbn [lsum]; [|reflexivity]. destruct (Nat.eqb_spec (si_lid s) e); [congruence|ring]. }
    rewrite !surface_mul, !Rplus_0_r, <- rsum_plus. subst d. rewrite <- L1.
    rewrite (apply_facet_form P (p_n P (si_fct s)) (si_fct s) x 0). apply rsum_ext. intros q Hq.
    rewrite (sigma_skeleton_normal P _ _ _ _ x 0 1) by auto.
    rewrite flux_u_form, !tr_lift, normal_unit, !Pen by auto.
    change (p_E P (fi_local0 x)) with (E_side P x 0). change (p_E P (fi_local1 x)) with (E_side P x 1).
    unfold epsilon. field.
  - (* second *)
    destruct (Nat.eqb_spec e (si_lid s)) as [|_]; [contradiction|]. cbn [negb andb]. rewrite Sd. cbn [Nat.eqb].
    specialize (Bi ltac:(congruence)).
    assert (Dt : (fi_bc x =? BC_None) || ((fi_bc x =? BC_Fault) || (fi_bc x =? BC_Dirichlet)) = true).
    { destruct Bv as [B|[B|[B|B]]]; try contradiction; rewrite B; reflexivity. }
    rewrite Dt. eexists. split; [reflexivity|]. intro j.
    unfold assemble_facet. rewrite U0, U1. destruct (Nat.eqb_spec (si_lid s) e) as [|_]; [congruence|].
    cbn [negb a_skeleton poisson_mat if_some]. unfold assemble_skeleton. rewrite Ip, In0, (In1 U1). cbv zeta. unfold row_times.
    rewrite lsum_app. cbn [lsum]. rewrite !Nat.eqb_refl. destruct (Nat.eqb_spec (si_lid s) e) as [|_]; [congruence|].
    rewrite !surface_mul, !Rplus_0_r, !Rplus_0_l, <- rsum_plus. subst d. rewrite <- L0.
    rewrite (apply_facet_form P _ (si_fct s) x 1). apply rsum_ext. intros q Hq.
    pose proof (sigma_skeleton_normal P (- penalty P (si_fct s)) (fun i q => - p_n P (si_fct s) i q) (fun i q => - p_nu P (si_fct s) i q)
      (si_fct s) x 1 0 (U e) (U (si_lid s)) q ltac:(auto)) as Sg. cbv beta iota in Sg. rewrite Sg. clear Sg.
    rewrite (rsum_ext dim (fun r => - _ * - _) (fun r => p_n P (si_fct s) r q * p_nu P (si_fct s) r q)) by (intros; ring).
    rewrite flux_u_form, !tr_lift, normal_unit, !Pen by auto.
    rewrite ndot_opp.
    rewrite (tr_ext N (ndot dim (fun i q => - p_n P (si_fct s) i q) (compute_K_Dx P (si_fct s) x 1)) (fun l q => - ndot dim (p_n P (si_fct s)) (compute_K_Dx P (si_fct s) x 1) l q)) by (intros; apply ndot_opp).
    rewrite (tr_ext N (ndot dim (fun i q => - p_n P (si_fct s) i q) (compute_K_Dx P (si_fct s) x 0)) (fun l q => - ndot dim (p_n P (si_fct s)) (compute_K_Dx P (si_fct s) x 0) l q)) by (intros; apply ndot_opp).
    rewrite !tr_opp.
    change (p_E P (fi_local0 x)) with (E_side P x 0). change (p_E P (fi_local1 x)) with (E_side P x 1).
    unfold epsilon. field.
Qed.
End Rows.

Lemma apply_sides_sum P fi e x0 : forall sl xn f y (g : side_info -> nat -> R), length xn = length sl ->
  (forall d s u, nth_error sl d = Some s -> nth_error xn d = Some u ->
     exists v, apply_side P fi e (f + d) s x0 u = Some v /\ forall j, v j = g s j) ->
  exists r, apply_sides P fi e f sl x0 xn y = Some r /\ forall j, r j = y j + lsum (fun s => g s j) sl.
Proof.
  induction sl as [|s sl IH]; intros xn f y g L H.
  - exists y. split; [reflexivity|]. intro. cbn. ring.
  - destruct xn as [|u xn]; [discriminate|]. cbn [apply_sides].
    destruct (H 0%nat s u eq_refl eq_refl) as (v & Ev & Hv). rewrite Nat.add_0_r in Ev. rewrite Ev.
    destruct (IH xn (f + 1)%nat (fun k => y k + v k) g) as (r & Er & Hr).
    + cbn in L. lia.
    + intros d s' u' Es Eu. destruct (H (S d) s' u' Es Eu) as (v' & Ev' & Hv'). exists v'. split; auto.
      replace (f + 1 + d)%nat with (f + S d)%nat by lia. auto.
    + exists r. split; auto. intro j. rewrite Hr, Hv. cbn. ring.
Qed.

Lemma apply_volume_mul P el U k :
  apply_volume P el U k = rsum (p_N P) (fun l => assemble_volume P el k l * U l).
Proof.
  unfold apply_volume, assemble_volume, J_W_K.
  rewrite (rsum_ext (p_N P) _ (fun l => rsum (p_Nq P) (fun q => rsum (p_N P) (fun m => rsum (p_dim P) (fun i =>
    p_J P el q * p_W P q * p_K P el m * p_matEQ P q m * Dx_Q P el k i q * Dx_Q P el l i q)) * U l))).
  2: { intros. rewrite <- rsum_scale_r. reflexivity. }
  symmetry. rewrite rsum_swap. apply rsum_ext. intros q _. symmetry. rewrite rsum_swap. apply rsum_ext. intros l _.
  symmetry. rewrite rsum_swap. symmetry. rewrite <- rsum_scale_r. apply rsum_ext. intros r _.
  rewrite <- !rsum_scale_r. apply rsum_ext. intros. ring.
Qed.

(** C26a: on every rank, for every local element and every block vector U, matrix-free application is
    the element's row of the assembled matrix times U: interior facets seen from either side, faults,
    Dirichlet and natural boundaries. *)
Theorem apply_matches_assembly : forall P k m fi wr t e sl U,
  topo_ok k m -> facet_table k m = Some fi -> interleaving (all_side_writes k fi) wr -> do_writes (fresh_sides k m) wr = Some t ->
  p_method P = IP -> (forall i, (i < tm_num_local_facets m)%nat -> normal_ok P i) -> (forall x, In x fi -> bc_fits x) ->
  (e < tm_num_local m)%nat -> map_opt (fun d => nth_error t (e * (k + 1) + d)) (seq 0 (k + 1)) = Some sl ->
  exists y, poisson_apply P fi e sl (U e) (map (fun s => U (si_lid s)) sl) = Some y /\
    forall j, y j = row_times (p_N P) (assemble m fi (poisson_mat P)) U e j.
Proof.
  intros P k m fi wr t e sl U O Efi Iw Et Ip Nm Bc He Esl.
  destruct (slots_of k m fi wr t O Efi Iw Et e He) as (sl' & Lsl & Esl' & _ & _ & Sl). assert (sl' = sl) by congruence. subst sl'.
  destruct (apply_sides_sum P fi e (U e) sl (map (fun s => U (si_lid s)) sl) 0 (apply_volume P e (U e))
    (fun s j => slot_part fi (p_N P) (poisson_mat P) U e j s)) as (r & Er & Hr).
  - apply map_length.
  - intros d s u Es Eu. destruct (Sl d s Es) as (_ & Hl & x & Ex & Ebc & In0 & C & In1 & _).
    rewrite nth_error_map, Es in Eu. cbn in Eu. injection Eu as <-.
    destruct (side_matches P Ip fi e d s x U) as (y & Ey & Hy); auto. { apply Bc. eapply nth_error_In; eauto. }
    exists y. split; auto. intro j. unfold slot_part. rewrite Ex. auto.
  - exists r. split; auto. intro j. rewrite Hr, (row_by_slots k m fi wr t O Efi Iw Et (p_N P) (poisson_mat P) U e sl j He Esl).
    cbn [a_volume a_post poisson_mat]. rewrite apply_volume_mul, Rplus_0_r. reflexivity.
Qed.
Print Assumptions apply_matches_assembly.

(** * Symmetry *)
Lemma inverse_mass_sym P el : (forall a b, p_MinvRef P a b = p_MinvRef P b a) -> forall k l, inverse_mass P el k l = inverse_mass P el l k.
Proof.
  intros H k l. unfold inverse_mass. rewrite rsum_swap. apply rsum_ext. intros s _. apply rsum_ext. intros r _.
  apply rsum_ext. intros q _. rewrite (H k r), (H s l). ring.
Qed.
(** Facet integral of basis functions against a component of the normal. *)
Definition fint (P : pdata) (fct i : nat) (Ea Eb : nat -> nat -> R) (k l : nat) : R :=
  rsum (p_nq P) (fun q => p_w P q * Ea k q * Eb l q * p_n P fct i q).
Lemma Lift_form P c fct x s y l i u : Lift P c fct x s y l i u =
  c * rsum (p_N P) (fun t => inverse_mass P (up_side x s) u t * fint P fct i (E_side P x s) (E_side P x y) t l).
Proof.
  unfold Lift, fint. rewrite <- rsum_scale. apply rsum_ext. intros t _. rewrite <- !rsum_scale. apply rsum_ext. intros. ring.
Qed.
(** The lifting term of BR2 for material constant along the facet. *)
Lemma br2_term P c fct x s a b k l K :
  rsum (p_nq P) (fun q => p_w P q * E_side P x a k q * rsum (p_dim P) (fun i => p_n P fct i q *
    rsum (p_N P) (fun u => K * E_side P x s u q * Lift P c fct x s b l i u))) =
  c * K * rsum (p_dim P) (fun i => rsum (p_N P) (fun u => rsum (p_N P) (fun t =>
    fint P fct i (E_side P x a) (E_side P x s) k u * inverse_mass P (up_side x s) u t * fint P fct i (E_side P x s) (E_side P x b) t l))).
Proof.
  transitivity (rsum (p_dim P) (fun i => rsum (p_N P) (fun u => K * fint P fct i (E_side P x a) (E_side P x s) k u * Lift P c fct x s b l i u))).
  - rewrite (rsum_ext (p_nq P) _ (fun q => rsum (p_dim P) (fun i => rsum (p_N P) (fun u =>
      K * (p_w P q * E_side P x a k q * E_side P x s u q * p_n P fct i q) * Lift P c fct x s b l i u)))).
    2: { intros q _. rewrite <- rsum_scale. apply rsum_ext. intros i _. rewrite <- !rsum_scale. apply rsum_ext. intros. ring. }
    rewrite rsum_swap. apply rsum_ext. intros i _. rewrite rsum_swap. apply rsum_ext. intros u _.
    unfold fint. rewrite rsum_scale_r, rsum_scale. reflexivity.
  - rewrite <- rsum_scale. apply rsum_ext. intros i _. rewrite <- rsum_scale. apply rsum_ext. intros u _. rewrite Lift_form.
    rewrite <- !rsum_scale. apply rsum_ext. intros. ring.
Qed.
Lemma br2_term_sym P fct x s a b k l : (forall i j, p_MinvRef P i j = p_MinvRef P j i) ->
  rsum (p_dim P) (fun i => rsum (p_N P) (fun u => rsum (p_N P) (fun t =>
    fint P fct i (E_side P x a) (E_side P x s) k u * inverse_mass P (up_side x s) u t * fint P fct i (E_side P x s) (E_side P x b) t l))) =
  rsum (p_dim P) (fun i => rsum (p_N P) (fun u => rsum (p_N P) (fun t =>
    fint P fct i (E_side P x b) (E_side P x s) l u * inverse_mass P (up_side x s) u t * fint P fct i (E_side P x s) (E_side P x a) t k))).
Proof.
  intro H. apply rsum_ext. intros i _. rewrite rsum_swap. apply rsum_ext. intros t _. apply rsum_ext. intros u _.
  rewrite (inverse_mass_sym P _ H u t).
  assert (F : forall A B p q, fint P fct i A B p q = fint P fct i B A q p) by (intros; unfold fint; apply rsum_ext; intros; ring).
  rewrite (F (E_side P x a)), (F (E_side P x s) (E_side P x b)). ring.
Qed.

(** The lifted test functions are symmetric: always for IP; for BR2 if the reference mass matrix is
    symmetric and the material is constant along the facet. *)
Definition lift_sym (P : pdata) (x : facet_info) : Prop :=
  match p_method P with
  | IP => True
  | BR2 => (forall a b, p_MinvRef P a b = p_MinvRef P b a) /\
           (forall s q q', (q < p_nq P)%nat -> (q' < p_nq P)%nat -> compute_K_q P x s q = compute_K_q P x s q')
  end.
Lemma const_factor n (f : nat -> R) : (forall q q', (q < n)%nat -> (q' < n)%nat -> f q = f q') ->
  exists c, forall q, (q < n)%nat -> f q = c.
Proof. intro H. exists (f 0%nat). intros q Hq. apply H; lia. Qed.
Definition lift_of (P : pdata) (fct : nat) (x : facet_info) (y : nat) : nat -> nat -> R :=
  match p_method P with BR2 => lift_skeleton P fct x y | IP => lift_ip P fct (E_side P x y) end.
Lemma lift_pair_sym P fct x a b k l : lift_sym P x ->
  rsum (p_nq P) (fun q => p_w P q * E_side P x a k q * lift_of P fct x b l q) =
  rsum (p_nq P) (fun q => p_w P q * E_side P x b l q * lift_of P fct x a k q).
Proof.
  unfold lift_sym, lift_of. destruct (p_method P).
  - intros _. apply rsum_ext. intros. unfold lift_ip. ring.
  - intros [Hm Hk].
    destruct (const_factor (p_nq P) (compute_K_q P x 0) (Hk 0%nat)) as [K0 HK0].
    destruct (const_factor (p_nq P) (compute_K_q P x 1) (Hk 1%nat)) as [K1 HK1].
    assert (G : forall a b k l, rsum (p_nq P) (fun q => p_w P q * E_side P x a k q * lift_skeleton P fct x b l q) =
      1 / 2 * rsum (p_nq P) (fun q => p_w P q * E_side P x a k q * rsum (p_dim P) (fun i => p_n P fct i q *
         rsum (p_N P) (fun u => K0 * E_side P x 0 u q * Lift P (1 / 2) fct x 0 b l i u))) +
      1 / 2 * rsum (p_nq P) (fun q => p_w P q * E_side P x a k q * rsum (p_dim P) (fun i => p_n P fct i q *
         rsum (p_N P) (fun u => K1 * E_side P x 1 u q * Lift P (1 / 2) fct x 1 b l i u)))).
    { intros. rewrite <- !rsum_scale, <- rsum_plus. apply rsum_ext. intros q Hq. unfold lift_skeleton. rewrite HK0, HK1 by auto.
      rewrite (rsum_ext (p_dim P) (fun i => 1 / 2 * _ * _) (fun i => 1 / 2 * (p_n P fct i q * rsum (p_N P) (fun u => K0 * E_side P x 0 u q * Lift P (1 / 2) fct x 0 b0 l0 i u))
        + 1 / 2 * (p_n P fct i q * rsum (p_N P) (fun u => K1 * E_side P x 1 u q * Lift P (1 / 2) fct x 1 b0 l0 i u)))) by (intros; ring).
      rewrite rsum_plus, !rsum_scale. ring. }
    rewrite !G, !br2_term. rewrite (br2_term_sym P fct x 0 a b), (br2_term_sym P fct x 1 a b) by auto. reflexivity.
Qed.
Lemma surface_split P fct c0 c1 c2 KDa KDb Ea Eb Lb k l :
  surface P fct c0 c1 c2 KDa KDb Ea Eb Lb k l =
  c0 * rsum (p_nq P) (fun q => p_w P q * (ndot (p_dim P) (p_n P fct) KDa k q * Eb l q)) +
  c1 * rsum (p_nq P) (fun q => p_w P q * (ndot (p_dim P) (p_n P fct) KDb l q * Ea k q)) +
  c2 * rsum (p_nq P) (fun q => p_w P q * Ea k q * Lb l q).
Proof.
  rewrite surface_form, <- !rsum_scale, <- !rsum_plus. apply rsum_ext. intros. ring.
Qed.

(** C26b: the blocks the operator assembles are symmetric: an element's block, the four blocks of an
    interior facet (the off-diagonal ones transposes of each other), a boundary facet's block. *)
Theorem blocks_symmetric : forall P,
  (forall el k l, assemble_volume P el k l = assemble_volume P el l k) /\
  (forall fct x A00 A01 A10 A11, lift_sym P x -> assemble_skeleton P fct x = (A00, A01, A10, A11) -> forall k l,
     A00 k l = A00 l k /\ A11 k l = A11 l k /\ A01 k l = A10 l k) /\
  (forall fct x A, lift_sym P x -> assemble_boundary P fct x = Some A -> forall k l, A k l = A l k).
Proof.
  intro P. split; [|split].
  - intros. unfold assemble_volume. apply rsum_ext. intros. apply rsum_ext. intros. apply rsum_ext. intros. ring.
  - intros fct x A00 A01 A10 A11 LS E k l. unfold assemble_skeleton in E. fold (lift_of P fct x) in E.
    change (fun y => match p_method P with IP => lift_ip P fct (E_side P x y) | BR2 => lift_skeleton P fct x y end) with (lift_of P fct x) in E.
    cbv zeta in E.
    injection E as <- <- <- <-. rewrite !surface_split.
    pose proof (lift_pair_sym P fct x 0 0 k l LS) as S0. pose proof (lift_pair_sym P fct x 1 1 k l LS) as S1.
    pose proof (lift_pair_sym P fct x 0 1 k l LS) as S2. unfold lift_of in *. rewrite S0, S1, S2. unfold epsilon. split; [|split]; field.
  - intros fct x A LS E k l. unfold assemble_boundary in E. destruct (fi_bc x =? BC_Natural); [discriminate|]. injection E as <-.
    rewrite !surface_split. unfold lift_sym in LS.
    assert (S : rsum (p_nq P) (fun q => p_w P q * E_side P x 0 k q * (match p_method P with BR2 => lift_boundary P fct x | IP => lift_ip P fct (E_side P x 0) end) l q) =
      rsum (p_nq P) (fun q => p_w P q * E_side P x 0 l q * (match p_method P with BR2 => lift_boundary P fct x | IP => lift_ip P fct (E_side P x 0) end) k q)).
    { destruct (p_method P).
      - apply rsum_ext. intros. unfold lift_ip. ring.
      - destruct LS as [Hm Hk]. destruct (const_factor (p_nq P) (compute_K_q P x 0) (Hk 0%nat)) as [K0 HK0].
        assert (G : forall k l, rsum (p_nq P) (fun q => p_w P q * E_side P x 0 k q * lift_boundary P fct x l q) =
          rsum (p_nq P) (fun q => p_w P q * E_side P x 0 k q * rsum (p_dim P) (fun i => p_n P fct i q *
            rsum (p_N P) (fun u => K0 * E_side P x 0 u q * Lift P 1 fct x 0 0 l i u)))).
        { intros. apply rsum_ext. intros q Hq. unfold lift_boundary. rewrite HK0 by auto. f_equal. apply rsum_ext. intros i _.
          rewrite <- rsum_scale. apply rsum_ext. intros. ring. }
        rewrite !G, !br2_term. rewrite (br2_term_sym P fct x 0 0 0) by auto. reflexivity. }
    rewrite S. unfold epsilon. field.
Qed.
Print Assumptions blocks_symmetric.

(** * Constants *)
(** c are the coefficients of the constant function 1 in the reference element. *)
Definition constant_one (P : pdata) (c : nat -> R) : Prop :=
  (forall e q, rsum (p_N P) (fun l => p_DxiQ P l e q * c l) = 0) /\
  (forall f e q, rsum (p_N P) (fun l => p_Dxi P f l e q * c l) = 0) /\
  (forall f q, rsum (p_N P) (fun l => p_E P f l q * c l) = 1).

Lemma const_K_Dx P c fct x s q : constant_one P c -> tr (p_N P) (ndot (p_dim P) (p_n P fct) (compute_K_Dx P fct x s)) c q = 0.
Proof.
  intros (_ & Hd & _).
  rewrite <- flux_normal. apply rsum_zero. intros r _.
  assert (Z : rsum (p_N P) (fun l => compute_K_Dx P fct x s l r q * c l) = 0); [|rewrite Z; ring].
  rewrite (rsum_ext _ _ (fun l => rsum (p_dim P) (fun e => K_G P fct x s e r q * (p_Dxi P (match s with O => fi_local0 x | _ => fi_local1 x end) l e q * c l)))).
  - rewrite rsum_swap. apply rsum_zero. intros e _. rewrite rsum_scale, Hd. ring.
  - intros l _. rewrite <- (K_G_Dxi P fct x s _ l r q eq_refl), <- rsum_scale_r. apply rsum_ext. intros. ring.
Qed.
Lemma const_E P c x s q : constant_one P c -> tr (p_N P) (E_side P x s) c q = 1.
Proof. intros (_ & _ & He). apply He. Qed.
Lemma const_lift P c fct x q : constant_one P c -> tr (p_N P) (lift_of P fct x 0) c q = tr (p_N P) (lift_of P fct x 1) c q.
Proof.
  intro C. unfold lift_of. destruct (p_method P).
  - rewrite !tr_lift, !const_E by auto. reflexivity.
  - unfold tr, lift_skeleton.
    assert (G : forall y, rsum (p_N P) (fun l => rsum (p_dim P) (fun i => 1 / 2 * p_n P fct i q *
        (rsum (p_N P) (fun u => compute_K_q P x 0 q * E_side P x 0 u q * Lift P (1 / 2) fct x 0 y l i u) +
         rsum (p_N P) (fun u => compute_K_q P x 1 q * E_side P x 1 u q * Lift P (1 / 2) fct x 1 y l i u))) * c l) =
      rsum (p_dim P) (fun i => 1 / 2 * p_n P fct i q *
        (rsum (p_N P) (fun u => compute_K_q P x 0 q * E_side P x 0 u q * rsum (p_N P) (fun l => Lift P (1 / 2) fct x 0 y l i u * c l)) +
         rsum (p_N P) (fun u => compute_K_q P x 1 q * E_side P x 1 u q * rsum (p_N P) (fun l => Lift P (1 / 2) fct x 1 y l i u * c l))))).
    { intro y. rewrite (rsum_ext (p_N P) _ (fun l => rsum (p_dim P) (fun i => 1 / 2 * p_n P fct i q *
        (rsum (p_N P) (fun u => compute_K_q P x 0 q * E_side P x 0 u q * Lift P (1 / 2) fct x 0 y l i u) +
         rsum (p_N P) (fun u => compute_K_q P x 1 q * E_side P x 1 u q * Lift P (1 / 2) fct x 1 y l i u)) * c l))).
      2: { intros. rewrite <- rsum_scale_r. reflexivity. }
      rewrite rsum_swap. apply rsum_ext. intros i _.
      rewrite (rsum_ext (p_N P) _ (fun l => 1 / 2 * p_n P fct i q * (rsum (p_N P) (fun u => compute_K_q P x 0 q * E_side P x 0 u q * Lift P (1 / 2) fct x 0 y l i u) * c l)
         + 1 / 2 * p_n P fct i q * (rsum (p_N P) (fun u => compute_K_q P x 1 q * E_side P x 1 u q * Lift P (1 / 2) fct x 1 y l i u) * c l))) by (intros; ring).
      rewrite rsum_plus, !rsum_scale.
      assert (S : forall s, rsum (p_N P) (fun l => rsum (p_N P) (fun u => compute_K_q P x s q * E_side P x s u q * Lift P (1 / 2) fct x s y l i u) * c l) =
        rsum (p_N P) (fun u => compute_K_q P x s q * E_side P x s u q * rsum (p_N P) (fun l => Lift P (1 / 2) fct x s y l i u * c l))).
      { intro s. rewrite (rsum_ext _ _ (fun l => rsum (p_N P) (fun u => compute_K_q P x s q * E_side P x s u q * (Lift P (1 / 2) fct x s y l i u * c l)))).
        - rewrite rsum_swap. apply rsum_ext. intros. apply rsum_scale.
        - intros. rewrite <- rsum_scale_r. apply rsum_ext. intros. ring. }
      rewrite !S. ring. }
    rewrite !G.
    assert (W : forall s i u y, rsum (p_N P) (fun l => Lift P (1 / 2) fct x s y l i u * c l) =
      rsum (p_N P) (fun t => rsum (p_nq P) (fun q => 1 / 2 * inverse_mass P (up_side x s) u t * E_side P x s t q * p_n P fct i q * p_w P q))).
    { intros s i u y. unfold Lift. rewrite (rsum_ext _ _ (fun l => rsum (p_N P) (fun t => rsum (p_nq P) (fun q =>
        1 / 2 * inverse_mass P (up_side x s) u t * E_side P x s t q * p_n P fct i q * p_w P q * (E_side P x y l q * c l))))).
      - rewrite rsum_swap. apply rsum_ext. intros t _. rewrite rsum_swap. apply rsum_ext. intros q' _. rewrite rsum_scale.
        pose proof (const_E P c x y q' C) as E1. unfold tr in E1. rewrite E1. ring.
      - intros l _. rewrite <- rsum_scale_r. apply rsum_ext. intros t _. rewrite <- rsum_scale_r. apply rsum_ext. intros. ring. }
    apply rsum_ext. intros i _. f_equal. f_equal; apply rsum_ext; intros u _; rewrite !W; reflexivity.
Qed.

(** C26c: constants are in the kernel of the element and interior-facet contributions: the row of an
    element all of whose boundary facets are natural vanishes on them. *)
Theorem constants_in_kernel : forall P k m fi wr t e sl c,
  topo_ok k m -> facet_table k m = Some fi -> interleaving (all_side_writes k fi) wr -> do_writes (fresh_sides k m) wr = Some t ->
  constant_one P c -> (e < tm_num_local m)%nat ->
  map_opt (fun d => nth_error t (e * (k + 1) + d)) (seq 0 (k + 1)) = Some sl ->
  (forall s, In s sl -> si_lid s = e -> si_bc s = BC_Natural) ->
  forall j, row_times (p_N P) (assemble m fi (poisson_mat P)) (fun _ => c) e j = 0.
Proof.
  intros P k m fi wr t e sl c O Efi Iw Et C He Esl Nat_ j.
  rewrite (row_by_slots k m fi wr t O Efi Iw Et (p_N P) (poisson_mat P) (fun _ => c) e sl j He Esl).
  cbn [a_volume a_post poisson_mat]. rewrite <- apply_volume_mul, Rplus_0_r.
  destruct (slots_of k m fi wr t O Efi Iw Et e He) as (sl' & Lsl & Esl' & _ & _ & Sl). assert (sl' = sl) by congruence. subst sl'.
  assert (V : apply_volume P e c j = 0).
  { unfold apply_volume. apply rsum_zero. intros q _. apply rsum_zero. intros r _.
    rewrite (rsum_ext _ _ (fun l => J_W_K P e q * Dx_Q P e j r q * (Dx_Q P e l r q * c l))) by (intros; ring). rewrite rsum_scale.
    assert (Z : rsum (p_N P) (fun l => Dx_Q P e l r q * c l) = 0); [|rewrite Z; ring].
    unfold Dx_Q. rewrite (rsum_ext _ _ (fun l => rsum (p_dim P) (fun f => p_GQ P e f r q * (p_DxiQ P l f q * c l)))).
    - rewrite rsum_swap. apply rsum_zero. intros f _. destruct C as (Hd & _). rewrite rsum_scale, Hd. ring.
    - intros. rewrite <- rsum_scale_r. apply rsum_ext. intros. ring. }
  rewrite V, Rplus_0_l. apply lsum_zero. intros s Hs. apply In_nth_error in Hs as [d Hd].
  destruct (Sl d s Hd) as (_ & Hl & x & Ex & Ebc & In0 & Cs & In1 & _). unfold slot_part. rewrite Ex.
  unfold assemble_facet. destruct Cs as [U0 U1 Ul L0 | U0 U1 Ne L0 L1 Sd | U1 U0 Ne L1 L0 Sd].
  - rewrite U0, U1, Nat.eqb_refl, In0. cbn [negb a_boundary poisson_mat]. unfold assemble_boundary. rewrite <- Ebc, (Nat_ s); auto.
    eapply nth_error_In; eauto.
  - rewrite U0, U1. destruct (Nat.eqb_spec e (si_lid s)) as [|_]; [contradiction|].
    cbn [negb a_skeleton poisson_mat if_some]. unfold assemble_skeleton. rewrite In0. cbv zeta. unfold row_times.
    rewrite lsum_app. cbn [lsum]. rewrite !Nat.eqb_refl.
    replace (lsum _ (if fi_inside1 x then _ else [])) with 0.
    2: { destruct (fi_inside1 x); cbn [lsum]; [|reflexivity]. destruct (Nat.eqb_spec (si_lid s) e); [congruence|ring]. }
    rewrite !surface_mul, !Rplus_0_r, <- rsum_plus. apply rsum_zero. intros q _.
    pose proof (const_lift P c (si_fct s) x q C) as CL. unfold lift_of in CL. rewrite !const_K_Dx, !const_E, CL by auto. field.
  - rewrite U0, U1. destruct (Nat.eqb_spec (si_lid s) e) as [|_]; [congruence|].
    cbn [negb a_skeleton poisson_mat if_some]. unfold assemble_skeleton. rewrite In0, (In1 U1). cbv zeta. unfold row_times.
    rewrite lsum_app. cbn [lsum]. rewrite !Nat.eqb_refl. destruct (Nat.eqb_spec (si_lid s) e) as [|_]; [congruence|].
    rewrite !surface_mul, !Rplus_0_r, !Rplus_0_l, <- rsum_plus. apply rsum_zero. intros q _.
    pose proof (const_lift P c (si_fct s) x q C) as CL. unfold lift_of in CL. rewrite !const_K_Dx, !const_E, CL by auto. field.
Qed.
Print Assumptions constants_in_kernel.

(** * Right-hand side and traction *)
(** C26d: with f the prescribed jump of an interior facet (slip or Dirichlet data), the facet's part
    of the residual A u - b depends on the traces only through the deviation of the jump from f and
    the traction the operator reports; the traction enters the two sides with opposite signs. *)
Theorem residual_is_traction : forall P fct x A00 A01 A10 A11 B0 B1 T u0 u1,
  p_method P = IP -> normal_ok P fct ->
  assemble_skeleton P fct x = (A00, A01, A10, A11) -> rhs_skeleton P fct x = Some (B0, B1) ->
  traction_skeleton P fct x u0 u1 = Some T ->
  exists f, bc_skeleton P fct (fi_bc x) = Some f /\ forall k,
    let N := p_N P in let dim := p_dim P in
    let mism q := tr N (E_side P x 0) u0 q - tr N (E_side P x 1) u1 q - f q in
    let flux q := rsum dim (fun r => p_n P fct r q * T r q) in
    rsum N (fun l => A00 k l * u0 l) + rsum N (fun l => A01 k l * u1 l) - B0 k =
      rsum (p_nq P) (fun q => p_w P q * (- E_side P x 0 k q * flux q - 1 / 2 * ndot dim (p_n P fct) (compute_K_Dx P fct x 0) k q * mism q)) /\
    rsum N (fun l => A10 k l * u0 l) + rsum N (fun l => A11 k l * u1 l) - B1 k =
      rsum (p_nq P) (fun q => p_w P q * (E_side P x 1 k q * flux q - 1 / 2 * ndot dim (p_n P fct) (compute_K_Dx P fct x 1) k q * mism q)).
Proof.
  intros P fct x A00 A01 A10 A11 B0 B1 T u0 u1 Ip Nm EA EB ET.
  unfold rhs_skeleton in EB. unfold traction_skeleton in ET. destruct (bc_skeleton P fct (fi_bc x)) as [f|]; [|discriminate].
  exists f. split; auto. intro k. cbv zeta. unfold assemble_skeleton in EA. rewrite Ip in EA, EB. cbv zeta in EA.
  injection EA as <- <- <- <-. injection EB as <- <-. injection ET as <-.
  assert (Pen : penalty P fct = p_pen P fct) by (unfold penalty; rewrite Ip; reflexivity).
  assert (Rf : forall c1 c2 s, rhs_facet_kernel P fct c1 c2 (compute_K_Dx P fct x s) (E_side P x s) f (rhs_lift_ip P fct f) k =
    rsum (p_nq P) (fun q => p_w P q * (c1 * (ndot (p_dim P) (p_n P fct) (compute_K_Dx P fct x s) k q * f q) + c2 * (E_side P x s k q * (p_nl P fct q * f q))))).
  { intros. unfold rhs_facet_kernel, rhs_lift_ip, ndot. rewrite <- rsum_plus. apply rsum_ext. intros q _.
    rewrite (rsum_ext _ _ (fun i => (c1 * p_w P q * f q) * (p_n P fct i q * compute_K_Dx P fct x s k i q))) by (intros; ring).
    rewrite rsum_scale. ring. }
  assert (Fl : forall q, (q < p_nq P)%nat -> rsum (p_dim P) (fun r => p_n P fct r q *
      (1 / 2 * (rsum (p_N P) (fun l => compute_K_Dx P fct x 0 l r q * u0 l) + rsum (p_N P) (fun l => compute_K_Dx P fct x 1 l r q * u1 l)) +
       - penalty P fct * (rsum (p_N P) (fun l => E_side P x 0 l q * u0 l) - rsum (p_N P) (fun l => E_side P x 1 l q * u1 l) - f q) * p_nu P fct r q)) =
    1 / 2 * (tr (p_N P) (ndot (p_dim P) (p_n P fct) (compute_K_Dx P fct x 0)) u0 q + tr (p_N P) (ndot (p_dim P) (p_n P fct) (compute_K_Dx P fct x 1)) u1 q)
    - p_pen P fct * (tr (p_N P) (E_side P x 0) u0 q - tr (p_N P) (E_side P x 1) u1 q - f q) * p_nl P fct q).
  { intros q Hq. rewrite (rsum_ext _ _ (fun r => 1 / 2 * (p_n P fct r q * rsum (p_N P) (fun l => compute_K_Dx P fct x 0 l r q * u0 l))
      + 1 / 2 * (p_n P fct r q * rsum (p_N P) (fun l => compute_K_Dx P fct x 1 l r q * u1 l))
      + - penalty P fct * (tr (p_N P) (E_side P x 0) u0 q - tr (p_N P) (E_side P x 1) u1 q - f q) * (p_n P fct r q * p_nu P fct r q))).
    - rewrite !rsum_plus, !rsum_scale, !flux_normal, normal_unit, Pen by auto. ring.
    - intros. unfold tr. ring. }
  repeat change (K_Dx P (fi_up0 x) (p_G0 P fct) (fi_local0 x)) with (compute_K_Dx P fct x 0).
  repeat change (K_Dx P (fi_up1 x) (p_G1 P fct) (fi_local1 x)) with (compute_K_Dx P fct x 1).
  rewrite !surface_mul, !Rf. rewrite <- !rsum_plus, <- !rsum_minus. split; apply rsum_ext; intros q Hq; rewrite Fl by auto;
    rewrite !tr_lift, ?Pen; unfold epsilon; field.
Qed.
Print Assumptions residual_is_traction.
(** The same on the boundary. *)
Theorem residual_is_traction_boundary : forall P fct x A B T u,
  p_method P = IP -> normal_ok P fct ->
  assemble_boundary P fct x = Some A -> rhs_boundary P fct x = Some B -> traction_boundary P fct x u = Some T ->
  exists f, bc_boundary P fct (fi_bc x) = Some f /\ forall k,
    let N := p_N P in let dim := p_dim P in
    let mism q := tr N (E_side P x 0) u q - f q in
    let flux q := rsum dim (fun r => p_n P fct r q * T r q) in
    rsum N (fun l => A k l * u l) - B k =
      rsum (p_nq P) (fun q => p_w P q * (- E_side P x 0 k q * flux q - ndot dim (p_n P fct) (compute_K_Dx P fct x 0) k q * mism q)).
Proof.
  intros P fct x A B T u Ip Nm EA EB ET.
  unfold rhs_boundary in EB. unfold traction_boundary in ET. destruct (bc_boundary P fct (fi_bc x)) as [f|]; [|discriminate].
  exists f. split; auto. intro k. cbv zeta. unfold assemble_boundary in EA. destruct (fi_bc x =? BC_Natural); [discriminate|].
  rewrite Ip in EA, EB. injection EA as <-. injection EB as <-. injection ET as <-.
  assert (Pen : penalty P fct = p_pen P fct) by (unfold penalty; rewrite Ip; reflexivity).
  assert (Rf : forall c1 c2 s, rhs_facet_kernel P fct c1 c2 (compute_K_Dx P fct x s) (E_side P x s) f (rhs_lift_ip P fct f) k =
    rsum (p_nq P) (fun q => p_w P q * (c1 * (ndot (p_dim P) (p_n P fct) (compute_K_Dx P fct x s) k q * f q) + c2 * (E_side P x s k q * (p_nl P fct q * f q))))).
  { intros. unfold rhs_facet_kernel, rhs_lift_ip, ndot. rewrite <- rsum_plus. apply rsum_ext. intros q _.
    rewrite (rsum_ext _ _ (fun i => (c1 * p_w P q * f q) * (p_n P fct i q * compute_K_Dx P fct x s k i q))) by (intros; ring).
    rewrite rsum_scale. ring. }
  assert (Fl : forall q, (q < p_nq P)%nat -> rsum (p_dim P) (fun r => p_n P fct r q *
      (rsum (p_N P) (fun l => compute_K_Dx P fct x 0 l r q * u l) +
       - penalty P fct * (rsum (p_N P) (fun l => E_side P x 0 l q * u l) - f q) * p_nu P fct r q)) =
    tr (p_N P) (ndot (p_dim P) (p_n P fct) (compute_K_Dx P fct x 0)) u q
    - p_pen P fct * (tr (p_N P) (E_side P x 0) u q - f q) * p_nl P fct q).
  { intros q Hq. rewrite (rsum_ext _ _ (fun r => (p_n P fct r q * rsum (p_N P) (fun l => compute_K_Dx P fct x 0 l r q * u l))
      + - penalty P fct * (tr (p_N P) (E_side P x 0) u q - f q) * (p_n P fct r q * p_nu P fct r q))).
    - rewrite !rsum_plus, !rsum_scale, !flux_normal, normal_unit, Pen by auto. ring.
    - intros. unfold tr. ring. }
  repeat change (K_Dx P (fi_up0 x) (p_G0 P fct) (fi_local0 x)) with (compute_K_Dx P fct x 0).
  rewrite !surface_mul, !Rf. rewrite <- !rsum_minus. apply rsum_ext; intros q Hq; rewrite Fl by auto.
  rewrite !tr_lift, ?Pen. unfold epsilon. field.
Qed.
Print Assumptions residual_is_traction_boundary.
