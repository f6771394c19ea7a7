(** Property theorems: the elasticity operator, matrix-free and assembled (C55). *)
Require Import List Arith Lia Bool Reals Lra.
Require Import Verif.Base Verif.LinAlg Verif.LocalMeshModel Verif.LocalMeshProps Verif.TopoModel Verif.TopoSpec Verif.TopoProofs
  Verif.TopoProps Verif.AssembleModel Verif.ApplyModel Verif.MatFree Verif.MatFreeRhs Verif.PoissonModel Verif.PoissonProps
  Verif.ElasticityModel Verif.ElasticitySpec Verif.ElasticityProofs.
Import ListNotations.
Local Open Scope R_scope.

Section Rows.
Variable E : edata.
Local Notation P := (e_geo E).
Local Notation N := (p_N P). Local Notation dim := (p_dim P). Local Notation nq := (p_nq P).
Local Notation NB := (block_size E).
Hypothesis Ip : p_method P = IP.

Lemma pen_ip f : penalty P f = p_pen P f.
Proof. unfold penalty. rewrite Ip. reflexivity. Qed.

(** Sums over the components with a factor in front. *)
Lemma top_half c g h n lam mu Dx k p q :
  rsum dim (fun u => (c * (- g u + h u)) * traction_op E n lam mu Dx k p u q) =
  c * (- rsum dim (fun u => g u * traction_op E n lam mu Dx k p u q) + rsum dim (fun u => h u * traction_op E n lam mu Dx k p u q)).
Proof.
  rewrite (rsum_ext dim _ (fun u => (- c) * (g u * traction_op E n lam mu Dx k p u q) + c * (h u * traction_op E n lam mu Dx k p u q))) by (intros; ring).
  rewrite rsum_plus, !rsum_scale. ring.
Qed.
Lemma top_opp_sum g n lam mu Dx k p q :
  rsum dim (fun u => g u * traction_op E (fun i q => - n i q) lam mu Dx k p u q) = - rsum dim (fun u => g u * traction_op E n lam mu Dx k p u q).
Proof.
  rewrite (rsum_ext dim _ (fun u => -1 * (g u * traction_op E n lam mu Dx k p u q))) by (intros; rewrite top_opp; ring).
  rewrite rsum_scale. ring.
Qed.
Lemma top_split g h c n lam mu Dx k p q :
  rsum dim (fun u => (g u + c * h u) * traction_op E n lam mu Dx k p u q) =
  rsum dim (fun u => g u * traction_op E n lam mu Dx k p u q) + c * rsum dim (fun u => h u * traction_op E n lam mu Dx k p u q).
Proof. rewrite <- rsum_scale, <- rsum_plus. apply rsum_ext. intros. ring. Qed.

(** What a slot contributes to A u, and to A u - b. *)
Definition slot_value (rhs : bool) (fct : nat) (x : facet_info) (U : nat -> nat -> R) (e j : nat) : R :=
  row_times NB (assemble_facet (elasticity_mat E) fct x) U e j -
  if rhs then vec_row (rhs_facet (elasticity_vec E) fct x) e j else 0.

Lemma side_matches rhs fi e d s x U : normal_ok P (si_fct s) -> bc_fits x -> nth_error fi (si_fct s) = Some x ->
  si_bc s = fi_bc x -> fi_inside0 x = true -> (fi_up1 x = e -> fi_inside1 x = true) -> slot_case e d s x ->
  exists y, apply_side E rhs fi e d s (U e) (U (si_lid s)) = Some y /\
    forall j, (j < NB)%nat -> y j = slot_value rhs (si_fct s) x U e j.
Proof.
  intros Nm (Bv & Bi & Bb) Ex Ebc In0 In1 C. unfold apply_side. rewrite Ex, Ebc. unfold slot_value.
  destruct C as [U0 U1 Ul L0 | U0 U1 Ne L0 L1 Sd | U1 U0 Ne L1 L0 Sd].
  - (* boundary *)
    rewrite Ul, Nat.eqb_refl. cbn [negb andb orb]. specialize (Bb ltac:(congruence)).
    unfold assemble_facet, rhs_facet. rewrite U0, U1, Nat.eqb_refl, In0. cbn [negb a_boundary elasticity_mat r_boundary elasticity_vec].
    unfold assemble_boundary, rhs_boundary. rewrite Ip.
    destruct (Nat.eqb_spec (fi_bc x) BC_None) as [|_]; [contradiction|].
    assert (D : fi_bc x = BC_Natural \/ ((fi_bc x =? BC_Fault) || (fi_bc x =? BC_Dirichlet) = true /\ (fi_bc x =? BC_Natural) = false)).
    { destruct Bv as [B|[B|[B|B]]]; [contradiction| left; auto | right | right]; rewrite B; split; reflexivity. }
    cbn [orb]. destruct D as [Dn | [Dt Df]].
    + rewrite Dn. cbn. exists (fun _ => 0). split; auto. intros. destruct rhs; unfold vec_row, row_times; cbn; lra.
    + rewrite Dt, Df. subst d. change (p_E P (fi_local0 x)) with (E_side P x 0).
      assert (M : forall j, (j < NB)%nat -> row_times NB [(e, e, surface E (-1) epsilon (penalty P (si_fct s)) (E_side P x 0) (E_side P x 0)
          (traction_op_side E (si_fct s) x 0) (traction_op_side E (si_fct s) x 0) (lift_ip E (si_fct s) (E_side P x 0)))] U e j =
        apply_facet E (p_n P (si_fct s)) (lam_q E x 0) (mu_q E x 0) (G_side E (si_fct s) 0) (fi_local0 x) (flux_u_boundary E (E_side P x 0) (U e))
          (flux_sigma_boundary E (- penalty P (si_fct s)) (lam_q E x 0) (mu_q E x 0) (G_side E (si_fct s) 0) (fi_local0 x) (p_nu P (si_fct s)) (U e)) j).
      { intros j Hj. unfold row_times. cbn [lsum]. rewrite Nat.eqb_refl, Rplus_0_r. unfold traction_op_side.
        rewrite surface_mul, apply_facet_form by auto. apply rsum_ext. intros q Hq.
        rewrite sigma_boundary_normal, normal_unit, !pen_ip by auto.
        rewrite (rsum_ext dim (fun u => flux_u_boundary _ _ _ _ _ * _) (fun u => -1 * (trc E (E_side P x 0) (U e) u q * traction_op E (p_n P (si_fct s)) (lam_q E x 0) (mu_q E x 0) (Dx_side E (si_fct s) x 0) (bf E j) (cp E j) u q))).
        2: { intros. rewrite flux_u_b_form. unfold Dx_side. cbn [local_side]. ring. }
        rewrite rsum_scale. change (p_E P (fi_local0 x)) with (E_side P x 0). unfold Dx_side, epsilon. cbn [local_side]. ring. }
      cbn [if_some]. destruct rhs.
      * destruct (bc_boundary E (si_fct s) (fi_bc x)) as [g|] eqn:Eg; cbn [if_some].
        -- eexists. split; [reflexivity|]. intros j Hj. rewrite M by auto. unfold vec_row. cbn [lsum]. rewrite Nat.eqb_refl, Rplus_0_r.
           rewrite rhs_kernel_form, !apply_facet_form by auto. rewrite <- rsum_minus. apply rsum_ext. intros q Hq.
           rewrite add_bc_normal, sigma_boundary_normal, normal_unit, !pen_ip by auto. unfold flux_u_add_bc. rewrite top_split.
           unfold rhs_lift_ip. change (p_E P (fi_local0 x)) with (E_side P x 0). unfold Dx_side, epsilon. cbn [local_side]. ring.
        -- eexists. split; [reflexivity|]. intros j Hj. rewrite M by auto. unfold vec_row. cbn [lsum]. ring.
      * eexists. split; [reflexivity|]. intros j Hj. rewrite M by auto. ring.
  - (* first *)
    destruct (Nat.eqb_spec e (si_lid s)) as [|_]; [contradiction|]. cbn [negb andb]. rewrite Sd. cbn [Nat.eqb].
    specialize (Bi ltac:(congruence)).
    assert (Dt : (fi_bc x =? BC_None) || ((fi_bc x =? BC_Fault) || (fi_bc x =? BC_Dirichlet)) = true).
    { destruct Bv as [B|[B|[B|B]]]; try contradiction; rewrite B; reflexivity. }
    rewrite Dt. subst d. rewrite <- L1. change (p_E P (fi_local0 x)) with (E_side P x 0). change (p_E P (fi_local1 x)) with (E_side P x 1).
    unfold assemble_facet, rhs_facet. rewrite U0, U1. destruct (Nat.eqb_spec e (si_lid s)) as [|_]; [contradiction|].
    cbn [negb a_skeleton elasticity_mat r_skeleton elasticity_vec if_some]. unfold assemble_skeleton, rhs_skeleton. rewrite Ip, In0. cbv zeta.
    set (W := apply_facet E (p_n P (si_fct s)) (lam_q E x 0) (mu_q E x 0) (G_side E (si_fct s) 0) (fi_local0 x)).
    set (uh := flux_u_skeleton E (E_side P x 0) (E_side P x 1) (U e) (U (si_lid s))).
    set (sh := flux_sigma_skeleton E (- penalty P (si_fct s)) (lam_q E x 0) (lam_q E x 1) (mu_q E x 0) (mu_q E x 1) (G_side E (si_fct s) 0) (G_side E (si_fct s) 1)
      (fi_local0 x) (fi_local1 x) (p_nu P (si_fct s)) (U e) (U (si_lid s))).
    match goal with |- context [row_times NB ?l] => set (ent := l) end.
    assert (M : forall j, (j < NB)%nat -> row_times NB ent U e j = W uh sh j).
    { intros j Hj. unfold row_times, ent. rewrite lsum_app. cbn [lsum]. rewrite !Nat.eqb_refl.
      replace (lsum _ (if fi_inside1 x then _ else [])) with 0.
      2: { destruct (fi_inside1 x); cbn [lsum]; [|reflexivity]. destruct (Nat.eqb_spec (si_lid s) e); [congruence|ring]. }
      unfold traction_op_side, W. rewrite !surface_mul, apply_facet_form, !Rplus_0_r, <- rsum_plus by auto. apply rsum_ext. intros q Hq.
      unfold sh. rewrite sigma_skeleton_normal, normal_unit, !pen_ip by auto.
      rewrite (rsum_ext dim (fun u => uh u q * _) (fun u => (1 / 2 * (- trc E (E_side P x 0) (U e) u q + trc E (E_side P x 1) (U (si_lid s)) u q)) *
         traction_op E (p_n P (si_fct s)) (lam_q E x 0) (mu_q E x 0) (Dx_side E (si_fct s) x 0) (bf E j) (cp E j) u q)).
      2: { intros. unfold uh. rewrite flux_u_form. reflexivity. }
      rewrite top_half. change (p_E P (fi_local0 x)) with (E_side P x 0). change (p_E P (fi_local1 x)) with (E_side P x 1).
      unfold Dx_side, epsilon. cbn [local_side]. field. }
    destruct rhs.
    + destruct (bc_skeleton E (si_fct s) (fi_bc x)) as [g|] eqn:Eg; cbn [if_some].
      * eexists. split; [reflexivity|]. intros j Hj. rewrite M by auto. unfold vec_row. rewrite lsum_app. cbn [lsum]. rewrite Nat.eqb_refl.
        replace (lsum _ (if fi_inside1 x then _ else [])) with 0.
        2: { destruct (fi_inside1 x); cbn [lsum]; [|reflexivity]. destruct (Nat.eqb_spec (si_lid s) e); [congruence|ring]. }
        rewrite !Rplus_0_r. unfold W. rewrite rhs_kernel_form, !apply_facet_form by auto. rewrite <- rsum_minus. apply rsum_ext. intros q Hq.
        rewrite add_bc_normal, normal_unit, !pen_ip by auto. unfold flux_u_add_bc. rewrite top_split.
        unfold rhs_lift_ip. change (p_E P (fi_local0 x)) with (E_side P x 0). unfold Dx_side, epsilon. cbn [local_side]. field.
      * eexists. split; [reflexivity|]. intros j Hj. rewrite M by auto. unfold vec_row. cbn [lsum]. ring.
    + eexists. split; [reflexivity|]. intros j Hj. rewrite M by auto. ring.
  - (* second *)
    destruct (Nat.eqb_spec e (si_lid s)) as [|_]; [contradiction|]. cbn [negb andb]. rewrite Sd. cbn [Nat.eqb].
    specialize (Bi ltac:(congruence)).
    assert (Dt : (fi_bc x =? BC_None) || ((fi_bc x =? BC_Fault) || (fi_bc x =? BC_Dirichlet)) = true).
    { destruct Bv as [B|[B|[B|B]]]; try contradiction; rewrite B; reflexivity. }
    rewrite Dt. subst d. rewrite <- L0. change (p_E P (fi_local0 x)) with (E_side P x 0). change (p_E P (fi_local1 x)) with (E_side P x 1).
    unfold assemble_facet, rhs_facet. rewrite U0, U1. destruct (Nat.eqb_spec (si_lid s) e) as [|_]; [congruence|].
    cbn [negb a_skeleton elasticity_mat r_skeleton elasticity_vec if_some]. unfold assemble_skeleton, rhs_skeleton. rewrite Ip, In0, (In1 U1). cbv zeta.
    set (n' := fun i q => - p_n P (si_fct s) i q). set (nu' := fun i q => - p_nu P (si_fct s) i q).
    set (W := apply_facet E n' (lam_q E x 1) (mu_q E x 1) (G_side E (si_fct s) 1) (fi_local1 x)).
    set (uh := flux_u_skeleton E (E_side P x 1) (E_side P x 0) (U e) (U (si_lid s))).
    set (sh := flux_sigma_skeleton E (- penalty P (si_fct s)) (lam_q E x 1) (lam_q E x 0) (mu_q E x 1) (mu_q E x 0) (G_side E (si_fct s) 1) (G_side E (si_fct s) 0)
      (fi_local1 x) (fi_local0 x) nu' (U e) (U (si_lid s))).
    assert (Nn : forall q, (q < nq)%nat -> rsum dim (fun j => n' j q * nu' j q) = p_nl P (si_fct s) q).
    { intros q Hq. rewrite <- normal_unit by auto. apply rsum_ext. intros. unfold n', nu'. ring. }
    match goal with |- context [row_times NB ?l] => set (ent := l) end.
    assert (M : forall j, (j < NB)%nat -> row_times NB ent U e j = W uh sh j).
    { intros j Hj. unfold row_times, ent. rewrite lsum_app. cbn [lsum]. rewrite !Nat.eqb_refl. destruct (Nat.eqb_spec (si_lid s) e) as [|_]; [congruence|].
      unfold traction_op_side, W. rewrite !surface_mul, apply_facet_form, !Rplus_0_r, !Rplus_0_l, <- rsum_plus by auto. apply rsum_ext. intros q Hq.
      unfold sh. rewrite sigma_skeleton_normal, Nn, !pen_ip by auto.
      rewrite (rsum_ext dim (fun u => uh u q * _) (fun u => (1 / 2 * (- trc E (E_side P x 1) (U e) u q + trc E (E_side P x 0) (U (si_lid s)) u q)) *
         traction_op E n' (lam_q E x 1) (mu_q E x 1) (Dx_side E (si_fct s) x 1) (bf E j) (cp E j) u q)).
      2: { intros. unfold uh. rewrite flux_u_form. reflexivity. }
      rewrite top_half. unfold n'. rewrite !top_opp_sum, !tct_opp. change (p_E P (fi_local0 x)) with (E_side P x 0). change (p_E P (fi_local1 x)) with (E_side P x 1).
      unfold Dx_side, epsilon. cbn [local_side]. field. }
    destruct rhs.
    + destruct (bc_skeleton E (si_fct s) (fi_bc x)) as [g|] eqn:Eg; cbn [if_some].
      * eexists. split; [reflexivity|]. intros j Hj. rewrite M by auto. unfold vec_row. rewrite lsum_app. cbn [lsum]. rewrite Nat.eqb_refl.
        destruct (Nat.eqb_spec (si_lid s) e) as [|_]; [congruence|].
        rewrite !Rplus_0_r, !Rplus_0_l. unfold W. rewrite rhs_kernel_form, !apply_facet_form by auto. rewrite <- rsum_minus. apply rsum_ext. intros q Hq.
        rewrite add_bc_normal, Nn, !pen_ip by auto. unfold flux_u_add_bc. rewrite top_split. unfold n'. rewrite !top_opp_sum.
        unfold rhs_lift_ip. change (p_E P (fi_local1 x)) with (E_side P x 1). unfold Dx_side, epsilon. cbn [local_side]. field.
      * eexists. split; [reflexivity|]. intros j Hj. rewrite M by auto. unfold vec_row. cbn [lsum]. ring.
    + eexists. split; [reflexivity|]. intros j Hj. rewrite M by auto. ring.
Qed.
End Rows.

Lemma apply_sides_sum E rhs fi e x0 (J : nat -> Prop) : forall sl xn f y (g : side_info -> nat -> R), length xn = length sl ->
  (forall d s u, nth_error sl d = Some s -> nth_error xn d = Some u ->
     exists v, apply_side E rhs fi e (f + d) s x0 u = Some v /\ forall j, J j -> v j = g s j) ->
  exists r, apply_sides E rhs fi e f sl x0 xn y = Some r /\ forall j, J j -> r j = y j + lsum (fun s => g s j) sl.
Proof.
  induction sl as [|s sl IH]; intros xn f y g L H.
  - exists y. split; [destruct xn; reflexivity|]. intros. cbn. ring.
  - destruct xn as [|u xn]; [discriminate|]. cbn [apply_sides].
    destruct (H 0%nat s u eq_refl eq_refl) as (v & Ev & Hv). rewrite Nat.add_0_r in Ev. rewrite Ev.
    destruct (IH xn (f + 1)%nat (fun k => y k + v k) g) as (r & Er & Hr).
    + cbn in L. lia.
    + intros d s' u' Es Eu. destruct (H (S d) s' u' Es Eu) as (v' & Ev' & Hv'). exists v'. split; auto.
      replace (f + 1 + d)%nat with (f + S d)%nat by lia. auto.
    + exists r. split; auto. intros j Hj. rewrite Hr, Hv by auto. cbn. ring.
Qed.

(** C55a: on every rank, for every local element and every block vector U, matrix-free application is
    the element's row of the assembled matrix times U; with right-hand side (as in the wave equation)
    it is the row of A U - b, if no body force is set: [rhs] says which. *)
Theorem elasticity_apply_matches_assembly : forall E k m fi wr t e sl U rhs,
  topo_ok k m -> facet_table k m = Some fi -> interleaving (all_side_writes k fi) wr -> do_writes (fresh_sides k m) wr = Some t ->
  p_method (e_geo E) = IP -> (forall i, (i < tm_num_local_facets m)%nat -> normal_ok (e_geo E) i) -> (forall x, In x fi -> bc_fits x) ->
  (e < tm_num_local m)%nat -> map_opt (fun d => nth_error t (e * (k + 1) + d)) (seq 0 (k + 1)) = Some sl ->
  (rhs = true -> e_force E = None) ->
  exists y, apply_rhs E rhs fi e sl (U e) (map (fun s => U (si_lid s)) sl) = Some y /\
    forall j, (j < block_size E)%nat ->
      y j = row_times (block_size E) (assemble m fi (elasticity_mat E)) U e j -
            if rhs then vec_row (AssembleModel.rhs m fi (elasticity_vec E)) e j else 0.
Proof.
  intros E k m fi wr t e sl U rhs O Efi Iw Et Ip Nm Bc He Esl Fo.
  destruct (slots_of k m fi wr t O Efi Iw Et e He) as (sl' & Lsl & Esl' & _ & _ & Sl). assert (sl' = sl) by congruence. subst sl'.
  destruct (apply_sides_sum E rhs fi e (U e) (fun j => (j < block_size E)%nat) sl (map (fun s => U (si_lid s)) sl) 0 (apply_volume E e (U e))
    (fun s j => slot_part fi (block_size E) (elasticity_mat E) U e j s - if rhs then slot_load fi (elasticity_vec E) e j s else 0)) as (r & Er & Hr).
  - apply map_length.
  - intros d s u Es Eu. destruct (Sl d s Es) as (_ & Hl & x & Ex & Ebc & In0 & C & In1 & _).
    rewrite nth_error_map, Es in Eu. cbn in Eu. injection Eu as <-.
    destruct (side_matches E Ip rhs fi e d s x U) as (y & Ey & Hy); auto. { apply Bc. eapply nth_error_In; eauto. }
    exists y. split; auto. intros j Hj. unfold slot_part, slot_load. rewrite Ex. apply Hy. auto.
  - exists r. split; auto. intros j Hj. rewrite Hr, (row_by_slots k m fi wr t O Efi Iw Et (block_size E) (elasticity_mat E) U e sl j He Esl) by auto.
    cbn [a_volume a_post elasticity_mat]. rewrite apply_volume_mul, Rplus_0_r by auto.
    destruct rhs.
    + rewrite (vec_row_by_slots k m fi wr t O Efi Iw Et (elasticity_vec E) e sl j He Esl). cbn [r_volume r_post elasticity_vec].
      unfold rhs_volume. rewrite Fo by auto.
      rewrite (lsum_ext _ (fun s => slot_part fi (block_size E) (elasticity_mat E) U e j s + -1 * slot_load fi (elasticity_vec E) e j s)) by (intros; ring).
      rewrite lsum_plus, lsum_scale. ring.
    + rewrite (lsum_ext _ (slot_part fi (block_size E) (elasticity_mat E) U e j)) by (intros; ring). ring.
Qed.
Print Assumptions elasticity_apply_matches_assembly.

(** * Symmetry *)
(** Facet integral of basis functions against a component of the normal. *)
Definition fint (P : pdata) (fct i : nat) (Ea Eb : nat -> nat -> R) (k l : nat) : R :=
  rsum (p_nq P) (fun q => p_w P q * Ea k q * Eb l q * p_n P fct i q).
(** The lifted test functions are symmetric: always for IP; for BR2 if the inverse mass matrices are
    symmetric and the material is constant along the facet. *)
Definition elastic_lift_sym (E : edata) (x : facet_info) : Prop :=
  match p_method (e_geo E) with
  | IP => True
  | BR2 => (forall el a b, e_Minv E el a b = e_Minv E el b a) /\
           (forall s q q', (q < p_nq (e_geo E))%nat -> (q' < p_nq (e_geo E))%nat -> lam_q E x s q = lam_q E x s q' /\ mu_q E x s q = mu_q E x s q')
  end.
Section Sym.
Variable E : edata.
Local Notation P := (e_geo E).
Local Notation N := (p_N P). Local Notation dim := (p_dim P). Local Notation nq := (p_nq P).
Local Notation NB := (block_size E).

Lemma Lift_form c fct x s y l i m : Lift E c fct x s y l i m =
  c * rsum N (fun o => e_Minv E (up_side x s) m o * fint P fct i (E_side P x s) (E_side P x y) o l).
Proof.
  unfold Lift, fint. rewrite <- rsum_scale. apply rsum_ext. intros o _. rewrite <- !rsum_scale. apply rsum_ext. intros. ring.
Qed.
(** F_i M F_j : facet integrals through the inverse mass matrix of side s. *)
Definition fmf (fct : nat) (x : facet_info) (s a b i j k l : nat) : R :=
  rsum N (fun m => rsum N (fun o => fint P fct i (E_side P x a) (E_side P x s) k m * e_Minv E (up_side x s) m o * fint P fct j (E_side P x s) (E_side P x b) o l)).
Lemma fmf_sym fct x s a b i j k l : (forall el a b, e_Minv E el a b = e_Minv E el b a) -> fmf fct x s a b i j k l = fmf fct x s b a j i l k.
Proof.
  intro H. unfold fmf. rewrite rsum_swap. apply rsum_ext. intros m _. apply rsum_ext. intros o _. rewrite (H _ o m).
  assert (F : forall i A B p q, fint P fct i A B p q = fint P fct i B A q p) by (intros; unfold fint; apply rsum_ext; intros; ring).
  rewrite (F i), (F j). ring.
Qed.
Lemma fmf_lift c fct x s a b i j k l :
  rsum N (fun m => fint P fct i (E_side P x a) (E_side P x s) k m * Lift E c fct x s b l j m) = c * fmf fct x s a b i j k l.
Proof.
  unfold fmf. rewrite <- rsum_scale. apply rsum_ext. intros m _. rewrite Lift_form, <- !rsum_scale. apply rsum_ext. intros. ring.
Qed.
(** The lifting term of BR2 for material constant along the facet. *)
Lemma br2_term c fct x s a b k p l u la mu : (p < dim)%nat -> (u < dim)%nat ->
  (forall q, (q < nq)%nat -> lam_q E x s q = la /\ mu_q E x s q = mu) ->
  rsum nq (fun q => p_w P q * E_side P x a k q * rsum dim (fun r => rsum N (fun m => test_normal E fct x s u r p q * E_side P x s m q * Lift E c fct x s b l r m))) =
  c * (la * fmf fct x s a b p u k l + mu * (delta p u * rsum dim (fun r => fmf fct x s a b r r k l) + fmf fct x s a b u p k l)).
Proof.
  intros Hp Hu Hm.
  transitivity (rsum nq (fun q => rsum N (fun m =>
    la * (p_w P q * E_side P x a k q * E_side P x s m q * p_n P fct p q) * Lift E c fct x s b l u m +
    mu * (delta p u * rsum dim (fun r => (p_w P q * E_side P x a k q * E_side P x s m q * p_n P fct r q) * Lift E c fct x s b l r m) +
          (p_w P q * E_side P x a k q * E_side P x s m q * p_n P fct u q) * Lift E c fct x s b l p m)))).
  - apply rsum_ext. intros q Hq. destruct (Hm q Hq) as [Hl Hmu]. rewrite rsum_swap, <- rsum_scale. apply rsum_ext. intros m _.
    unfold test_normal. rewrite Hl, Hmu.
    rewrite (rsum_ext dim _ (fun r => delta u r * (la * p_n P fct p q * E_side P x s m q * Lift E c fct x s b l r m)
      + (mu * delta p u * E_side P x s m q * (p_n P fct r q * Lift E c fct x s b l r m) + delta p r * (mu * p_n P fct u q * E_side P x s m q * Lift E c fct x s b l r m)))) by (intros; ring).
    rewrite !rsum_plus, !delta_sum, rsum_scale by auto.
    rewrite (rsum_ext dim (fun r => p_w P q * _ * _ * _ * _) (fun r => (p_w P q * E_side P x a k q * E_side P x s m q) * (p_n P fct r q * Lift E c fct x s b l r m))) by (intros; ring).
    rewrite rsum_scale. ring.
  - rewrite rsum_swap.
    transitivity (rsum N (fun m => la * (fint P fct p (E_side P x a) (E_side P x s) k m * Lift E c fct x s b l u m) +
      mu * (delta p u * rsum dim (fun r => fint P fct r (E_side P x a) (E_side P x s) k m * Lift E c fct x s b l r m) +
            fint P fct u (E_side P x a) (E_side P x s) k m * Lift E c fct x s b l p m))).
    + apply rsum_ext. intros m _. rewrite rsum_plus. f_equal.
      * unfold fint. rewrite <- rsum_scale_r, <- rsum_scale. apply rsum_ext. intros. ring.
      * rewrite rsum_scale. f_equal. rewrite rsum_plus, rsum_scale. f_equal.
        -- f_equal. rewrite rsum_swap. apply rsum_ext. intros r _. unfold fint. rewrite rsum_scale_r. reflexivity.
        -- unfold fint. rewrite rsum_scale_r. reflexivity.
    + rewrite !rsum_plus, !rsum_scale, !rsum_plus, !rsum_scale, !fmf_lift. rewrite rsum_swap.
      rewrite (rsum_ext dim _ (fun r => c * fmf fct x s a b r r k l)) by (intros; apply fmf_lift). rewrite rsum_scale. ring.
Qed.
Definition lift_of (fct : nat) (x : facet_info) (y : nat) : nat -> nat -> nat -> nat -> R :=
  match p_method P with BR2 => lift_skeleton E fct x y | IP => lift_ip E fct (E_side P x y) end.
Definition lift_of_bnd (fct : nat) (x : facet_info) : nat -> nat -> nat -> nat -> R :=
  match p_method P with BR2 => lift_boundary E fct x | IP => lift_ip E fct (E_side P x 0) end.
Lemma const_pair s x : (forall s q q', (q < nq)%nat -> (q' < nq)%nat -> lam_q E x s q = lam_q E x s q' /\ mu_q E x s q = mu_q E x s q') ->
  exists la mu, forall q, (q < nq)%nat -> lam_q E x s q = la /\ mu_q E x s q = mu.
Proof. intro H. exists (lam_q E x s 0%nat), (mu_q E x s 0%nat). intros q Hq. apply H; lia. Qed.
Lemma fmf_block_sym fct x s a b k p l u la mu : (forall el a b, e_Minv E el a b = e_Minv E el b a) ->
  la * fmf fct x s a b p u k l + mu * (delta p u * rsum dim (fun r => fmf fct x s a b r r k l) + fmf fct x s a b u p k l) =
  la * fmf fct x s b a u p l k + mu * (delta u p * rsum dim (fun r => fmf fct x s b a r r l k) + fmf fct x s b a p u l k).
Proof.
  intro H. rewrite (fmf_sym fct x s a b p u), (fmf_sym fct x s a b u p), (delta_sym p u) by auto.
  rewrite (rsum_ext dim (fun r => fmf fct x s a b r r k l) (fun r => fmf fct x s b a r r l k)) by (intros; apply fmf_sym; auto). reflexivity.
Qed.
Lemma lift_pair_sym fct x a b K L : elastic_lift_sym E x -> (K < NB)%nat -> (L < NB)%nat ->
  rsum nq (fun q => p_w P q * E_side P x a (bf E K) q * lift_of fct x b (bf E L) (cp E K) (cp E L) q) =
  rsum nq (fun q => p_w P q * E_side P x b (bf E L) q * lift_of fct x a (bf E K) (cp E L) (cp E K) q).
Proof.
  intros S HK HL. pose proof (cp_lt E K HK) as Hp. pose proof (cp_lt E L HL) as Hu.
  unfold elastic_lift_sym in S. unfold lift_of. destruct (p_method P).
  - apply rsum_ext. intros. unfold lift_ip. rewrite (delta_sym (cp E K)). ring.
  - destruct S as [Hm Hk]. destruct (const_pair 0 x Hk) as (la0 & mu0 & H0). destruct (const_pair 1 x Hk) as (la1 & mu1 & H1).
    assert (G : forall a b k p l u, (p < dim)%nat -> (u < dim)%nat ->
      rsum nq (fun q => p_w P q * E_side P x a k q * lift_skeleton E fct x b l p u q) =
      1 / 2 * (1 / 2 * (la0 * fmf fct x 0 a b p u k l + mu0 * (delta p u * rsum dim (fun r => fmf fct x 0 a b r r k l) + fmf fct x 0 a b u p k l)) +
               1 / 2 * (la1 * fmf fct x 1 a b p u k l + mu1 * (delta p u * rsum dim (fun r => fmf fct x 1 a b r r k l) + fmf fct x 1 a b u p k l)))).
    { intros a0 b0 k p l u Hp' Hu'. rewrite <- (br2_term (1 / 2) fct x 0 a0 b0 k p l u la0 mu0), <- (br2_term (1 / 2) fct x 1 a0 b0 k p l u la1 mu1) by auto.
      rewrite <- rsum_plus, <- rsum_scale. apply rsum_ext. intros q _. unfold lift_skeleton. ring. }
    rewrite !G by auto. rewrite (fmf_block_sym fct x 0 a b), (fmf_block_sym fct x 1 a b) by auto. reflexivity.
Qed.
Lemma lift_bnd_sym fct x K L : elastic_lift_sym E x -> (K < NB)%nat -> (L < NB)%nat ->
  rsum nq (fun q => p_w P q * E_side P x 0 (bf E K) q * lift_of_bnd fct x (bf E L) (cp E K) (cp E L) q) =
  rsum nq (fun q => p_w P q * E_side P x 0 (bf E L) q * lift_of_bnd fct x (bf E K) (cp E L) (cp E K) q).
Proof.
  intros S HK HL. pose proof (cp_lt E K HK) as Hp. pose proof (cp_lt E L HL) as Hu.
  unfold elastic_lift_sym in S. unfold lift_of_bnd. destruct (p_method P).
  - apply rsum_ext. intros. unfold lift_ip. rewrite (delta_sym (cp E K)). ring.
  - destruct S as [Hm Hk]. destruct (const_pair 0 x Hk) as (la0 & mu0 & H0). unfold lift_boundary.
    rewrite (br2_term 1 fct x 0 0 0 _ _ _ _ la0 mu0), (br2_term 1 fct x 0 0 0 _ _ _ _ la0 mu0) by auto.
    rewrite (fmf_block_sym fct x 0 0 0) by auto. reflexivity.
Qed.
Lemma surface_split c0 c1 c2 Ea Eb Ta Tb Lb K L :
  surface E c0 c1 c2 Ea Eb Ta Tb Lb K L =
  c0 * rsum nq (fun q => p_w P q * (Ea (bf E K) q * Tb (bf E L) (cp E L) (cp E K) q)) +
  c1 * rsum nq (fun q => p_w P q * (Eb (bf E L) q * Ta (bf E K) (cp E K) (cp E L) q)) +
  c2 * rsum nq (fun q => p_w P q * Ea (bf E K) q * Lb (bf E L) (cp E K) (cp E L) q).
Proof. unfold surface. rewrite <- !rsum_scale, <- !rsum_plus. apply rsum_ext. intros. ring. Qed.
End Sym.

(** C55b: the blocks the operator assembles are symmetric: an element's block, the four blocks of an
    interior facet (the off-diagonal ones transposes of each other), a boundary facet's block. *)
Theorem elasticity_blocks_symmetric : forall E K L, (K < block_size E)%nat -> (L < block_size E)%nat ->
  (forall el, assemble_volume E el K L = assemble_volume E el L K) /\
  (forall fct x A00 A01 A10 A11, elastic_lift_sym E x -> assemble_skeleton E fct x = (A00, A01, A10, A11) ->
     A00 K L = A00 L K /\ A11 K L = A11 L K /\ A01 K L = A10 L K) /\
  (forall fct x A, elastic_lift_sym E x -> assemble_boundary E fct x = Some A -> A K L = A L K).
Proof.
  intros E K L HK HL. set (P := e_geo E). pose proof (cp_lt E K HK) as Hp. pose proof (cp_lt E L HL) as Hu. fold P in Hp, Hu. split; [|split].
  - intros el. unfold assemble_volume. apply rsum_ext. intros q _. fold P.
    assert (G : forall k p l u, (u < p_dim P)%nat -> rsum (p_dim P) (fun j => Dx_Q P el k j q * (Dx_Q P el l j q * delta p u + Dx_Q P el l p q * delta j u)) =
      delta p u * rsum (p_dim P) (fun j => Dx_Q P el k j q * Dx_Q P el l j q) + Dx_Q P el l p q * Dx_Q P el k u q).
    { intros k p l u Hu'. rewrite <- (delta_sum (p_dim P) u (fun j => Dx_Q P el k j q)) by auto. rewrite <- !rsum_scale, <- rsum_plus. apply rsum_ext. intros j _. rewrite (delta_sym u j). ring. }
    rewrite !G by auto. rewrite (delta_sym (cp E L)).
    rewrite (rsum_ext (p_dim P) (fun j => Dx_Q P el (bf E L) j q * Dx_Q P el (bf E K) j q) (fun j => Dx_Q P el (bf E K) j q * Dx_Q P el (bf E L) j q)) by (intros; ring). ring.
  - intros fct x A00 A01 A10 A11 LS EA. unfold assemble_skeleton in EA.
    change (fun y => match p_method (e_geo E) with IP => lift_ip E fct (E_side (e_geo E) x y) | BR2 => lift_skeleton E fct x y end) with (lift_of E fct x) in EA.
    cbv zeta in EA. injection EA as <- <- <- <-. rewrite !surface_split.
    pose proof (lift_pair_sym E fct x 0 0 K L LS HK HL) as S0. pose proof (lift_pair_sym E fct x 1 1 K L LS HK HL) as S1.
    pose proof (lift_pair_sym E fct x 0 1 K L LS HK HL) as S2. unfold lift_of in *. rewrite S0, S1, S2. unfold epsilon. split; [|split]; field.
  - intros fct x A LS EA. unfold assemble_boundary in EA. destruct (fi_bc x =? BC_Natural); [discriminate|]. cbv zeta in EA. injection EA as <-.
    rewrite !surface_split. pose proof (lift_bnd_sym E fct x K L LS HK HL) as S0. unfold lift_of_bnd in S0. rewrite S0. unfold epsilon. field.
Qed.
Print Assumptions elasticity_blocks_symmetric.

(** * Rigid motions *)
(** A continuous displacement without strain: translations and infinitesimal rotations. *)
Record rigid (E : edata) (fi : list facet_info) (U : nat -> nat -> R) : Prop := {
  rg_volume : forall e q r s, (q < p_Nq (e_geo E))%nat -> (r < p_dim (e_geo E))%nat -> (s < p_dim (e_geo E))%nat ->
    dgr E (Dx_Q (e_geo E) e) (U e) r s q = - dgr E (Dx_Q (e_geo E) e) (U e) s r q;
  rg_facet : forall i x side q r s, nth_error fi i = Some x -> (side < 2)%nat -> (q < p_nq (e_geo E))%nat -> (r < p_dim (e_geo E))%nat -> (s < p_dim (e_geo E))%nat ->
    dgr E (Dx_side E i x side) (U (up_side x side)) r s q = - dgr E (Dx_side E i x side) (U (up_side x side)) s r q;
  rg_trace : forall i x q p, nth_error fi i = Some x -> (q < p_nq (e_geo E))%nat -> (p < p_dim (e_geo E))%nat ->
    trc E (E_side (e_geo E) x 0) (U (fi_up0 x)) p q = trc E (E_side (e_geo E) x 1) (U (fi_up1 x)) p q }.

Section Rigid.
Variable E : edata.
Local Notation P := (e_geo E).
Local Notation N := (p_N P). Local Notation dim := (p_dim P). Local Notation nq := (p_nq P).
Local Notation NB := (block_size E).
Lemma skew_tct n lam mu Dx U p q : (p < dim)%nat -> (forall r s, (r < dim)%nat -> (s < dim)%nat -> dgr E Dx U r s q = - dgr E Dx U s r q) ->
  tct E n lam mu Dx U p q = 0.
Proof.
  intros Hp H. unfold tct. apply rsum_zero. intros j Hj. unfold sig.
  assert (D : rsum dim (fun r => dgr E Dx U r r q) = 0). { apply rsum_zero. intros r Hr. pose proof (H r r Hr Hr). lra. }
  rewrite D, (H p j) by auto. ring.
Qed.
(** Any lifting of an interior facet depends on the trace only. *)
Lemma lift_trace fct x y U p q z V :
  (forall q u, (q < nq)%nat -> (u < dim)%nat -> trc E (E_side P x y) U u q = trc E (E_side P x z) V u q) -> (q < nq)%nat -> (p < dim)%nat ->
  rsum NB (fun L => lift_of E fct x y (bf E L) p (cp E L) q * U L) = rsum NB (fun L => lift_of E fct x z (bf E L) p (cp E L) q * V L).
Proof.
  intros H Hq Hp. rewrite (sum_parts E (fun l u => lift_of E fct x y l p u q)), (sum_parts E (fun l u => lift_of E fct x z l p u q)).
  unfold lift_of. destruct (p_method P).
  - apply rsum_ext. intros u Hu. unfold lift_ip. specialize (H q u Hq Hu). unfold trc in H.
    rewrite (rsum_ext N _ (fun k => delta p u * p_nl P fct q * (E_side P x y k q * U (ix E k u)))) by (intros; ring).
    rewrite (rsum_ext N (fun k => E_side P x z k q * _ * _ * _) (fun k => delta p u * p_nl P fct q * (E_side P x z k q * V (ix E k u)))) by (intros; ring).
    rewrite !rsum_scale, H. reflexivity.
  - apply rsum_ext. intros u Hu.
    assert (G : forall y U, rsum N (fun k => lift_skeleton E fct x y k p u q * U (ix E k u)) =
      1 / 2 * (rsum dim (fun s => rsum N (fun m => test_normal E fct x 0 u s p q * E_side P x 0 m q * rsum N (fun k => Lift E (1 / 2) fct x 0 y k s m * U (ix E k u)))) +
               rsum dim (fun s => rsum N (fun m => test_normal E fct x 1 u s p q * E_side P x 1 m q * rsum N (fun k => Lift E (1 / 2) fct x 1 y k s m * U (ix E k u)))))).
    { intros y0 U0. unfold lift_skeleton.
      assert (S : forall d, rsum dim (fun s => rsum N (fun m => test_normal E fct x d u s p q * E_side P x d m q * rsum N (fun k => Lift E (1 / 2) fct x d y0 k s m * U0 (ix E k u)))) =
        rsum N (fun k => rsum dim (fun s => rsum N (fun m => test_normal E fct x d u s p q * E_side P x d m q * Lift E (1 / 2) fct x d y0 k s m)) * U0 (ix E k u))).
      { intro d. symmetry. rewrite (rsum_ext N _ (fun k => rsum dim (fun s => rsum N (fun m => test_normal E fct x d u s p q * E_side P x d m q * (Lift E (1 / 2) fct x d y0 k s m * U0 (ix E k u)))))).
        - rewrite rsum_swap. apply rsum_ext. intros s _. rewrite rsum_swap. apply rsum_ext. intros m _. apply rsum_scale.
        - intros k _. rewrite <- rsum_scale_r. apply rsum_ext. intros s _. rewrite <- rsum_scale_r. apply rsum_ext. intros. ring. }
      rewrite !S. rewrite <- rsum_plus, <- rsum_scale. apply rsum_ext. intros. ring. }
    rewrite !G.
    assert (W : forall d s m, rsum N (fun k => Lift E (1 / 2) fct x d y k s m * U (ix E k u)) = rsum N (fun k => Lift E (1 / 2) fct x d z k s m * V (ix E k u))).
    { intros d s m.
      assert (T : forall y U, rsum N (fun k => Lift E (1 / 2) fct x d y k s m * U (ix E k u)) =
        rsum N (fun o => rsum nq (fun q => 1 / 2 * e_Minv E (up_side x d) m o * p_w P q * E_side P x d o q * p_n P fct s q * trc E (E_side P x y) U u q))).
      { intros y0 U0. unfold Lift, trc. symmetry.
        rewrite (rsum_ext N _ (fun o => rsum N (fun k => rsum nq (fun q => 1 / 2 * e_Minv E (up_side x d) m o * p_w P q * E_side P x d o q * E_side P x y0 k q * p_n P fct s q) * U0 (ix E k u)))).
        - rewrite rsum_swap. apply rsum_ext. intros k _. apply rsum_scale_r.
        - intros o _. rewrite (rsum_ext nq _ (fun q0 => rsum N (fun k => 1 / 2 * e_Minv E (up_side x d) m o * p_w P q0 * E_side P x d o q0 * E_side P x y0 k q0 * p_n P fct s q0 * U0 (ix E k u)))).
          + rewrite rsum_swap. apply rsum_ext. intros k _. apply rsum_scale_r.
          + intros q0 _. rewrite <- rsum_scale. apply rsum_ext. intros. ring. }
      rewrite !T. apply rsum_ext. intros o _. apply rsum_ext. intros q0 Hq0. rewrite H by auto. reflexivity. }
    f_equal. f_equal; apply rsum_ext; intros s _; apply rsum_ext; intros m _; rewrite W; reflexivity.
Qed.
Lemma surface_mul_any c0 c1 c2 Ea Eb n lama mua lamb mub Dxa Dxb Lb U K : (K < NB)%nat ->
  rsum NB (fun L => surface E c0 c1 c2 Ea Eb (traction_op E n lama mua Dxa) (traction_op E n lamb mub Dxb) Lb K L * U L) =
  rsum nq (fun q => p_w P q * (c0 * (Ea (bf E K) q * tct E n lamb mub Dxb U (cp E K) q)
    + c1 * rsum dim (fun u => trc E Eb U u q * traction_op E n lama mua Dxa (bf E K) (cp E K) u q)
    + c2 * (Ea (bf E K) q * rsum NB (fun L => Lb (bf E L) (cp E K) (cp E L) q * U L)))).
Proof.
  intro HK. pose proof (cp_lt E K HK) as Hp. set (k := bf E K). set (p := cp E K) in *.
  transitivity (rsum NB (fun L => rsum nq (fun q =>
    p_w P q * (c0 * (Ea k q * (traction_op E n lamb mub Dxb (bf E L) (cp E L) p q * U L))
      + c1 * (Eb (bf E L) q * traction_op E n lama mua Dxa k p (cp E L) q * U L)
      + c2 * (Ea k q * (Lb (bf E L) p (cp E L) q * U L)))))).
  - apply rsum_ext. intros L _. unfold surface. fold k p. rewrite <- !rsum_plus, <- rsum_scale_r. apply rsum_ext. intros. ring.
  - rewrite rsum_swap. apply rsum_ext. intros q _. rewrite rsum_scale. f_equal. rewrite !rsum_plus. f_equal; [f_equal|].
    + rewrite !rsum_scale, top_mul by auto. reflexivity.
    + rewrite rsum_scale. f_equal. rewrite (sum_parts E (fun l u => Eb l q * traction_op E n lama mua Dxa k p u q)). apply rsum_ext. intros u _.
      unfold trc. rewrite <- rsum_scale_r. apply rsum_ext. intros. ring.
    + rewrite !rsum_scale. reflexivity.
Qed.
End Rigid.

(** C55c: rigid motions are in the kernel of the element and interior-facet contributions: the row of
    an element all of whose boundary facets are natural vanishes on them. *)
Theorem rigid_motions_in_kernel : forall E k m fi wr t e sl U,
  topo_ok k m -> facet_table k m = Some fi -> interleaving (all_side_writes k fi) wr -> do_writes (fresh_sides k m) wr = Some t ->
  rigid E fi U -> (e < tm_num_local m)%nat ->
  map_opt (fun d => nth_error t (e * (k + 1) + d)) (seq 0 (k + 1)) = Some sl ->
  (forall s, In s sl -> si_lid s = e -> si_bc s = BC_Natural) ->
  forall j, (j < block_size E)%nat -> row_times (block_size E) (assemble m fi (elasticity_mat E)) U e j = 0.
Proof.
  intros E k m fi wr t e sl U O Efi Iw Et Rg He Esl Nat_ j Hj. pose proof (cp_lt E j Hj) as Hp.
  rewrite (row_by_slots k m fi wr t O Efi Iw Et (block_size E) (elasticity_mat E) U e sl j He Esl).
  cbn [a_volume a_post elasticity_mat]. rewrite Rplus_0_r.
  destruct (slots_of k m fi wr t O Efi Iw Et e He) as (sl' & Lsl & Esl' & _ & _ & Sl). assert (sl' = sl) by congruence. subst sl'.
  set (P := e_geo E) in *. set (dim := p_dim P) in *.
  assert (V : rsum (block_size E) (fun l => assemble_volume E e j l * U e l) = 0).
  { rewrite <- apply_volume_mul by auto. unfold apply_volume. apply rsum_zero. intros q Hq.
    assert (J : forall s r, Ju_Q E e (U e) q s r = dgr E (Dx_Q P e) (U e) r s q).
    { intros. unfold Ju_Q, dgr, Dx_Q. rewrite rsum_swap. apply rsum_ext. intros l _. rewrite <- rsum_scale_r. reflexivity. }
    apply rsum_zero. intros a _. apply rsum_zero. intros b Hb.
    assert (T : rsum dim (fun r => rsum dim (fun s => delta r s * Ju_Q E e (U e) q r s)) = 0).
    { apply rsum_zero. intros r Hr. rewrite (delta_sum dim r (fun s => Ju_Q E e (U e) q r s)) by auto. rewrite J. pose proof (rg_volume E fi U Rg e q r r Hq Hr Hr). fold P in H. lra. }
    fold P dim. rewrite T, !J. pose proof (rg_volume E fi U Rg e q (cp E j) b Hq Hp Hb) as Sk. fold P in Sk. rewrite Sk. ring. }
  rewrite V, Rplus_0_l. apply lsum_zero. intros s Hs. apply In_nth_error in Hs as [d Hd].
  destruct (Sl d s Hd) as (_ & Hl & x & Ex & Ebc & In0 & Cs & In1 & _). unfold slot_part. rewrite Ex.
  unfold assemble_facet. destruct Cs as [U0 U1 Ul L0 | U0 U1 Ne L0 L1 Sd | U1 U0 Ne L1 L0 Sd].
  - rewrite U0, U1, Nat.eqb_refl, In0. cbn [negb a_boundary elasticity_mat]. unfold assemble_boundary. rewrite <- Ebc, (Nat_ s); auto.
    eapply nth_error_In; eauto.
  - assert (Ta : forall q u, (q < p_nq P)%nat -> (u < dim)%nat -> trc E (E_side P x 0) (U e) u q = trc E (E_side P x 1) (U (si_lid s)) u q).
    { intros q u Hq Hu. rewrite <- U0, <- U1 at 1. apply (rg_trace E fi U Rg (si_fct s) x q u Ex Hq Hu). }
    assert (S0 : forall q r c, (q < p_nq P)%nat -> (r < dim)%nat -> (c < dim)%nat -> dgr E (Dx_side E (si_fct s) x 0) (U e) r c q = - dgr E (Dx_side E (si_fct s) x 0) (U e) c r q).
    { intros. pose proof (rg_facet E fi U Rg (si_fct s) x 0 q r c Ex ltac:(lia)) as S. cbn [up_side] in S. rewrite U0 in S. auto. }
    assert (S1 : forall q r c, (q < p_nq P)%nat -> (r < dim)%nat -> (c < dim)%nat -> dgr E (Dx_side E (si_fct s) x 1) (U (si_lid s)) r c q = - dgr E (Dx_side E (si_fct s) x 1) (U (si_lid s)) c r q).
    { intros. pose proof (rg_facet E fi U Rg (si_fct s) x 1 q r c Ex ltac:(lia)) as S. cbn [up_side] in S. rewrite U1 in S. auto. }
    rewrite U0, U1. destruct (Nat.eqb_spec e (si_lid s)) as [|_]; [contradiction|].
    cbn [negb a_skeleton elasticity_mat if_some]. unfold assemble_skeleton. rewrite In0.
    change (fun y => match p_method (e_geo E) with IP => lift_ip E (si_fct s) (E_side (e_geo E) x y) | BR2 => lift_skeleton E (si_fct s) x y end) with (lift_of E (si_fct s) x). cbv zeta. unfold row_times.
    rewrite lsum_app. cbn [lsum]. rewrite !Nat.eqb_refl.
    replace (lsum _ (if fi_inside1 x then _ else [])) with 0.
    2: { destruct (fi_inside1 x); cbn [lsum]; [|reflexivity]. destruct (Nat.eqb_spec (si_lid s) e); [congruence|ring]. }
    fold (lift_of E (si_fct s) x 0) (lift_of E (si_fct s) x 1).
    unfold traction_op_side. rewrite !surface_mul_any, !Rplus_0_r, <- rsum_plus by auto. apply rsum_zero. intros q Hq. fold P dim in Hq |- *.
    rewrite !skew_tct by (fold P dim; auto).
    rewrite (rsum_ext dim (fun u => trc E (E_side P x 0) (U e) u q * _) (fun u => trc E (E_side P x 1) (U (si_lid s)) u q * traction_op E (p_n P (si_fct s)) (lam_q E x 0) (mu_q E x 0) (Dx_side E (si_fct s) x 0) (bf E j) (cp E j) u q)).
    2: { intros u Hu. rewrite Ta by auto. reflexivity. }
    rewrite (lift_trace E (si_fct s) x 0 (U e) (cp E j) q 1 (U (si_lid s))) by auto. unfold epsilon. field.
  - assert (Ta : forall q u, (q < p_nq P)%nat -> (u < dim)%nat -> trc E (E_side P x 0) (U (si_lid s)) u q = trc E (E_side P x 1) (U e) u q).
    { intros q u Hq Hu. rewrite <- U0, <- U1 at 1. apply (rg_trace E fi U Rg (si_fct s) x q u Ex Hq Hu). }
    assert (S0 : forall q r c, (q < p_nq P)%nat -> (r < dim)%nat -> (c < dim)%nat -> dgr E (Dx_side E (si_fct s) x 0) (U (si_lid s)) r c q = - dgr E (Dx_side E (si_fct s) x 0) (U (si_lid s)) c r q).
    { intros. pose proof (rg_facet E fi U Rg (si_fct s) x 0 q r c Ex ltac:(lia)) as S. cbn [up_side] in S. rewrite U0 in S. auto. }
    assert (S1 : forall q r c, (q < p_nq P)%nat -> (r < dim)%nat -> (c < dim)%nat -> dgr E (Dx_side E (si_fct s) x 1) (U e) r c q = - dgr E (Dx_side E (si_fct s) x 1) (U e) c r q).
    { intros. pose proof (rg_facet E fi U Rg (si_fct s) x 1 q r c Ex ltac:(lia)) as S. cbn [up_side] in S. rewrite U1 in S. auto. }
    rewrite U0, U1. destruct (Nat.eqb_spec (si_lid s) e) as [|_]; [congruence|].
    cbn [negb a_skeleton elasticity_mat if_some]. unfold assemble_skeleton. rewrite In0, (In1 U1).
    change (fun y => match p_method (e_geo E) with IP => lift_ip E (si_fct s) (E_side (e_geo E) x y) | BR2 => lift_skeleton E (si_fct s) x y end) with (lift_of E (si_fct s) x). cbv zeta. unfold row_times.
    rewrite lsum_app. cbn [lsum]. rewrite !Nat.eqb_refl. destruct (Nat.eqb_spec (si_lid s) e) as [|_]; [congruence|].
    fold (lift_of E (si_fct s) x 0) (lift_of E (si_fct s) x 1).
    unfold traction_op_side. rewrite !surface_mul_any, !Rplus_0_r, !Rplus_0_l, <- rsum_plus by auto. apply rsum_zero. intros q Hq. fold P dim in Hq |- *.
    rewrite !skew_tct by (fold P dim; auto).
    rewrite (rsum_ext dim (fun u => trc E (E_side P x 0) (U (si_lid s)) u q * _) (fun u => trc E (E_side P x 1) (U e) u q * traction_op E (p_n P (si_fct s)) (lam_q E x 1) (mu_q E x 1) (Dx_side E (si_fct s) x 1) (bf E j) (cp E j) u q)).
    2: { intros u Hu. rewrite Ta by auto. reflexivity. }
    rewrite (lift_trace E (si_fct s) x 0 (U (si_lid s)) (cp E j) q 1 (U e)) by auto. unfold epsilon. field.
Qed.
Print Assumptions rigid_motions_in_kernel.

(** * Right-hand side and traction *)
(** C55d: with f the prescribed jump of an interior facet (slip or Dirichlet data), the facet's part
    of the residual A u - b depends on the traces only through the deviation of the jump from f and
    the traction vector T the operator reports; the traction enters the two sides with opposite
    signs.  [p_nl] is the length of the facet's normal. *)
Theorem elasticity_residual_is_traction : forall E fct x A00 A01 A10 A11 B0 B1 T u0 u1,
  let P := e_geo E in
  p_method P = IP -> normal_ok P fct ->
  assemble_skeleton E fct x = (A00, A01, A10, A11) -> rhs_skeleton E fct x = Some (B0, B1) ->
  traction_skeleton E fct x u0 u1 = Some T ->
  exists f, bc_skeleton E fct (fi_bc x) = Some f /\ forall k p, (k < p_N P)%nat -> (p < p_dim P)%nat ->
    let K := ix E k p in
    let mism u q := trc E (E_side P x 0) u0 u q - trc E (E_side P x 1) u1 u q - f u q in
    rsum (block_size E) (fun L => A00 K L * u0 L) + rsum (block_size E) (fun L => A01 K L * u1 L) - B0 K =
      rsum (p_nq P) (fun q => p_w P q * (- E_side P x 0 k q * p_nl P fct q * T p q
        - 1 / 2 * rsum (p_dim P) (fun u => mism u q * traction_op_side E fct x 0 k p u q))) /\
    rsum (block_size E) (fun L => A10 K L * u0 L) + rsum (block_size E) (fun L => A11 K L * u1 L) - B1 K =
      rsum (p_nq P) (fun q => p_w P q * (E_side P x 1 k q * p_nl P fct q * T p q
        - 1 / 2 * rsum (p_dim P) (fun u => mism u q * traction_op_side E fct x 1 k p u q))).
Proof.
  intros E fct x A00 A01 A10 A11 B0 B1 T u0 u1 P Ip Nm EA EB ET.
  unfold rhs_skeleton in EB. unfold traction_skeleton in ET. destruct (bc_skeleton E fct (fi_bc x)) as [f|]; [|discriminate].
  exists f. split; auto. intros k p Hk Hp K mism. fold P in EA, EB, ET.
  assert (HK : (K < block_size E)%nat) by (unfold K, ix, block_size; fold P; nia).
  unfold assemble_skeleton in EA. fold P in EA. rewrite Ip in EA, EB. cbv zeta in EA.
  injection EA as <- <- <- <-. cbv zeta in EB. injection EB as <- <-. injection ET as <-.
  assert (Pen : penalty P fct = p_pen P fct) by (unfold penalty; rewrite Ip; reflexivity).
  assert (Kk : bf E K = k) by (apply bf_ix; auto). assert (Kp : cp E K = p) by (apply cp_ix; auto).
  assert (Tn : forall lam mu Dx U q, (q < p_nq P)%nat -> tct E (p_n P fct) lam mu Dx U p q = p_nl P fct q * tct E (p_nu P fct) lam mu Dx U p q).
  { intros. unfold tct. rewrite <- rsum_scale. apply rsum_ext. intros j Hj. destruct (Nm q H) as [_ Hn]. fold P. rewrite Hn by auto. ring. }
  unfold traction_op_side. rewrite !surface_mul, !rhs_kernel_form by auto. rewrite <- !rsum_plus, <- !rsum_minus. rewrite Kk, Kp. fold P.
  assert (Sp : forall s q, rsum (p_dim P) (fun u => mism u q * traction_op E (p_n P fct) (lam_q E x s) (mu_q E x s) (Dx_side E fct x s) k p u q) =
    rsum (p_dim P) (fun u => trc E (E_side P x 0) u0 u q * traction_op E (p_n P fct) (lam_q E x s) (mu_q E x s) (Dx_side E fct x s) k p u q)
    - rsum (p_dim P) (fun u => trc E (E_side P x 1) u1 u q * traction_op E (p_n P fct) (lam_q E x s) (mu_q E x s) (Dx_side E fct x s) k p u q)
    - rsum (p_dim P) (fun u => f u q * traction_op E (p_n P fct) (lam_q E x s) (mu_q E x s) (Dx_side E fct x s) k p u q)).
  { intros. rewrite <- !rsum_minus. apply rsum_ext. intros. unfold mism. ring. }
  split; apply rsum_ext; intros q Hq; rewrite !Tn, !traction_form by auto; fold (trc E (E_side P x 0) u0 p q) (trc E (E_side P x 1) u1 p q);
    rewrite Pen, Sp; unfold rhs_lift_ip, epsilon; unfold trc; unfold P; field.
Qed.
Print Assumptions elasticity_residual_is_traction.
(** The same on the boundary. *)
Theorem elasticity_residual_is_traction_boundary : forall E fct x A B T u0,
  let P := e_geo E in
  p_method P = IP -> normal_ok P fct ->
  assemble_boundary E fct x = Some A -> rhs_boundary E fct x = Some B -> traction_boundary E fct x u0 = Some T ->
  exists f, bc_boundary E fct (fi_bc x) = Some f /\ forall k p, (k < p_N P)%nat -> (p < p_dim P)%nat ->
    let K := ix E k p in
    let mism u q := trc E (E_side P x 0) u0 u q - f u q in
    rsum (block_size E) (fun L => A K L * u0 L) - B K =
      rsum (p_nq P) (fun q => p_w P q * (- E_side P x 0 k q * p_nl P fct q * T p q
        - rsum (p_dim P) (fun u => mism u q * traction_op_side E fct x 0 k p u q))).
Proof.
  intros E fct x A B T u0 P Ip Nm EA EB ET.
  unfold rhs_boundary in EB. unfold traction_boundary in ET. destruct (bc_boundary E fct (fi_bc x)) as [f|]; [|discriminate].
  exists f. split; auto. intros k p Hk Hp K mism. fold P in EA, EB, ET.
  assert (HK : (K < block_size E)%nat) by (unfold K, ix, block_size; fold P; nia).
  unfold assemble_boundary in EA. destruct (fi_bc x =? BC_Natural); [discriminate|]. fold P in EA. rewrite Ip in EA, EB. cbv zeta in EA, EB.
  injection EA as <-. injection EB as <-. injection ET as <-.
  assert (Pen : penalty P fct = p_pen P fct) by (unfold penalty; rewrite Ip; reflexivity).
  assert (Kk : bf E K = k) by (apply bf_ix; auto). assert (Kp : cp E K = p) by (apply cp_ix; auto).
  assert (Tn : forall lam mu Dx U q, (q < p_nq P)%nat -> tct E (p_n P fct) lam mu Dx U p q = p_nl P fct q * tct E (p_nu P fct) lam mu Dx U p q).
  { intros. unfold tct. rewrite <- rsum_scale. apply rsum_ext. intros j Hj. destruct (Nm q H) as [_ Hn]. fold P. rewrite Hn by auto. ring. }
  unfold traction_op_side. rewrite !surface_mul, !rhs_kernel_form by auto. rewrite <- !rsum_minus. rewrite Kk, Kp. fold P.
  assert (Sp : forall s q, rsum (p_dim P) (fun u => mism u q * traction_op E (p_n P fct) (lam_q E x s) (mu_q E x s) (Dx_side E fct x s) k p u q) =
    rsum (p_dim P) (fun u => trc E (E_side P x 0) u0 u q * traction_op E (p_n P fct) (lam_q E x s) (mu_q E x s) (Dx_side E fct x s) k p u q)
    - rsum (p_dim P) (fun u => f u q * traction_op E (p_n P fct) (lam_q E x s) (mu_q E x s) (Dx_side E fct x s) k p u q)).
  { intros. rewrite <- !rsum_minus. apply rsum_ext. intros. unfold mism. ring. }
  apply rsum_ext; intros q Hq; rewrite !Tn, !traction_form by auto; fold (trc E (E_side P x 0) u0 p q);
    rewrite Pen, Sp; unfold rhs_lift_ip, epsilon; unfold trc; unfold P; field.
Qed.
Print Assumptions elasticity_residual_is_traction_boundary.
(** What the operator reports as traction when the jump is met: the average of the two tractions
    sigma . nu, nu the unit normal; on the boundary the traction. *)
Theorem elasticity_traction_value : forall E fct x u0 u1 T f,
  traction_skeleton E fct x u0 u1 = Some T -> bc_skeleton E fct (fi_bc x) = Some f ->
  forall p q, (p < p_dim (e_geo E))%nat ->
  trc E (E_side (e_geo E) x 0) u0 p q - trc E (E_side (e_geo E) x 1) u1 p q = f p q ->
  T p q = (tct E (p_nu (e_geo E) fct) (lam_q E x 0) (mu_q E x 0) (Dx_side E fct x 0) u0 p q +
           tct E (p_nu (e_geo E) fct) (lam_q E x 1) (mu_q E x 1) (Dx_side E fct x 1) u1 p q) / 2.
Proof.
  intros E fct x u0 u1 T f ET Ef p q Hp Hj. unfold traction_skeleton in ET. rewrite Ef in ET. injection ET as <-.
  rewrite !traction_form by auto. fold (trc E (E_side (e_geo E) x 0) u0 p q) (trc E (E_side (e_geo E) x 1) u1 p q). rewrite Hj. field.
Qed.
Print Assumptions elasticity_traction_value.
