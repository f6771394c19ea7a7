(** Cases that meet the hypotheses of the elasticity theorems, and cases that show which of them are
    needed (C55, C56). *)
Require Import List Arith Lia Bool Reals Lra.
Require Import Verif.Base Verif.LinAlg Verif.LocalMeshModel Verif.LocalMeshProps Verif.TopoModel Verif.TopoSpec Verif.TopoProofs
  Verif.TopoProps Verif.AssembleModel Verif.ApplyModel Verif.MatFree Verif.MatFreeRhs Verif.PoissonModel Verif.PoissonProps Verif.PoissonExamples
  Verif.ElasticityModel Verif.ElasticitySpec Verif.ElasticityProofs Verif.ElasticityProps Verif.WaveProps.
Import ListNotations.
Local Open Scope R_scope.

(** Two basis functions with sum 1, two quadrature points in the element, one on a facet. *)
Definition ex_geo (meth : dg_method) (J : nat -> nat -> R) : pdata := {|
  p_dim := 2; p_N := 2; p_Nq := 2; p_nq := 1; p_method := meth;
  p_W := fun _ => 1; p_w := fun _ => 1;
  p_EQ := fun k q => if (k =? q)%nat then 1 else 0;
  p_DxiQ := fun k e _ => match k with O => match e with O => -1 | _ => -2 end | _ => match e with O => 1 | _ => 2 end end;
  p_matEQ := fun q m => if (m =? q)%nat then 1 else 0;
  p_E := fun f k _ => match f with O => match k with O => -2 | _ => 3 end | _ => match k with O => -1 | _ => 2 end end;
  p_Dxi := fun f k e _ => match k with O => match e with O => -1 | _ => -2 end | _ => match e with O => 1 | _ => 2 end end;
  p_matE := fun _ _ m => match m with O => 1 | _ => 0 end;
  p_MinvRef := fun a b => if (a =? b)%nat then 1 else 0;
  p_J := J; p_GQ := fun _ e i _ => if (e =? i)%nat then 1 else 0; p_K := fun _ _ => 1;
  p_n := fun _ i _ => match i with O => 3 | _ => 4 end; p_nu := fun _ i _ => match i with O => 3 / 5 | _ => 4 / 5 end;
  p_nl := fun _ _ => 5; p_G0 := fun _ e i _ => if (e =? i)%nat then 1 else 0; p_G1 := fun _ e i _ => if (e =? i)%nat then 1 else 0;
  p_pen := fun _ => 2; p_force := fun _ _ => 0; p_dir := fun _ _ _ => 0; p_slip := fun _ _ _ => 0 |}.
Definition ex_el (meth : dg_method) (J : nat -> nat -> R) (F : option (nat -> nat -> nat -> R)) : edata := {|
  e_geo := ex_geo meth J; e_lam := fun _ _ => 3; e_mu := fun _ _ => 1; e_rhoInv := fun _ _ => 1 / 2;
  e_Minv := fun _ a b => if (a =? b)%nat then 1 else 0; e_force := F;
  e_dir := Some (fun _ _ p _ => INR p + 1); e_slip := Some (fun _ _ p _ => INR p - 1) |}.
Lemma ex_geo_normal meth J i : normal_ok (ex_geo meth J) i.
Proof.
  intros q Hq. cbn. split.
  - replace (0 + 3 * 3 + 4 * 4) with (5 * 5) by ring. rewrite sqrt_square; lra.
  - intros [|[|?]] Hi; cbn; try lra; cbn in Hi; lia.
Qed.
Lemma ex_geo_inverse meth J : ref_inverse (ex_geo meth J).
Proof. intros [|[|a]] [|[|c]] Ha Hc; cbn in Ha, Hc; try lia; unfold ref_mass, delta; cbn; ring. Qed.
Definition one : nat -> nat -> R := fun _ _ => 1.
Ltac enum := unfold row_times, vec_row, assemble_volume, traction_op_side, traction_op, surface, lift_ip, lift_skeleton, lift_boundary, Lift, test_normal, rhs_facet_kernel, traction_test, rhs_lift_ip,
  flux_u_skeleton, flux_u_boundary, flux_u_add_bc, flux_sigma_skeleton, flux_sigma_boundary, flux_sigma_add_bc, apply_facet, apply_volume, constitutive_q, Ju_q, Ju_Q,
  lam_q, mu_q, lam_W_J, mu_W_J, G_side, Dx_side, Dx_q, Dx_Q, E_side, delta, epsilon, penalty, bf, cp, ix, block_size; cbn; unfold one; lra.

Ltac tables b := let s := eval vm_compute in (ex_sl b 0) in let f := eval vm_compute in (ex_fi b) in change (ex_sl b 0) with s; change (ex_fi b) with f;
  cbn [lsum a_volume a_post elasticity_mat]; unfold slot_part, assemble_facet; cbn [nth_error si_fct si_lid fi_up0 fi_up1 fi_inside0 fi_inside1 Nat.eqb negb a_skeleton a_boundary elasticity_mat if_some].

(** Element 1 has an interior facet seen from the second side, one seen from the first, and a
    Dirichlet boundary facet. *)
Example elasticity_apply_ex :
  (forall x, In x (ex_fi ex_bcs) -> bc_fits x) /\ (forall rhs, exists y, apply_rhs (ex_el IP one None) rhs (ex_fi ex_bcs) 1 (ex_sl ex_bcs 1)
    (fun l => INR l + 1) (map (fun s l => INR (si_lid s) + INR l) (ex_sl ex_bcs 1)) = Some y /\ y 0%nat <> 0).
Proof.
  split; [bc_cases|]. intros [|]; (eexists; split; [reflexivity|]); enum.
Qed.
Example elasticity_blocks_symmetric_ex : (forall J x, elastic_lift_sym (ex_el IP J None) x /\ elastic_lift_sym (ex_el BR2 J None) x) /\
  let '(_, A01, A10, _) := assemble_skeleton (ex_el IP one None) 0 {| fi_up0 := 0; fi_up1 := 1; fi_g0 := 0; fi_g1 := 1; fi_local0 := 0; fi_local1 := 1; fi_inside0 := true; fi_inside1 := true; fi_bc := 0 |} in
  A01 0%nat 1%nat = A10 1%nat 0%nat /\ A01 0%nat 1%nat <> A10 0%nat 1%nat.
Proof.
  split.
  - intros J x. split; [exact I|]. split; [intros el a b; cbn; rewrite Nat.eqb_sym; reflexivity|]. intros [|s] q q' _ _; split; reflexivity.
  - cbn [assemble_skeleton]. unfold assemble_skeleton. cbn [p_method e_geo ex_el ex_geo]. split; enum.
Qed.
(** The translation by (1, 2). *)
Example rigid_ex : rigid (ex_el BR2 one None) (ex_fi ex_bcs) (fun _ K => if (K <? 2)%nat then 1 else 2).
Proof.
  constructor.
  - intros e q r s _ Hr Hs. cbn in Hr, Hs. destruct r as [|[|r]], s as [|[|s]]; try lia; unfold dgr, Dx_Q, ix; cbn; ring.
  - intros i x side q r s _ Hside _ Hr Hs. cbn in Hr, Hs. destruct side as [|[|side]]; try lia; destruct r as [|[|r]], s as [|[|s]]; try lia; unfold dgr, Dx_side, Dx_q, ix; cbn; ring.
  - intros i x q p _ _ Hp. cbn in Hp. unfold trc, E_side, ix. destruct (fi_local0 x), (fi_local1 x), p as [|[|p]]; try lia; cbn; ring.
Qed.
Example elasticity_residual_ex : exists A B T, let x := {| fi_up0 := 0; fi_up1 := 1; fi_g0 := 0; fi_g1 := 1; fi_local0 := 0; fi_local1 := 1; fi_inside0 := true; fi_inside1 := true; fi_bc := BC_Fault |} in
  assemble_skeleton (ex_el IP one None) 0 x = A /\ rhs_skeleton (ex_el IP one None) 0 x = Some B /\
  traction_skeleton (ex_el IP one None) 0 x (fun l => INR l) (fun _ => 1) = Some T /\ T 0%nat 0%nat <> 0.
Proof. do 3 eexists. split; [reflexivity|]. split; [reflexivity|]. split; [reflexivity|]. unfold traction. enum. Qed.
Example wave_ex : ref_inverse (ex_geo IP one) /\ affine_element (ex_geo IP one) 1 1 /\
  (forall q, (q < 2)%nat -> inv_density (ex_el IP one None) 1 q = 1 / 2) /\
  exists a, wave_rhs (ex_el IP one None) (ex_fi ex_bcs) 1 (ex_sl ex_bcs 1) (fun l => INR l + 1) (map (fun s l => INR (si_lid s) + INR l) (ex_sl ex_bcs 1)) = Some a /\ a 0%nat <> 0.
Proof.
  split; [apply ex_geo_inverse|]. split; [split; [lra | reflexivity]|]. split.
  - intros [|[|q]] Hq; try lia; unfold inv_density; cbn; lra.
  - eexists. split; [reflexivity|]. unfold apply_inverse_mass, negative_rhoInv_W_Jinv, one. enum.
Qed.

(** An interior facet tagged as natural is assembled but not applied. *)
Theorem elasticity_natural_interior_refuted : exists E k m fi wr t e sl U y,
  topo_ok k m /\ facet_table k m = Some fi /\ interleaving (all_side_writes k fi) wr /\ do_writes (fresh_sides k m) wr = Some t /\
  p_method (e_geo E) = IP /\ (forall i, normal_ok (e_geo E) i) /\ (e < tm_num_local m)%nat /\
  map_opt (fun d => nth_error t (e * (k + 1) + d)) (seq 0 (k + 1)) = Some sl /\
  (forall x, In x fi -> fi_up0 x = fi_up1 x -> fi_bc x <> BC_None) /\
  elasticity_apply E fi e sl (U e) (map (fun s => U (si_lid s)) sl) = Some y /\
  y 0%nat <> row_times (block_size E) (assemble m fi (elasticity_mat E)) U e 0.
Proof.
  set (b := [1;5;1;5;0;5;5]%nat). destruct (ex_setup b 0 ltac:(auto) ltac:(lia)) as (H1 & H2 & H3 & H4 & H5).
  exists (ex_el IP one None), 2%nat, (ex_m b), (ex_fi b), (ex_wr b), (ex_t b), 0%nat, (ex_sl b 0), (fun e l => INR e). eexists.
  split; [exact H1|]. split; [exact H2|]. split; [exact H3|]. split; [exact H4|]. split; [reflexivity|]. split; [apply ex_geo_normal|].
  split; [cbn; lia|]. split; [exact H5|]. split.
  { intros x Hx. vm_compute in Hx. repeat (destruct Hx as [<- | Hx]; [cbn; discriminate|]); destruct Hx. }
  split; [reflexivity|]. rewrite (row_by_slots 2 (ex_m b) (ex_fi b) (ex_wr b) (ex_t b) H1 H2 H3 H4 _ _ _ 0 (ex_sl b 0) 0 ltac:(cbn; lia) H5).
  tables b. unfold one, assemble_skeleton, assemble_boundary. enum.
Qed.
Print Assumptions elasticity_natural_interior_refuted.
(** A boundary facet without boundary condition is assembled like a Dirichlet boundary, but applied as
    if the element were its own neighbour. *)
Theorem elasticity_untagged_boundary_refuted : exists E k m fi wr t e sl U y,
  topo_ok k m /\ facet_table k m = Some fi /\ interleaving (all_side_writes k fi) wr /\ do_writes (fresh_sides k m) wr = Some t /\
  p_method (e_geo E) = IP /\ (forall i, normal_ok (e_geo E) i) /\ (e < tm_num_local m)%nat /\
  map_opt (fun d => nth_error t (e * (k + 1) + d)) (seq 0 (k + 1)) = Some sl /\
  (forall x, In x fi -> fi_up0 x <> fi_up1 x -> fi_bc x <> BC_Natural) /\
  elasticity_apply E fi e sl (U e) (map (fun s => U (si_lid s)) sl) = Some y /\
  y 0%nat <> row_times (block_size E) (assemble m fi (elasticity_mat E)) U e 0.
Proof.
  set (b := [0;5;0;5;0;5;5]%nat). destruct (ex_setup b 0 ltac:(auto) ltac:(lia)) as (H1 & H2 & H3 & H4 & H5).
  exists (ex_el IP one None), 2%nat, (ex_m b), (ex_fi b), (ex_wr b), (ex_t b), 0%nat, (ex_sl b 0), (fun e l => 1). eexists.
  split; [exact H1|]. split; [exact H2|]. split; [exact H3|]. split; [exact H4|]. split; [reflexivity|]. split; [apply ex_geo_normal|].
  split; [cbn; lia|]. split; [exact H5|]. split.
  { intros x Hx. vm_compute in Hx. repeat (destruct Hx as [<- | Hx]; [unfold BC_Natural; cbn; intros ? ?; congruence|]); destruct Hx. }
  split; [reflexivity|]. rewrite (row_by_slots 2 (ex_m b) (ex_fi b) (ex_wr b) (ex_t b) H1 H2 H3 H4 _ _ _ 0 (ex_sl b 0) 0 ltac:(cbn; lia) H5).
  tables b. unfold one, assemble_skeleton, assemble_boundary. enum.
Qed.
Print Assumptions elasticity_untagged_boundary_refuted.
(** With BR2, apply uses the interior penalty flux although the lifted one is assembled. *)
Theorem elasticity_br2_apply_refuted : exists E k m fi wr t e sl U y,
  topo_ok k m /\ facet_table k m = Some fi /\ interleaving (all_side_writes k fi) wr /\ do_writes (fresh_sides k m) wr = Some t /\
  p_method (e_geo E) = BR2 /\ (forall i, normal_ok (e_geo E) i) /\ (forall x, In x fi -> bc_fits x) /\ (e < tm_num_local m)%nat /\
  map_opt (fun d => nth_error t (e * (k + 1) + d)) (seq 0 (k + 1)) = Some sl /\
  elasticity_apply E fi e sl (U e) (map (fun s => U (si_lid s)) sl) = Some y /\
  y 0%nat <> row_times (block_size E) (assemble m fi (elasticity_mat E)) U e 0.
Proof.
  set (b := ex_bcs). destruct (ex_setup b 0 ltac:(auto) ltac:(lia)) as (H1 & H2 & H3 & H4 & H5).
  exists (ex_el BR2 one None), 2%nat, (ex_m b), (ex_fi b), (ex_wr b), (ex_t b), 0%nat, (ex_sl b 0), (fun e l => INR e). eexists.
  split; [exact H1|]. split; [exact H2|]. split; [exact H3|]. split; [exact H4|]. split; [reflexivity|]. split; [apply ex_geo_normal|].
  split; [bc_cases|]. split; [cbn; lia|]. split; [exact H5|].
  split; [reflexivity|]. rewrite (row_by_slots 2 (ex_m b) (ex_fi b) (ex_wr b) (ex_t b) H1 H2 H3 H4 _ _ _ 0 (ex_sl b 0) 0 ltac:(cbn; lia) H5).
  tables b. unfold one, assemble_skeleton, assemble_boundary. enum.
Qed.
Print Assumptions elasticity_br2_apply_refuted.
(** A body force is not seen by wave_rhs. *)
Theorem wave_force_refuted : exists E k m fi wr t e sl U a,
  topo_ok k m /\ facet_table k m = Some fi /\ interleaving (all_side_writes k fi) wr /\ do_writes (fresh_sides k m) wr = Some t /\
  p_method (e_geo E) = IP /\ (forall i, normal_ok (e_geo E) i) /\ (forall x, In x fi -> bc_fits x) /\ (e < tm_num_local m)%nat /\
  map_opt (fun d => nth_error t (e * (k + 1) + d)) (seq 0 (k + 1)) = Some sl /\
  ref_inverse (e_geo E) /\ affine_element (e_geo E) e 1 /\ (forall q, (q < p_Nq (e_geo E))%nat -> inv_density E e q = 1 / 2) /\
  wave_rhs E fi e sl (U e) (map (fun s => U (si_lid s)) sl) = Some a /\
  rsum (p_N (e_geo E)) (fun l => mass E (fun _ => 2) e 0 l * a (ix E l 0)) <>
  - (row_times (block_size E) (assemble m fi (elasticity_mat E)) U e (ix E 0 0) - vec_row (rhs m fi (elasticity_vec E)) e (ix E 0 0)).
Proof.
  set (b := ex_bcs). destruct (ex_setup b 0 ltac:(auto) ltac:(lia)) as (H1 & H2 & H3 & H4 & H5).
  set (E := ex_el IP one (Some (fun _ _ _ => 1))).
  assert (D : forall q, (q < 2)%nat -> inv_density (ex_el IP one None) 0 q = 1 / 2) by (intros [|[|q]] Hq; try lia; unfold inv_density; cbn; lra).
  assert (B : forall x, In x (ex_fi b) -> bc_fits x) by bc_cases.
  destruct (wave_rhs_correct (ex_el IP one None) 2 (ex_m b) (ex_fi b) (ex_wr b) (ex_t b) 0 (ex_sl b 0) (fun e l => INR e) 1 (1 / 2) H1 H2 H3 H4 eq_refl (fun i _ => ex_geo_normal IP one i) B ltac:(cbn; lia) H5 eq_refl
    (ex_geo_inverse IP one) ltac:(split; [lra | reflexivity]) ltac:(lra) D) as (a & Ea & Ha).
  exists E, 2%nat, (ex_m b), (ex_fi b), (ex_wr b), (ex_t b), 0%nat, (ex_sl b 0), (fun e l => INR e), a.
  split; [exact H1|]. split; [exact H2|]. split; [exact H3|]. split; [exact H4|]. split; [reflexivity|]. split; [apply ex_geo_normal|].
  split; [exact B|]. split; [cbn; lia|]. split; [exact H5|]. split; [apply ex_geo_inverse|]. split; [split; [lra | reflexivity]|].
  split; [exact D|]. split; [exact Ea|].
  specialize (Ha 0%nat 0%nat ltac:(cbn; lia) ltac:(cbn; lia)).
  assert (R : vec_row (rhs (ex_m b) (ex_fi b) (elasticity_vec E)) 0 (ix E 0 0) = vec_row (rhs (ex_m b) (ex_fi b) (elasticity_vec (ex_el IP one None))) 0 (ix (ex_el IP one None) 0 0) + 1).
  { rewrite (vec_row_by_slots 2 (ex_m b) (ex_fi b) (ex_wr b) (ex_t b) H1 H2 H3 H4 (elasticity_vec E) 0 (ex_sl b 0) _ ltac:(cbn; lia) H5).
    rewrite (vec_row_by_slots 2 (ex_m b) (ex_fi b) (ex_wr b) (ex_t b) H1 H2 H3 H4 (elasticity_vec (ex_el IP one None)) 0 (ex_sl b 0) _ ltac:(cbn; lia) H5).
    change (lsum (slot_load (ex_fi b) (elasticity_vec E) 0 (ix E 0 0)) (ex_sl b 0)) with (lsum (slot_load (ex_fi b) (elasticity_vec (ex_el IP one None)) 0 (ix (ex_el IP one None) 0 0)) (ex_sl b 0)).
    cbn [r_volume r_post elasticity_vec]. unfold rhs_volume. cbn [e_force E ex_el].
    replace (rsum _ (fun q => p_J _ 0 q * _ * _ * _)) with 1; [ring|]. unfold ix, bf, cp. cbn. unfold one. ring. }
  rewrite R. change (row_times (block_size E) (assemble (ex_m b) (ex_fi b) (elasticity_mat E)) (fun e _ => INR e) 0 (ix E 0 0)) with
    (row_times (block_size (ex_el IP one None)) (assemble (ex_m b) (ex_fi b) (elasticity_mat (ex_el IP one None))) (fun e _ => INR e) 0 (ix (ex_el IP one None) 0 0)).
  replace (rsum (p_N (e_geo E)) (fun l => mass E (fun _ => 2) 0 0 l * a (ix E l 0))) with
    (rsum (p_N (e_geo (ex_el IP one None))) (fun l => mass (ex_el IP one None) (fun _ => 1 / (1 / 2)) 0 0 l * a (ix (ex_el IP one None) l 0))).
  - rewrite Ha. lra.
  - apply rsum_ext. intros l _. f_equal. unfold mass. apply rsum_ext. intros. cbn. field.
Qed.
Print Assumptions wave_force_refuted.
(** On curved elements (J varies) the projection does not reproduce the functions of the space. *)
Theorem project_curved_refuted : exists E el V K, ref_inverse (e_geo E) /\ (forall q, (q < p_Nq (e_geo E))%nat -> 0 < p_J (e_geo E) el q) /\ (K < block_size E)%nat /\
  project E el (fun p q => trc E (p_EQ (e_geo E)) V p q) K <> V K.
Proof.
  set (P := {| p_dim := 1; p_N := 1; p_Nq := 2; p_nq := 1; p_method := IP; p_W := fun _ => 1; p_w := fun _ => 1;
    p_EQ := fun _ _ => 1; p_DxiQ := fun _ _ _ => 0; p_matEQ := fun _ _ => 1; p_E := fun _ _ _ => 1; p_Dxi := fun _ _ _ _ => 0; p_matE := fun _ _ _ => 1;
    p_MinvRef := fun _ _ => 1 / 2; p_J := fun _ q => match q with O => 1 | _ => 2 end; p_GQ := fun _ _ _ _ => 1; p_K := fun _ _ => 1;
    p_n := fun _ _ _ => 1; p_nu := fun _ _ _ => 1; p_nl := fun _ _ => 1; p_G0 := fun _ _ _ _ => 1; p_G1 := fun _ _ _ _ => 1;
    p_pen := fun _ => 1; p_force := fun _ _ => 0; p_dir := fun _ _ _ => 0; p_slip := fun _ _ _ => 0 |}).
  exists {| e_geo := P; e_lam := fun _ _ => 1; e_mu := fun _ _ => 1; e_rhoInv := fun _ _ => 1; e_Minv := fun _ _ _ => 1; e_force := None; e_dir := None; e_slip := None |}, 0%nat, (fun _ => 1), 0%nat.
  split; [|split; [|split]].
  - intros [|a] [|c] Ha Hc; cbn in Ha, Hc; try lia. unfold ref_mass, delta. cbn. field.
  - intros [|q] _; cbn; lra.
  - cbn. lia.
  - unfold project, apply_inverse_mass, trc, ix, bf, cp. cbn. lra.
Qed.
Print Assumptions project_curved_refuted.
