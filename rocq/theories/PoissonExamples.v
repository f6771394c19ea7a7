(** Cases that meet the hypotheses of the Poisson theorems, and cases that show which of them are
    needed (C26). *)
Require Import List Arith Lia Bool Reals Lra.
Require Import Verif.Base Verif.LinAlg Verif.LocalMeshModel Verif.LocalMeshProps Verif.TopoModel Verif.TopoSpec Verif.TopoProofs
  Verif.TopoProps Verif.AssembleModel Verif.ApplyModel Verif.MatFree Verif.PoissonModel Verif.PoissonProofs Verif.PoissonProps.
Import ListNotations.
Local Open Scope R_scope.

(** The strip of three triangles of TopoProps with other boundary conditions. *)
Definition with_bc (m : topo_mesh) (b : list nat) : topo_mesh :=
  {| tm_elems := tm_elems m; tm_num_local := tm_num_local m; tm_facets := tm_facets m; tm_num_local_facets := tm_num_local_facets m;
     tm_owner := tm_owner m; tm_l2cg := tm_l2cg m; tm_shared := tm_shared m; tm_bc := Some b |}.
Lemma with_bc_ok k m b : topo_ok k m -> length b = length (tm_facets m) -> topo_ok k (with_bc m b).
Proof.
  intros [H1 H2 H3 H4 H5 H6 H7 H8 H9 H10 H11] L. constructor; auto. cbn. eauto.
Qed.

(** Two basis functions, one quadrature point. *)
Definition ex_data (meth : dg_method) : pdata := {|
  p_dim := 2; p_N := 2; p_Nq := 1; p_nq := 1; p_method := meth;
  p_W := fun _ => 1; p_w := fun _ => 1;
  p_EQ := fun k _ => match k with O => 1 | _ => 0 end;
  p_DxiQ := fun k e _ => match k with O => 0 | _ => match e with O => 1 | _ => 2 end end;
  p_matEQ := fun _ m => match m with O => 1 | _ => 0 end;
  p_E := fun f k _ => match k with O => 1 | _ => match f with O => 3 | _ => 2 end end;
  p_Dxi := fun f k e _ => match k with O => 0 | _ => match e with O => 1 | _ => 2 end end;
  p_matE := fun _ _ m => match m with O => 1 | _ => 0 end;
  p_MinvRef := fun a b => if (a =? b)%nat then 1 else 0;
  p_J := fun _ _ => 1; p_GQ := fun _ e i _ => if (e =? i)%nat then 1 else 0; p_K := fun _ _ => 1;
  p_n := fun _ i _ => match i with O => 3 | _ => 4 end; p_nu := fun _ i _ => match i with O => 3 / 5 | _ => 4 / 5 end;
  p_nl := fun _ _ => 5; p_G0 := fun _ e i _ => if (e =? i)%nat then 1 else 0; p_G1 := fun _ e i _ => if (e =? i)%nat then 1 else 0;
  p_pen := fun _ => 2; p_force := fun _ _ => 0; p_dir := fun _ _ _ => 7; p_slip := fun _ _ _ => 1 |}.
Lemma ex_normal meth i : normal_ok (ex_data meth) i.
Proof.
  intros q Hq. cbn. split.
  - replace (0 + 3 * 3 + 4 * 4) with (5 * 5) by ring. rewrite sqrt_square; lra.
  - intros [|[|?]] Hi; cbn; try lra; cbn in Hi; lia.
Qed.
Definition ex_bcs : list nat := [1;5;0;5;0;5;5]%nat.
Definition ex_m (b : list nat) : topo_mesh := with_bc ex_mesh b.
Definition ex_fi (b : list nat) : list facet_info := match facet_table 2 (ex_m b) with Some fi => fi | None => [] end.
Definition ex_wr (b : list nat) : list (nat * side_info) := concat (all_side_writes 2 (ex_fi b)).
Definition ex_t (b : list nat) : list side_info := match do_writes (fresh_sides 2 (ex_m b)) (ex_wr b) with Some t => t | None => [] end.
Definition ex_sl (b : list nat) (e : nat) : list side_info :=
  match map_opt (fun d => nth_error (ex_t b) (e * (2 + 1) + d)) (seq 0 (2 + 1)) with Some s => s | None => [] end.
(** The facets one after the other are one of the interleavings. *)
Lemma il_concat {A} (ps : list (list A)) : interleaving ps (concat ps).
Proof.
  assert (G : forall n ps, (length (concat ps) <= n)%nat -> interleaving ps (@concat A ps)).
  { induction n as [|n IH]; intros qs L.
    - destruct (concat qs) as [|a l] eqn:E; [|cbn in L; lia]. apply il_nil. intros p Hp. destruct p as [|x p]; auto. exfalso.
      assert (In x (concat qs)) by (apply in_concat; exists (x :: p); split; [auto | left; auto]). rewrite E in H. destruct H.
    - assert (D : concat qs = [] \/ exists a x p b, qs = a ++ (x :: p) :: b /\ concat a = []).
      { clear. induction qs as [|p qs IH]; auto. destruct p as [|x p].
        - destruct IH as [IH | (a & x & p & b & -> & E)]; [left; auto|]. right. exists ([] :: a), x, p, b. auto.
        - right. exists [], x, p, qs. auto. }
      destruct D as [D | (a & x & p & b & -> & E)].
      + rewrite D. apply il_nil. intros q Hq. destruct q as [|x q]; auto. exfalso.
        assert (In x (concat qs)) by (apply in_concat; exists (x :: q); split; [auto | left; auto]). rewrite D in H. destruct H.
      + rewrite concat_app, E. cbn [concat app]. apply il_step.
        replace (p ++ concat b) with (concat (a ++ p :: b)) by (rewrite concat_app, E; reflexivity). apply IH.
        rewrite concat_app, E in L |- *. cbn in L |- *. lia. }
  apply (G (length (concat ps))). auto.
Qed.
(** All that the theorems ask about the mesh holds. *)
Lemma ex_setup b e : b = ex_bcs \/ b = [1;5;1;5;0;5;5]%nat \/ b = [0;5;0;5;0;5;5]%nat -> (e < 2)%nat ->
  topo_ok 2 (ex_m b) /\ facet_table 2 (ex_m b) = Some (ex_fi b) /\ interleaving (all_side_writes 2 (ex_fi b)) (ex_wr b) /\
  do_writes (fresh_sides 2 (ex_m b)) (ex_wr b) = Some (ex_t b) /\
  map_opt (fun d => nth_error (ex_t b) (e * (2 + 1) + d)) (seq 0 (2 + 1)) = Some (ex_sl b e).
Proof.
  intros Hb He. split; [apply with_bc_ok; [apply ex_mesh_ok | destruct Hb as [-> | [-> | ->]]; reflexivity]|].
  split; [destruct Hb as [-> | [-> | ->]]; vm_compute; reflexivity|]. split; [apply il_concat|].
  split; destruct Hb as [-> | [-> | ->]]; destruct e as [|[|e]]; try lia; vm_compute; reflexivity.
Qed.
Ltac num := cbn; unfold flux_u_skeleton, flux_sigma_skeleton, flux_u_boundary, flux_sigma_boundary, lift_skeleton, lift_boundary, lift_ip, Lift, inverse_mass, epsilon, compute_K_q, penalty, surface, K_Dx; cbn; lra.
Ltac bc_cases := intros x Hx; vm_compute in Hx; repeat (destruct Hx as [<- | Hx]; [unfold bc_fits; cbn; repeat split; auto; intro; try discriminate; congruence|]); destruct Hx.

(** Element 1 has an interior facet seen from the second side, one seen from the first, and a
    Dirichlet boundary facet. *)
Example apply_matches_assembly_ex :
  (forall x, In x (ex_fi ex_bcs) -> bc_fits x) /\
  exists y, poisson_apply (ex_data IP) (ex_fi ex_bcs) 1 (ex_sl ex_bcs 1) (fun l => INR l + 1) (map (fun s l => INR (si_lid s) + INR l) (ex_sl ex_bcs 1)) = Some y /\ y 0%nat <> 0.
Proof.
  split; [bc_cases|]. eexists. split; [reflexivity|]. num.
Qed.
Example blocks_symmetric_ex : forall fct x, lift_sym (ex_data IP) x /\ lift_sym (ex_data BR2) x /\
  let '(_, A01, A10, _) := assemble_skeleton (ex_data IP) fct {| fi_up0 := 0; fi_up1 := 1; fi_g0 := 0; fi_g1 := 1; fi_local0 := 0; fi_local1 := 1; fi_inside0 := true; fi_inside1 := true; fi_bc := 0 |} in
  A01 0%nat 1%nat = A10 1%nat 0%nat /\ A01 0%nat 1%nat <> A10 0%nat 1%nat.
Proof.
  intros fct x. split; [exact I|]. split.
  - split; [intros a b; cbn; rewrite Nat.eqb_sym; reflexivity|]. intros [|s] q q' _ _; reflexivity.
  - num.
Qed.
Example constants_ex : constant_one (ex_data IP) (fun l => match l with O => 1 | _ => 0 end).
Proof. split; [|split]; intros; cbn; ring. Qed.
Example residual_ex : exists A B T, let x := {| fi_up0 := 0; fi_up1 := 1; fi_g0 := 0; fi_g1 := 1; fi_local0 := 0; fi_local1 := 1; fi_inside0 := true; fi_inside1 := true; fi_bc := BC_Fault |} in
  assemble_skeleton (ex_data IP) 0 x = A /\ rhs_skeleton (ex_data IP) 0 x = Some B /\
  traction_skeleton (ex_data IP) 0 x (fun _ => 1) (fun _ => 1) = Some T /\ T 0%nat 0%nat <> 0.
Proof. do 3 eexists. split; [reflexivity|]. split; [reflexivity|]. split; [reflexivity|]. cbn. lra. Qed.

(** An interior facet tagged as natural is assembled but not applied. *)
Theorem natural_interior_refuted : exists P k m fi wr t e sl U y,
  topo_ok k m /\ facet_table k m = Some fi /\ interleaving (all_side_writes k fi) wr /\ do_writes (fresh_sides k m) wr = Some t /\
  p_method P = IP /\ (forall i, normal_ok P i) /\ (e < tm_num_local m)%nat /\
  map_opt (fun d => nth_error t (e * (k + 1) + d)) (seq 0 (k + 1)) = Some sl /\
  (forall x, In x fi -> fi_up0 x = fi_up1 x -> fi_bc x <> BC_None) /\
  poisson_apply P fi e sl (U e) (map (fun s => U (si_lid s)) sl) = Some y /\
  y 0%nat <> row_times (p_N P) (assemble m fi (poisson_mat P)) U e 0.
Proof.
  set (b := [1;5;1;5;0;5;5]%nat). destruct (ex_setup b 0 ltac:(auto) ltac:(lia)) as (H1 & H2 & H3 & H4 & H5).
  exists (ex_data IP), 2%nat, (ex_m b), (ex_fi b), (ex_wr b), (ex_t b), 0%nat, (ex_sl b 0), (fun e l => INR e). eexists.
  split; [exact H1|]. split; [exact H2|]. split; [exact H3|]. split; [exact H4|]. split; [reflexivity|]. split; [apply ex_normal|].
  split; [cbn; lia|]. split; [exact H5|]. split.
  { intros x Hx. vm_compute in Hx. repeat (destruct Hx as [<- | Hx]; [cbn; discriminate|]); destruct Hx. }
  split; [reflexivity|]. rewrite (row_by_slots 2 (ex_m b) (ex_fi b) (ex_wr b) (ex_t b) H1 H2 H3 H4 _ _ _ 0 (ex_sl b 0) 0 ltac:(cbn; lia) H5).
  num.
Qed.
Print Assumptions natural_interior_refuted.
(** A boundary facet without boundary condition is assembled like a Dirichlet boundary, but applied as
    if the element were its own neighbour. *)
Theorem untagged_boundary_refuted : exists P k m fi wr t e sl U y,
  topo_ok k m /\ facet_table k m = Some fi /\ interleaving (all_side_writes k fi) wr /\ do_writes (fresh_sides k m) wr = Some t /\
  p_method P = IP /\ (forall i, normal_ok P i) /\ (e < tm_num_local m)%nat /\
  map_opt (fun d => nth_error t (e * (k + 1) + d)) (seq 0 (k + 1)) = Some sl /\
  (forall x, In x fi -> fi_up0 x <> fi_up1 x -> fi_bc x <> BC_Natural) /\
  poisson_apply P fi e sl (U e) (map (fun s => U (si_lid s)) sl) = Some y /\
  y 0%nat <> row_times (p_N P) (assemble m fi (poisson_mat P)) U e 0.
Proof.
  set (b := [0;5;0;5;0;5;5]%nat). destruct (ex_setup b 0 ltac:(auto) ltac:(lia)) as (H1 & H2 & H3 & H4 & H5).
  exists (ex_data IP), 2%nat, (ex_m b), (ex_fi b), (ex_wr b), (ex_t b), 0%nat, (ex_sl b 0), (fun e l => 1). eexists.
  split; [exact H1|]. split; [exact H2|]. split; [exact H3|]. split; [exact H4|]. split; [reflexivity|]. split; [apply ex_normal|].
  split; [cbn; lia|]. split; [exact H5|]. split.
  { intros x Hx. vm_compute in Hx. repeat (destruct Hx as [<- | Hx]; [unfold BC_Natural; cbn; intros ? ?; congruence|]); destruct Hx. }
  split; [reflexivity|]. rewrite (row_by_slots 2 (ex_m b) (ex_fi b) (ex_wr b) (ex_t b) H1 H2 H3 H4 _ _ _ 0 (ex_sl b 0) 0 ltac:(cbn; lia) H5).
  num.
Qed.
Print Assumptions untagged_boundary_refuted.
(** With BR2, apply uses the interior penalty flux although the lifted one is assembled. *)
Theorem br2_apply_refuted : exists P k m fi wr t e sl U y,
  topo_ok k m /\ facet_table k m = Some fi /\ interleaving (all_side_writes k fi) wr /\ do_writes (fresh_sides k m) wr = Some t /\
  p_method P = BR2 /\ (forall i, normal_ok P i) /\ (forall x, In x fi -> bc_fits x) /\ (e < tm_num_local m)%nat /\
  map_opt (fun d => nth_error t (e * (k + 1) + d)) (seq 0 (k + 1)) = Some sl /\
  poisson_apply P fi e sl (U e) (map (fun s => U (si_lid s)) sl) = Some y /\
  y 0%nat <> row_times (p_N P) (assemble m fi (poisson_mat P)) U e 0.
Proof.
  set (b := ex_bcs). destruct (ex_setup b 0 ltac:(auto) ltac:(lia)) as (H1 & H2 & H3 & H4 & H5).
  exists (ex_data BR2), 2%nat, (ex_m b), (ex_fi b), (ex_wr b), (ex_t b), 0%nat, (ex_sl b 0), (fun e l => INR e). eexists.
  split; [exact H1|]. split; [exact H2|]. split; [exact H3|]. split; [exact H4|]. split; [reflexivity|]. split; [apply ex_normal|].
  split; [bc_cases|]. split; [cbn; lia|]. split; [exact H5|].
  split; [reflexivity|]. rewrite (row_by_slots 2 (ex_m b) (ex_fi b) (ex_wr b) (ex_t b) H1 H2 H3 H4 _ _ _ 0 (ex_sl b 0) 0 ltac:(cbn; lia) H5).
  num.
Qed.
Print Assumptions br2_apply_refuted.
(** With BR2 and material varying along the facet, the assembled blocks are not symmetric. *)
Theorem br2_asymmetric_refuted : exists P fct x A00 A01 A10 A11,
  p_method P = BR2 /\ (forall a b, p_MinvRef P a b = p_MinvRef P b a) /\ normal_ok P fct /\
  (forall s q, (q < p_nq P)%nat -> 0 < compute_K_q P x s q) /\
  assemble_skeleton P fct x = (A00, A01, A10, A11) /\ A00 0%nat 1%nat <> A00 1%nat 0%nat.
Proof.
  set (P := {|
  p_dim := 1; p_N := 2; p_Nq := 1; p_nq := 2; p_method := BR2;
  p_W := fun _ => 1; p_w := fun _ => 1;
  p_EQ := fun k _ => match k with O => 1 | _ => 0 end; p_DxiQ := fun _ _ _ => 0; p_matEQ := fun _ m => 0;
  p_E := fun f k q => match k with O => 1 | _ => match q with O => 1 | _ => 0 end end;
  p_Dxi := fun _ _ _ _ => 0;
  p_matE := fun _ q m => match m with O => match q with O => 1 | _ => 2 end | _ => 0 end;
  p_MinvRef := fun a b => if (a =? b)%nat then 1 else 0;
  p_J := fun _ _ => 1; p_GQ := fun _ _ _ _ => 0; p_K := fun _ _ => 1;
  p_n := fun _ i _ => 1; p_nu := fun _ i _ => 1; p_nl := fun _ _ => 1; p_G0 := fun _ _ _ _ => 0; p_G1 := fun _ _ _ _ => 0;
  p_pen := fun _ => 1; p_force := fun _ _ => 0; p_dir := fun _ _ _ => 0; p_slip := fun _ _ _ => 0 |}).
  exists P, 0%nat, {| fi_up0 := 0; fi_up1 := 1; fi_g0 := 0; fi_g1 := 1; fi_local0 := 0; fi_local1 := 1; fi_inside0 := true; fi_inside1 := true; fi_bc := 0 |}.
  do 4 eexists. split; [reflexivity|]. split; [intros a b; cbn; rewrite Nat.eqb_sym; reflexivity|]. split.
  { intros q Hq. cbn. split; [replace (0 + 1 * 1) with 1 by ring; rewrite sqrt_1; reflexivity | intros; ring]. }
  split. { intros s q Hq. destruct s, q; cbn; lra. }
  split; [reflexivity|].
  unfold surface, lift_skeleton, Lift, inverse_mass, epsilon, compute_K_q, compute_K_Dx, K_Dx, E_side, penalty. cbn. lra.
Qed.
Print Assumptions br2_asymmetric_refuted.
