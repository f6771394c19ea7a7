(** Ranks that meet the hypotheses exist for every mesh; a concrete mesh (C64). *)
Require Import List Arith Lia Bool Reals Lra FunctionalExtensionality Sorting.Sorted Factorial.
Require Import Verif.Base Verif.LinAlg Verif.SimplexModel Verif.SimplexProofs Verif.LocalMeshModel Verif.LocalMeshProps Verif.TopoModel Verif.TopoSpec Verif.TopoProofs Verif.TopoProps Verif.ApplyProps
  Verif.AssembleModel Verif.AssembleSpec Verif.AssembleProofs Verif.AssembleProps Verif.MatFree Verif.FaultModel Verif.PoissonModel Verif.PenaltyModel
  Verif.SipSpec Verif.SipProofs Verif.SipRank Verif.SipProps Verif.SipExamples Verif.CoerciveProps
  Verif.GeometryModel Verif.GeometryProofs Verif.GeometrySpec Verif.GeometryProps Verif.GeometryStraight Verif.GeometryExamples Verif.MeshSpec Verif.MeshProofs Verif.MeshPoissonProps
  Verif.ElasticityModel Verif.ElasticFormSpec Verif.ElasticCoerciveProps Verif.ElasticCflModel Verif.ElasticCflProps
  Verif.MeshElasticSpec Verif.MeshElasticProps Verif.MeshWaveProps Verif.MeshExamples.
Import ListNotations.
Local Open Scope R_scope.

Section Rank.
Variables (G : geo_setup) (E_ : edata) (degree : nat) (m : topo_mesh) (fi : list facet_info).
Definition mesh_erank0 (P : pdata) : edata := {|
  e_geo := P; e_lam := fun e => e_lam E_ (nth e (tm_l2cg m) 0%nat); e_mu := fun e => e_mu E_ (nth e (tm_l2cg m) 0%nat);
  e_rhoInv := fun e => e_rhoInv E_ (nth e (tm_l2cg m) 0%nat); e_Minv := fun _ _ _ => 0; e_force := None; e_dir := None; e_slip := None |}.
Definition mesh_erank : edata := let B := mesh_rank0 G (e_geo E_) m fi in mesh_erank0 {|
  p_dim := p_dim B; p_N := p_N B; p_Nq := p_Nq B; p_nq := p_nq B; p_method := p_method B;
  p_W := p_W B; p_w := p_w B; p_EQ := p_EQ B; p_DxiQ := p_DxiQ B; p_matEQ := p_matEQ B;
  p_E := p_E B; p_Dxi := p_Dxi B; p_matE := p_matE B; p_MinvRef := p_MinvRef B;
  p_J := p_J B; p_GQ := p_GQ B; p_K := p_K B; p_n := p_n B; p_nu := p_nu B; p_nl := p_nl B; p_G0 := p_G0 B; p_G1 := p_G1 B;
  p_pen := fun i => ElasticityModel.prepare_penalty (mesh_erank0 B) degree i (nth i fi dummy_record); p_force := p_force B; p_dir := p_dir B; p_slip := p_slip B |}.
Lemma mesh_erank_ok : topo_ok (gs_D G) m -> facet_table (gs_D G) m = Some fi -> elastic_rank G E_ degree m fi mesh_erank.
Proof.
  intros O T. split; auto.
  - split; reflexivity.
  - apply (mesh_rank_geo G (e_geo E_) m fi); auto.
  - intros e g E. cbn. rewrite (nth_error_nth _ _ 0%nat E). auto.
  - intros i x E. cbn [mesh_erank mesh_erank0 e_geo p_pen]. rewrite (nth_error_nth _ _ dummy_record E). reflexivity.
Qed.
End Rank.

(** Linear functions on the triangle, midpoint rule, Simpson's rule on the edges. *)
Definition tri_E (f l q : nat) : R := let t := match q with O => 0 | 1%nat => 1 / 2 | _ => 1 end in
  if (l =? 2 - f)%nat then 0 else if (l =? if (f =? 2)%nat then 1 else 0)%nat then 1 - t else t.
Definition tri_lin : pdata := {|
  p_dim := 2; p_N := 3; p_Nq := 3; p_nq := 3; p_method := IP;
  p_W := fun _ => 1 / 6; p_w := fun q => if (q =? 1)%nat then 4 / 6 else 1 / 6;
  p_EQ := fun l q => if (l =? q)%nat then 0 else 1 / 2;
  p_DxiQ := fun l e _ => match l with O => -1 | S d => if (d =? e)%nat then 1 else 0 end;
  p_matEQ := fun q l => if (l =? q)%nat then 0 else 1 / 2;
  p_E := tri_E;
  p_Dxi := fun _ l e _ => match l with O => -1 | S d => if (d =? e)%nat then 1 else 0 end;
  p_matE := fun f q l => tri_E f l q;
  p_MinvRef := fun a b => 0; p_J := fun _ _ => 1; p_GQ := fun _ _ _ _ => 0; p_K := fun _ _ => 1;
  p_n := fun _ _ _ => 0; p_nu := fun _ _ _ => 0; p_nl := fun _ _ => 0; p_G0 := fun _ _ _ _ => 0; p_G1 := fun _ _ _ _ => 0;
  p_pen := fun _ => 0; p_force := fun _ _ => 0; p_dir := fun _ _ _ => 0; p_slip := fun _ _ _ => 0 |}.
(** Material that varies within and between elements; density at least two. *)
Definition tri_edata : edata := {|
  e_geo := tri_lin; e_lam := fun g l => INR (g + l); e_mu := fun g l => INR (S l); e_rhoInv := fun g _ => / INR (g + 2); e_Minv := fun _ _ _ => 0;
  e_force := None; e_dir := None; e_slip := None |}.
Lemma tri_linear : linear_reference 2 tri_lin.
Proof.
  split; try reflexivity.
  - split; [intros; cbn; lra|exists 0%nat; cbn; split; [lia|lra]].
  - split; [intros q _; cbn; destruct (q =? 1)%nat; lra|exists 0%nat; cbn; split; [lia|lra]].
  - intros q Hq. split; [intros l _; cbn [tri_lin p_matEQ]; destruct (l =? q)%nat; lra|]. cbn in Hq. destruct q as [|[|[|q]]]; try lia; cbn; lra.
  - intros l q Hl Hq. cbn in Hq. split.
    + intros k Hk. cbn [tri_lin p_matE]. unfold tri_E. destruct q as [|[|[|q]]]; try lia; destruct (k =? 2 - l)%nat, (k =? (if (l =? 2)%nat then 1 else 0))%nat; lra.
    + destruct l as [|[|[|l]]]; try lia; destruct q as [|[|[|q]]]; try lia; cbn; lra.
Qed.
Lemma tri_exact : exact_quadrature 2 tri_lin.
Proof.
  split; cbn [tri_lin p_nq p_Nq p_W p_w p_E p_EQ].
  - cbn. lra.
  - cbn. lra.
  - intros i j Hi Hj. destruct i as [|[|[|i]]]; try lia; destruct j as [|[|[|j]]]; try lia; cbn; lra.
  - intros l i j Hl Hi Hj. destruct l as [|[|[|l]]]; try lia; destruct i as [|[|[|i]]]; try lia; destruct j as [|[|[|j]]]; try lia; cbn; unfold tri_E; cbn; lra.
Qed.
Definition tri_setup : geo_setup := linear_setup 2 strip_X (fun _ _ => 1 / 3) (fun _ _ => 1 / 2).
Definition tri_rank (p : nat) : edata := mesh_erank tri_setup tri_edata 1 (ex_part p) (ex_part_fi p).
Definition tri_wr (p : nat) : list (nat * side_info) := concat (all_side_writes 2 (ex_part_fi p)).
Definition tri_t (p : nat) : list side_info := match do_writes (fresh_sides 2 (ex_part p)) (tri_wr p) with Some t => t | None => [] end.
Definition tri_sl (p e : nat) : list side_info := match map_opt (fun d => nth_error (tri_t p) (e * (2 + 1) + d)) (seq 0 (2 + 1)) with Some s => s | None => [] end.
Example strip_stable : exists A,
  (forall p, (p < 2)%nat -> map_opt (to_global (ex_part p)) (assemble (ex_part p) (ex_part_fi p) (elasticity_mat (tri_rank p))) = Some (A p)) /\
  (forall U, 0 <= pairing 6 (flat_map A (seq 0 2)) U U) /\
  let dt := cfl_time_step 100 2 (fun p => local_cfl_time_step 100 (tm_num_local (ex_part p)) (fun e => cfl_dt (tri_rank p) 1 (60000 / 10000) e (tri_sl p e))) in
  0 < dt /\ forall U, dt * dt * pairing 6 (flat_map A (seq 0 2)) U U <= mass_form (mesh_eproblem tri_setup ex_elems tri_edata 1) ex_elems U U.
Proof.
  destruct (straight_mesh_elastic_stable 2 strip_X (fun _ _ => 1 / 3) (fun _ _ => 1 / 2) 2 ex_elems ex_facets ex_bc ex_part tri_edata ex_part_fi tri_rank) as (A & HA & _ & HP & HT).
  - auto.
  - apply ex_parts.
  - apply strip_plexes.
  - intros plex [<-|[<-|[<-|[]]]]; cbn; unfold edge_matrix, strip_X; cbn; lra.
  - apply strip_separated.
  - apply tri_linear.
  - intros g l _ _. split; [apply pos_INR|apply lt_0_INR; lia].
  - intros p Hp. apply mesh_erank_ok.
    + apply (mp_mesh _ _ _ _ _ _ ex_parts p Hp).
    + destruct p as [|[|p]]; try lia; vm_compute; reflexivity.
  - exists A. split; [exact HA|]. split; [exact HP|]. apply (HT (60000 / 10000) tri_wr tri_t tri_sl 100); [reflexivity|apply tri_exact| | | |lra].
    + intros g l Hg _. change (0 < / INR (g + 2) <= 1). assert (2 <= INR (g + 2)) by (rewrite plus_INR; pose proof (pos_INR g); cbn; lra).
      split; [apply Rinv_0_lt_compat; lra|]. rewrite <- Rinv_1. apply Rinv_le_contravar; lra.
    + intros p Hp. split; [apply il_concat|]. destruct p as [|[|p]]; try lia; vm_compute; reflexivity.
    + intros p e Hp He. destruct p as [|[|p]]; [|destruct e as [|e]|lia].
      * destruct e as [|[|e]]; [vm_compute; reflexivity|vm_compute; reflexivity|]. exfalso. vm_compute in He. lia.
      * vm_compute. reflexivity.
      * exfalso. vm_compute in He. lia.
Qed.
