(** Cases for the energy balance (C84). *)
Require Import List Arith Lia Bool Reals Lra.
Require Import Verif.Base Verif.LinAlg Verif.SimplexModel Verif.LocalMeshModel Verif.LocalMeshProps Verif.TopoModel Verif.TopoSpec Verif.TopoProofs Verif.TopoProps
  Verif.AssembleModel Verif.TopoCheck Verif.AssembleSpec Verif.AssembleProofs Verif.AssembleProps Verif.ApplyModel Verif.MatFree Verif.FaultModel Verif.PoissonModel Verif.PoissonProofs Verif.PoissonProps Verif.PenaltyModel Verif.SipSpec Verif.SipExamples
  Verif.GeometryModel Verif.GeometryProofs Verif.GeometrySpec Verif.GeometryProps Verif.GeometryStraight Verif.MeshSpec Verif.MeshProofs Verif.MeshExamples
  Verif.ElasticityModel Verif.ElasticFormSpec Verif.MeshElasticSpec Verif.MeshWaveExamples
  Verif.TensorModel Verif.BasisModel Verif.BasisSpec Verif.IntegralSpec Verif.DubinerProofs Verif.NodesConform Verif.ErrorSpec Verif.QuadratureModel Verif.QuadratureSpec Verif.RootsProps Verif.RefElementModel Verif.RefElementSpec Verif.RefElementProps Verif.RefElementExamples
  Verif.DegreeSpec Verif.OperatorRefModel Verif.OperatorRefProps Verif.OperatorRefExamples Verif.ConsistencySpec Verif.ConsistencyProofs Verif.ConsistencyExamples
  Verif.ElasticConsistencySpec Verif.ElasticConsistencyProps Verif.ElasticConsistencyExamples Verif.DefiniteSpec Verif.DefiniteProps Verif.DefiniteExamples Verif.ElasticDefiniteProps
  Verif.MeshElasticProps Verif.ApplyProps Verif.WaveProps Verif.ElasticFormExamples Verif.ElasticCoerciveProps Verif.ElasticCflModel Verif.ElasticCflProps Verif.ElasticModeProps Verif.ElasticCflExamples Verif.ElasticEnergySpec Verif.ElasticEnergyProofs Verif.ElasticEnergyProps Verif.ElasticEnergyWave.
Import ListNotations.
Local Open Scope R_scope.

(** Case for [equilibrium_energy_balance]: the strip of three triangles on two ranks, elements of any
    degree, slip s0 and then s1 on the fault between the second and the third. *)
Definition slip_jump (s : R) (f : list nat) (g p q : nat) : R := s * ex_jump f g p q.
Example strip_slips : forall N m0 B s0 s1, (1 <= N)%nat ->
  exists root mi R_, Elasticity_constructor root [] [] [] ginv m0 2 N 0 mi (equi 2 N) B = Some R_ /\ let G := strip_at root N in
  let E s p := loaded_erank G (ex_material R_) N ex_body (slip_jump s) (ex_disp G) (ex_part p) (ex_part_fi p) in let n := (length (equi 2 N) * 2)%nat in
  let Q := load_problem G ex_elems (ex_material R_) N (ex_loads G) in let at_slip s := with_data Q (slip_jump s) (ex_disp G) in
  exists A r0 r1 U0 U1, (forall p, (p < 2)%nat -> map_opt (to_global (ex_part p)) (assemble (ex_part p) (ex_part_fi p) (elasticity_mat (E s0 p))) = Some (A p)) /\
    (forall p, (p < 2)%nat -> map_opt (to_global_row (ex_part p)) (rhs (ex_part p) (ex_part_fi p) (elasticity_vec (E s0 p))) = Some (r0 p)) /\
    (forall p, (p < 2)%nat -> map_opt (to_global_row (ex_part p)) (rhs (ex_part p) (ex_part_fi p) (elasticity_vec (E s1 p))) = Some (r1 p)) /\
    solves n (flat_map A (seq 0 2)) (flat_map r0 (seq 0 2)) U0 /\ solves n (flat_map A (seq 0 2)) (flat_map r1 (seq 0 2)) U1 /\
    stored_energy (at_slip s1) ex_elems ex_facets ex_bc U1 - stored_energy (at_slip s0) ex_elems ex_facets ex_bc U0 =
    (work (at_slip s0) ex_elems ex_facets ex_bc U0 (fun f g i q => slip_jump s1 f g i q - slip_jump s0 f g i q) (fun f i q => ex_disp G f i q - ex_disp G f i q) +
     work (at_slip s1) ex_elems ex_facets ex_bc U1 (fun f g i q => slip_jump s1 f g i q - slip_jump s0 f g i q) (fun f i q => ex_disp G f i q - ex_disp G f i q)) / 2.
Proof.
  intros N m0 B s0 s1 HN. destruct (constructor_data_every_degree 2 N ltac:(auto) ltac:(lia)) as (root & mi & CD & _).
  pose proof CD as (HD & RT & Ln & Un & HI & _).
  destruct (nodal_basis_exists_unique ginv 2 N mi (equi 2 N) ltac:(lia) RT Ln Un HI) as (psi & Hpsi & _).
  destruct (elastic_reference_of_degree root [] [] [] ginv m0 2 N 0 mi (equi 2 N) psi B CD Hpsi) as (R_ & E1 & EN & _ & RD & _).
  exists root, mi, R_. split; [exact E1|]. intros G E n Q at_slip.
  assert (SJ : forall s f g h i q, In f ex_facets -> elements_of ex_elems f = [g; h] -> slip_jump s f h i q = - slip_jump s f g i q).
  { intros s f g h p q Hf El. unfold ex_facets in Hf.
    repeat (destruct Hf as [<- | Hf]; [vm_compute in El; try discriminate El; injection El as <- <-|]); [| |destruct Hf]; destruct p; unfold slip_jump; cbn; ring. }
  assert (LR : forall s p, (p < 2)%nat -> elastic_rank G (ex_material R_) N (ex_part p) (ex_part_fi p) (E s p) /\ holds_loads 2 (all_loads ex_body (slip_jump s) (ex_disp G)) (ex_part p) (E s p)).
  { intros s p Hp. destruct (strip_table p Hp). apply loaded_erank_ok; auto. }
  assert (SV : forall s, exists A b U, (forall p, (p < 2)%nat -> map_opt (to_global (ex_part p)) (assemble (ex_part p) (ex_part_fi p) (elasticity_mat (E s p))) = Some (A p)) /\
    (forall p, (p < 2)%nat -> map_opt (to_global_row (ex_part p)) (rhs (ex_part p) (ex_part_fi p) (elasticity_vec (E s p))) = Some (b p)) /\
    solves n (flat_map A (seq 0 2)) (flat_map b (seq 0 2)) U).
  { intro s. destruct (elastic_operator_exact root [] [] [] ginv m0 2 N 0 mi (equi 2 N) B strip_X 2 ex_elems ex_facets ex_bc ex_part ex_part_fi (E s) (ex_material R_) (all_loads ex_body (slip_jump s) (ex_disp G))
      (fun g => ex_lam g (fun _ => 0)) (fun g => ex_mu g (fun _ => 0)) CD ltac:(lia) ex_parts (strip_valid _ _)) as (R2 & E2 & H).
    - intros g Hg. unfold ex_lam, ex_mu. destruct (up g); lra.
    - apply strip_anchored.
    - apply SJ.
    - assert (R2 = R_) by congruence. subst R2. destruct H as (A & b & U & HA & Hb & _ & PD & S1 & _); [reflexivity| | |].
      + intros g l Hg Hl. split; reflexivity.
      + apply LR.
      + exists A, b, U. auto. }
  destruct (SV s0) as (A & r0 & U0 & HA & H0 & S0). destruct (SV s1) as (A1 & r1 & U1 & HA1 & H1 & S1).
  pose proof (rd_dim _ _ _ _ _ _ RD) as Hd. pose proof (rd_N _ _ _ _ _ _ RD) as HNN.
  assert (PO : forall s, eproblem_ok 2 ex_elems ex_facets (at_slip s)).
  { intro s. destruct (mesh_eproblem_ok G 2 ex_elems ex_facets ex_bc ex_part ex_parts (strip_valid _ _) (ex_material R_) Hd N) as [La Nn _]. split; [exact La|exact Nn|apply SJ]. }
  assert (RK : forall s p, (p < 2)%nat -> erank_data 2 (at_slip s) (ex_part p) (E s p) /\ p_method (e_geo (E s p)) = IP /\ facet_table 2 (ex_part p) = Some (ex_part_fi p)).
  { intros s p Hp. exact (load_rank G 2 ex_elems ex_facets ex_bc ex_part (ex_material R_) N ex_part_fi (E s) (all_loads ex_body (slip_jump s) (ex_disp G)) p ex_parts (strip_valid _ _) Hd HN HNN (fun p Hp => proj1 (LR s p Hp)) Hp (proj2 (LR s p Hp))). }
  assert (BS : block_size (ep_ref Q) = n) by (unfold block_size, n; rewrite <- EN; unfold Q; cbn; f_equal; auto).
  (* the matrix does not depend on the slip *)
  destruct (solved_is_equilibrium 2 2 ex_elems ex_facets ex_bc ex_part _ (E s0) ex_part_fi A r0 U1 ex_parts (PO s0) (RK s0) HA H0) as [F0 _].
  destruct (solved_is_equilibrium 2 2 ex_elems ex_facets ex_bc ex_part _ (E s1) ex_part_fi A1 r1 U1 ex_parts (PO s1) (RK s1) HA1 H1) as [F1 _].
  assert (S1' : solves n (flat_map A (seq 0 2)) (flat_map r1 (seq 0 2)) U1).
  { intro V. rewrite <- S1. rewrite <- BS. etransitivity; [apply F0|]. symmetry. etransitivity; [apply F1|]. reflexivity. }
  exists A, r0, r1, U0, U1. do 4 (split; [assumption|]). split; [exact S1'|].
  apply (equilibrium_energy_balance 2 2 ex_elems ex_facets ex_bc ex_part Q (E s0) (E s1) (slip_jump s0) (ex_disp G) (slip_jump s1) (ex_disp G) ex_part_fi A r0 r1 U0 U1 ex_parts (PO s0) (PO s1) (RK s0) (RK s1) HA H0 H1); rewrite BS; auto.
Qed.

(** Case for [wave_energy_conserved] and [wave_energy_bounds_motion]: the free vibration of C59. *)
Definition swing (t : R) (g l : nat) : R := cos (sqrt 24 * t) * shear g l.
Definition swing_v (t : R) (g l : nat) : R := - sqrt 24 * sin (sqrt 24 * t) * shear g l.
Definition swing_a (t : R) (g l : nat) : R := - 24 * cos (sqrt 24 * t) * shear g l.
Lemma d_linear c t : derivable_pt_lim (fun s => c * s) t c.
Proof. pose proof (derivable_pt_lim_scal _ c t 1 (derivable_pt_lim_id t)) as H. rewrite Rmult_1_r in H. exact H. Qed.
Lemma swing_d t g l : derivable_pt_lim (fun s => swing s g l) t (swing_v t g l).
Proof.
  unfold swing, swing_v. apply (d_ext _ (fun s => shear g l * cos (sqrt 24 * s))); [intros; ring|]. replace (- sqrt 24 * sin (sqrt 24 * t) * shear g l) with (shear g l * (- sin (sqrt 24 * t) * sqrt 24)) by ring.
  apply d_scale. apply (derivable_pt_lim_comp (fun s => sqrt 24 * s) cos); [apply d_linear|apply derivable_pt_lim_cos].
Qed.
Lemma swing_d2 t g l : derivable_pt_lim (fun s => swing_v s g l) t (swing_a t g l).
Proof.
  unfold swing_v, swing_a. apply (d_ext _ (fun s => (- sqrt 24 * shear g l) * sin (sqrt 24 * s))); [intros; ring|].
  replace (- 24 * cos (sqrt 24 * t) * shear g l) with ((- sqrt 24 * shear g l) * (cos (sqrt 24 * t) * sqrt 24)) by (transitivity (- (sqrt 24 * sqrt 24) * cos (sqrt 24 * t) * shear g l); [ring|rewrite sqrt_sqrt by lra; ring]).
  apply d_scale. apply (derivable_pt_lim_comp (fun s => sqrt 24 * s) sin); [apply d_linear|apply derivable_pt_lim_sin].
Qed.
Lemma two_tables : forall p, (p < 2)%nat -> facet_table 2 (two_part p) = Some (two_fi p).
Proof. intros [|[|p]] Hp; try lia; vm_compute; reflexivity. Qed.
Lemma two_operators : wave_operators 2 2 two two_part two_fi two_rank.
Proof.
  intros p Hp. split; [apply elocal_data_ok; [apply (mp_mesh _ _ _ _ _ _ two_parts p Hp)|apply two_tables; auto]|]. split; [reflexivity|]. split; [apply two_tables; auto|]. split; [reflexivity|]. split; [apply w_inverse|]. split.
  + intros i Hi q Hq. assert (S5 : forall c, c * c = 1 -> sqrt (0 + c * 3 * (c * 3) + c * 4 * (c * 4)) = 5).
    { intros c Hc. replace (0 + c * 3 * (c * 3) + c * 4 * (c * 4)) with (25 * (c * c)) by ring. rewrite Hc. replace (25 * 1) with (5 * 5) by ring. apply sqrt_square. lra. }
    cbn -[two_fi elements_of]. destruct (elements_of _ _) as [|h ?]; [|destruct (_ =? _)%nat]; (split; [rewrite S5; lra|intros [|[|j]] Hj; try lia; field]).
  + intros x Hx. destruct p as [|[|p]]; try lia; vm_compute in Hx; repeat destruct Hx as [<-|Hx]; try contradiction; vm_compute; intuition discriminate.
Qed.
Lemma two_sides : side_tables 2 2 two_part two_fi two_sl.
Proof.
  exists two_wr, two_t. split.
  - intros p Hp. split; [apply ApplyProps.il_concat|]. destruct p as [|[|p]]; try lia; vm_compute; reflexivity.
  - intros p e Hp He. destruct p as [|[|p]]; try lia; cbn in He; destruct e; try lia; vm_compute; reflexivity.
Qed.
Lemma two_plain : plain_elements two two_elems.
Proof. intros g Hg. exists 1, (1 / 2). split; [split; [lra|reflexivity]|]. split; [lra|]. intros [|[|[|q]]] Hq; cbn in Hq; try lia; unfold rho_inv; cbn; lra. Qed.
Lemma swing_accelerations t : accelerations 2 two two_part two_fi two_sl two_rank (swing t) (swing_a t).
Proof.
  unfold swing, swing_a. generalize (cos (sqrt 24 * t)). intro c. intros p e g Hp He Eg.
  destruct p as [|[|p]]; try lia; cbn in He; destruct e; try lia; cbn in Eg; injection Eg as <-.
  + change (two_sl 0 0) with (ltac:(let t := eval vm_compute in (two_sl 0 0) in exact t)). unfold wave_rhs.
    match goal with |- exists a, match ?r with _ => _ end = _ /\ _ =>
      assert (Rr : exists v, r = Some v /\ v 0%nat = - c /\ v 1%nat = c /\ v 2%nat = 0 /\ v 3%nat = c /\ v 4%nat = 0 /\ v 5%nat = - c) end.
    { eexists. split; [reflexivity|]. cbn. unfold lam_W_J, mu_W_J, shear. cbn. repeat split; lra. }
    destruct Rr as (v & -> & V0 & V1 & V2 & V3 & V4 & V5). eexists. split; [reflexivity|].
    assert (NJ : forall q, (q < 3)%nat -> negative_rhoInv_W_Jinv (two_rank 0) 0 q = - (1 / 12)) by (intros [|[|[|q]]] Hq; try lia; unfold negative_rhoInv_W_Jinv; cbn; lra).
    intros j Hj. change (block_size (ep_ref two)) with 6%nat in Hj.
    do 6 (destruct j as [|j]; [unfold apply_inverse_mass, shear, ix; cbn -[negative_rhoInv_W_Jinv]; rewrite !NJ by lia; rewrite ?V0, ?V1, ?V2, ?V3, ?V4, ?V5; cbn; lra|]). lia.
  + change (two_sl 1 0) with (ltac:(let t := eval vm_compute in (two_sl 1 0) in exact t)). unfold wave_rhs.
    match goal with |- exists a, match ?r with _ => _ end = _ /\ _ =>
      assert (Rr : exists v, r = Some v /\ v 0%nat = - (2 * c) /\ v 1%nat = 2 * c /\ v 2%nat = 0 /\ v 3%nat = 2 * c /\ v 4%nat = 0 /\ v 5%nat = - (2 * c)) end.
    { eexists. split; [reflexivity|]. cbn. unfold lam_W_J, mu_W_J, shear. cbn. repeat split; lra. }
    destruct Rr as (v & -> & V0 & V1 & V2 & V3 & V4 & V5). eexists. split; [reflexivity|].
    assert (NJ : forall q, (q < 3)%nat -> negative_rhoInv_W_Jinv (two_rank 1) 0 q = - (1 / 12)) by (intros [|[|[|q]]] Hq; try lia; unfold negative_rhoInv_W_Jinv; cbn; lra).
    intros j Hj. change (block_size (ep_ref two)) with 6%nat in Hj.
    do 6 (destruct j as [|j]; [unfold apply_inverse_mass, shear, ix; cbn -[negative_rhoInv_W_Jinv]; rewrite !NJ by lia; rewrite ?V0, ?V1, ?V2, ?V3, ?V4, ?V5; cbn; lra|]). lia.
Qed.
Example swing_energy : (forall t, 1 / 2 * mass_form two two_elems (swing_v t) (swing_v t) + stored_energy two two_elems two_facets two_bc (swing t) = 
    1 / 2 * mass_form two two_elems (swing_v 0) (swing_v 0) + stored_energy two two_elems two_facets two_bc (swing 0)) /\
  stored_energy two two_elems two_facets two_bc (swing 0) > 0.
Proof.
  split.
  - intro t. apply (wave_energy_conserved 2 2 two_elems two_facets two_bc two_part two two_fi two_sl two_rank swing swing_v swing_a).
    + apply two_parts. + apply two_sides. + apply two_plain. + apply two_ok. + apply two_operators. + apply swing_d. + apply swing_d2. + apply swing_accelerations.
  - unfold stored_energy, strain_energy, evol_load, defect_energy. cbn [two wave_problem ep_ref wave_data e_force]. unfold swing. rewrite Rmult_0_r, cos_0.
    rewrite (lsum_zero _ two_facets).
    + cbn. unfold contract, stress, dgrad, hooke, coef, lam_in, mu_in, shear. cbn. lra.
    + intros f Hf. assert (free two_elems two_bc f = true) as ->; [|reflexivity]. unfold two_facets in Hf. repeat (destruct Hf as [<-|Hf]; [vm_compute; reflexivity|]). destruct Hf.
Qed.
Example swing_bounded : forall t, 1 / 2 * mass_form two two_elems (swing_v t) (swing_v t) <=
  1 / 2 * mass_form two two_elems (swing_v 0) (swing_v 0) + 1 / 2 * elastic_form two two_elems two_facets two_bc (swing 0) (swing 0).
Proof.
  apply (wave_energy_bounds_motion 2 2 two_elems two_facets two_bc two_part two two_fi two_sl two_rank swing swing_v swing_a 1).
  - apply two_parts. - apply two_sides. - apply two_plain. - apply two_ok. - apply two_operators.
  - intros p i x Hp Hx. unfold ElasticityModel.prepare_penalty, two_rank, two. rewrite !w_side. destruct p as [|[|p]]; [| |lia].
    + change (two_fi 0) with (ltac:(let t := eval vm_compute in (two_fi 0) in exact t)) in Hx.
      do 3 (destruct i as [|i]; [cbn in Hx; injection Hx as <-; cbn; lra|]). destruct i; discriminate.
    + change (two_fi 1) with (ltac:(let t := eval vm_compute in (two_fi 1) in exact t)) in Hx.
      do 3 (destruct i as [|i]; [cbn in Hx; injection Hx as <-; cbn; lra|]). destruct i; discriminate.
  - reflexivity. - lia. - apply w_geometry; lra. - apply w_trace_inequality; lra. - reflexivity. - reflexivity.
  - apply swing_d. - apply swing_d2. - apply swing_accelerations.
Qed.
