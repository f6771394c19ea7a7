(** Cases that meet the hypotheses of the theorems about the global elasticity matrix (C57, C58), and
    cases where a smaller penalty or a negative first Lame parameter fail. *)
Require Import List Arith Lia Bool Reals Lra.
Require Import Verif.Base Verif.LinAlg Verif.SimplexModel Verif.LocalMeshModel Verif.LocalMeshProps Verif.TopoModel Verif.TopoSpec Verif.TopoProofs Verif.TopoProps
  Verif.AssembleModel Verif.AssembleSpec Verif.AssembleProofs Verif.AssembleProps Verif.MatFree
  Verif.PoissonModel Verif.PoissonProofs Verif.PoissonProps Verif.PenaltyModel Verif.SipSpec Verif.SipProofs Verif.SipExamples Verif.CoerciveProps Verif.CoerciveExamples
  Verif.ElasticityModel Verif.ElasticFormSpec Verif.ElasticFormProofs Verif.ElasticFormRank Verif.ElasticFormProps Verif.ElasticCoerciveProps.
Import ListNotations.
Local Open Scope R_scope.

(** Any problem can be distributed to any partition. *)
Definition elocal_data (Q : eproblem) (m : topo_mesh) (fi : list facet_info) : edata :=
  let E := ep_ref Q in let R_ := e_geo E in let g e := nth e (tm_l2cg m) 0%nat in
  let f i := nth i (tm_facets m) [] in let x i := nth i fi dummy_record in
  {| e_geo := {|
       p_dim := p_dim R_; p_N := p_N R_; p_Nq := p_Nq R_; p_nq := p_nq R_; p_method := p_method R_;
       p_W := p_W R_; p_w := p_w R_; p_EQ := p_EQ R_; p_DxiQ := p_DxiQ R_; p_matEQ := p_matEQ R_;
       p_E := p_E R_; p_Dxi := p_Dxi R_; p_matE := p_matE R_; p_MinvRef := p_MinvRef R_;
       p_J := fun e => p_J R_ (g e); p_GQ := fun e => p_GQ R_ (g e); p_K := fun e => p_K R_ (g e);
       p_n := fun i => ep_n Q (f i) (fi_g0 (x i)); p_nu := fun i j q => ep_n Q (f i) (fi_g0 (x i)) j q / ep_nl Q (f i) q;
       p_nl := fun i => ep_nl Q (f i); p_G0 := fun i => ep_G Q (f i) (fi_g0 (x i)); p_G1 := fun i => ep_G Q (f i) (fi_g1 (x i));
       p_pen := fun i => ep_pen Q (f i); p_force := p_force R_; p_dir := p_dir R_; p_slip := p_slip R_ |};
     e_lam := fun e => e_lam E (g e); e_mu := fun e => e_mu E (g e); e_rhoInv := fun e => e_rhoInv E (g e);
     e_Minv := fun e => e_Minv E (g e);
     e_force := match e_force E with None => None | Some F => Some (fun e => F (g e)) end;
     e_dir := if ep_has_dir Q then Some (fun i (b : bool) => if b then ep_value Q (f i) else ep_jump Q (f i) (fi_g0 (x i))) else None;
     e_slip := if ep_has_slip Q then Some (fun i (b : bool) => if b then (fun p q => 2 * ep_value Q (f i) p q) else ep_jump Q (f i) (fi_g0 (x i))) else None |}.
Lemma elocal_data_ok k Q m fi : topo_ok k m -> facet_table k m = Some fi -> erank_data k Q m (elocal_data Q m fi).
Proof.
  intros O Efi.
  assert (X : forall i f x, (i < tm_num_local_facets m)%nat -> nth_error (tm_facets m) i = Some f -> facet_record_ok k m i x ->
    nth i (tm_facets m) [] = f /\ fi_g0 (nth i fi dummy_record) = fi_g0 x /\ fi_g1 (nth i fi dummy_record) = fi_g1 x).
  { intros i f x Hi Ef R. destruct (facet_table_correct k m O) as (fi' & E' & _ & RS). assert (fi' = fi) by congruence. subst fi'.
    destruct (RS i Hi) as (y & Ey & Ry). rewrite (nth_error_nth _ _ _ Ey). destruct (record_unique k m i y x Ry R).
    split; [apply nth_error_nth; auto|auto]. }
  constructor; try reflexivity.
  - intros e g E. cbn. rewrite (nth_error_nth _ _ 0%nat E). auto 6.
  - cbn. destruct (e_force (ep_ref Q)); auto. intros e g E. rewrite (nth_error_nth _ _ 0%nat E). auto.
  - intros i f x Hi Ef R. destruct (X i f x Hi Ef R) as (E1 & E2 & E3). cbn. rewrite E1, E2, E3. auto 6.
  - cbn. destruct (ep_has_slip Q); auto. split; auto. intros i f x Hi Ef R _. destruct (X i f x Hi Ef R) as (E1 & E2 & E3). rewrite E1, E2. split; auto. intros. field.
  - cbn. destruct (ep_has_dir Q); auto. split; auto. intros i f x Hi Ef R _. destruct (X i f x Hi Ef R) as (E1 & E2 & E3). rewrite E1, E2. split; auto.
Qed.

(** Linear displacements on three triangles on two ranks; lambda varies from 1 to 3 in each. *)
Definition ex_elastic : edata := {|
  e_geo := ex_lin; e_lam := fun _ l => INR (S l); e_mu := fun _ _ => 1; e_rhoInv := fun _ _ => 1 / 2;
  e_Minv := fun _ a b => if (a =? b)%nat then 1 else 0; e_force := Some (fun _ p _ => INR p); e_dir := None; e_slip := None |}.
Definition ex_epos : eproblem := {|
  ep_ref := ex_elastic; ep_loc := pb_loc ex_problem;
  ep_n := fun f g i q => ex_sign f g * p_n ex_lin 0 i q; ep_nl := fun _ => p_nl ex_lin 0;
  ep_G := fun _ _ => p_G0 ex_lin 0;
  ep_pen := fun f => match elements_of ex_elems f with [_] => 960 | _ => 480 end;
  ep_has_slip := true; ep_has_dir := true;
  ep_jump := fun f g p q => ex_sign f g * (3 + INR p); ep_value := fun f p q => 7 - INR p |}.
Lemma ex_epos_ok : eproblem_ok 2 ex_elems ex_facets ex_epos.
Proof.
  destruct ex_problem_ok as [A B C]. constructor; [exact A| |]; intros f g h i q _ E; cbn; rewrite (ex_sign_opp f g h E); ring.
Qed.
Definition epos_rank (p : nat) : edata := elocal_data ex_epos (ex_part p) (ex_part_fi p).
Lemma ex_c0 e : stiffness_c0 ex_elastic e = 2.
Proof. unfold stiffness_c0. cbn. rewrite (Rmin_left (2 * 1)) by lra. rewrite Rmin_left; lra. Qed.
Lemma ex_c1 e : stiffness_c1 ex_elastic e = 8.
Proof. unfold stiffness_c1. cbn. rewrite (Rmax_right (2 * 1 + 2 * 1)) by lra. rewrite Rmax_right; lra. Qed.
Lemma ex_eside p i e : ElasticityModel.penalty_side (epos_rank p) 1 i e = 960.
Proof.
  unfold ElasticityModel.penalty_side. change (stiffness_c1 (epos_rank p) e) with (stiffness_c1 ex_elastic e). change (stiffness_c0 (epos_rank p) e) with (stiffness_c0 ex_elastic e).
  rewrite ex_c0, ex_c1. unfold area, volume, trace_constant. cbn. field.
Qed.
Lemma ex_epen p i x : (p < 2)%nat -> nth_error (ex_part_fi p) i = Some x -> p_pen (e_geo (epos_rank p)) i = ElasticityModel.prepare_penalty (epos_rank p) 1 i x.
Proof.
  intros Hp Hx. unfold ElasticityModel.prepare_penalty. rewrite !ex_eside. destruct p as [|[|p]]; [| |lia].
  - change (ex_part_fi 0) with (ltac:(let t := eval vm_compute in (ex_part_fi 0) in exact t)) in Hx.
    do 5 (destruct i as [|i]; [cbn in Hx; injection Hx as <-; cbn; lra|]). destruct i; discriminate.
  - change (ex_part_fi 1) with (ltac:(let t := eval vm_compute in (ex_part_fi 1) in exact t)) in Hx.
    do 3 (destruct i as [|i]; [cbn in Hx; injection Hx as <-; cbn; lra|]). destruct i; discriminate.
Qed.
Lemma ex_elinear : elinear_affine ex_epos.
Proof. exists (fun l e => p_DxiQ ex_lin l e 0), (fun g e i => p_GQ ex_lin g e i 0). cbn. auto. Qed.
Lemma ex_egeometry : egeometry_ok ex_epos ex_elems ex_facets.
Proof.
  constructor; try (intros; cbn; lra).
  - intros f g q _ _ _. cbn. pose proof (ex_sign_sq f g). nra.
  - cbn. lia.
  - intros g [|[|[|l]]] _ Hl; cbn in *; try lia; lra.
  - intros. split; [unfold lam_in; cbn; lra|]. exists 0%nat. split; [cbn; lia|]. unfold mu_in. cbn. lra.
  - intros f g q Hf Hg Hq. unfold lam_on, mu_on. set (loc := ep_loc ex_epos f g).
    split; [|split; [|exists 2%nat; split; [cbn; lia|]]]; destruct loc as [|[|[|l]]]; cbn; lra.
Qed.
Ltac eform := unfold elastic_form, elastic_load, efacet_term, efacet_load, evol_load; cbn [ex_facets ex_elems lsum seq length];
  unfold evol_term, eint_term, ebnd_term, eint_load, ebnd_load, mean_stress, djump, contract, stress, stress_on, hooke, lam_in, mu_in, lam_on, mu_on, dgrad, dgrad_on, disp, disp_on, coef;
  cbn; unfold ex_sign; cbn.
(** All hypotheses hold, the trace inequality is proved, not assumed; the forms are not trivial. *)
Example elastic_global_ex : mesh_parts 2 2 ex_elems ex_facets ex_bc ex_part /\ eproblem_ok 2 ex_elems ex_facets ex_epos /\
  (forall p, (p < 2)%nat -> erank_data 2 ex_epos (ex_part p) (epos_rank p) /\ p_method (e_geo (epos_rank p)) = IP /\ facet_table 2 (ex_part p) = Some (ex_part_fi p)) /\
  (forall p i x, (p < 2)%nat -> nth_error (ex_part_fi p) i = Some x -> p_pen (e_geo (epos_rank p)) i = ElasticityModel.prepare_penalty (epos_rank p) 1 i x) /\
  egeometry_ok ex_epos ex_elems ex_facets /\ etrace_inequality ex_epos ex_elems ex_facets 1 /\
  p_n (e_geo (epos_rank 0)) 4 0 0 = 3 /\ p_n (e_geo (epos_rank 1)) 0 0 0 = -3 /\
  0 < elastic_form ex_epos ex_elems ex_facets ex_bc (fun g l => INR g * INR l) (fun g l => INR g * INR l) /\
  elastic_load ex_epos ex_elems ex_facets ex_bc (fun g l => INR g * INR l) <> 0.
Proof.
  assert (T : forall p, (p < 2)%nat -> facet_table 2 (ex_part p) = Some (ex_part_fi p)).
  { intros [|[|p]] Hp; try lia; vm_compute; reflexivity. }
  split; [apply ex_parts|]. split; [apply ex_epos_ok|]. split; [|split; [exact ex_epen|split; [apply ex_egeometry|split; [|split; [|split; [|split]]]]]].
  - intros p Hp. split; [|split; [reflexivity | auto]]. apply elocal_data_ok; auto. apply (mp_mesh _ _ _ _ _ _ ex_parts p Hp).
  - apply strain_trace_inequality_linear; [cbn; lia|intros; apply (eg_volume _ _ _ ex_egeometry); auto|apply ex_elinear].
  - cbn. unfold ex_sign. cbn. ring.
  - cbn. unfold ex_sign. cbn. ring.
  - eform. lra.
  - eform. lra.
Qed.
(** With a thousandth of the penalty the form takes negative values. *)
Definition ewith_pen (Q : eproblem) (pen : list nat -> R) : eproblem := {|
  ep_ref := ep_ref Q; ep_loc := ep_loc Q; ep_n := ep_n Q; ep_nl := ep_nl Q; ep_G := ep_G Q; ep_pen := pen;
  ep_has_slip := ep_has_slip Q; ep_has_dir := ep_has_dir Q; ep_jump := ep_jump Q; ep_value := ep_value Q |}.
Theorem elastic_small_penalty_refuted : exists Q elems facets bc U, egeometry_ok Q elems facets /\ etrace_inequality Q elems facets 1 /\
  elastic_form (ewith_pen Q (fun f => ep_pen Q f / 1000)) elems facets bc U U < 0.
Proof.
  exists ex_epos, ex_elems, ex_facets, ex_bc, (fun g l => if (g =? 0)%nat then INR l + 1 else 0).
  split; [apply ex_egeometry|]. split; [apply elastic_global_ex|].
  eform. lra.
Qed.
Print Assumptions elastic_small_penalty_refuted.
