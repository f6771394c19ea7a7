(** Cases that meet the hypotheses of the theorems about the time step (C59), and one that shows that
    the condition on the density is needed. *)
Require Import List Arith Lia Bool Reals Lra.
Require Import Verif.Base Verif.LinAlg Verif.SimplexModel Verif.LocalMeshModel Verif.LocalMeshProps Verif.TopoModel Verif.TopoSpec Verif.TopoProofs Verif.TopoProps Verif.TopoCheck
  Verif.AssembleModel Verif.AssembleSpec Verif.AssembleProofs Verif.AssembleProps Verif.ApplyModel Verif.MatFree
  Verif.PoissonModel Verif.PoissonProofs Verif.PoissonProps Verif.PoissonExamples Verif.PenaltyModel Verif.SipSpec Verif.SipProofs Verif.SipExamples Verif.CoerciveProps Verif.CoerciveExamples
  Verif.ElasticityModel Verif.WaveProps Verif.ElasticFormSpec Verif.ElasticFormProofs Verif.ElasticFormRank Verif.ElasticFormProps Verif.ElasticCoerciveProps Verif.ElasticFormExamples
  Verif.ElasticCflModel Verif.ElasticCflProps Verif.ElasticModeProps.
Import ListNotations.
Local Open Scope R_scope.

(** Linear functions on the reference triangle; the quadrature with the midpoints of the edges and
    Simpson's rule on the facets are exact for the products that occur. *)
Definition ends (f : nat) : nat * nat := match f with O => (0, 1) | 1 => (0, 2) | _ => (1, 2) end%nat.
Definition on_edge (f l q : nat) : R := if (l =? fst (ends f))%nat then 1 - INR q / 2 else if (l =? snd (ends f))%nat then INR q / 2 else 0.
Definition dbasis (l e : nat) : R := match l with O => -1 | _ => if (l =? S e)%nat then 1 else 0 end.
Definition ex_quad : pdata := {|
  p_dim := 2; p_N := 3; p_Nq := 3; p_nq := 3; p_method := IP;
  p_W := fun _ => 1 / 6; p_w := fun q => match q with 1%nat => 4 / 6 | _ => 1 / 6 end;
  p_EQ := fun l q => if (l =? q)%nat then 0 else 1 / 2;
  p_DxiQ := fun l e _ => dbasis l e;
  p_matEQ := fun q l => if (l =? q)%nat then 0 else 1 / 2;
  p_E := on_edge; p_Dxi := fun _ l e _ => dbasis l e; p_matE := fun f q l => on_edge f l q;
  p_MinvRef := fun a b => if (a =? b)%nat then 18 else -6;
  p_J := fun _ _ => 1; p_GQ := fun _ e i _ => if (e =? i)%nat then 1 else 0; p_K := fun _ l => 1;
  p_n := fun _ i _ => match i with O => 3 | _ => 4 end; p_nu := fun _ i _ => match i with O => 3 / 5 | _ => 4 / 5 end;
  p_nl := fun _ _ => 5; p_G0 := fun _ e i _ => if (e =? i)%nat then 1 else 0; p_G1 := fun _ e i _ => if (e =? i)%nat then 1 else 0;
  p_pen := fun _ => 0; p_force := fun _ _ => 0; p_dir := fun _ _ _ => 0; p_slip := fun _ _ _ => 0 |}.
Definition wave_data (lam ri : R) : edata := {|
  e_geo := ex_quad; e_lam := fun _ _ => lam; e_mu := fun _ _ => 1; e_rhoInv := fun _ _ => ri;
  e_Minv := fun _ a b => if (a =? b)%nat then 18 else -6; e_force := None; e_dir := None; e_slip := None |}.
Definition wave_problem (elems : list (list nat)) (lam ri : R) : eproblem := {|
  ep_ref := wave_data lam ri;
  ep_loc := fun f g => match downward 2 (nth g elems []) with Some ds => pos_in f ds | None => 0%nat end;
  ep_n := fun f g i q => match elements_of elems f with h :: _ => if g =? h then 1 else -1 | [] => 1 end * p_n ex_quad 0 i q; ep_nl := fun _ => p_nl ex_quad 0;
  ep_G := fun _ _ => p_G0 ex_quad 0;
  ep_pen := fun f => 15 * ((2 * lam + 2) * (2 * lam + 2)) / match elements_of elems f with [_] => 1 | _ => 2 end;
  ep_has_slip := false; ep_has_dir := false; ep_jump := fun _ _ _ _ => 0; ep_value := fun _ _ _ => 0 |}.

Section Parameters.
Variables (elems facets : list (list nat)) (lam ri : R).
Hypothesis Hlam : 0 <= lam.
Hypothesis Hri : 0 < ri.
Local Notation Q := (wave_problem elems lam ri).
Lemma w_c0 e : stiffness_c0 (wave_data lam ri) e = 2.
Proof. unfold stiffness_c0. cbn. rewrite (Rmin_left (2 * 1)) by lra. rewrite Rmin_left; lra. Qed.
Lemma w_c1 e : stiffness_c1 (wave_data lam ri) e = 2 * lam + 2.
Proof. unfold stiffness_c1. cbn. rewrite (Rmax_right ((1 + 1) * lam + 2 * 1)) by lra. rewrite Rmax_right; lra. Qed.
Lemma w_ri e : inverse_density_upper_bound (wave_data lam ri) e = ri.
Proof. unfold inverse_density_upper_bound. cbn. rewrite (Rmax_right ri) by lra. rewrite Rmax_right; lra. Qed.
Lemma w_geometry : egeometry_ok Q elems facets.
Proof.
  constructor; try (intros; cbn; lra).
  - intros [|[|[|q]]] Hq; cbn in *; try lra; lia.
  - intros f g q _ _ _. cbn. destruct (elements_of elems f) as [|h ?]; [|destruct (g =? h)]; lra.
  - cbn. lia.
  - intros g q Hg Hq. split; [unfold lam_in|exists 0%nat; split; [cbn; lia|unfold mu_in]]; destruct q as [|[|[|q]]]; cbn in *; try lia; lra.
  - intros f g q Hf Hg Hq. unfold lam_on, mu_on. generalize (ep_loc Q f g). intro loc.
    split; [|split; [|exists 0%nat; split; [cbn; lia|]]]; destruct q as [|[|[|q]]]; cbn in Hq; try lia; destruct loc as [|[|l]]; unfold on_edge, ends; cbn; lra.
Qed.
Lemma w_trace_inequality : etrace_inequality Q elems facets 1.
Proof.
  apply strain_trace_inequality_linear; [cbn; lia|intros; apply (eg_volume _ _ _ w_geometry); auto|].
  exists dbasis, (fun g e i => p_GQ ex_quad g e i 0). cbn. auto.
Qed.
Lemma edge_form a b c : 0 <= a * a + b * b + 3 * c * c + a * b + 3 * b * c + 3 * a * c.
Proof. pose proof (Rle_0_sqr (a - b)). pose proof (Rle_0_sqr (a + b + 2 * c)). unfold Rsqr in *. lra. Qed.
Lemma pairs_form a b c : 0 <= a * a + b * b + c * c + a * b + b * c + a * c.
Proof. pose proof (Rle_0_sqr (a + b)). pose proof (Rle_0_sqr (b + c)). pose proof (Rle_0_sqr (a + c)). unfold Rsqr in *. lra. Qed.
Lemma grad_form a b c : (b - a) * (b - a) + (c - a) * (c - a) <= 8 * (a * a + b * b + c * c + a * b + b * c + a * c).
Proof.
  pose proof (Rle_0_sqr (b + a)). pose proof (Rle_0_sqr (c + a)). pose proof (Rle_0_sqr (b + c)).
  pose proof (Rle_0_sqr (3 * a + b + c)). pose proof (Rle_0_sqr (a + 3 * b + c)). pose proof (Rle_0_sqr (a + b + 3 * c)). pose proof (Rle_0_sqr (a + b + c)). unfold Rsqr in *. lra.
Qed.
Lemma w_wave : (forall g, (g < length elems)%nat -> boundary_area Q elems facets g = 15) -> wave_ok Q elems facets 1 6.
Proof.
  intro BA. constructor.
  - intros f g u _ _. unfold value2, norm2, disp_on, disp, efacet_area, eelem_volume, inverse_trace. generalize (ep_loc Q f g). intro loc. cbn -[on_edge coef].
    generalize (coef Q u). intro x.
    destruct loc as [|[|loc]]; unfold on_edge, ends; cbn.
    + pose proof (edge_form (x 0%nat 0%nat) (x 0%nat 1%nat) (x 0%nat 2%nat)). pose proof (edge_form (x 1%nat 0%nat) (x 1%nat 1%nat) (x 1%nat 2%nat)). lra.
    + pose proof (edge_form (x 0%nat 0%nat) (x 0%nat 2%nat) (x 0%nat 1%nat)). pose proof (edge_form (x 1%nat 0%nat) (x 1%nat 2%nat) (x 1%nat 1%nat)). lra.
    + pose proof (edge_form (x 0%nat 1%nat) (x 0%nat 2%nat) (x 0%nat 0%nat)). pose proof (edge_form (x 1%nat 1%nat) (x 1%nat 2%nat) (x 1%nat 0%nat)). lra.
  - intros g u Hg. rewrite (BA g Hg). unfold grad2, norm2, dgrad, disp, eelem_volume. cbn -[coef]. generalize (coef Q u). intro x.
    pose proof (grad_form (x 0%nat 0%nat) (x 0%nat 1%nat) (x 0%nat 2%nat)). pose proof (grad_form (x 1%nat 0%nat) (x 1%nat 1%nat) (x 1%nat 2%nat)).
    pose proof (pairs_form (x 0%nat 0%nat) (x 0%nat 1%nat) (x 0%nat 2%nat)). pose proof (pairs_form (x 1%nat 0%nat) (x 1%nat 1%nat) (x 1%nat 2%nat)).
    lra.
  - lra.
  - intros g q Hg Hq. exists 0%nat. split; [cbn; lia|]. unfold lam_in, mu_in. destruct q as [|[|[|q]]]; cbn in *; try lia; lra.
  - intros g q Hg Hq. unfold rho_inv. split; [|exists 0%nat; split; [cbn; lia|]]; destruct q as [|[|[|q]]]; cbn in *; try lia; lra.
Qed.
Lemma w_inverse : ref_inverse ex_quad.
Proof. intros [|[|[|a]]] [|[|[|c]]] Ha Hc; cbn in Ha, Hc; try lia; unfold ref_mass, ElasticityModel.delta, delta; cbn; lra. Qed.
Lemma w_side m fi i e : ElasticityModel.penalty_side (elocal_data Q m fi) 1 i e = 15 * ((2 * lam + 2) * (2 * lam + 2)).
Proof.
  unfold ElasticityModel.penalty_side. change (stiffness_c1 (elocal_data Q m fi) e) with (stiffness_c1 (wave_data lam ri) e). change (stiffness_c0 (elocal_data Q m fi) e) with (stiffness_c0 (wave_data lam ri) e).
  rewrite w_c0, w_c1. unfold area, volume, trace_constant. cbn. field.
Qed.
End Parameters.

(** * The strip of three triangles on two ranks *)
Definition strip (lam ri : R) : eproblem := wave_problem ex_elems lam ri.
Definition strip_rank (lam ri : R) (p : nat) : edata := elocal_data (strip lam ri) (ex_part p) (ex_part_fi p).
Definition strip_wr (p : nat) : list (nat * side_info) := concat (all_side_writes 2 (ex_part_fi p)).
Definition strip_t (p : nat) : list side_info := match do_writes (fresh_sides 2 (ex_part p)) (strip_wr p) with Some t => t | None => [] end.
Definition strip_sl (p e : nat) : list side_info := match map_opt (fun d => nth_error (strip_t p) (e * (2 + 1) + d)) (seq 0 (2 + 1)) with Some s => s | None => [] end.
Lemma wave_sign elems lam ri f g h i q : elements_of elems f = [g; h] -> ep_n (wave_problem elems lam ri) f h i q = - ep_n (wave_problem elems lam ri) f g i q.
Proof.
  intro E. unfold wave_problem, ep_n. rewrite E, Nat.eqb_refl. pose proof (elements_of_sorted elems f) as S. rewrite E in S.
  inversion S as [|? ? ? H]; subst. inversion H; subst. destruct (Nat.eqb_spec h g); [lia|ring].
Qed.
Lemma strip_ok lam ri : eproblem_ok 2 ex_elems ex_facets (strip lam ri).
Proof. constructor; [exact (eo_loc _ _ _ _ ex_epos_ok)|intros; apply wave_sign; auto|intros; cbn; lra]. Qed.
Lemma strip_area lam ri g : (g < length ex_elems)%nat -> boundary_area (strip lam ri) ex_elems ex_facets g = 15.
Proof. intro Hg. unfold boundary_area. destruct g as [|[|[|g]]]; cbn in Hg; try lia; cbn; unfold efacet_area; cbn; lra. Qed.
Lemma strip_pen lam ri p i x : 0 <= lam -> (p < 2)%nat -> nth_error (ex_part_fi p) i = Some x ->
  p_pen (e_geo (strip_rank lam ri p)) i = ElasticityModel.prepare_penalty (strip_rank lam ri p) 1 i x.
Proof.
  intros Hl Hp Hx. unfold ElasticityModel.prepare_penalty, strip_rank, strip. rewrite !w_side. destruct p as [|[|p]]; [| |lia].
  - change (ex_part_fi 0) with (ltac:(let t := eval vm_compute in (ex_part_fi 0) in exact t)) in Hx.
    do 5 (destruct i as [|i]; [cbn in Hx; injection Hx as <-; cbn; lra|]). destruct i; discriminate.
  - change (ex_part_fi 1) with (ltac:(let t := eval vm_compute in (ex_part_fi 1) in exact t)) in Hx.
    do 3 (destruct i as [|i]; [cbn in Hx; injection Hx as <-; cbn; lra|]). destruct i; discriminate.
Qed.
Lemma strip_hypotheses lam ri : 0 <= lam -> 0 < ri ->
  mesh_parts 2 2 ex_elems ex_facets ex_bc ex_part /\ eproblem_ok 2 ex_elems ex_facets (strip lam ri) /\
  (forall p, (p < 2)%nat -> erank_data 2 (strip lam ri) (ex_part p) (strip_rank lam ri p) /\ p_method (e_geo (strip_rank lam ri p)) = IP /\ facet_table 2 (ex_part p) = Some (ex_part_fi p)) /\
  (forall p i x, (p < 2)%nat -> nth_error (ex_part_fi p) i = Some x -> p_pen (e_geo (strip_rank lam ri p)) i = ElasticityModel.prepare_penalty (strip_rank lam ri p) 1 i x) /\
  egeometry_ok (strip lam ri) ex_elems ex_facets /\ etrace_inequality (strip lam ri) ex_elems ex_facets 1 /\ wave_ok (strip lam ri) ex_elems ex_facets 1 6 /\
  (forall p, (p < 2)%nat -> interleaving (all_side_writes 2 (ex_part_fi p)) (strip_wr p) /\ do_writes (fresh_sides 2 (ex_part p)) (strip_wr p) = Some (strip_t p)) /\
  (forall p e, (p < 2)%nat -> (e < tm_num_local (ex_part p))%nat -> map_opt (fun d => nth_error (strip_t p) (e * (2 + 1) + d)) (seq 0 (2 + 1)) = Some (strip_sl p e)).
Proof.
  intros Hl Hr. split; [apply ex_parts|]. split; [apply strip_ok|]. split; [|split; [|split; [|split; [|split; [|split]]]]].
  - intros p Hp. assert (T : facet_table 2 (ex_part p) = Some (ex_part_fi p)) by (destruct p as [|[|p]]; try lia; vm_compute; reflexivity).
    split; [|split; [reflexivity|auto]]. apply elocal_data_ok; auto. apply (mp_mesh _ _ _ _ _ _ ex_parts p Hp).
  - intros. apply strip_pen; auto.
  - apply w_geometry; auto.
  - apply w_trace_inequality; auto.
  - apply w_wave; auto. apply strip_area.
  - intros p Hp. split; [apply il_concat|]. destruct p as [|[|p]]; try lia; vm_compute; reflexivity.
  - intros p e Hp He. destruct p as [|[|p]]; try lia; cbn in He; [destruct e as [|[|e]]|destruct e]; try lia; vm_compute; reflexivity.
Qed.
(** All elements of the strip have the same bound. *)
Definition strip_bound (lam ri : R) : R := 2 * (1350 * ((2 * lam + 2) * (2 * lam + 2)) + 5400 * ((2 * lam + 2) * ri)).
Lemma strip_element p lam ri e : 0 <= lam -> 0 < ri -> (p < 2)%nat -> (e < tm_num_local (ex_part p))%nat ->
  cfl_bound (strip_rank lam ri p) 1 6 e (strip_sl p e) = strip_bound lam ri.
Proof.
  intros Hl Hr Hp He. unfold cfl_bound.
  change (stiffness_c1 (strip_rank lam ri p) e) with (stiffness_c1 (wave_data lam ri) e). change (inverse_density_upper_bound (strip_rank lam ri p) e) with (inverse_density_upper_bound (wave_data lam ri) e).
  rewrite w_c1, w_ri by auto. unfold strip_bound, area, volume, trace_constant.
  destruct p as [|[|p]]; [destruct e as [|[|e]]|destruct e|]; cbn in He; try lia;
    [set (s := strip_sl 0 0)|set (s := strip_sl 0 1)|set (s := strip_sl 1 0)]; vm_compute in s; unfold s; cbn; field.
Qed.
Definition strip_dt (lam ri dmax : R) : R :=
  cfl_time_step dmax 2 (fun p => local_cfl_time_step dmax (tm_num_local (ex_part p)) (fun e => cfl_dt (strip_rank lam ri p) 1 6 e (strip_sl p e))).
Lemma strip_dt_value lam ri dmax : 0 <= lam -> 0 < ri -> 1 / sqrt (strip_bound lam ri) <= dmax -> strip_dt lam ri dmax = 1 / sqrt (strip_bound lam ri).
Proof.
  intros Hl Hr Hd. unfold strip_dt, cfl_time_step, local_cfl_time_step. cbn [seq map fold_left ex_part tm_num_local].
  unfold cfl_dt. rewrite !strip_element by (auto; cbn; lia). set (b := 1 / sqrt (strip_bound lam ri)) in *.
  rewrite (Rmin_right dmax b) by auto. rewrite (Rmin_left b b) by lra. rewrite (Rmin_right dmax b) by auto. apply Rmin_left. lra.
Qed.
Lemma strip_bound_pos lam ri : 0 <= lam -> 0 < ri -> 0 < strip_bound lam ri.
Proof. intros. unfold strip_bound. assert (0 < (2 * lam + 2) * (2 * lam + 2)) by (apply Rmult_lt_0_compat; lra). assert (0 < (2 * lam + 2) * ri) by (apply Rmult_lt_0_compat; lra). lra. Qed.
(** A displacement of one triangle against the others. *)
Definition kick (g l : nat) : R := if (g =? 0)%nat && (l <? 3)%nat then 1 else 0.
Lemma kick_form lam ri : elastic_form (strip lam ri) ex_elems ex_facets ex_bc kick kick = 225 / 2 * ((2 * lam + 2) * (2 * lam + 2)).
Proof.
  set (Q := strip lam ri).
  assert (Co : forall g i l, (i < 2)%nat -> (l < 3)%nat -> coef Q (kick g) i l = if (g =? 0)%nat && (i =? 0)%nat then 1 else 0).
  { intros g [|[|i]] [|[|[|l]]] Hi Hl; try lia; unfold coef, kick; cbn; destruct (g =? 0)%nat; reflexivity. }
  assert (Gr : forall f g q i j, (i < 2)%nat -> (j < 2)%nat -> dgrad_on Q f g (kick g) q i j = 0).
  { intros f g q i j Hi Hj. unfold dgrad_on. cbn -[coef]. rewrite !Co by lia. destruct j as [|[|j]]; try lia; cbn; lra. }
  assert (GV : forall g q i j, (i < 2)%nat -> (j < 2)%nat -> dgrad Q g (kick g) q i j = 0).
  { intros g q i j Hi Hj. unfold dgrad. cbn -[coef]. rewrite !Co by lia. destruct j as [|[|j]]; try lia; cbn; lra. }
  assert (St : forall f g q i j, (i < 2)%nat -> (j < 2)%nat -> stress_on Q f g (kick g) q i j = 0).
  { intros f g q i j Hi Hj. unfold stress_on, hooke. rewrite (rsum_ext _ _ (fun _ => 0)) by (intros s Hs; apply Gr; auto). rewrite rsum_zero, !Gr by auto. ring. }
  assert (CZ : forall a b, (forall i j, (i < 2)%nat -> (j < 2)%nat -> a i j = 0) -> contract Q a b = 0).
  { intros a b Z. unfold contract. cbn. rewrite !Z by lia. ring. }
  assert (Di : forall f g q i, (i < 2)%nat -> disp_on Q f g (kick g) q i = if (g =? 0)%nat && (i =? 0)%nat then 1 else 0).
  { intros f g q i Hi. unfold disp_on. generalize (ep_loc Q f g). intro loc. cbn -[coef on_edge]. rewrite !Co by lia. unfold on_edge. destruct loc as [|[|loc]]; cbn; destruct ((g =? 0)%nat && (i =? 0)%nat); lra. }
  assert (V : forall g, evol_term Q g kick kick = 0).
  { intros. unfold evol_term. apply rsum_zero. intros q _. assert (Z : contract Q (stress Q g (kick g) q) (dgrad Q g (kick g) q) = 0); [|rewrite Z; ring].
    unfold contract. apply rsum_zero. intros i Hi. apply rsum_zero. intros j Hj. rewrite (GV g q i j Hi Hj). ring. }
  assert (B : forall f g, ebnd_term Q f g kick kick = ep_pen Q f * 5 * (if (g =? 0)%nat then 1 else 0)).
  { intros. unfold ebnd_term. cbn [p_nq rsum]. cbn -[ep_pen disp_on contract stress_on]. rewrite !CZ by (intros; apply St; auto). rewrite !Di by lia.
    destruct (g =? 0)%nat; cbn -[ep_pen]; generalize (ep_pen Q f); intro; lra. }
  assert (I : forall f g h, eint_term Q f g h kick kick = ep_pen Q f * 5 * (if Bool.eqb (g =? 0)%nat (h =? 0)%nat then 0 else 1)).
  { intros. unfold eint_term. cbn -[ep_pen disp_on contract mean_stress]. rewrite !CZ by (intros; unfold mean_stress; rewrite !St by auto; ring). rewrite !Di by lia.
    destruct (g =? 0)%nat, (h =? 0)%nat; cbn -[ep_pen]; generalize (ep_pen Q f); intro; lra. }
  unfold elastic_form. cbn [ex_facets ex_elems lsum seq length]. rewrite !V.
  unfold efacet_term. cbn -[ebnd_term eint_term Q]. rewrite !B, !I. unfold Q, strip, wave_problem, ep_pen. cbn. lra.
Qed.
Lemma kick_mass lam ri : mass_form (strip lam ri) ex_elems kick kick = 1 / 2 * / ri.
Proof.
  unfold mass_form. cbn [ex_elems lsum seq length].
  assert (Z : forall g, mass_in (strip lam ri) g (kick g) (kick g) = if (g =? 0)%nat then 1 / 2 * / ri else 0); [|rewrite !Z; cbn; ring].
  intro g. unfold mass_in. assert (Rh : forall q, (q < 3)%nat -> rho_inv (strip lam ri) g q = ri) by (intros [|[|[|q]]] Hq; try lia; unfold rho_inv; cbn; lra).
  cbn -[rho_inv disp]. rewrite !Rh by lia. unfold disp, coef, kick. cbn. destruct (g =? 0)%nat; cbn; generalize (/ ri); intro; lra.
Qed.
(** Case for [time_step_bounds_form]: density 2 on the strip; the bound is not trivial. *)
Example time_step_ex : exists A, (forall p, (p < 2)%nat -> map_opt (to_global (ex_part p)) (assemble (ex_part p) (ex_part_fi p) (elasticity_mat (strip_rank 1 (1 / 2) p))) = Some (A p)) /\
  (forall g l, (g < length ex_elems)%nat -> (l < p_N (e_geo (ep_ref (strip 1 (1 / 2)))))%nat -> e_rhoInv (ep_ref (strip 1 (1 / 2))) g l <= 1) /\
  strip_dt 1 (1 / 2) 1 * strip_dt 1 (1 / 2) 1 = / strip_bound 1 (1 / 2) /\
  0 < strip_dt 1 (1 / 2) 1 * strip_dt 1 (1 / 2) 1 * pairing (block_size (ep_ref (strip 1 (1 / 2)))) (flat_map A (seq 0 2)) kick kick <= mass_form (strip 1 (1 / 2)) ex_elems kick kick.
Proof.
  destruct (strip_hypotheses 1 (1 / 2)) as (MP & PO & RK & PEN & GE & TI & WO & TB & SL); try lra.
  destruct (elasticity_assembly_is_interior_penalty 2 2 ex_elems ex_facets ex_bc ex_part _ _ _ MP PO RK) as (A & b & HA & _ & EQ). exists A.
  assert (Rho : forall g l, (g < length ex_elems)%nat -> (l < p_N (e_geo (ep_ref (strip 1 (1 / 2)))))%nat -> e_rhoInv (ep_ref (strip 1 (1 / 2))) g l <= 1) by (intros; cbn; lra).
  destruct (time_step_bounds_form 2 2 ex_elems ex_facets ex_bc ex_part _ _ _ 1 6 A strip_wr strip_t strip_sl 1 MP PO RK PEN eq_refl ltac:(lia) GE TI WO Rho HA TB SL ltac:(lra)) as [Dp Bd].
  split; auto. split; auto. assert (B1 : strip_bound 1 (1 / 2) = 64800) by (unfold strip_bound; lra).
  assert (S1 : 1 <= sqrt 64800) by (rewrite <- sqrt_1 at 1; apply sqrt_le_1; lra).
  assert (DT : strip_dt 1 (1 / 2) 1 * strip_dt 1 (1 / 2) 1 = / strip_bound 1 (1 / 2)).
  { rewrite strip_dt_value; try lra.
    - rewrite B1. assert (Q : sqrt 64800 * sqrt 64800 = 64800) by (apply sqrt_sqrt; lra). rewrite <- Q at 3. field. lra.
    - rewrite B1. apply Rmult_le_reg_r with (sqrt 64800); [lra|]. unfold Rdiv. rewrite Rmult_assoc, Rinv_l; lra. }
  split; auto. split; [|apply Bd]. apply Rmult_lt_0_compat; [rewrite DT, B1; lra|]. rewrite (proj1 (EQ kick kick)), kick_form. lra.
Qed.
(** Without the bound on the inverse density the time step is too large: here by a factor of more
    than five, beyond the stability limit 2 of the explicit midpoint and leap-frog schemes. *)
Theorem time_step_density_refuted : exists k procs elems facets bc m Q E fi degree C A wr t sl dmax U,
  mesh_parts k procs elems facets bc m /\ eproblem_ok k elems facets Q /\
  (forall p, (p < procs)%nat -> erank_data k Q (m p) (E p) /\ p_method (e_geo (E p)) = IP /\ facet_table k (m p) = Some (fi p)) /\
  (forall p i x, (p < procs)%nat -> nth_error (fi p) i = Some x -> p_pen (e_geo (E p)) i = ElasticityModel.prepare_penalty (E p) degree i x) /\
  p_dim (e_geo (ep_ref Q)) = k /\ (0 < k)%nat /\
  egeometry_ok Q elems facets /\ etrace_inequality Q elems facets degree /\ wave_ok Q elems facets degree C /\
  (forall p, (p < procs)%nat -> map_opt (to_global (m p)) (assemble (m p) (fi p) (elasticity_mat (E p))) = Some (A p)) /\
  (forall p, (p < procs)%nat -> interleaving (all_side_writes k (fi p)) (wr p) /\ do_writes (fresh_sides k (m p)) (wr p) = Some (t p)) /\
  (forall p e, (p < procs)%nat -> (e < tm_num_local (m p))%nat -> map_opt (fun d => nth_error (t p) (e * (k + 1) + d)) (seq 0 (k + 1)) = Some (sl p e)) /\
  0 < dmax /\
  let dt := cfl_time_step dmax procs (fun p => local_cfl_time_step dmax (tm_num_local (m p)) (fun e => cfl_dt (E p) degree C e (sl p e))) in
  0 < mass_form Q elems U U /\ 25 * mass_form Q elems U U < dt * dt * pairing (block_size (ep_ref Q)) (flat_map A (seq 0 procs)) U U.
Proof.
  destruct (strip_hypotheses 999 1000) as (MP & PO & RK & PEN & GE & TI & WO & TB & SL); try lra.
  destruct (elasticity_assembly_is_interior_penalty 2 2 ex_elems ex_facets ex_bc ex_part _ _ _ MP PO RK) as (A & b & HA & _ & EQ).
  exists 2%nat, 2%nat, ex_elems, ex_facets, ex_bc, ex_part, (strip 999 1000), (strip_rank 999 1000), ex_part_fi, 1%nat, 6, A, strip_wr, strip_t, strip_sl, 1, kick.
  do 4 (split; [assumption|]). split; [reflexivity|]. split; [lia|]. do 6 (split; [assumption|]). split; [lra|].
  cbv zeta. fold (strip_dt 999 1000 1). rewrite kick_mass. split; [lra|]. rewrite (proj1 (EQ kick kick)), kick_form.
  assert (B1 : strip_bound 999 1000 = 32400000000) by (unfold strip_bound; lra).
  assert (S1 : 1 <= sqrt 32400000000) by (rewrite <- sqrt_1 at 1; apply sqrt_le_1; lra).
  assert (DT : strip_dt 999 1000 1 * strip_dt 999 1000 1 = / strip_bound 999 1000).
  { rewrite strip_dt_value; try lra.
    - rewrite B1. assert (Q : sqrt 32400000000 * sqrt 32400000000 = 32400000000) by (apply sqrt_sqrt; lra). rewrite <- Q at 3. field. lra.
    - rewrite B1. apply Rmult_le_reg_r with (sqrt 32400000000); [lra|]. unfold Rdiv. rewrite Rmult_assoc, Rinv_l; lra. }
  rewrite DT, B1. lra.
Qed.
Print Assumptions time_step_density_refuted.

(** * A free vibration *)
(** Two separate triangles, one on each rank, with traction-free boundary. *)
Definition two_elems : list (list nat) := [[0;1;2]; [3;4;5]]%nat.
Definition two_facets : list (list nat) := [[0;1]; [0;2]; [1;2]; [3;4]; [3;5]; [4;5]]%nat.
Definition two_bc (f : list nat) : nat := 1.
Definition two_part (p : nat) : topo_mesh :=
  match p with
  | O => {| tm_elems := [[0;1;2]]; tm_num_local := 1; tm_facets := [[0;1]; [0;2]; [1;2]]; tm_num_local_facets := 3;
            tm_owner := [0]; tm_l2cg := [0]; tm_shared := [[]]; tm_bc := Some [1;1;1] |}
  | _ => {| tm_elems := [[3;4;5]]; tm_num_local := 1; tm_facets := [[3;4]; [3;5]; [4;5]]; tm_num_local_facets := 3;
            tm_owner := [1]; tm_l2cg := [1]; tm_shared := [[]]; tm_bc := Some [1;1;1] |}
  end%nat.
Lemma two_parts : mesh_parts 2 2 two_elems two_facets two_bc two_part.
Proof.
  constructor.
  - intros [|[|p]] Hp; try lia; apply topo_okb_spec; vm_compute; reflexivity.
  - intros [|[|p]] e g Hp; try lia; destruct e as [|[|e]]; cbn; try discriminate; intros [= <-]; cbn; split; auto; lia.
  - intros [|[|p]] Hp; try lia; repeat constructor; cbn; intuition lia.
  - intros g Hg. cbn in Hg. destruct g as [|[|g]]; try lia; [exists 0%nat, 0%nat|exists 1%nat, 0%nat]; cbn; auto.
  - intros [|[|p]] [|[|q]] e e' g Hp Hq He He'; try lia; cbn in He, He'; destruct e as [|e]; try lia;
      destruct e' as [|e']; try lia; cbn; congruence.
  - intros p e i f g plex Hp He C Ef Eg I.
    assert (Hg : (g < 2)%nat) by (change 2%nat with (length two_elems); apply nth_error_Some; congruence).
    destruct p as [|[|p]]; try lia; destruct g as [|[|g]]; try lia; cbn [two_part tm_l2cg In]; auto; exfalso; cbn in Eg; injection Eg as <-;
      destruct i as [|[|[|i]]]; cbn in Ef; try discriminate; try (destruct i; discriminate Ef); injection Ef as <-;
        first [specialize (I 0%nat ltac:(cbn; auto)); cbn in I; lia | specialize (I 1%nat ltac:(cbn; auto)); cbn in I; lia
              |specialize (I 3%nat ltac:(cbn; auto)); cbn in I; lia | specialize (I 4%nat ltac:(cbn; auto)); cbn in I; lia].
  - intros [|[|p]] b i f Hp; try lia; cbn; intros [= <-]; destruct i as [|[|[|[|i]]]]; cbn; try discriminate; intros [= <-]; auto.
  - split.
    + repeat constructor; cbn; intuition discriminate.
    + intros s Hs. cbn in Hs. repeat destruct Hs as [<-|Hs]; try tauto; (split; [auto|]);
        (constructor; [repeat constructor|constructor; [lia|constructor]]).
  - intro f. split.
    + intro Hs. cbn in Hs. repeat destruct Hs as [<-|Hs]; try tauto; (split; [auto|]);
        (split; [constructor; [repeat constructor|constructor; [lia|constructor]]|]);
        ((exists [0;1;2]%nat; split; [cbn; tauto|intros v Hv; cbn in *; lia]) || (exists [3;4;5]%nat; split; [cbn; tauto|intros v Hv; cbn in *; lia])).
    + intros (Lf & Sf & plex & Hp & I). destruct f as [|a [|b [|c f]]]; try discriminate.
      inversion Sf as [|? ? ? H1]; subst. inversion H1; subst.
      assert (Ha : In a plex) by (apply I; cbn; auto). assert (Hb : In b plex) by (apply I; cbn; auto).
      cbn in Hp. repeat destruct Hp as [<-|Hp]; try tauto; cbn in Ha, Hb;
        repeat (destruct Ha as [<-|Ha]; [repeat (destruct Hb as [<-|Hb]; [try lia; cbn; tauto|]); lia|]); lia.
Qed.
Definition two : eproblem := wave_problem two_elems 1 (1 / 2).
Definition two_fi (p : nat) : list facet_info := match facet_table 2 (two_part p) with Some fi => fi | None => [] end.
Definition two_rank (p : nat) : edata := elocal_data two (two_part p) (two_fi p).
Definition two_wr (p : nat) : list (nat * side_info) := concat (all_side_writes 2 (two_fi p)).
Definition two_t (p : nat) : list side_info := match do_writes (fresh_sides 2 (two_part p)) (two_wr p) with Some t => t | None => [] end.
Definition two_sl (p e : nat) : list side_info := match map_opt (fun d => nth_error (two_t p) (e * (2 + 1) + d)) (seq 0 (2 + 1)) with Some s => s | None => [] end.
(** The linear field with gradient (1, 1/2; -1/2, -1): a shear with rotation. *)
Definition shear (g : nat) (K : nat) : R := match K with O => - (1 / 2) | 1%nat => 1 / 2 | 2%nat => 0 | 3%nat => 1 / 2 | 4%nat => 0 | _ => - (1 / 2) end * INR (S g).
Lemma two_ok : eproblem_ok 2 two_elems two_facets two.
Proof.
  constructor; [|intros; apply wave_sign; auto|intros; cbn; lra].
  intros f g plex Hf Eg I. assert (Hg : (g < 2)%nat) by (change 2%nat with (length two_elems); apply nth_error_Some; congruence).
  cbn in Hf. destruct g as [|[|g]]; try lia; cbn in Eg; injection Eg as <-;
    repeat (destruct Hf as [<- | Hf]; [first [eexists; split; vm_compute; reflexivity
        | exfalso; specialize (I 0%nat ltac:(cbn; auto)); cbn in I; lia | exfalso; specialize (I 1%nat ltac:(cbn; auto)); cbn in I; lia
        | exfalso; specialize (I 3%nat ltac:(cbn; auto)); cbn in I; lia | exfalso; specialize (I 4%nat ltac:(cbn; auto)); cbn in I; lia]|]); destruct Hf.
Qed.
Example vibration_ex : 0 <= 24 /\
  sqrt 24 * cfl_time_step 1 2 (fun p => local_cfl_time_step 1 (tm_num_local (two_part p)) (fun e => cfl_dt (two_rank p) 1 6 e (two_sl p e))) <= 1.
Proof.
  assert (T : forall p, (p < 2)%nat -> facet_table 2 (two_part p) = Some (two_fi p)) by (intros [|[|p]] Hp; try lia; vm_compute; reflexivity).
  assert (RK : forall p, (p < 2)%nat -> erank_data 2 two (two_part p) (two_rank p) /\ p_method (e_geo (two_rank p)) = IP /\ facet_table 2 (two_part p) = Some (two_fi p)).
  { intros p Hp. split; [|split; [reflexivity|auto]]. apply elocal_data_ok; auto. apply (mp_mesh _ _ _ _ _ _ two_parts p Hp). }
  destruct (elasticity_assembly_is_interior_penalty 2 2 two_elems two_facets two_bc two_part _ _ _ two_parts two_ok RK) as (A & b & HA & _ & _).
  apply (vibration_frequency_bound 2 2 two_elems two_facets two_bc two_part two two_rank two_fi 1 6 A two_wr two_t two_sl 1 shear 24).
  - apply two_parts.
  - apply two_ok.
  - exact RK.
  - intros p i x Hp Hx. unfold ElasticityModel.prepare_penalty, two_rank, two. rewrite !w_side. destruct p as [|[|p]]; [| |lia].
    + change (two_fi 0) with (ltac:(let t := eval vm_compute in (two_fi 0) in exact t)) in Hx.
      do 3 (destruct i as [|i]; [cbn in Hx; injection Hx as <-; cbn; lra|]). destruct i; discriminate.
    + change (two_fi 1) with (ltac:(let t := eval vm_compute in (two_fi 1) in exact t)) in Hx.
      do 3 (destruct i as [|i]; [cbn in Hx; injection Hx as <-; cbn; lra|]). destruct i; discriminate.
  - reflexivity.
  - lia.
  - apply w_geometry; lra.
  - apply w_trace_inequality; lra.
  - apply w_wave; try lra. intros g Hg. unfold boundary_area. destruct g as [|[|g]]; cbn in Hg; try lia; cbn; unfold efacet_area; cbn; lra.
  - intros. cbn. lra.
  - exact HA.
  - intros p Hp. split; [apply il_concat|]. destruct p as [|[|p]]; try lia; vm_compute; reflexivity.
  - intros p e Hp He. destruct p as [|[|p]]; try lia; cbn in He; destruct e; try lia; vm_compute; reflexivity.
  - lra.
  - intros p Hp. split; [reflexivity|]. split; [reflexivity|]. split; [reflexivity|]. split; [apply w_inverse|]. split.
    + intros i Hi q Hq. assert (S5 : forall c, c * c = 1 -> sqrt (0 + c * 3 * (c * 3) + c * 4 * (c * 4)) = 5).
      { intros c Hc. replace (0 + c * 3 * (c * 3) + c * 4 * (c * 4)) with (25 * (c * c)) by ring. rewrite Hc. replace (25 * 1) with (5 * 5) by ring. apply sqrt_square. lra. }
      cbn -[two_fi elements_of]. destruct (elements_of _ _) as [|h ?]; [|destruct (_ =? _)%nat]; (split; [rewrite S5; lra|intros [|[|j]] Hj; try lia; field]).
    + intros x Hx. destruct p as [|[|p]]; try lia; vm_compute in Hx; repeat destruct Hx as [<-|Hx]; try contradiction; vm_compute; intuition discriminate.
  - intros g Hg. exists 1, (1 / 2). split; [split; [lra|reflexivity]|]. intros [|[|[|q]]] Hq; cbn in Hq; try lia; unfold rho_inv; cbn; lra.
  - unfold mass_form, mass_in, rho_inv, disp, coef, shear. cbn. lra.
  - intros p e g Hp He Eg.
    destruct p as [|[|p]]; try lia; cbn in He; destruct e; try lia; cbn in Eg; injection Eg as <-.
    + change (two_sl 0 0) with (ltac:(let t := eval vm_compute in (two_sl 0 0) in exact t)). unfold wave_rhs.
      match goal with |- exists a, match ?r with _ => _ end = _ /\ _ =>
        assert (Rr : exists v, r = Some v /\ v 0%nat = - INR 1 /\ v 1%nat = INR 1 /\ v 2%nat = 0 /\ v 3%nat = INR 1 /\ v 4%nat = 0 /\ v 5%nat = - INR 1) end.
      { eexists. split; [reflexivity|]. cbn. unfold lam_W_J, mu_W_J, shear. cbn. repeat split; lra. }
      destruct Rr as (v & -> & V0 & V1 & V2 & V3 & V4 & V5). eexists. split; [reflexivity|].
      assert (NJ : forall q, (q < 3)%nat -> negative_rhoInv_W_Jinv (two_rank 0) 0 q = - (1 / 12)) by (intros [|[|[|q]]] Hq; try lia; unfold negative_rhoInv_W_Jinv; cbn; lra).
      intros j Hj. change (block_size (ep_ref two)) with 6%nat in Hj.
      do 6 (destruct j as [|j]; [unfold apply_inverse_mass, shear, ix; cbn -[negative_rhoInv_W_Jinv]; rewrite !NJ by lia; rewrite ?V0, ?V1, ?V2, ?V3, ?V4, ?V5; cbn; lra|]). lia.
    + change (two_sl 1 0) with (ltac:(let t := eval vm_compute in (two_sl 1 0) in exact t)). unfold wave_rhs.
      match goal with |- exists a, match ?r with _ => _ end = _ /\ _ =>
        assert (Rr : exists v, r = Some v /\ v 0%nat = - INR 2 /\ v 1%nat = INR 2 /\ v 2%nat = 0 /\ v 3%nat = INR 2 /\ v 4%nat = 0 /\ v 5%nat = - INR 2) end.
      { eexists. split; [reflexivity|]. cbn. unfold lam_W_J, mu_W_J, shear. cbn. repeat split; lra. }
      destruct Rr as (v & -> & V0 & V1 & V2 & V3 & V4 & V5). eexists. split; [reflexivity|].
      assert (NJ : forall q, (q < 3)%nat -> negative_rhoInv_W_Jinv (two_rank 1) 0 q = - (1 / 12)) by (intros [|[|[|q]]] Hq; try lia; unfold negative_rhoInv_W_Jinv; cbn; lra).
      intros j Hj. change (block_size (ep_ref two)) with 6%nat in Hj.
      do 6 (destruct j as [|j]; [unfold apply_inverse_mass, shear, ix; cbn -[negative_rhoInv_W_Jinv]; rewrite !NJ by lia; rewrite ?V0, ?V1, ?V2, ?V3, ?V4, ?V5; cbn; lra|]). lia.
Qed.
