(** Cases that meet the hypotheses of the theorems about the penalty (C53), and one where a smaller
    penalty fails. *)
Require Import List Arith Lia Bool Reals Lra.
Require Import Verif.Base Verif.LinAlg Verif.SimplexModel Verif.LocalMeshModel Verif.TopoModel Verif.TopoSpec Verif.TopoProps
  Verif.AssembleModel Verif.AssembleSpec Verif.AssembleProofs Verif.AssembleProps Verif.MatFree Verif.PoissonModel Verif.PoissonProofs
  Verif.PenaltyModel Verif.SipSpec Verif.SipProofs Verif.SipProps Verif.SipExamples Verif.CoerciveProps.
Import ListNotations.
Local Open Scope R_scope.

(** Linear functions on three triangles on two ranks; the coefficient varies from 1 to 3 in each. *)
Definition ex_lin : pdata := {|
  p_dim := 2; p_N := 3; p_Nq := 1; p_nq := 1; p_method := IP;
  p_W := fun _ => 1 / 2; p_w := fun _ => 1;
  p_EQ := fun _ _ => 1 / 3;
  p_DxiQ := fun l e _ => match l with O => -1 | _ => if (l =? S e)%nat then 1 else 0 end;
  p_matEQ := fun _ _ => 1 / 3;
  p_E := fun f l _ => if (l =? 2 - f)%nat then 0 else 1 / 2;
  p_Dxi := fun _ l e _ => match l with O => -1 | _ => if (l =? S e)%nat then 1 else 0 end;
  p_matE := fun f _ l => if (l =? 2 - f)%nat then 0 else 1 / 2;
  p_MinvRef := fun a b => if (a =? b)%nat then 1 else 0;
  p_J := fun _ _ => 1; p_GQ := fun _ e i _ => if (e =? i)%nat then 1 else 0; p_K := fun _ l => INR (S l);
  p_n := fun _ i _ => match i with O => 3 | _ => 4 end; p_nu := fun _ i _ => match i with O => 3 / 5 | _ => 4 / 5 end;
  p_nl := fun _ _ => 5; p_G0 := fun _ e i _ => if (e =? i)%nat then 1 else 0; p_G1 := fun _ e i _ => if (e =? i)%nat then 1 else 0;
  p_pen := fun _ => 0; p_force := fun _ _ => 0; p_dir := fun _ _ _ => 7; p_slip := fun _ _ _ => 1 |}.
Definition ex_pos : problem := {|
  pb_ref := ex_lin; pb_loc := pb_loc ex_problem;
  pb_n := fun f g i q => ex_sign f g * p_n ex_lin 0 i q; pb_nl := fun _ => p_nl ex_lin 0;
  pb_G := fun _ _ => p_G0 ex_lin 0;
  pb_pen := fun f => match elements_of ex_elems f with [_] => 270 | _ => 135 end;
  pb_jump := fun f g q => ex_sign f g * 3; pb_value := fun f q => 7 |}.
Lemma ex_pos_ok : problem_ok 2 ex_elems ex_facets ex_pos.
Proof.
  destruct ex_problem_ok as [A B C]. constructor; [exact A| |exact C].
  intros f g h i q _ E. cbn. rewrite (ex_sign_opp f g h E). ring.
Qed.
Definition pos_rank (p : nat) : pdata := local_data ex_pos (ex_part p) (ex_part_fi p).
Lemma ex_kmax : max_element 3 (fun l => INR (S l)) = 3.
Proof. cbn. rewrite (Rmax_right 1) by lra. rewrite Rmax_right; lra. Qed.
Lemma ex_kmin : min_element 3 (fun l => INR (S l)) = 1.
Proof. cbn. rewrite (Rmin_left 1) by lra. rewrite Rmin_left; lra. Qed.
Lemma ex_side p i e : penalty_side (pos_rank p) 1 i e = 270.
Proof.
  unfold penalty_side. change (p_K (pos_rank p) e) with (fun l => INR (S l)). change (p_N (pos_rank p)) with 3%nat.
  rewrite ex_kmax, ex_kmin. unfold area, volume, trace_constant. cbn. field.
Qed.
Lemma ex_pen p i x : (p < 2)%nat -> nth_error (ex_part_fi p) i = Some x -> p_pen (pos_rank p) i = prepare_penalty (pos_rank p) 1 i x.
Proof.
  intros Hp Hx. unfold prepare_penalty. rewrite !ex_side. destruct p as [|[|p]]; [| |lia].
  - change (ex_part_fi 0) with (ltac:(let t := eval vm_compute in (ex_part_fi 0) in exact t)) in Hx.
    do 5 (destruct i as [|i]; [cbn in Hx; injection Hx as <-; cbn; lra|]). destruct i; discriminate.
  - change (ex_part_fi 1) with (ltac:(let t := eval vm_compute in (ex_part_fi 1) in exact t)) in Hx.
    do 3 (destruct i as [|i]; [cbn in Hx; injection Hx as <-; cbn; lra|]). destruct i; discriminate.
Qed.
Lemma ex_linear : linear_affine ex_pos.
Proof. exists (fun l e => p_DxiQ ex_lin l e 0), (fun g e i => p_GQ ex_lin g e i 0). cbn. auto. Qed.
Lemma ex_sign_sq f g : ex_sign f g * ex_sign f g = 1.
Proof. unfold ex_sign. destruct (elements_of ex_elems f); [ring|]. destruct (_ =? _); ring. Qed.
Lemma ex_geometry : geometry_ok ex_pos ex_elems ex_facets.
Proof.
  constructor; try (intros; cbn; lra).
  - intros f g q _ _ _. cbn. pose proof (ex_sign_sq f g). nra.
  - cbn. lia.
  - intros g l _ _. change (0 < INR (S l)). apply lt_0_INR. lia.
  - intros. exists 0%nat. split; [cbn; lia|]. cbn. lra.
  - intros f g q Hf Hg Hq. change (p_K (pb_ref ex_pos) g) with (fun l => INR (S l)). change (p_N (pb_ref ex_pos)) with 3%nat.
    unfold kappa_on. cbn [p_N pb_ref ex_pos ex_lin p_matE p_K rsum]. set (loc := pb_loc ex_pos f g).
    split; [|exists 2%nat; split; [lia|]]; destruct loc as [|[|[|l]]]; cbn; lra.
Qed.
(** All hypotheses hold, and the trace inequality is proved, not assumed; the form is not trivial. *)
Example positive_ex : mesh_parts 2 2 ex_elems ex_facets ex_bc ex_part /\ problem_ok 2 ex_elems ex_facets ex_pos /\
  (forall p, (p < 2)%nat -> rank_data 2 ex_pos (ex_part p) (pos_rank p) /\ p_method (pos_rank p) = IP /\ facet_table 2 (ex_part p) = Some (ex_part_fi p)) /\
  (forall p i x, (p < 2)%nat -> nth_error (ex_part_fi p) i = Some x -> p_pen (pos_rank p) i = prepare_penalty (pos_rank p) 1 i x) /\
  geometry_ok ex_pos ex_elems ex_facets /\ trace_inequality ex_pos ex_elems ex_facets 1 /\
  0 < sip_form ex_pos ex_elems ex_facets ex_bc (fun g l => INR g * INR l) (fun g l => INR g * INR l).
Proof.
  assert (T : forall p, (p < 2)%nat -> facet_table 2 (ex_part p) = Some (ex_part_fi p)).
  { intros [|[|p]] Hp; try lia; vm_compute; reflexivity. }
  split; [apply ex_parts|]. split; [apply ex_pos_ok|]. split; [|split; [exact ex_pen|split; [apply ex_geometry|split]]].
  - intros p Hp. split; [|split; [reflexivity | auto]]. apply local_data_ok; auto. apply (mp_mesh _ _ _ _ _ _ ex_parts p Hp).
  - apply trace_inequality_linear; [cbn; lia|intros; apply (ge_volume _ _ _ ex_geometry); auto|apply ex_linear].
  - unfold sip_form, facet_term. cbn [ex_facets ex_elems lsum seq length].
    unfold vol_term, int_term, bnd_term, mean_flux, jump, kappa, kappa_on, grad, grad_on, trace. cbn. unfold ex_sign. cbn. lra.
Qed.
(** Without the penalty, and with a hundredth of it, the form takes negative values. *)
Definition with_pen (Q : problem) (pen : list nat -> R) : problem := {|
  pb_ref := pb_ref Q; pb_loc := pb_loc Q; pb_n := pb_n Q; pb_nl := pb_nl Q; pb_G := pb_G Q; pb_pen := pen; pb_jump := pb_jump Q; pb_value := pb_value Q |}.
Theorem small_penalty_refuted : exists Q elems facets bc U, geometry_ok Q elems facets /\ trace_inequality Q elems facets 1 /\
  sip_form (with_pen Q (fun f => pb_pen Q f / 100)) elems facets bc U U < 0.
Proof.
  exists ex_pos, ex_elems, ex_facets, ex_bc, (fun g l => if (g =? 0)%nat then INR l + 1 else 0).
  split; [apply ex_geometry|]. split; [apply positive_ex|].
  unfold sip_form, facet_term. cbn [ex_facets ex_elems lsum seq length].
  unfold vol_term, int_term, bnd_term, mean_flux, jump, kappa, kappa_on, grad, grad_on, trace. cbn. unfold ex_sign. cbn. lra.
Qed.
Print Assumptions small_penalty_refuted.
