(** Energy balance of the antiplane body (C93). *)
Require Import List Arith Lia Bool Reals Lra FunctionalExtensionality.
Require Import Verif.Base Verif.LinAlg Verif.LocalMeshModel Verif.LocalMeshProps Verif.TopoModel Verif.TopoSpec Verif.TopoProofs Verif.TopoProps Verif.AssembleModel Verif.AssembleSpec Verif.AssembleProofs Verif.AssembleProps Verif.ApplyModel Verif.MatFree Verif.MatFreeRhs
  Verif.PoissonModel Verif.PoissonProps Verif.SipSpec Verif.SipProofs Verif.SipRank Verif.SipLoad Verif.SipProps Verif.DefiniteSpec Verif.PoissonEnergySpec.
Import ListNotations.
Local Open Scope R_scope.

Section Algebra.
Variables (Q : problem) (elems facets : list (list nat)) (bc : list nat -> nat).
Hypothesis OPP : forall f g h i q, In f facets -> elements_of elems f = [g; h] -> pb_n Q f h i q = - pb_n Q f g i q.
Local Notation P := (pb_ref Q). Local Notation dim := (p_dim P).
Local Notation "'nfl'" := (normal_flux Q elems). Local Notation "'fst_'" := (facet_step Q elems). Local Notation "'imp'" := (imposed Q elems bc).

Lemma data_loaded f : has_data (bc f) = true -> unloaded elems bc f = false.
Proof.
  unfold has_data, unloaded. destruct (elements_of elems f) as [|g [|h t]]; auto. intro H. destruct (Nat.eqb_spec (bc f) BC_Natural) as [E|]; auto.
  rewrite E in H. cbn in H. discriminate.
Qed.
Lemma lsum_minus (a b : list nat -> R) l : lsum a l - lsum b l = lsum (fun f => a f - b f) l.
Proof. induction l as [|x l IH]; cbn; [ring|rewrite <- IH; ring]. Qed.
(** The facet part of the form and of the load. *)
Lemma facet_term_energy f U V : In f facets -> facet_term Q elems bc f U V =
  if unloaded elems bc f then 0 else rsum (p_nq P) (fun q => p_w P q * (
    - nfl f U q * fst_ f V q - nfl f V q * fst_ f U q + pb_pen Q f * pb_nl Q f q * (fst_ f U q * fst_ f V q))).
Proof.
  intro Hf. unfold facet_term, unloaded, normal_flux, facet_step. destruct (elements_of elems f) as [|g [|h [|a t]]] eqn:El.
  - symmetry. apply rsum_zero. intros q _. ring.
  - destruct (bc f =? BC_Natural); [reflexivity|]. unfold bnd_term. apply rsum_ext. intros q _. f_equal.
    assert (B : forall U V, rsum dim (fun i => kappa_on Q f g q * grad_on Q f g (U g) i q * (trace Q f g (V g) q * pb_n Q f g i q)) =
      rsum dim (fun i => kappa_on Q f g q * grad_on Q f g (U g) i q * pb_n Q f g i q) * trace Q f g (V g) q).
    { intros U' V'. rewrite <- rsum_scale_r. apply rsum_ext. intros. ring. }
    rewrite !B. ring.
  - assert (J : forall U V q, rsum dim (fun i => mean_flux Q f g h U i q * jump Q f g h V i q) =
      rsum dim (fun i => mean_flux Q f g h U i q * pb_n Q f g i q) * (trace Q f g (V g) q - trace Q f h (V h) q)).
    { intros U' V' q. rewrite <- rsum_scale_r. apply rsum_ext. intros i _. unfold jump. rewrite (OPP f g h) by auto. ring. }
    unfold int_term. apply rsum_ext. intros q _. f_equal. rewrite !J. ring.
  - symmetry. apply rsum_zero. intros q _. ring.
Qed.
Lemma facet_load_energy f V : facet_load Q elems bc f V =
  if has_data (bc f) then rsum (p_nq P) (fun q => p_w P q * (imp f q * (pb_pen Q f * pb_nl Q f q * fst_ f V q - nfl f V q))) else 0.
Proof.
  unfold facet_load, imposed, normal_flux, facet_step. destruct (has_data (bc f)); [|reflexivity].
  destruct (elements_of elems f) as [|g [|h [|a t]]] eqn:El.
  - symmetry. apply rsum_zero. intros q _. ring.
  - unfold bnd_load. apply rsum_ext. intros q _. f_equal.
    rewrite (rsum_ext dim _ (fun i => pb_value Q f q * (kappa_on Q f g q * grad_on Q f g (V g) i q * pb_n Q f g i q))) by (intros; ring). rewrite rsum_scale. ring.
  - unfold int_load. apply rsum_ext. intros q _. f_equal.
    rewrite (rsum_ext dim _ (fun i => pb_jump Q f g q * (mean_flux Q f g h V i q * pb_n Q f g i q))) by (intros; ring). rewrite rsum_scale. ring.
  - symmetry. apply rsum_zero. intros q _. ring.
Qed.
Definition imposed_energy : R := 1 / 2 * lsum (fun f => rsum (p_nq P) (fun q => p_w P q * (pb_pen Q f * pb_nl Q f q * (imp f q * imp f q)))) facets.
Lemma energy_is_quadratic U : total_energy Q elems facets bc U = 1 / 2 * sip_form Q elems facets bc U U - sip_load Q elems facets bc U + imposed_energy.
Proof.
  unfold total_energy, sip_form, sip_load, imposed_energy.
  assert (V : lsum (fun g => element_energy Q g U - vol_load Q g U) (seq 0 (length elems)) =
    1 / 2 * lsum (fun g => vol_term Q g U U) (seq 0 (length elems)) - lsum (fun g => vol_load Q g U) (seq 0 (length elems))).
  { rewrite <- lsum_scale. set (l := seq 0 (length elems)). induction l as [|g l IH]; cbn [lsum]; [ring|]. rewrite IH. unfold element_energy, vol_term. ring. }
  rewrite V.
  assert (F : lsum (fun f => gap_energy Q elems bc f U) facets =
    1 / 2 * lsum (fun f => facet_term Q elems bc f U U) facets - lsum (fun f => facet_load Q elems bc f U) facets
    + 1 / 2 * lsum (fun f => rsum (p_nq P) (fun q => p_w P q * (pb_pen Q f * pb_nl Q f q * (imp f q * imp f q)))) facets).
  { rewrite <- !lsum_scale, lsum_minus, <- lsum_plus. apply lsum_ext. intros f Hf. rewrite facet_term_energy, facet_load_energy by auto. unfold gap_energy.
    destruct (has_data (bc f)) eqn:Eh.
    - rewrite (data_loaded f Eh), <- !rsum_scale, <- rsum_minus, <- rsum_plus. apply rsum_ext. intros q _. cbv zeta. field.
    - assert (Z : forall q, imp f q = 0) by (intros; unfold imposed; rewrite Eh; reflexivity).
      assert (ZD : rsum (p_nq P) (fun q => p_w P q * (pb_pen Q f * pb_nl Q f q * (imp f q * imp f q))) = 0) by (apply rsum_zero; intros q _; rewrite Z; ring).
      rewrite ZD. destruct (unloaded elems bc f); [ring|]. rewrite Rmult_0_r, Rplus_0_r, Rminus_0_r, <- rsum_scale. apply rsum_ext. intros q _. cbv zeta. rewrite Z. field. }
  rewrite F. ring.
Qed.
End Algebra.

Section Data.
Variables (Q : problem) (elems facets : list (list nat)) (bc : list nat -> nat).
Local Notation P := (pb_ref Q).
Local Notation jmp := (list nat -> nat -> nat -> R). Local Notation val := (list nat -> nat -> R).
Local Notation wd := (with_values Q).
Definition pfloads (J : jmp) (b : val) (V : nat -> nat -> R) : R := lsum (fun f => facet_load (wd J b) elems bc f V) facets.
Definition pdprod (J : jmp) (b : val) (J' : jmp) (b' : val) : R :=
  lsum (fun f => rsum (p_nq P) (fun q => p_w P q * (pb_pen Q f * pb_nl Q f q * (imposed (wd J b) elems bc f q * imposed (wd J' b') elems bc f q)))) facets.
Lemma pfloads_diff J b J' b' V : pfloads J' b' V - pfloads J b V = pfloads (fun f g q => J' f g q - J f g q) (fun f q => b' f q - b f q) V.
Proof.
  unfold pfloads. rewrite lsum_minus. apply lsum_ext. intros f _. rewrite !facet_load_energy. destruct (has_data (bc f)) eqn:Eh; [|ring].
  cbn [pb_ref with_values]. rewrite <- rsum_minus. apply rsum_ext. intros q _. unfold imposed. rewrite Eh. cbn [pb_jump pb_value with_values].
  change (facet_step (wd ?x ?y)) with (facet_step Q). change (normal_flux (wd ?x ?y)) with (normal_flux Q). cbn [pb_pen pb_nl with_values].
  destruct (elements_of elems f) as [|? [|? [|? ?]]]; ring.
Qed.
Lemma shear_work_is_load J b dJ db U : shear_work (wd J b) elems facets bc U dJ db = pdprod J b dJ db - pfloads dJ db U.
Proof.
  unfold shear_work, pdprod, pfloads. rewrite lsum_minus. apply lsum_ext. intros f _. rewrite facet_load_energy. cbn [pb_ref with_values].
  change (facet_step (wd ?x ?y)) with (facet_step Q). change (normal_flux (wd ?x ?y)) with (normal_flux Q). cbn [pb_pen pb_nl with_values].
  assert (PR : forall q, imposed (wd dJ db) elems bc f q = if has_data (bc f) then match elements_of elems f with [g] => db f q | [g; h] => dJ f g q | _ => 0 end else 0) by reflexivity.
  destruct (has_data (bc f)) eqn:Eh.
  - rewrite <- rsum_minus. apply rsum_ext. intros q _. rewrite PR.
    unfold shear_force. change (facet_step (wd ?x ?y)) with (facet_step Q). change (normal_flux (wd ?x ?y)) with (normal_flux Q). cbn [pb_pen pb_nl with_values]. ring.
  - rewrite (rsum_zero (p_nq P)); [ring|]. intros q _. rewrite PR. ring.
Qed.
Lemma pdprod_half J b J' b' : pdprod J b (fun f g q => J' f g q - J f g q) (fun f q => b' f q - b f q) + pdprod J' b' (fun f g q => J' f g q - J f g q) (fun f q => b' f q - b f q)
  = pdprod J' b' J' b' - pdprod J b J b.
Proof.
  unfold pdprod. rewrite lsum_minus, <- lsum_plus. apply lsum_ext. intros f _. rewrite <- rsum_minus, <- rsum_plus. apply rsum_ext. intros q _.
  unfold imposed. cbn [pb_jump pb_value with_values]. destruct (has_data (bc f)); [|ring]. destruct (elements_of elems f) as [|? [|? [|? ?]]]; ring.
Qed.
Definition pvloads (V : nat -> nat -> R) : R := lsum (fun g => vol_load Q g V) (seq 0 (length elems)).
Lemma pload_split J b V : sip_load (wd J b) elems facets bc V = pvloads V + pfloads J b V.
Proof. reflexivity. Qed.
Lemma pform_same J b U V : sip_form (wd J b) elems facets bc U V = sip_form Q elems facets bc U V.
Proof. reflexivity. Qed.
Lemma penergy_quadratic J b U : (forall f g h i q, In f facets -> elements_of elems f = [g; h] -> pb_n Q f h i q = - pb_n Q f g i q) ->
  total_energy (wd J b) elems facets bc U = 1 / 2 * sip_form Q elems facets bc U U - (pvloads U + pfloads J b U) + 1 / 2 * pdprod J b J b.
Proof. intro OPP. exact (energy_is_quadratic (wd J b) elems facets bc OPP U). Qed.
Lemma pbalance J0 b0 J1 b1 U0 U1 : (forall f g h i q, In f facets -> elements_of elems f = [g; h] -> pb_n Q f h i q = - pb_n Q f g i q) ->
  (forall V, sip_form (wd J0 b0) elems facets bc U0 V = sip_load (wd J0 b0) elems facets bc V) -> (forall V, sip_form (wd J1 b1) elems facets bc U1 V = sip_load (wd J1 b1) elems facets bc V) ->
  let dJ f g q := J1 f g q - J0 f g q in let db f q := b1 f q - b0 f q in
  total_energy (wd J1 b1) elems facets bc U1 - total_energy (wd J0 b0) elems facets bc U0 =
  1 / 2 * (shear_work (wd J0 b0) elems facets bc U0 dJ db + shear_work (wd J1 b1) elems facets bc U1 dJ db).
Proof.
  intros OPP E0 E1 dJ db. rewrite !penergy_quadratic, !shear_work_is_load by auto.
  pose proof (E0 U0) as A00. pose proof (E0 U1) as A01. pose proof (E1 U0) as A10. pose proof (E1 U1) as A11.
  rewrite pform_same, pload_split in A00, A01, A10, A11. rewrite sip_form_symmetric in A10.
  pose proof (pfloads_diff J0 b0 J1 b1 U0) as D0. pose proof (pfloads_diff J0 b0 J1 b1 U1) as D1. pose proof (pdprod_half J0 b0 J1 b1) as DP. fold dJ db in D0, D1, DP. lra.
Qed.
End Data.

(** What the ranks assemble, seen through the forms. *)
Lemma poisson_forms k procs elems facets bc m Q P fi A r :
  mesh_parts k procs elems facets bc m -> problem_ok k elems facets Q ->
  (forall p, (p < procs)%nat -> rank_data k Q (m p) (P p) /\ p_method (P p) = IP /\ facet_table k (m p) = Some (fi p)) ->
  (forall p, (p < procs)%nat -> map_opt (to_global (m p)) (assemble (m p) (fi p) (poisson_mat (P p))) = Some (A p)) ->
  (forall p, (p < procs)%nat -> map_opt (to_global_row (m p)) (rhs (m p) (fi p) (poisson_vec (P p))) = Some (r p)) ->
  (forall U V, pairing (p_N (pb_ref Q)) (flat_map A (seq 0 procs)) V U = sip_form Q elems facets bc U V) /\
  (forall V, vpairing (p_N (pb_ref Q)) (flat_map r (seq 0 procs)) V = sip_load Q elems facets bc V).
Proof.
  intros MP PO H HA Hr. destruct (assembly_is_interior_penalty k procs elems facets bc m Q P fi MP PO H) as (A' & r' & HA' & Hr' & F).
  assert (X : forall T (a b : nat -> list T), (forall p, (p < procs)%nat -> a p = b p) -> flat_map a (seq 0 procs) = flat_map b (seq 0 procs)).
  { intros T a b E. rewrite !flat_map_concat_map. f_equal. apply map_ext_in. intros p Hp. apply in_seq in Hp. apply E. lia. }
  rewrite (X _ A A'), (X _ r r').
  - split; intros; [exact (proj1 (F U V))|exact (proj2 (F (fun _ _ => 0) V))].
  - intros p Hp. specialize (Hr p Hp). specialize (Hr' p Hp). congruence.
  - intros p Hp. specialize (HA p Hp). specialize (HA' p Hp). congruence.
Qed.

(** C93: two states in equilibrium -- solutions of the equations that the ranks assemble, for slip and
    boundary values J0, b0 and J1, b1 -- differ in energy by exactly the work of the mean of the two facet
    forces on the change of slip and boundary values. *)
Theorem poisson_energy_balance : forall k procs elems facets bc m Q P0 P1 J0 b0 J1 b1 fi A r0 r1 U0 U1,
  mesh_parts k procs elems facets bc m -> problem_ok k elems facets (with_values Q J0 b0) -> problem_ok k elems facets (with_values Q J1 b1) ->
  (forall p, (p < procs)%nat -> rank_data k (with_values Q J0 b0) (m p) (P0 p) /\ p_method (P0 p) = IP /\ facet_table k (m p) = Some (fi p)) ->
  (forall p, (p < procs)%nat -> rank_data k (with_values Q J1 b1) (m p) (P1 p) /\ p_method (P1 p) = IP /\ facet_table k (m p) = Some (fi p)) ->
  (* the matrix is assembled once *)
  (forall p, (p < procs)%nat -> map_opt (to_global (m p)) (assemble (m p) (fi p) (poisson_mat (P0 p))) = Some (A p)) ->
  (forall p, (p < procs)%nat -> map_opt (to_global_row (m p)) (rhs (m p) (fi p) (poisson_vec (P0 p))) = Some (r0 p)) ->
  (forall p, (p < procs)%nat -> map_opt (to_global_row (m p)) (rhs (m p) (fi p) (poisson_vec (P1 p))) = Some (r1 p)) ->
  let n := p_N (pb_ref Q) in
  solves n (flat_map A (seq 0 procs)) (flat_map r0 (seq 0 procs)) U0 -> solves n (flat_map A (seq 0 procs)) (flat_map r1 (seq 0 procs)) U1 ->
  let dJ f g q := J1 f g q - J0 f g q in let db f q := b1 f q - b0 f q in
  total_energy (with_values Q J1 b1) elems facets bc U1 - total_energy (with_values Q J0 b0) elems facets bc U0 =
  (shear_work (with_values Q J0 b0) elems facets bc U0 dJ db + shear_work (with_values Q J1 b1) elems facets bc U1 dJ db) / 2.
Proof.
  intros k procs elems facets bc m Q P0 P1 J0 b0 J1 b1 fi A r0 r1 U0 U1 MP PO0 PO1 R0 R1 HA H0 H1 n S0 S1 dJ db.
  destruct (assembly_is_interior_penalty k procs elems facets bc m _ P1 fi MP PO1 R1) as (A1 & _ & HA1 & _).
  destruct (poisson_forms k procs elems facets bc m _ P0 fi A r0 MP PO0 R0 HA H0) as [F0 L0].
  destruct (poisson_forms k procs elems facets bc m _ P1 fi A1 r1 MP PO1 R1 HA1 H1) as [_ L1].
  unfold Rdiv. rewrite Rmult_comm. replace (/ 2) with (1 / 2) by lra. apply (pbalance Q elems facets bc J0 b0 J1 b1 U0 U1).
  - exact (po_n _ _ _ _ PO0).
  - intro V. rewrite <- F0, <- L0. apply S0.
  - intro V. rewrite pform_same, <- (pform_same Q elems facets bc J0 b0), <- F0, <- L1. apply S1.
Qed.
Print Assumptions poisson_energy_balance.

(** C93: the flux that the operator hands to the friction law, along the normal of the first element of the
    record times the surface element, is the facet force of the energy balance. *)
Theorem reported_flux_is_shear_force : forall k procs elems facets bc m Q P fi U p i f x,
  mesh_parts k procs elems facets bc m -> problem_ok k elems facets Q -> (p < procs)%nat ->
  rank_data k Q (m p) P -> p_method P = IP -> facet_table k (m p) = Some fi -> normal_ok P i ->
  (i < tm_num_local_facets (m p))%nat -> nth_error (tm_facets (m p)) i = Some f -> nth_error fi i = Some x ->
  has_data (bc f) = true ->
  exists T, (if fi_up0 x =? fi_up1 x then traction_boundary P i x (U (fi_g0 x)) else traction_skeleton P i x (U (fi_g0 x)) (U (fi_g1 x))) = Some T /\
    forall q, (q < p_nq (pb_ref Q))%nat ->
      rsum (p_dim (pb_ref Q)) (fun a => pb_n Q f (fi_g0 x) a q * T a q) = (if fi_g1 x <? fi_g0 x then -1 else 1) * shear_force Q elems bc f U q.
Proof.
  intros k procs elems facets bc m Q P fi U p i f x MP PO Hp RD Ip Efi Nm Hi Ef Ex Hd. pose proof (mp_mesh _ _ _ _ _ _ MP p Hp) as O.
  destruct (facet_table_correct k (m p) O) as (fi' & Efi' & _ & Rec).
  assert (fi' = fi) by congruence. subst fi'. destruct (Rec i Hi) as (x' & Ex' & Rx). assert (x' = x) by congruence. subst x'.
  pose proof (facet_elements _ _ _ _ _ _ MP p i x f Hp Hi Rx Ef) as EL.
  assert (Hbc : fi_bc x = bc f). { destruct (fr_bc _ _ _ _ Rx) as (b & Eb & Ebx). rewrite (mp_bc _ _ _ _ _ _ MP p b i f Hp Eb Ef) in Ebx. congruence. }
  destruct (facet_pieces k procs elems facets bc m MP Q PO p P i f x Hp RD Hi Ef Rx) as (K0 & K1 & E0 & E1 & Hn & Hl & Hpen & Hopp & Hj).
  pose proof (SipSpec.rd_N _ _ _ _ RD) as HN. pose proof (SipSpec.rd_dim _ _ _ _ RD) as HD. pose proof (SipSpec.rd_nq _ _ _ _ RD) as Hnq.
  assert (NU : forall q, (q < p_nq (pb_ref Q))%nat -> rsum (p_dim (pb_ref Q)) (fun a => pb_n Q f (fi_g0 x) a q * p_nu P i a q) = pb_nl Q f q).
  { intros q Hq. rewrite <- HD, <- Hn, <- Hl. apply normal_unit; [exact Nm|rewrite Hnq; exact Hq]. }
  assert (PR : forall q, imposed Q elems bc f q = match elements_of elems f with [g] => pb_value Q f q | [g; h] => pb_jump Q f g q | _ => 0 end).
  { intros. unfold imposed. rewrite Hd. reflexivity. }
  rewrite <- Hbc in Hd.
  destruct (Nat.eqb_spec (fi_up0 x) (fi_up1 x)) as [Eu|Nu].
  - destruct (rd_boundary _ _ _ _ RD i f x Hi Ef Rx Eu) as [Sl Di].
    assert (D : bc_boundary P i (fi_bc x) = Some (pb_value Q f)).
    { unfold bc_boundary. unfold has_data in Hd. destruct (Nat.eqb_spec (fi_bc x) BC_Fault); [f_equal; apply functional_extensionality; auto|].
      destruct (Nat.eqb_spec (fi_bc x) BC_Dirichlet); [rewrite Di by auto; reflexivity|discriminate]. }
    unfold traction_boundary. rewrite D. eexists. split; [reflexivity|]. intros q Hq. cbv beta. rewrite K0, E0, HN. unfold penalty. rewrite Ip, Hpen.
    pose proof (fr_g0 _ _ _ _ Rx) as G0. pose proof (fr_g1 _ _ _ _ Rx) as G1. rewrite Eu in G0. assert (GG : fi_g0 x = fi_g1 x) by congruence.
    assert (LT : (fi_g1 x <? fi_g0 x) = false) by (apply Nat.ltb_ge; lia). rewrite LT.
    unfold shear_force. rewrite PR. unfold normal_flux, facet_step. rewrite EL, <- (NU q Hq).
    change (rsum (p_N (pb_ref Q)) (fun l => Eon Q f (fi_g0 x) l q * U (fi_g0 x) l)) with (trace Q f (fi_g0 x) (U (fi_g0 x)) q).
    set (s := trace Q f (fi_g0 x) (U (fi_g0 x)) q - pb_value Q f q).
    rewrite (rsum_ext _ (fun a => pb_n Q f (fi_g0 x) a q * _) (fun a => kappa_on Q f (fi_g0 x) q * grad_on Q f (fi_g0 x) (U (fi_g0 x)) a q * pb_n Q f (fi_g0 x) a q
      + (- (pb_pen Q f * s)) * (pb_n Q f (fi_g0 x) a q * p_nu P i a q))) by (intros a _; rewrite flux_on; ring).
    rewrite rsum_plus, rsum_scale. ring.
  - destruct (rd_skeleton _ _ _ _ RD i f x Hi Ef Rx Nu) as [Sl Di].
    assert (D : bc_skeleton P i (fi_bc x) = Some (pb_jump Q f (fi_g0 x))).
    { unfold bc_skeleton. unfold has_data in Hd. destruct (Nat.eqb_spec (fi_bc x) BC_Fault); [rewrite Sl by auto; reflexivity|].
      destruct (Nat.eqb_spec (fi_bc x) BC_Dirichlet); [rewrite Di by auto; reflexivity|discriminate]. }
    unfold traction_skeleton. rewrite D. eexists. split; [reflexivity|]. intros q Hq. cbv beta. rewrite K0, K1, E0, E1, HN. unfold penalty. rewrite Ip, Hpen. specialize (Hopp Nu). specialize (Hj Nu).
    change (rsum (p_N (pb_ref Q)) (fun l => Eon Q f (fi_g0 x) l q * U (fi_g0 x) l)) with (trace Q f (fi_g0 x) (U (fi_g0 x)) q).
    change (rsum (p_N (pb_ref Q)) (fun l => Eon Q f (fi_g1 x) l q * U (fi_g1 x) l)) with (trace Q f (fi_g1 x) (U (fi_g1 x)) q).
    set (s := trace Q f (fi_g0 x) (U (fi_g0 x)) q - trace Q f (fi_g1 x) (U (fi_g1 x)) q - pb_jump Q f (fi_g0 x) q).
    rewrite (rsum_ext _ (fun a => pb_n Q f (fi_g0 x) a q * _) (fun a => mean_flux Q f (fi_g0 x) (fi_g1 x) U a q * pb_n Q f (fi_g0 x) a q
      + (- (pb_pen Q f * s)) * (pb_n Q f (fi_g0 x) a q * p_nu P i a q))) by (intros a _; rewrite !flux_on; unfold mean_flux; ring).
    rewrite rsum_plus, rsum_scale, (NU q Hq). unfold shear_force. rewrite PR. unfold normal_flux, facet_step. rewrite EL.
    destruct (Nat.ltb_spec (fi_g0 x) (fi_g1 x)) as [Lt|Ge].
    + assert (LT : (fi_g1 x <? fi_g0 x) = false) by (apply Nat.ltb_ge; lia). rewrite LT. unfold s. ring.
    + assert (Ne : fi_g0 x <> fi_g1 x).
      { intro Q0. apply Nu. pose proof (fr_g0 _ _ _ _ Rx) as G0. pose proof (fr_g1 _ _ _ _ Rx) as G1. rewrite Q0, <- G1 in G0. apply (proj1 (NoDup_nth_error _) (mp_nodup _ _ _ _ _ _ MP p Hp)); auto. apply nth_error_Some. congruence. }
      assert (LT : (fi_g1 x <? fi_g0 x) = true) by (apply Nat.ltb_lt; lia). rewrite LT, Hj.
      rewrite (rsum_ext _ (fun j => mean_flux Q f (fi_g1 x) (fi_g0 x) U j q * pb_n Q f (fi_g1 x) j q) (fun j => -1 * (mean_flux Q f (fi_g0 x) (fi_g1 x) U j q * pb_n Q f (fi_g0 x) j q))) by (intros; rewrite Hopp; unfold mean_flux; ring).
      rewrite rsum_scale. unfold s. ring.
Qed.
Print Assumptions reported_flux_is_shear_force.
