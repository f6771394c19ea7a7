(** Energy balance of the discrete elastic body (C84). *)
Require Import List Arith Lia Bool Reals Lra FunctionalExtensionality.
Require Import Verif.Base Verif.LinAlg Verif.LocalMeshModel Verif.LocalMeshProps Verif.TopoModel Verif.TopoSpec Verif.TopoProofs Verif.TopoProps Verif.AssembleModel Verif.AssembleSpec Verif.AssembleProofs Verif.AssembleProps Verif.ApplyModel Verif.MatFree Verif.MatFreeRhs
  Verif.PoissonModel Verif.PoissonProps Verif.SipSpec Verif.SipProps Verif.CoerciveProps Verif.DefiniteSpec Verif.DefiniteProps
  Verif.ElasticityModel Verif.ElasticitySpec Verif.ElasticityProofs Verif.ElasticityProps Verif.ElasticFormSpec Verif.ElasticFormProofs Verif.ElasticFormRank Verif.ElasticFormProps
  Verif.WaveProps Verif.ElasticCflProps Verif.ElasticModeProps Verif.ElasticEnergySpec Verif.ElasticEnergyProofs.
Import ListNotations.
Local Open Scope R_scope.

(** What the ranks assemble, seen through the bilinear and the linear form. *)
Lemma solved_is_equilibrium k procs elems facets bc m Q E fi A r U :
  mesh_parts k procs elems facets bc m -> eproblem_ok k elems facets Q ->
  (forall p, (p < procs)%nat -> erank_data k Q (m p) (E p) /\ p_method (e_geo (E p)) = IP /\ facet_table k (m p) = Some (fi p)) ->
  (forall p, (p < procs)%nat -> map_opt (to_global (m p)) (assemble (m p) (fi p) (elasticity_mat (E p))) = Some (A p)) ->
  (forall p, (p < procs)%nat -> map_opt (to_global_row (m p)) (rhs (m p) (fi p) (elasticity_vec (E p))) = Some (r p)) ->
  (forall V, pairing (block_size (ep_ref Q)) (flat_map A (seq 0 procs)) V U = elastic_form Q elems facets bc U V) /\
  (forall V, vpairing (block_size (ep_ref Q)) (flat_map r (seq 0 procs)) V = elastic_load Q elems facets bc V).
Proof.
  intros MP PO H HA Hr. destruct (elasticity_assembly_is_interior_penalty k procs elems facets bc m Q E fi MP PO H) as (A' & r' & HA' & Hr' & F).
  assert (EA : flat_map A (seq 0 procs) = flat_map A' (seq 0 procs)).
  { assert (X : forall n, (n <= procs)%nat -> flat_map A (seq (procs - n) n) = flat_map A' (seq (procs - n) n)).
    { induction n as [|n IH]; intro Hn; [reflexivity|]. cbn [seq flat_map]. replace (S (procs - S n)) with (procs - n)%nat by lia. rewrite IH by lia. f_equal.
      pose proof (HA (procs - S n)%nat ltac:(lia)). pose proof (HA' (procs - S n)%nat ltac:(lia)). congruence. }
    specialize (X procs ltac:(lia)). rewrite Nat.sub_diag in X. exact X. }
  assert (Er : flat_map r (seq 0 procs) = flat_map r' (seq 0 procs)).
  { assert (X : forall n, (n <= procs)%nat -> flat_map r (seq (procs - n) n) = flat_map r' (seq (procs - n) n)).
    { induction n as [|n IH]; intro Hn; [reflexivity|]. cbn [seq flat_map]. replace (S (procs - S n)) with (procs - n)%nat by lia. rewrite IH by lia. f_equal.
      pose proof (Hr (procs - S n)%nat ltac:(lia)). pose proof (Hr' (procs - S n)%nat ltac:(lia)). congruence. }
    specialize (X procs ltac:(lia)). rewrite Nat.sub_diag in X. exact X. }
  split; intro V; destruct (F U V) as [F1 F2]; [rewrite EA|rewrite Er]; auto.
Qed.

Section Data.
Variables (Q : eproblem) (elems facets : list (list nat)) (bc : list nat -> nat).
Local Notation P := (e_geo (ep_ref Q)). Local Notation dim := (p_dim P).
Local Notation jmp := (list nat -> nat -> nat -> nat -> R). Local Notation val := (list nat -> nat -> nat -> R).
Local Notation wd := (with_data Q).
(** The facet load is linear in the data. *)
Definition floads (J : jmp) (b : val) (V : nat -> nat -> R) : R := lsum (fun f => efacet_load (wd J b) elems bc f V) facets.
Definition dprod (J : jmp) (b : val) (J' : jmp) (b' : val) : R :=
  lsum (fun f => rsum (p_nq P) (fun q => p_w P q * rsum dim (fun i => ep_pen Q f * ep_nl Q f q * (prescribed (wd J b) elems bc f q i * prescribed (wd J' b') elems bc f q i)))) facets.
Lemma prescribed_linear J b J' b' f q i (c : R) : prescribed (wd (fun f g i q => J f g i q + c * J' f g i q) (fun f i q => b f i q + c * b' f i q)) elems bc f q i =
  prescribed (wd J b) elems bc f q i + c * prescribed (wd J' b') elems bc f q i.
Proof. unfold prescribed. cbn. change (ehas_data (wd ?x ?y)) with (ehas_data Q). destruct (ehas_data Q (bc f)); [|ring]. destruct (elements_of elems f) as [|? [|? [|? ?]]]; ring. Qed.
Lemma floads_diff J b J' b' V : floads J' b' V - floads J b V = floads (fun f g i q => J' f g i q - J f g i q) (fun f i q => b' f i q - b f i q) V.
Proof.
  unfold floads. assert (M : forall (a b : list nat -> R) l, lsum a l - lsum b l = lsum (fun f => a f - b f) l) by (intros a' b0 l; induction l as [|x l IH]; cbn; [ring|rewrite <- IH; ring]).
  rewrite M. apply lsum_ext. intros f _. rewrite !facet_load. change (ehas_data (wd ?x ?y)) with (ehas_data Q). destruct (ehas_data Q (bc f)) eqn:Eh; [|ring].
  cbn [ep_ref with_data]. rewrite <- rsum_minus. apply rsum_ext. intros q _. rewrite <- Rmult_minus_distr_l. f_equal. rewrite <- rsum_minus. apply rsum_ext. intros i _.
  unfold prescribed. change (ehas_data (wd ?x ?y)) with (ehas_data Q). rewrite Eh. cbn [ep_jump ep_value with_data].
  change (facet_jump (wd ?x ?y)) with (facet_jump Q). change (facet_traction (wd ?x ?y)) with (facet_traction Q). cbn [ep_pen ep_nl with_data].
  destruct (elements_of elems f) as [|? [|? [|? ?]]]; ring.
Qed.
Lemma work_is_load J b dJ db U : work (wd J b) elems facets bc U dJ db = dprod J b dJ db - floads dJ db U.
Proof.
  unfold work, dprod, floads. assert (M : forall (a b : list nat -> R) l, lsum a l - lsum b l = lsum (fun f => a f - b f) l) by (intros a' b0 l; induction l as [|x l IH]; cbn; [ring|rewrite <- IH; ring]).
  rewrite M. apply lsum_ext. intros f _. rewrite facet_load. cbn [ep_ref with_data]. change (ehas_data (wd ?x ?y)) with (ehas_data Q).
  change (facet_jump (wd ?x ?y)) with (facet_jump Q). change (facet_traction (wd ?x ?y)) with (facet_traction Q). cbn [ep_pen ep_nl with_data].
  assert (PR : forall q i, prescribed (wd dJ db) elems bc f q i = if ehas_data Q (bc f) then match elements_of elems f with [g] => db f i q | [g; h] => dJ f g i q | _ => 0 end else 0).
  { intros. unfold prescribed. change (ehas_data (wd ?x ?y)) with (ehas_data Q). reflexivity. }
  destruct (ehas_data Q (bc f)) eqn:Eh.
  - rewrite <- rsum_minus. apply rsum_ext. intros q _. rewrite <- Rmult_minus_distr_l. f_equal. rewrite <- rsum_minus. apply rsum_ext. intros i _. rewrite PR.
    unfold facet_force. change (facet_jump (wd ?x ?y)) with (facet_jump Q). change (facet_traction (wd ?x ?y)) with (facet_traction Q). cbn [ep_pen ep_nl with_data]. ring.
  - rewrite (rsum_zero (p_nq P)); [ring|]. intros q _. rewrite (rsum_zero dim); [ring|]. intros i _. rewrite PR. ring.
Qed.
Lemma dprod_half J b J' b' : dprod J b (fun f g i q => J' f g i q - J f g i q) (fun f i q => b' f i q - b f i q) + dprod J' b' (fun f g i q => J' f g i q - J f g i q) (fun f i q => b' f i q - b f i q)
  = dprod J' b' J' b' - dprod J b J b.
Proof.
  unfold dprod. assert (M : forall (a b : list nat -> R) l, lsum a l - lsum b l = lsum (fun f => a f - b f) l) by (intros a' b0 l; induction l as [|x l IH]; cbn; [ring|rewrite <- IH; ring]).
  rewrite M, <- lsum_plus. apply lsum_ext. intros f _. rewrite <- rsum_minus, <- rsum_plus. apply rsum_ext. intros q _. rewrite <- Rmult_minus_distr_l, <- Rmult_plus_distr_l. f_equal.
  rewrite <- rsum_minus, <- rsum_plus. apply rsum_ext. intros i _. unfold prescribed. change (ehas_data (wd ?x ?y)) with (ehas_data Q). cbn [ep_jump ep_value with_data].
  destruct (ehas_data Q (bc f)); [|ring]. destruct (elements_of elems f) as [|? [|? [|? ?]]]; ring.
Qed.
Definition vloads (V : nat -> nat -> R) : R := lsum (fun g => evol_load Q g V) (seq 0 (length elems)).
Lemma load_split J b V : elastic_load (wd J b) elems facets bc V = vloads V + floads J b V.
Proof. reflexivity. Qed.
Lemma form_same J b U V : elastic_form (wd J b) elems facets bc U V = elastic_form Q elems facets bc U V.
Proof. reflexivity. Qed.
Lemma energy_quadratic J b U : (forall f g h i q, In f facets -> elements_of elems f = [g; h] -> ep_n Q f h i q = - ep_n Q f g i q) ->
  stored_energy (wd J b) elems facets bc U = 1 / 2 * elastic_form Q elems facets bc U U - (vloads U + floads J b U) + 1 / 2 * dprod J b J b.
Proof. intro OPP. exact (stored_is_quadratic (wd J b) elems facets bc OPP U). Qed.
Lemma balance J0 b0 J1 b1 U0 U1 : (forall f g h i q, In f facets -> elements_of elems f = [g; h] -> ep_n Q f h i q = - ep_n Q f g i q) ->
  in_equilibrium (wd J0 b0) elems facets bc U0 -> in_equilibrium (wd J1 b1) elems facets bc U1 ->
  let dJ f g i q := J1 f g i q - J0 f g i q in let db f i q := b1 f i q - b0 f i q in
  stored_energy (wd J1 b1) elems facets bc U1 - stored_energy (wd J0 b0) elems facets bc U0 =
  1 / 2 * (work (wd J0 b0) elems facets bc U0 dJ db + work (wd J1 b1) elems facets bc U1 dJ db).
Proof.
  intros OPP E0 E1 dJ db. rewrite !energy_quadratic, !work_is_load by auto. unfold in_equilibrium in E0, E1.
  pose proof (E0 U0) as A00. pose proof (E0 U1) as A01. pose proof (E1 U0) as A10. pose proof (E1 U1) as A11.
  rewrite form_same, load_split in A00, A01, A10, A11. rewrite elastic_form_symmetric in A10.
  pose proof (floads_diff J0 b0 J1 b1 U0) as D0. pose proof (floads_diff J0 b0 J1 b1 U1) as D1. pose proof (dprod_half J0 b0 J1 b1) as DP. fold dJ db in D0, D1, DP. lra.
Qed.
End Data.

(** C84: quasi-static energy balance.  Two states in equilibrium -- solutions of the equations that
    the ranks assemble, for slip and boundary values J0, b0 and J1, b1 -- differ in stored energy by
    exactly the work of the mean of the two facet forces on the change of slip and boundary values;
    on any mesh, for any partition and however large the change. *)
Theorem equilibrium_energy_balance : forall k procs elems facets bc m Q E0 E1 J0 b0 J1 b1 fi A r0 r1 U0 U1,
  mesh_parts k procs elems facets bc m -> eproblem_ok k elems facets (with_data Q J0 b0) -> eproblem_ok k elems facets (with_data Q J1 b1) ->
  (forall p, (p < procs)%nat -> erank_data k (with_data Q J0 b0) (m p) (E0 p) /\ p_method (e_geo (E0 p)) = IP /\ facet_table k (m p) = Some (fi p)) ->
  (forall p, (p < procs)%nat -> erank_data k (with_data Q J1 b1) (m p) (E1 p) /\ p_method (e_geo (E1 p)) = IP /\ facet_table k (m p) = Some (fi p)) ->
  (* the matrix is assembled once *)
  (forall p, (p < procs)%nat -> map_opt (to_global (m p)) (assemble (m p) (fi p) (elasticity_mat (E0 p))) = Some (A p)) ->
  (forall p, (p < procs)%nat -> map_opt (to_global_row (m p)) (rhs (m p) (fi p) (elasticity_vec (E0 p))) = Some (r0 p)) ->
  (forall p, (p < procs)%nat -> map_opt (to_global_row (m p)) (rhs (m p) (fi p) (elasticity_vec (E1 p))) = Some (r1 p)) ->
  let n := block_size (ep_ref Q) in
  solves n (flat_map A (seq 0 procs)) (flat_map r0 (seq 0 procs)) U0 -> solves n (flat_map A (seq 0 procs)) (flat_map r1 (seq 0 procs)) U1 ->
  let dJ f g i q := J1 f g i q - J0 f g i q in let db f i q := b1 f i q - b0 f i q in
  stored_energy (with_data Q J1 b1) elems facets bc U1 - stored_energy (with_data Q J0 b0) elems facets bc U0 =
  (work (with_data Q J0 b0) elems facets bc U0 dJ db + work (with_data Q J1 b1) elems facets bc U1 dJ db) / 2.
Proof.
  intros k procs elems facets bc m Q E0 E1 J0 b0 J1 b1 fi A r0 r1 U0 U1 MP PO0 PO1 R0 R1 HA H0 H1 n S0 S1 dJ db.
  destruct (elasticity_assembly_is_interior_penalty k procs elems facets bc m _ E1 fi MP PO1 R1) as (A1 & _ & HA1 & _).
  pose proof (fun U => solved_is_equilibrium k procs elems facets bc m _ E0 fi A r0 U MP PO0 R0 HA H0) as F0.
  pose proof (fun U => solved_is_equilibrium k procs elems facets bc m _ E1 fi A1 r1 U MP PO1 R1 HA1 H1) as F1.
  unfold Rdiv. rewrite Rmult_comm. replace (/ 2) with (1 / 2) by lra. apply (balance Q elems facets bc J0 b0 J1 b1 U0 U1).
  - exact (eo_n _ _ _ _ PO0).
  - intro V. rewrite <- (proj1 (F0 U0)), <- (proj2 (F0 U0)). apply S0.
  - intro V. rewrite form_same, <- (form_same Q elems facets bc J0 b0), <- (proj1 (F0 U1)), <- (proj2 (F1 U1)). apply S1.
Qed.
Print Assumptions equilibrium_energy_balance.

(** The prescribed jump or value, as the rank finds it. *)
Lemma rank_data_skeleton k Q m E i f x : erank_data k Q m E -> (i < tm_num_local_facets m)%nat -> nth_error (tm_facets m) i = Some f -> facet_record_ok k m i x ->
  ehas_data Q (fi_bc x) = true -> (fi_up0 x <> fi_up1 x -> bc_skeleton E i (fi_bc x) = Some (ep_jump Q f (fi_g0 x))) /\
  (fi_up0 x = fi_up1 x -> bc_boundary E i (fi_bc x) = Some (ep_value Q f)).
Proof.
  intros RD Hi Ef R Hd. pose proof (er_slip _ _ _ _ RD) as Sl. pose proof (er_dir _ _ _ _ RD) as Di. unfold bc_skeleton, bc_boundary. unfold ehas_data in Hd.
  destruct (Nat.eqb_spec (fi_bc x) BC_Fault) as [Eb|Nb].
  - rewrite Eb in Hd |- *. change (BC_Fault =? BC_Dirichlet) with false in *. cbn [andb orb] in Hd. rewrite orb_false_r in Hd. destruct (e_slip E) as [s|]; [|congruence].
    destruct Sl as [_ S']. destruct (S' i f x Hi Ef R Eb) as [S1 S2]. split; intro Nu; [rewrite (S1 Nu); reflexivity|]. f_equal.
    apply functional_extensionality. intro a. apply functional_extensionality. intro q. apply (S2 Nu).
  - destruct (Nat.eqb_spec (fi_bc x) BC_Dirichlet) as [Eb|Nb']; cbn [andb orb] in Hd; [|discriminate].
    destruct (e_dir E) as [d|]; [|congruence]. destruct Di as [_ S']. destruct (S' i f x Hi Ef R Eb) as [S1 S2]. split; intro Nu; [rewrite (S1 Nu)|rewrite (S2 Nu)]; reflexivity.
Qed.
Lemma tct_same E E' n lam mu Dx U p q : p_N (e_geo E) = p_N (e_geo E') -> p_dim (e_geo E) = p_dim (e_geo E') -> tct E n lam mu Dx U p q = tct E' n lam mu Dx U p q.
Proof. intros H1 H2. unfold tct, sig, dgr, ix. rewrite H1, H2. reflexivity. Qed.
Lemma tct_length E fct lam mu Dx U p q : normal_ok (e_geo E) fct -> (q < p_nq (e_geo E))%nat -> p_nl (e_geo E) fct q * tct E (p_nu (e_geo E) fct) lam mu Dx U p q = tct E (p_n (e_geo E) fct) lam mu Dx U p q.
Proof. intros Nm Hq. unfold tct. rewrite <- rsum_scale. apply rsum_ext. intros j Hj. destruct (Nm q Hq) as [_ Nj]. rewrite (Nj j Hj). ring. Qed.

(** C84: the traction that the operator hands to the friction law, times the surface element, is the
    facet force of the energy balance, on whichever rank and with whichever element first. *)
Theorem reported_traction_is_facet_force : forall k procs elems facets bc m Q E fi U p i f x,
  mesh_parts k procs elems facets bc m -> eproblem_ok k elems facets Q -> (p < procs)%nat ->
  erank_data k Q (m p) E -> p_method (e_geo E) = IP -> facet_table k (m p) = Some fi -> normal_ok (e_geo E) i ->
  (i < tm_num_local_facets (m p))%nat -> nth_error (tm_facets (m p)) i = Some f -> nth_error fi i = Some x ->
  ehas_data Q (bc f) = true ->
  exists T, (if fi_up0 x =? fi_up1 x then traction_boundary E i x (U (fi_g0 x)) else traction_skeleton E i x (U (fi_g0 x)) (U (fi_g1 x))) = Some T /\
    forall a q, (a < p_dim (e_geo (ep_ref Q)))%nat -> (q < p_nq (e_geo (ep_ref Q)))%nat ->
      ep_nl Q f q * T a q = (if fi_g1 x <? fi_g0 x then -1 else 1) * facet_force Q elems bc f U q a.
Proof.
  intros k procs elems facets bc m Q E fi U p i f x MP PO Hp RD Ip Efi Nm Hi Ef Ex Hd. pose proof (mp_mesh _ _ _ _ _ _ MP p Hp) as O.
  destruct (facet_table_correct k (m p) O) as (fi' & Efi' & _ & Rec).
  assert (fi' = fi) by congruence. subst fi'. destruct (Rec i Hi) as (x' & Ex' & Rx). assert (x' = x) by congruence. subst x'.
  pose proof (facet_elements _ _ _ _ _ _ MP p i x f Hp Hi Rx Ef) as EL.
  assert (Hbc : fi_bc x = bc f). { destruct (fr_bc _ _ _ _ Rx) as (b & Eb & Ebx). rewrite (mp_bc _ _ _ _ _ _ MP p b i f Hp Eb Ef) in Ebx. congruence. }
  destruct (efacet_pieces k procs elems facets bc m MP Q PO p E i f x Hp RD Hi Ef Rx) as (Hs & Hn & Hl & Hpen & Hopp & Hj).
  destruct (Hs 0%nat) as (L0 & M0 & D0 & B0). destruct (Hs 1%nat) as (L1 & M1 & D1 & B1). cbv zeta in L0, M0, D0, B0, L1, M1, D1, B1.
  rewrite <- Hbc in Hd. destruct (rank_data_skeleton k Q (m p) E i f x RD Hi Ef Rx Hd) as [Sk Bd].
  pose proof (er_N _ _ _ _ RD) as HN. pose proof (er_dim _ _ _ _ RD) as HD.
  assert (TR : forall u0 lam mu Dx a q, (a < p_dim (e_geo (ep_ref Q)))%nat -> (q < p_nq (e_geo (ep_ref Q)))%nat -> ep_nl Q f q * traction E (p_nu (e_geo E) i) lam mu Dx u0 a q = tct (ep_ref Q) (ep_n Q f (fi_g0 x)) lam mu Dx u0 a q).
  { intros u0 lam mu Dx a q Ha Hq. rewrite traction_form by (rewrite HD; auto). rewrite <- Hl, tct_length by (auto; rewrite (er_nq _ _ _ _ RD); auto). rewrite Hn. apply tct_same; auto. }
  assert (PR : forall q a, prescribed Q elems bc f q a = match elements_of elems f with [g] => ep_value Q f a q | [g; h] => ep_jump Q f g a q | _ => 0 end).
  { intros. unfold prescribed. rewrite <- Hbc, Hd. reflexivity. }
  destruct (Nat.eqb_spec (fi_up0 x) (fi_up1 x)) as [Eu|Nu].
  - unfold traction_boundary. rewrite (Bd Eu). eexists. split; [reflexivity|]. intros a q Ha Hq. cbv beta.
    rewrite Rmult_plus_distr_l, TR by auto. rewrite L0, M0, D0, B0. unfold penalty. rewrite Ip, Hpen.
    pose proof (fr_g0 _ _ _ _ Rx) as G0. pose proof (fr_g1 _ _ _ _ Rx) as G1. rewrite Eu in G0. assert (GG : fi_g0 x = fi_g1 x) by congruence.
    assert (LT : (fi_g1 x <? fi_g0 x) = false) by (apply Nat.ltb_ge; lia). rewrite LT.
    unfold facet_force. rewrite PR. unfold facet_traction, facet_jump. rewrite EL.
    fold (tn Q f (fi_g0 x) (fi_g0 x) (U (fi_g0 x)) a q). rewrite tn_stress.
    change (rsum (p_N (e_geo E)) (fun l => Bon Q f (fi_g0 x) l q * U (fi_g0 x) (ix E l a))) with (trc E (Bon Q f (fi_g0 x)) (U (fi_g0 x)) a q).
    assert (TC : trc E (Bon Q f (fi_g0 x)) (U (fi_g0 x)) a q = trc (ep_ref Q) (Bon Q f (fi_g0 x)) (U (fi_g0 x)) a q) by (unfold trc, ix; rewrite HN; reflexivity).
    rewrite TC, disp_on_trc. ring.
  - unfold traction_skeleton. rewrite (Sk Nu). eexists. split; [reflexivity|]. intros a q Ha Hq. cbv beta. specialize (Hopp Nu). specialize (Hj Nu).
    assert (TC : forall g, rsum (p_N (e_geo E)) (fun l => Bon Q f g l q * U g (ix E l a)) = disp_on Q f g (U g) q a).
    { intro g. rewrite <- disp_on_trc. unfold trc, ix. rewrite HN. reflexivity. }
    rewrite L0, M0, D0, B0, L1, M1, D1, B1, !TC. unfold penalty. rewrite Ip, Hpen.
    transitivity (1 / 2 * (tn Q f (fi_g0 x) (fi_g0 x) (U (fi_g0 x)) a q + tn Q f (fi_g1 x) (fi_g0 x) (U (fi_g1 x)) a q)
      - ep_pen Q f * ep_nl Q f q * (disp_on Q f (fi_g0 x) (U (fi_g0 x)) q a - disp_on Q f (fi_g1 x) (U (fi_g1 x)) q a - ep_jump Q f (fi_g0 x) a q)).
    { unfold tn. rewrite <- !TR by auto. ring. }
    assert (MS : forall g h, g = fi_g0 x /\ h = fi_g1 x \/ g = fi_g1 x /\ h = fi_g0 x -> rsum (p_dim (e_geo (ep_ref Q))) (fun j => mean_stress Q f g h U q a j * ep_n Q f (fi_g0 x) j q) =
      1 / 2 * (tn Q f (fi_g0 x) (fi_g0 x) (U (fi_g0 x)) a q + tn Q f (fi_g1 x) (fi_g0 x) (U (fi_g1 x)) a q)).
    { intros g h Hgh. rewrite !tn_stress, <- rsum_plus, <- rsum_scale. apply rsum_ext. intros j _. unfold mean_stress. destruct Hgh as [[-> ->]|[-> ->]]; ring. }
    unfold facet_force. rewrite PR. unfold facet_traction, facet_jump. rewrite EL.
    destruct (Nat.ltb_spec (fi_g0 x) (fi_g1 x)) as [Lt|Ge].
    + assert (LT : (fi_g1 x <? fi_g0 x) = false) by (apply Nat.ltb_ge; lia). rewrite LT, <- (MS (fi_g0 x) (fi_g1 x)) by auto. ring.
    + assert (Ne : fi_g0 x <> fi_g1 x).
      { intro Q0. apply Nu. pose proof (fr_g0 _ _ _ _ Rx) as G0. pose proof (fr_g1 _ _ _ _ Rx) as G1. rewrite Q0, <- G1 in G0. apply (proj1 (NoDup_nth_error _) (mp_nodup _ _ _ _ _ _ MP p Hp)); auto. apply nth_error_Some. congruence. }
      assert (LT : (fi_g1 x <? fi_g0 x) = true) by (apply Nat.ltb_lt; lia). rewrite LT, <- (MS (fi_g1 x) (fi_g0 x)) by auto. rewrite Hopp, Hj.
      rewrite (rsum_ext _ (fun j => mean_stress Q f (fi_g1 x) (fi_g0 x) U q a j * - ep_n Q f (fi_g0 x) j q) (fun j => -1 * (mean_stress Q f (fi_g1 x) (fi_g0 x) U q a j * ep_n Q f (fi_g0 x) j q))) by (intros; ring).
      rewrite rsum_scale. ring.
Qed.
Print Assumptions reported_traction_is_facet_force.
