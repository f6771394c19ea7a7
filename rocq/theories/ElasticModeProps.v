(** Property theorem: every vibration of the wave equation as the code integrates it is resolved by
    the CFL time step (C59). *)
Require Import List Arith Lia Bool Reals Lra Permutation.
Require Import Verif.Base Verif.LinAlg Verif.LocalMeshModel Verif.LocalMeshProps
  Verif.TopoModel Verif.TopoSpec Verif.TopoProofs Verif.TopoProps
  Verif.AssembleModel Verif.AssembleSpec Verif.AssembleProofs Verif.AssembleProps Verif.ApplyModel Verif.MatFree Verif.MatFreeRhs Verif.PoissonModel Verif.PoissonProps
  Verif.PenaltyModel Verif.SipSpec Verif.SipProps Verif.CoerciveProps
  Verif.ElasticityModel Verif.ElasticitySpec Verif.ElasticityProofs Verif.ElasticityProps Verif.WaveProps
  Verif.ElasticFormSpec Verif.ElasticFormProofs Verif.ElasticFormRank Verif.ElasticFormProps
  Verif.ElasticCoerciveProps Verif.ElasticCflModel Verif.ElasticCflProps.
Import ListNotations.
Local Open Scope R_scope.

Lemma map_opt_in_inv {X Y} (f : X -> option Y) : forall l r b, map_opt f l = Some r -> In b r -> exists a, In a l /\ f a = Some b.
Proof.
  induction l as [|x l IH]; intros r b E H; cbn [map_opt] in E; [injection E as <-; destruct H|].
  destruct (f x) as [y|] eqn:Ex; [|discriminate]. cbn [bind] in E. destruct (map_opt f l) as [r'|] eqn:El; [|discriminate]. cbn [bind] in E. injection E as <-.
  destruct H as [<- | H]; [exists x; cbn; auto|]. destruct (IH r' b eq_refl H) as (a & Ha & Ea). exists a. cbn. auto.
Qed.
Lemma pairing_rows n len V U : forall G, (forall i j B, In (i, j, B) G -> (i < len)%nat) ->
  pairing n G V U = lsum (fun g => rsum n (fun a => V g a * row_times n G U g a)) (seq 0 len).
Proof.
  unfold pairing, row_times. induction G as [|[[i j] B] G IH]; intro H; cbn [lsum].
  - symmetry. apply lsum_zero. intros. apply rsum_zero. intros. ring.
  - rewrite IH by (intros i' j' B' Hi; apply (H i' j' B'); cbn; auto).
    rewrite (lsum_ext (fun g => rsum n (fun a => V g a * (_ + _))) (fun g => (if i =? g then rsum n (fun a => V g a * rsum n (fun l => B a l * U j l)) else 0)
      + rsum n (fun a => V g a * lsum (fun '(i, j, B) => if i =? g then rsum n (fun l => B a l * U j l) else 0) G))).
    + rewrite lsum_plus. f_equal. rewrite (lsum_single _ _ i); [rewrite Nat.eqb_refl; reflexivity|apply seq_NoDup|apply in_seq; specialize (H i j B ltac:(cbn; auto)); lia|].
      intros b _ Hb. destruct (Nat.eqb_spec i b); congruence.
    + intros g _. destruct (i =? g).
      * rewrite <- rsum_plus. apply rsum_ext. intros. ring.
      * rewrite Rplus_0_l. apply rsum_ext. intros. ring.
Qed.
Lemma no_data E m fi e j : e_force E = None -> e_dir E = None -> e_slip E = None -> vec_row (rhs m fi (elasticity_vec E)) e j = 0.
Proof.
  intros F D S. unfold vec_row, rhs. cbn [elasticity_vec r_volume r_post]. unfold rhs_volume. rewrite F.
  assert (Z : forall {X Y} (l : list X), flat_map (fun _ => @nil Y) l = []) by (intros X Y l; induction l; cbn; auto).
  rewrite !lsum_app. cbn [if_some]. rewrite !Z. cbn [lsum]. rewrite Rplus_0_l, Rplus_0_r.
  rewrite lsum_flat_map. apply lsum_zero. intros i _. destruct (nth_error fi i) as [x|]; [|reflexivity]. cbn [if_some]. unfold rhs_facet. cbn [elasticity_vec r_skeleton r_boundary].
  assert (B0 : rhs_skeleton E i x = None) by (unfold rhs_skeleton, bc_skeleton; rewrite D, S; destruct (_ =? _), (_ =? _); reflexivity).
  assert (B1 : rhs_boundary E i x = None) by (unfold rhs_boundary, bc_boundary; rewrite D, S; destruct (_ =? _), (_ =? _); reflexivity).
  rewrite B0, B1. repeat (match goal with |- context[if ?b then _ else _] => destruct b end; cbn); reflexivity.
Qed.
Lemma mass_pair Q g (ri : R) V U : (forall q, (q < p_Nq (e_geo (ep_ref Q)))%nat -> rho_inv Q g q = ri) ->
  rsum (block_size (ep_ref Q)) (fun K => V K * rsum (p_N (e_geo (ep_ref Q))) (fun l => mass (ep_ref Q) (fun _ => 1 / ri) g (bf (ep_ref Q) K) l * U (ix (ep_ref Q) l (cp (ep_ref Q) K)))) = mass_in Q g U V.
Proof.
  intro Hr. set (E := ep_ref Q). set (P := e_geo E).
  transitivity (rsum (p_Nq P) (fun q => p_W P q * p_J P g q * (1 / ri * rsum (block_size E) (fun K => V K * (p_EQ P (bf E K) q * disp Q U q (cp E K)))))).
  - rewrite (rsum_ext (p_Nq P) _ (fun q => rsum (block_size E) (fun K => p_W P q * p_J P g q * (1 / ri) * (V K * (p_EQ P (bf E K) q * disp Q U q (cp E K)))))) by (intros; rewrite rsum_scale; ring).
    rewrite rsum_swap. apply rsum_ext. intros K HK. unfold mass. fold P.
    rewrite (rsum_ext (p_N P) _ (fun l => rsum (p_Nq P) (fun q => p_W P q * p_J P g q * (1 / ri) * p_EQ P (bf E K) q * (p_EQ P l q * U (ix E l (cp E K)))))).
    + rewrite rsum_swap. rewrite <- rsum_scale. apply rsum_ext. intros q Hq. rewrite rsum_scale. unfold disp, coef. fold E P. change (rsum (p_N P) (fun i => p_EQ P i q * U (ix E i (cp E K)))) with (rsum (p_N P) (fun l => p_EQ P l q * U (l + p_N P * cp E K)%nat)). ring.
    + intros l _. rewrite <- rsum_scale_r. apply rsum_ext. intros. ring.
  - unfold mass_in. apply rsum_ext. intros q Hq. fold E P. rewrite (component_sum E (disp Q U q) (p_EQ P) V q), (Hr q Hq). f_equal. f_equal; [unfold Rdiv; ring|].
    apply rsum_ext. intros i Hi. rewrite Rmult_comm. f_equal. 
Qed.

(** C59: let dt be the time step bound that the ranks agree on.  If the acceleration that the operator
    returns for a displacement u <> 0 without prescribed boundary data is - w^2 u, then w dt <= 1.  The
    density is at least one; elements are straight-sided and have constant density each. *)
Theorem vibration_frequency_bound : forall k procs elems facets bc m Q E fi degree C A wr t sl dmax U w2,
  mesh_parts k procs elems facets bc m -> eproblem_ok k elems facets Q ->
  (forall p, (p < procs)%nat -> erank_data k Q (m p) (E p) /\ p_method (e_geo (E p)) = IP /\ facet_table k (m p) = Some (fi p)) ->
  (forall p i x, (p < procs)%nat -> nth_error (fi p) i = Some x -> p_pen (e_geo (E p)) i = ElasticityModel.prepare_penalty (E p) degree i x) ->
  p_dim (e_geo (ep_ref Q)) = k -> (0 < k)%nat ->
  egeometry_ok Q elems facets -> etrace_inequality Q elems facets degree -> wave_ok Q elems facets degree C ->
  (forall g l, (g < length elems)%nat -> (l < p_N (e_geo (ep_ref Q)))%nat -> e_rhoInv (ep_ref Q) g l <= 1) ->
  (forall p, (p < procs)%nat -> map_opt (to_global (m p)) (assemble (m p) (fi p) (elasticity_mat (E p))) = Some (A p)) ->
  (forall p, (p < procs)%nat -> interleaving (all_side_writes k (fi p)) (wr p) /\ do_writes (fresh_sides k (m p)) (wr p) = Some (t p)) ->
  (forall p e, (p < procs)%nat -> (e < tm_num_local (m p))%nat -> map_opt (fun d => nth_error (t p) (e * (k + 1) + d)) (seq 0 (k + 1)) = Some (sl p e)) ->
  0 < dmax ->
  (forall p, (p < procs)%nat -> e_force (E p) = None /\ e_dir (E p) = None /\ e_slip (E p) = None /\ ref_inverse (e_geo (E p)) /\
     (forall i, (i < tm_num_local_facets (m p))%nat -> normal_ok (e_geo (E p)) i) /\ forall x, In x (fi p) -> bc_fits x) ->
  (forall g, (g < length elems)%nat -> exists j ri, affine_element (e_geo (ep_ref Q)) g j /\ forall q, (q < p_Nq (e_geo (ep_ref Q)))%nat -> rho_inv Q g q = ri) ->
  0 < mass_form Q elems U U ->
  (forall p e g, (p < procs)%nat -> (e < tm_num_local (m p))%nat -> nth_error (tm_l2cg (m p)) e = Some g ->
     exists a, wave_rhs (E p) (fi p) e (sl p e) (U g) (map (fun s => U (nth (si_lid s) (tm_l2cg (m p)) 0%nat)) (sl p e)) = Some a /\
       forall j, (j < block_size (ep_ref Q))%nat -> a j = - w2 * U g j) ->
  let dt := cfl_time_step dmax procs (fun p => local_cfl_time_step dmax (tm_num_local (m p)) (fun e => cfl_dt (E p) degree C e (sl p e))) in
  0 <= w2 /\ sqrt w2 * dt <= 1.
Proof.
  intros k procs elems facets bc m Q E fi degree C A wr t sl dmax U w2 MP PO RK PEN Hd Hk GE TI WO Rho HA TB SL Dm ND AF Mp Mode.
  apply (time_step_bounds_frequency k procs elems facets bc m Q E fi degree C A wr t sl dmax U w2); auto. intro V.
  rewrite (pairing_rows _ (length elems)).
  2:{ intros i j B H. apply in_flat_map in H as (p & Hp & H). apply in_seq in Hp. apply In_nth_error in H as [x H].
      pose proof (HA p ltac:(lia)) as Ha. apply map_opt_in_inv with (b := (i, j, B)) in Ha as ([[a b] B'] & _ & Ea); [|eapply nth_error_In; eauto].
      cbn in Ea. destruct (nth_error (tm_l2cg (m p)) a) as [gi|] eqn:Eg; [|discriminate]. cbn in Ea. destruct (nth_error (tm_l2cg (m p)) b); [|discriminate]. cbn in Ea.
      injection Ea as <- _ _. apply (mp_elem _ _ _ _ _ _ MP p a gi ltac:(lia) Eg). }
  unfold mass_form. rewrite <- lsum_scale. apply lsum_ext. intros g Hg. apply in_seq in Hg. assert (Hl : (g < length elems)%nat) by lia.
  destruct (mp_owned _ _ _ _ _ _ MP g Hl) as (p & e & Hp & He & Ee). pose proof (mp_mesh _ _ _ _ _ _ MP p Hp) as O.
  destruct (RK p Hp) as (RD & Ip & Efi). destruct (TB p Hp) as (Iw & Et). destruct (ND p Hp) as (F0 & D0 & S0 & Inv & Nm & Bc).
  destruct (AF g Hl) as (j & ri & (Hj & HJ) & Hri). destruct (er_elem _ _ _ _ RD e g Ee) as (EJ & _ & _ & _ & ER).
  assert (NQ : (0 < p_Nq (e_geo (ep_ref Q)))%nat).
  { pose proof (eg_vol _ _ _ GE g Hl) as V0. unfold volume in V0. destruct (p_Nq (e_geo (ep_ref Q))); [cbn in V0; lra|lia]. }
  assert (R0 : ri <> 0) by (rewrite <- (Hri 0%nat NQ); destruct (wo_rho _ _ _ _ _ WO g 0 Hl NQ); lra).
  destruct (Mode p e g Hp He Ee) as (a & Ea & Ha).
  set (U' := fun d => U (nth d (tm_l2cg (m p)) 0%nat)).
  assert (Ue : U' e = U g) by (unfold U'; rewrite (nth_error_nth _ _ 0%nat Ee); reflexivity).
  assert (ID : forall q, (q < p_Nq (e_geo (E p)))%nat -> inv_density (E p) e q = ri).
  { intros q Hq. rewrite (er_Nq _ _ _ _ RD) in Hq. rewrite <- (Hri q Hq). unfold inv_density, rho_inv. rewrite (er_N _ _ _ _ RD), (er_matEQ _ _ _ _ RD), ER. reflexivity. }
  destruct (wave_rhs_correct (E p) k (m p) (fi p) (wr p) (t p) e (sl p e) U' j ri O Efi Iw Et Ip Nm Bc He (SL p e Hp He) F0 Inv
    ltac:(split; [auto|intros q Hq; rewrite (er_Nq _ _ _ _ RD) in Hq; rewrite EJ; auto]) R0 ID) as (a' & Ea' & Ha').
  rewrite Ue in Ea'. assert (a' = a) by (unfold U' in Ea'; congruence). subst a'.
  assert (BS : block_size (E p) = block_size (ep_ref Q)) by (unfold block_size; rewrite (er_N _ _ _ _ RD), (er_dim _ _ _ _ RD); reflexivity).
  rewrite <- (mass_pair Q g ri (V g) (U g) Hri), <- rsum_scale. apply rsum_ext. intros K HK. set (N := p_N (e_geo (ep_ref Q))) in *.
  assert (NZ : N <> 0%nat) by (unfold block_size in HK; fold N in HK; intro Z; rewrite Z in HK; lia).
  assert (HB : (bf (ep_ref Q) K < N)%nat) by (apply Nat.mod_upper_bound; auto).
  assert (HC : (cp (ep_ref Q) K < p_dim (e_geo (ep_ref Q)))%nat) by (apply Nat.div_lt_upper_bound; auto).
  assert (KX : ix (E p) (bf (ep_ref Q) K) (cp (ep_ref Q) K) = K).
  { unfold ix, bf, cp. rewrite (er_N _ _ _ _ RD). fold N. rewrite (Nat.div_mod K N) at 3 by auto. lia. }
  rewrite (global_row k procs elems facets bc m (fun p => elasticity_mat (E p)) fi A (block_size (ep_ref Q)) U p e g K MP (fun p Hp => proj2 (proj2 (RK p Hp))) HA Hp He Ee).
  specialize (Ha' (bf (ep_ref Q) K) (cp (ep_ref Q) K)). rewrite (er_N _ _ _ _ RD), (er_dim _ _ _ _ RD) in Ha'. specialize (Ha' HB HC).
  rewrite KX, (no_data (E p) (m p) (fi p) e K F0 D0 S0), BS in Ha'.
  assert (MS : rsum N (fun l => mass (E p) (fun _ => 1 / ri) e (bf (ep_ref Q) K) l * a (ix (E p) l (cp (ep_ref Q) K))) =
    - w2 * rsum N (fun l => mass (ep_ref Q) (fun _ => 1 / ri) g (bf (ep_ref Q) K) l * U g (ix (ep_ref Q) l (cp (ep_ref Q) K)))).
  { rewrite <- rsum_scale. apply rsum_ext. intros l Hl'. unfold mass. rewrite (er_Nq _ _ _ _ RD), (er_W _ _ _ _ RD), (er_EQ _ _ _ _ RD), EJ.
    assert (IX : ix (E p) l (cp (ep_ref Q) K) = ix (ep_ref Q) l (cp (ep_ref Q) K)) by (unfold ix; rewrite (er_N _ _ _ _ RD); reflexivity).
    rewrite IX, Ha; [ring|]. unfold ix, block_size. fold N. nia. }
  fold N in Ha'. rewrite MS in Ha'. unfold U' in Ha'.
  replace (row_times (block_size (ep_ref Q)) (assemble (m p) (fi p) (elasticity_mat (E p))) (fun d => U (nth d (tm_l2cg (m p)) 0%nat)) e K)
    with (w2 * rsum N (fun l => mass (ep_ref Q) (fun _ => 1 / ri) g (bf (ep_ref Q) K) l * U g (ix (ep_ref Q) l (cp (ep_ref Q) K)))) by lra.
  ring.
Qed.
Print Assumptions vibration_frequency_bound.
