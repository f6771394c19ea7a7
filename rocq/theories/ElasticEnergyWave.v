(** Energy balance of the elastic wave equation as the code integrates it (C84). *)
Require Import List Arith Lia Bool Reals Lra FunctionalExtensionality.
Require Import Verif.Base Verif.LinAlg Verif.LocalMeshModel Verif.LocalMeshProps Verif.TopoModel Verif.TopoSpec Verif.TopoProofs Verif.TopoProps
  Verif.AssembleModel Verif.AssembleSpec Verif.AssembleProofs Verif.AssembleProps Verif.ApplyModel Verif.MatFree Verif.MatFreeRhs
  Verif.PoissonModel Verif.PoissonProps Verif.SipSpec Verif.SipProps Verif.CoerciveProps Verif.DefiniteSpec Verif.DefiniteProps
  Verif.ElasticityModel Verif.ElasticitySpec Verif.ElasticityProofs Verif.ElasticityProps Verif.ElasticFormSpec Verif.ElasticFormProofs Verif.ElasticFormRank Verif.ElasticFormProps
  Verif.WaveProps Verif.ElasticCoerciveProps Verif.ElasticCflProps Verif.ElasticModeProps Verif.ElasticEnergySpec Verif.ElasticEnergyProofs Verif.ElasticEnergyProps.
Import ListNotations.
Local Open Scope R_scope.

(** * Rows of the assembled vector *)
Lemma vpairing_rows n len V : forall G, (forall i B, In (i, B) G -> (i < len)%nat) ->
  vpairing n G V = lsum (fun g => rsum n (fun a => V g a * vec_row G g a)) (seq 0 len).
Proof.
  unfold vpairing, vec_row. induction G as [|[i B] G IH]; intro H; cbn [lsum].
  - symmetry. apply lsum_zero. intros. apply rsum_zero. intros. ring.
  - rewrite IH by (intros i' B' Hi; apply (H i' B'); cbn; auto).
    rewrite (lsum_ext (fun g => rsum n (fun a => V g a * (_ + _))) (fun g => (if i =? g then rsum n (fun a => V g a * B a) else 0)
      + rsum n (fun a => V g a * lsum (fun '(i, B) => if i =? g then B a else 0) G))).
    + rewrite lsum_plus. f_equal. rewrite (lsum_single _ _ i); [rewrite Nat.eqb_refl; reflexivity|apply seq_NoDup|apply in_seq; specialize (H i B ltac:(cbn; auto)); lia|].
      intros b _ Hb. destruct (Nat.eqb_spec i b); congruence.
    + intros g _. destruct (i =? g).
      * rewrite <- rsum_plus. apply rsum_ext. intros. ring.
      * rewrite Rplus_0_l. apply rsum_ext. intros. ring.
Qed.
Lemma vec_row_none A g j : (forall i B, In (i, B) A -> i <> g) -> vec_row A g j = 0.
Proof. intro H. apply lsum_zero. intros [i B] Hi. specialize (H i B Hi). destruct (Nat.eqb_spec i g); congruence. Qed.
Lemma to_global_vec_row m : NoDup (tm_l2cg m) -> forall l A g e j, map_opt (to_global_row m) l = Some A -> nth_error (tm_l2cg m) e = Some g ->
  vec_row A g j = vec_row l e j.
Proof.
  intro ND. induction l as [|[i B] l IH]; intros A g e j HA Eg; cbn in HA.
  - injection HA as <-. reflexivity.
  - unfold to_global_row in HA at 1. cbn in HA. destruct (nth_error (tm_l2cg m) i) as [gi|] eqn:Ei; [|discriminate]. cbn in HA.
    destruct (map_opt (to_global_row m) l) as [A'|] eqn:E'; [|discriminate]. cbn in HA. injection HA as <-. unfold vec_row in *. cbn [lsum]. rewrite (IH A' g e j) by auto. f_equal.
    destruct (Nat.eqb_spec gi g) as [->|Ne], (Nat.eqb_spec i e) as [->|Ne']; try congruence.
    exfalso. apply Ne'. apply (proj1 (NoDup_nth_error _) ND); [apply nth_error_Some; congruence|congruence].
Qed.
Lemma rhs_rows_local k (m : topo_mesh) fi (L : vec_lop (nat -> R)) : topo_ok k m -> facet_table k m = Some fi -> forall e B, In (e, B) (rhs m fi L) -> (e < tm_num_local m)%nat.
Proof.
  intros O Efi e b H. unfold rhs in H. rewrite !in_app_iff, !in_flat_map in H.
  assert (V : forall (v : nat -> option (nat -> R)), (exists x, In x (seq 0 (tm_num_local m)) /\ In (e, b) (if_some (v x) (fun B => [(x, B)]))) -> (e < tm_num_local m)%nat).
  { intros v (x & Hx & Hb). apply in_seq in Hx. destruct (v x); [|destruct Hb]. destruct Hb as [Hb|[]]. injection Hb as <- _. lia. }
  destruct H as [H|[(f & Hf & Hb)|H]]; [apply (V (r_volume L) H)| |apply (V (r_post L) H)].
  apply in_seq in Hf. destruct (facet_table_correct k m O) as (fi' & E' & _ & RS). assert (fi' = fi) by congruence. subst fi'.
  destruct (RS f ltac:(lia)) as (x & Ex & R). rewrite Ex in Hb. cbn [if_some] in Hb.
  pose proof (fr_inside0 _ _ _ _ R) as I0. pose proof (fr_inside1 _ _ _ _ R) as I1. unfold rhs_facet in Hb.
  destruct (negb (fi_up0 x =? fi_up1 x)).
  - destruct (r_skeleton L f x) as [[B0 B1]|]; [|destruct Hb]. cbn [if_some] in Hb. apply in_app_or in Hb as [Hb|Hb].
    + destruct (fi_inside0 x); [|destruct Hb]. destruct Hb as [Hb|[]]. injection Hb as <- _. apply Nat.ltb_lt. congruence.
    + destruct (fi_inside1 x); [|destruct Hb]. destruct Hb as [Hb|[]]. injection Hb as <- _. apply Nat.ltb_lt. congruence.
  - destruct (fi_inside0 x); [|destruct Hb]. destruct (r_boundary L f x); [|destruct Hb]. destruct Hb as [Hb|[]]. injection Hb as <- _. apply Nat.ltb_lt. congruence.
Qed.
Lemma global_vec_row k procs elems facets bc m (L : nat -> vec_lop (nat -> R)) fi A p e ge j :
  mesh_parts k procs elems facets bc m ->
  (forall p, (p < procs)%nat -> facet_table k (m p) = Some (fi p)) ->
  (forall p, (p < procs)%nat -> map_opt (to_global_row (m p)) (rhs (m p) (fi p) (L p)) = Some (A p)) ->
  (p < procs)%nat -> (e < tm_num_local (m p))%nat -> nth_error (tm_l2cg (m p)) e = Some ge ->
  vec_row (flat_map A (seq 0 procs)) ge j = vec_row (rhs (m p) (fi p) (L p)) e j.
Proof.
  intros MP FI HA Hp He Ee. unfold vec_row at 1. rewrite lsum_flat_map. rewrite (lsum_single _ _ p).
  - apply (to_global_vec_row (m p)); auto. apply (mp_nodup _ _ _ _ _ _ MP p Hp).
  - apply seq_NoDup.
  - apply in_seq. lia.
  - intros q Hq Nq. apply in_seq in Hq. assert (Hq' : (q < procs)%nat) by lia.
    apply (vec_row_none (A q) ge j). intros a B Hin ->. apply Nq.
    apply map_opt_in_inv with (b := (ge, B)) (1 := HA q Hq') in Hin as ([a' B'] & Ha' & Eg). unfold to_global_row in Eg. cbn in Eg.
    destruct (nth_error (tm_l2cg (m q)) a') as [ga|] eqn:Ea; [|discriminate]. cbn in Eg. injection Eg as -> _.
    apply (mp_once _ _ _ _ _ _ MP q p a' e ge); auto. apply (rhs_rows_local k (m q) (fi q) (L q) (mp_mesh _ _ _ _ _ _ MP q Hq') (FI q Hq') a' B' Ha').
Qed.

(** * The semi-discrete wave equation on the whole mesh *)
(** Straight-sided elements with constant density each. *)
Definition plain_elements (Q : eproblem) (elems : list (list nat)) : Prop := forall g, (g < length elems)%nat ->
  exists j ri, affine_element (e_geo (ep_ref Q)) g j /\ 0 < ri /\ forall q, (q < p_Nq (e_geo (ep_ref Q)))%nat -> rho_inv Q g q = ri.
(** Neighbour tables of the ranks: [sl p e] are the facets of element e on rank p. *)
Definition side_tables (k procs : nat) (m : nat -> topo_mesh) (fi : nat -> list facet_info) (sl : nat -> nat -> list side_info) : Prop :=
  exists wr t, (forall p, (p < procs)%nat -> interleaving (all_side_writes k (fi p)) (wr p) /\ do_writes (fresh_sides k (m p)) (wr p) = Some (t p)) /\
    forall p e, (p < procs)%nat -> (e < tm_num_local (m p))%nat -> map_opt (fun d => nth_error (t p) (e * (k + 1) + d)) (seq 0 (k + 1)) = Some (sl p e).
(** The operators of the ranks, without body force. *)
Definition wave_operators (k procs : nat) (Q : eproblem) (m : nat -> topo_mesh) (fi : nat -> list facet_info) (E : nat -> edata) : Prop := forall p, (p < procs)%nat ->
  erank_data k Q (m p) (E p) /\ p_method (e_geo (E p)) = IP /\ facet_table k (m p) = Some (fi p) /\ e_force (E p) = None /\ ref_inverse (e_geo (E p)) /\
  (forall i, (i < tm_num_local_facets (m p))%nat -> normal_ok (e_geo (E p)) i) /\ forall x, In x (fi p) -> bc_fits x.
(** Every rank gets the accelerations [a] of its elements from the displacements [U]. *)
Definition accelerations (procs : nat) (Q : eproblem) (m : nat -> topo_mesh) (fi : nat -> list facet_info) (sl : nat -> nat -> list side_info) (E : nat -> edata) (U a : nat -> nat -> R) : Prop :=
  forall p e g, (p < procs)%nat -> (e < tm_num_local (m p))%nat -> nth_error (tm_l2cg (m p)) e = Some g ->
    exists x, wave_rhs (E p) (fi p) e (sl p e) (U g) (map (fun s => U (nth (si_lid s) (tm_l2cg (m p)) 0%nat)) (sl p e)) = Some x /\
      forall j, (j < block_size (ep_ref Q))%nat -> a g j = x j.

Lemma weak_wave_equation k procs elems facets bc m Q E fi sl U a :
  mesh_parts k procs elems facets bc m -> eproblem_ok k elems facets Q -> wave_operators k procs Q m fi E -> side_tables k procs m fi sl -> plain_elements Q elems ->
  accelerations procs Q m fi sl E U a ->
  forall W, mass_form Q elems a W = - (elastic_form Q elems facets bc U W - elastic_load Q elems facets bc W).
Proof.
  intros MP PO ND (wr & t & TB & SL) AF Acc W.
  assert (RK : forall p, (p < procs)%nat -> erank_data k Q (m p) (E p) /\ p_method (e_geo (E p)) = IP /\ facet_table k (m p) = Some (fi p)) by (intros p Hp; destruct (ND p Hp) as (? & ? & ? & _); auto).
  destruct (elasticity_assembly_is_interior_penalty k procs elems facets bc m Q E fi MP PO RK) as (A & r & HA & Hr & F). destruct (F U W) as [F1 F2]. rewrite <- F1, <- F2.
  rewrite (pairing_rows _ (length elems)) by (intros i j B Hi; apply (proj1 (blocks_in_range k procs elems facets bc m _ _ A MP HA i j B Hi))).
  rewrite (vpairing_rows _ (length elems)) by (intros i B Hi; apply (rows_in_range k procs elems facets bc m _ _ r MP Hr i B Hi)).
  assert (M : forall (a b : nat -> R) l, lsum a l - lsum b l = lsum (fun f => a f - b f) l) by (intros a' b0 l; induction l as [|x l IH]; cbn; [ring|rewrite <- IH; ring]).
  rewrite M. match goal with |- _ = - ?x => replace (- x) with (-1 * x) by ring end. rewrite <- lsum_scale. unfold mass_form. apply lsum_ext. intros g Hg. apply in_seq in Hg. assert (Hl : (g < length elems)%nat) by lia.
  destruct (mp_owned _ _ _ _ _ _ MP g Hl) as (p & e & Hp & He & Ee). pose proof (mp_mesh _ _ _ _ _ _ MP p Hp) as O.
  destruct (ND p Hp) as (RD & Ip & Efi & F0 & Inv & Nm & Bc). destruct (TB p Hp) as (Iw & Et).
  destruct (AF g Hl) as (j & ri & (Hj & HJ) & R0 & Hri). destruct (er_elem _ _ _ _ RD e g Ee) as (EJ & _ & _ & _ & ER).
  destruct (Acc p e g Hp He Ee) as (x & Ea & Ha).
  set (U' := fun d => U (nth d (tm_l2cg (m p)) 0%nat)).
  assert (Ue : U' e = U g) by (unfold U'; rewrite (nth_error_nth _ _ 0%nat Ee); reflexivity).
  assert (ID : forall q, (q < p_Nq (e_geo (E p)))%nat -> inv_density (E p) e q = ri).
  { intros q Hq. rewrite (er_Nq _ _ _ _ RD) in Hq. rewrite <- (Hri q Hq). unfold inv_density, rho_inv. rewrite (er_N _ _ _ _ RD), (er_matEQ _ _ _ _ RD), ER. reflexivity. }
  destruct (wave_rhs_correct (E p) k (m p) (fi p) (wr p) (t p) e (sl p e) U' j ri O Efi Iw Et Ip Nm Bc He (SL p e Hp He) F0 Inv
    ltac:(split; [auto|intros q Hq; rewrite (er_Nq _ _ _ _ RD) in Hq; rewrite EJ; auto]) ltac:(lra) ID) as (x' & Ex' & Hx').
  rewrite Ue in Ex'. assert (x' = x) by (unfold U' in Ex'; congruence). subst x'.
  assert (BS : block_size (E p) = block_size (ep_ref Q)) by (unfold block_size; rewrite (er_N _ _ _ _ RD), (er_dim _ _ _ _ RD); reflexivity).
  rewrite <- (mass_pair Q g ri (W g) (a g) Hri), <- rsum_minus, <- rsum_scale. apply rsum_ext. intros K HK. set (N := p_N (e_geo (ep_ref Q))) in *.
  assert (NZ : N <> 0%nat) by (unfold block_size in HK; fold N in HK; intro Z; rewrite Z in HK; lia).
  assert (HB : (bf (ep_ref Q) K < N)%nat) by (apply Nat.mod_upper_bound; auto).
  assert (HC : (cp (ep_ref Q) K < p_dim (e_geo (ep_ref Q)))%nat) by (apply Nat.div_lt_upper_bound; auto).
  assert (KX : ix (E p) (bf (ep_ref Q) K) (cp (ep_ref Q) K) = K).
  { unfold ix, bf, cp. rewrite (er_N _ _ _ _ RD). fold N. rewrite (Nat.div_mod K N) at 3 by auto. lia. }
  rewrite (global_row k procs elems facets bc m (fun p => elasticity_mat (E p)) fi A (block_size (ep_ref Q)) U p e g K MP (fun p Hp => proj2 (proj2 (RK p Hp))) HA Hp He Ee).
  rewrite (global_vec_row k procs elems facets bc m (fun p => elasticity_vec (E p)) fi r p e g K MP (fun p Hp => proj2 (proj2 (RK p Hp))) Hr Hp He Ee).
  specialize (Hx' (bf (ep_ref Q) K) (cp (ep_ref Q) K)). rewrite (er_N _ _ _ _ RD), (er_dim _ _ _ _ RD) in Hx'. specialize (Hx' HB HC). rewrite KX, BS in Hx'.
  assert (MS : rsum N (fun l => mass (ep_ref Q) (fun _ => 1 / ri) g (bf (ep_ref Q) K) l * a g (ix (ep_ref Q) l (cp (ep_ref Q) K))) =
    rsum N (fun l => mass (E p) (fun _ => 1 / ri) e (bf (ep_ref Q) K) l * x (ix (E p) l (cp (ep_ref Q) K)))).
  { apply rsum_ext. intros l Hl'. unfold mass. rewrite (er_Nq _ _ _ _ RD), (er_W _ _ _ _ RD), (er_EQ _ _ _ _ RD), EJ.
    assert (IX : ix (E p) l (cp (ep_ref Q) K) = ix (ep_ref Q) l (cp (ep_ref Q) K)) by (unfold ix; rewrite (er_N _ _ _ _ RD); reflexivity).
    rewrite IX, Ha; [ring|]. unfold ix, block_size. fold N. nia. }
  rewrite MS. fold N in Hx'. rewrite Hx'. unfold U'. ring.
Qed.

(** * Derivatives *)
Lemma d_ext f g t l : (forall s, f s = g s) -> derivable_pt_lim g t l -> derivable_pt_lim f t l.
Proof. intros E H. replace f with g; auto. apply functional_extensionality. auto. Qed.
Lemma d_scale c f t l : derivable_pt_lim f t l -> derivable_pt_lim (fun s => c * f s) t (c * l).
Proof. apply derivable_pt_lim_scal. Qed.
Lemma d_plus f g t l l' : derivable_pt_lim f t l -> derivable_pt_lim g t l' -> derivable_pt_lim (fun s => f s + g s) t (l + l').
Proof. apply derivable_pt_lim_plus. Qed.
Lemma d_minus f g t l l' : derivable_pt_lim f t l -> derivable_pt_lim g t l' -> derivable_pt_lim (fun s => f s - g s) t (l - l').
Proof. apply derivable_pt_lim_minus. Qed.
Lemma d_mult f g t l l' : derivable_pt_lim f t l -> derivable_pt_lim g t l' -> derivable_pt_lim (fun s => f s * g s) t (l * g t + f t * l').
Proof. apply derivable_pt_lim_mult. Qed.
Lemma d_zero t : derivable_pt_lim (fun _ => 0) t 0.
Proof. apply derivable_pt_lim_const. Qed.
Lemma d_rsum n F F' t : (forall i, (i < n)%nat -> derivable_pt_lim (fun s => F s i) t (F' i)) -> derivable_pt_lim (fun s => rsum n (F s)) t (rsum n F').
Proof. induction n as [|n IH]; intro H; cbn [rsum]; [apply d_zero|]. apply d_plus; [apply IH; intros; apply H; lia|apply H; lia]. Qed.
Lemma d_lsum {A} (l : list A) F F' t : (forall i, In i l -> derivable_pt_lim (fun s => F s i) t (F' i)) -> derivable_pt_lim (fun s => lsum (F s) l) t (lsum F' l).
Proof. induction l as [|x l IH]; intro H; cbn [lsum]; [apply d_zero|]. apply d_plus; [apply H; cbn; auto|apply IH; intros; apply H; cbn; auto]. Qed.

Section Motion.
Variables (Q : eproblem) (elems facets : list (list nat)) (bc : list nat -> nat) (U V : R -> nat -> nat -> R) (t : R).
Local Notation P := (e_geo (ep_ref Q)). Local Notation dim := (p_dim P).
Hypothesis DU : forall g l, derivable_pt_lim (fun s => U s g l) t (V t g l).
Lemma d_disp_on f g q i : derivable_pt_lim (fun s => disp_on Q f g (U s g) q i) t (disp_on Q f g (V t g) q i).
Proof. unfold disp_on, coef. apply (d_rsum _ (fun s l => _ * U s g _)). intros l _. apply d_scale, DU. Qed.
Lemma d_disp g q i : derivable_pt_lim (fun s => disp Q (U s g) q i) t (disp Q (V t g) q i).
Proof. unfold disp, coef. apply (d_rsum _ (fun s l => _ * U s g _)). intros l _. apply d_scale, DU. Qed.
Lemma d_dgrad_on f g q i j : derivable_pt_lim (fun s => dgrad_on Q f g (U s g) q i j) t (dgrad_on Q f g (V t g) q i j).
Proof. unfold dgrad_on, coef. apply (d_rsum _ (fun s l => _ * U s g _)). intros l _. apply d_scale, DU. Qed.
Lemma d_stress_on f g q i j : derivable_pt_lim (fun s => stress_on Q f g (U s g) q i j) t (stress_on Q f g (V t g) q i j).
Proof.
  unfold stress_on, hooke. apply d_plus; apply d_scale; [|apply d_plus; apply d_dgrad_on].
  apply (d_rsum _ (fun s r => dgrad_on Q f g (U s g) q r r)). intros. apply d_dgrad_on.
Qed.
Lemma d_facet_traction f q i : derivable_pt_lim (fun s => facet_traction Q elems f (U s) q i) t (facet_traction Q elems f (V t) q i).
Proof.
  unfold facet_traction. destruct (elements_of elems f) as [|g [|h [|? ?]]]; try apply d_zero.
  - apply (d_rsum _ (fun s j => stress_on Q f g (U s g) q i j * ep_n Q f g j q)). intros j _. apply (d_ext _ (fun s => ep_n Q f g j q * stress_on Q f g (U s g) q i j)); [intros; ring|].
    rewrite Rmult_comm. apply d_scale, d_stress_on.
  - apply (d_rsum _ (fun s j => mean_stress Q f g h (U s) q i j * ep_n Q f g j q)). intros j _. apply (d_ext _ (fun s => ep_n Q f g j q * mean_stress Q f g h (U s) q i j)); [intros; ring|].
    rewrite Rmult_comm. apply d_scale. unfold mean_stress. apply d_scale. apply d_plus; apply d_stress_on.
Qed.
Lemma d_facet_jump f q i : derivable_pt_lim (fun s => facet_jump Q elems f (U s) q i) t (facet_jump Q elems f (V t) q i).
Proof. unfold facet_jump. destruct (elements_of elems f) as [|g [|h [|? ?]]]; try apply d_zero; [|apply d_minus]; apply d_disp_on. Qed.
Lemma d_form : derivable_pt_lim (fun s => 1 / 2 * elastic_form Q elems facets bc (U s) (U s)) t (elastic_form Q elems facets bc (U t) (V t)).
Proof.
  replace (elastic_form Q elems facets bc (U t) (V t)) with (1 / 2 * (elastic_form Q elems facets bc (U t) (V t) + elastic_form Q elems facets bc (V t) (U t))) by (rewrite (elastic_form_symmetric _ _ _ _ (V t)); lra).
  apply d_scale. apply (d_ext _ (fun s => pairing (block_size (ep_ref Q)) (global_matrix elems facets bc (elastic_mat Q)) (U s) (U s))); [intro s; symmetry; apply eglobal_pair|].
  rewrite <- !eglobal_pair. unfold pairing. rewrite <- lsum_plus.
  apply (d_lsum _ (fun s '(i, j, B) => rsum _ (fun k => U s i k * rsum _ (fun l => B k l * U s j l)))). intros [[i j] B] _. rewrite <- rsum_plus.
  apply (d_rsum _ (fun s k => U s i k * rsum _ (fun l => B k l * U s j l))). intros k _. apply d_mult; [apply DU|].
  apply (d_rsum _ (fun s l => B k l * U s j l)). intros l _. apply d_scale, DU.
Qed.
Lemma d_vol_load : derivable_pt_lim (fun s => vloads Q elems (U s)) t (vloads Q elems (V t)).
Proof.
  unfold vloads, evol_load. destruct (e_force (ep_ref Q)) as [F|].
  - apply (d_lsum _ (fun s g => rsum _ (fun q => _ * rsum _ (fun i => F g i q * disp Q (U s g) q i)))). intros g _. apply (d_rsum _ (fun s q => _ * rsum _ (fun i => F g i q * disp Q (U s g) q i))). intros q _. apply d_scale.
    apply (d_rsum _ (fun s i => F g i q * disp Q (U s g) q i)). intros i _. apply d_scale, d_disp.
  - apply (d_lsum _ (fun s g => 0)). intros. apply d_zero.
Qed.
Variables (J J' : R -> list nat -> nat -> nat -> nat -> R) (b b' : R -> list nat -> nat -> nat -> R).
Hypothesis DJ : forall f g i q, derivable_pt_lim (fun s => J s f g i q) t (J' t f g i q).
Hypothesis Db : forall f i q, derivable_pt_lim (fun s => b s f i q) t (b' t f i q).
Lemma d_prescribed f q i : derivable_pt_lim (fun s => prescribed (with_data Q (J s) (b s)) elems bc f q i) t (prescribed (with_data Q (J' t) (b' t)) elems bc f q i).
Proof.
  unfold prescribed. change (ehas_data (with_data Q ?x ?y)) with (ehas_data Q). cbn [ep_value ep_jump with_data].
  destruct (ehas_data Q (bc f)); [|apply d_zero]. destruct (elements_of elems f) as [|g [|h [|? ?]]]; try apply d_zero; auto.
Qed.
Lemma floads_pre Ja ba W : floads Q elems facets bc Ja ba W = lsum (fun f => rsum (p_nq P) (fun q => p_w P q * rsum dim (fun i =>
  prescribed (with_data Q Ja ba) elems bc f q i * (ep_pen Q f * ep_nl Q f q * facet_jump Q elems f W q i - facet_traction Q elems f W q i)))) facets.
Proof.
  unfold floads. apply lsum_ext. intros f _. rewrite facet_load. change (ehas_data (with_data Q ?x ?y)) with (ehas_data Q). destruct (ehas_data Q (bc f)) eqn:Eh; [reflexivity|].
  symmetry. apply rsum_zero. intros q _. rewrite (rsum_zero dim); [ring|]. intros i _. unfold prescribed. change (ehas_data (with_data Q ?x ?y)) with (ehas_data Q). rewrite Eh. ring.
Qed.
Lemma d_floads : derivable_pt_lim (fun s => floads Q elems facets bc (J s) (b s) (U s)) t (floads Q elems facets bc (J' t) (b' t) (U t) + floads Q elems facets bc (J t) (b t) (V t)).
Proof.
  apply (d_ext _ (fun s => lsum (fun f => rsum (p_nq P) (fun q => p_w P q * rsum dim (fun i =>
    prescribed (with_data Q (J s) (b s)) elems bc f q i * (ep_pen Q f * ep_nl Q f q * facet_jump Q elems f (U s) q i - facet_traction Q elems f (U s) q i)))) facets)); [intro; apply floads_pre|].
  rewrite !floads_pre, <- lsum_plus. apply (d_lsum _ (fun s f => rsum (p_nq P) (fun q => p_w P q * rsum dim (fun i =>
    prescribed (with_data Q (J s) (b s)) elems bc f q i * (ep_pen Q f * ep_nl Q f q * facet_jump Q elems f (U s) q i - facet_traction Q elems f (U s) q i))))). intros f _. rewrite <- rsum_plus.
  apply (d_rsum _ (fun s q => p_w P q * rsum dim (fun i =>
    prescribed (with_data Q (J s) (b s)) elems bc f q i * (ep_pen Q f * ep_nl Q f q * facet_jump Q elems f (U s) q i - facet_traction Q elems f (U s) q i)))). intros q _.
  rewrite <- Rmult_plus_distr_l. apply d_scale. rewrite <- rsum_plus.
  apply (d_rsum _ (fun s i => prescribed (with_data Q (J s) (b s)) elems bc f q i * (ep_pen Q f * ep_nl Q f q * facet_jump Q elems f (U s) q i - facet_traction Q elems f (U s) q i))). intros i _.
  apply (d_mult (fun s => prescribed (with_data Q (J s) (b s)) elems bc f q i) (fun s => ep_pen Q f * ep_nl Q f q * facet_jump Q elems f (U s) q i - facet_traction Q elems f (U s) q i)); [apply d_prescribed|]. apply d_minus; [apply d_scale, d_facet_jump|apply d_facet_traction].
Qed.
Lemma d_dprod : derivable_pt_lim (fun s => 1 / 2 * dprod Q elems facets bc (J s) (b s) (J s) (b s)) t (dprod Q elems facets bc (J t) (b t) (J' t) (b' t)).
Proof.
  assert (S : dprod Q elems facets bc (J' t) (b' t) (J t) (b t) = dprod Q elems facets bc (J t) (b t) (J' t) (b' t)).
  { unfold dprod. apply lsum_ext. intros f _. apply rsum_ext. intros q _. f_equal. apply rsum_ext. intros. ring. }
  replace (dprod Q elems facets bc (J t) (b t) (J' t) (b' t)) with (1 / 2 * (dprod Q elems facets bc (J' t) (b' t) (J t) (b t) + dprod Q elems facets bc (J t) (b t) (J' t) (b' t))) by (rewrite S; lra).
  apply d_scale. unfold dprod. rewrite <- lsum_plus.
  apply (d_lsum _ (fun s f => rsum (p_nq P) (fun q => p_w P q * rsum dim (fun i => ep_pen Q f * ep_nl Q f q * (prescribed (with_data Q (J s) (b s)) elems bc f q i * prescribed (with_data Q (J s) (b s)) elems bc f q i))))).
  intros f _. rewrite <- rsum_plus.
  apply (d_rsum _ (fun s q => p_w P q * rsum dim (fun i => ep_pen Q f * ep_nl Q f q * (prescribed (with_data Q (J s) (b s)) elems bc f q i * prescribed (with_data Q (J s) (b s)) elems bc f q i)))).
  intros q _. rewrite <- Rmult_plus_distr_l. apply d_scale. rewrite <- rsum_plus.
  apply (d_rsum _ (fun s i => ep_pen Q f * ep_nl Q f q * (prescribed (with_data Q (J s) (b s)) elems bc f q i * prescribed (with_data Q (J s) (b s)) elems bc f q i))). intros i _.
  rewrite <- Rmult_plus_distr_l. apply d_scale. apply (d_mult (fun s => prescribed (with_data Q (J s) (b s)) elems bc f q i) (fun s => prescribed (with_data Q (J s) (b s)) elems bc f q i)); apply d_prescribed.
Qed.
Lemma d_stored (OPP : forall f g h i q, In f facets -> elements_of elems f = [g; h] -> ep_n Q f h i q = - ep_n Q f g i q) :
  derivable_pt_lim (fun s => stored_energy (with_data Q (J s) (b s)) elems facets bc (U s)) t
    (elastic_form Q elems facets bc (U t) (V t) - elastic_load (with_data Q (J t) (b t)) elems facets bc (V t) + work (with_data Q (J t) (b t)) elems facets bc (U t) (J' t) (b' t)).
Proof.
  apply (d_ext _ (fun s => 1 / 2 * elastic_form Q elems facets bc (U s) (U s) - (vloads Q elems (U s) + floads Q elems facets bc (J s) (b s) (U s)) + 1 / 2 * dprod Q elems facets bc (J s) (b s) (J s) (b s))).
  { intro s. apply energy_quadratic. auto. }
  rewrite work_is_load, load_split.
  match goal with |- derivable_pt_lim _ _ ?x => replace x with (elastic_form Q elems facets bc (U t) (V t) - (vloads Q elems (V t) + (floads Q elems facets bc (J' t) (b' t) (U t) + floads Q elems facets bc (J t) (b t) (V t)))
    + dprod Q elems facets bc (J t) (b t) (J' t) (b' t)) by ring end.
  apply d_plus; [apply d_minus; [apply d_form|apply d_plus; [apply d_vol_load|apply d_floads]]|apply d_dprod].
Qed.
End Motion.
Lemma d_kinetic Q elems (V a : R -> nat -> nat -> R) t : (forall g l, derivable_pt_lim (fun s => V s g l) t (a t g l)) ->
  derivable_pt_lim (fun s => 1 / 2 * mass_form Q elems (V s) (V s)) t (mass_form Q elems (a t) (V t)).
Proof.
  intro D. assert (S : mass_form Q elems (V t) (a t) = mass_form Q elems (a t) (V t)).
  { unfold mass_form, mass_in. apply lsum_ext. intros g _. apply rsum_ext. intros q _. f_equal. f_equal. apply rsum_ext. intros. ring. }
  replace (mass_form Q elems (a t) (V t)) with (1 / 2 * (mass_form Q elems (a t) (V t) + mass_form Q elems (V t) (a t))) by (rewrite S; lra). apply d_scale.
  unfold mass_form, mass_in. rewrite <- lsum_plus.
  apply (d_lsum _ (fun s g => rsum _ (fun q => p_W (e_geo (ep_ref Q)) q * p_J (e_geo (ep_ref Q)) g q * (/ rho_inv Q g q * rsum _ (fun i => disp Q (V s g) q i * disp Q (V s g) q i))))). intros g _. rewrite <- rsum_plus.
  apply (d_rsum _ (fun s q => p_W (e_geo (ep_ref Q)) q * p_J (e_geo (ep_ref Q)) g q * (/ rho_inv Q g q * rsum _ (fun i => disp Q (V s g) q i * disp Q (V s g) q i)))). intros q _. rewrite <- Rmult_plus_distr_l. apply d_scale.
  rewrite <- Rmult_plus_distr_l. apply d_scale. rewrite <- rsum_plus. apply (d_rsum _ (fun s i => disp Q (V s g) q i * disp Q (V s g) q i)). intros i _.
  apply (d_mult (fun s => disp Q (V s g) q i) (fun s => disp Q (V s g) q i)); apply (d_disp Q V a t D).
Qed.

(** C84: energy balance of the fully dynamic mode.  Displacement, velocity and the acceleration that
    the ranks' operators compute; slip and boundary values that change in time.  At every time, on any
    mesh of straight-sided elements and any partition, the kinetic plus the stored energy changes at
    the rate at which the facet forces work on the prescribed slip and boundary values. *)
Theorem wave_energy_balance : forall k procs elems facets bc m Q fi sl E U V a J J' b b',
  mesh_parts k procs elems facets bc m -> side_tables k procs m fi sl -> plain_elements Q elems ->
  (forall t, eproblem_ok k elems facets (with_data Q (J t) (b t)) /\ wave_operators k procs (with_data Q (J t) (b t)) m fi (E t)) ->
  (forall t g l, derivable_pt_lim (fun s => U s g l) t (V t g l)) ->
  (forall t g l, derivable_pt_lim (fun s => V s g l) t (a t g l)) ->
  (forall t, accelerations procs Q m fi sl (E t) (U t) (a t)) ->
  (forall t f g i q, derivable_pt_lim (fun s => J s f g i q) t (J' t f g i q)) ->
  (forall t f i q, derivable_pt_lim (fun s => b s f i q) t (b' t f i q)) ->
  forall t, derivable_pt_lim (fun s => 1 / 2 * mass_form Q elems (V s) (V s) + stored_energy (with_data Q (J s) (b s)) elems facets bc (U s)) t
    (work (with_data Q (J t) (b t)) elems facets bc (U t) (J' t) (b' t)).
Proof.
  intros k procs elems facets bc m Q fi sl E U V a J J' b b' MP ST PE OK DU DV AC DJ Db t. destruct (OK t) as [PO WO].
  replace (work (with_data Q (J t) (b t)) elems facets bc (U t) (J' t) (b' t)) with (mass_form Q elems (a t) (V t) +
    (elastic_form Q elems facets bc (U t) (V t) - elastic_load (with_data Q (J t) (b t)) elems facets bc (V t) + work (with_data Q (J t) (b t)) elems facets bc (U t) (J' t) (b' t))).
  - apply d_plus; [apply d_kinetic; auto|]. apply d_stored; auto. exact (eo_n _ _ _ _ PO).
  - pose proof (weak_wave_equation k procs elems facets bc m (with_data Q (J t) (b t)) (E t) fi sl (U t) (a t) MP PO WO ST PE (AC t) (V t)) as W.
    rewrite form_same in W. change (mass_form (with_data Q (J t) (b t))) with (mass_form Q) in W. lra.
Qed.
Print Assumptions wave_energy_balance.

Lemma work_nothing Q elems facets bc U : work Q elems facets bc U (fun _ _ _ _ => 0) (fun _ _ _ => 0) = 0.
Proof.
  unfold work. apply lsum_zero. intros f _. destruct (ehas_data Q (bc f)); auto. apply rsum_zero. intros q _. rewrite (rsum_zero (p_dim (e_geo (ep_ref Q)))); [ring|].
  intros i _. destruct (elements_of elems f) as [|g [|h [|? ?]]]; ring.
Qed.
Lemma constant_of_zero_derivative f : (forall t, derivable_pt_lim f t 0) -> forall t, f t = f 0.
Proof.
  intros D t. destruct (Rtotal_order t 0) as [H|[->|H]]; auto.
  - destruct (MVT_cor2 f (fun _ => 0) t 0 H (fun c _ => D c)) as (c & E & _). lra.
  - destruct (MVT_cor2 f (fun _ => 0) 0 t H (fun c _ => D c)) as (c & E & _). lra.
Qed.
(** C84: with slip and boundary values at rest the energy stays what it is, for all times. *)
Theorem wave_energy_conserved : forall k procs elems facets bc m Q fi sl E U V a,
  mesh_parts k procs elems facets bc m -> side_tables k procs m fi sl -> plain_elements Q elems -> eproblem_ok k elems facets Q -> wave_operators k procs Q m fi E ->
  (forall t g l, derivable_pt_lim (fun s => U s g l) t (V t g l)) ->
  (forall t g l, derivable_pt_lim (fun s => V s g l) t (a t g l)) ->
  (forall t, accelerations procs Q m fi sl E (U t) (a t)) ->
  forall t, 1 / 2 * mass_form Q elems (V t) (V t) + stored_energy Q elems facets bc (U t) = 1 / 2 * mass_form Q elems (V 0) (V 0) + stored_energy Q elems facets bc (U 0).
Proof.
  intros k procs elems facets bc m Q fi sl E U V a MP ST PE PO WO DU DV AC.
  assert (W : with_data Q (ep_jump Q) (ep_value Q) = Q) by (destruct Q; reflexivity).
  apply (constant_of_zero_derivative (fun t => 1 / 2 * mass_form Q elems (V t) (V t) + stored_energy Q elems facets bc (U t))). intro t.
  pose proof (wave_energy_balance k procs elems facets bc m Q fi sl (fun _ => E) U V a (fun _ => ep_jump Q) (fun _ _ _ _ _ => 0) (fun _ => ep_value Q) (fun _ _ _ _ => 0) MP ST PE) as B.
  cbv beta in B. rewrite W in B. rewrite <- (work_nothing Q elems facets bc (U t)). apply B; auto; intros; apply derivable_pt_lim_const.
Qed.
Print Assumptions wave_energy_conserved.

(** C84: no slip and zero boundary values: whatever the initial state, the kinetic energy never
    exceeds the initial energy -- the semi-discrete equations are stable, with the penalty that the
    code chooses. *)
Theorem wave_energy_bounds_motion : forall k procs elems facets bc m Q fi sl E U V a degree,
  mesh_parts k procs elems facets bc m -> side_tables k procs m fi sl -> plain_elements Q elems -> eproblem_ok k elems facets Q -> wave_operators k procs Q m fi E ->
  (forall p i x, (p < procs)%nat -> nth_error (fi p) i = Some x -> p_pen (e_geo (E p)) i = ElasticityModel.prepare_penalty (E p) degree i x) ->
  p_dim (e_geo (ep_ref Q)) = k -> (0 < k)%nat -> egeometry_ok Q elems facets -> etrace_inequality Q elems facets degree ->
  (forall f g i q, ep_jump Q f g i q = 0) -> (forall f i q, ep_value Q f i q = 0) ->
  (forall t g l, derivable_pt_lim (fun s => U s g l) t (V t g l)) ->
  (forall t g l, derivable_pt_lim (fun s => V s g l) t (a t g l)) ->
  (forall t, accelerations procs Q m fi sl E (U t) (a t)) ->
  forall t, 1 / 2 * mass_form Q elems (V t) (V t) <= 1 / 2 * mass_form Q elems (V 0) (V 0) + 1 / 2 * elastic_form Q elems facets bc (U 0) (U 0).
Proof.
  intros k procs elems facets bc m Q fi sl E U V a degree MP ST PE PO WO PEN Hd Hk GE TI J0 B0 DU DV AC t.
  pose proof (wave_energy_conserved k procs elems facets bc m Q fi sl E U V a MP ST PE PO WO DU DV AC t) as C.
  assert (W : with_data Q (ep_jump Q) (ep_value Q) = Q) by (destruct Q; reflexivity).
  assert (PZ : forall f q i, prescribed Q elems bc f q i = 0). { intros. unfold prescribed. destruct (ehas_data Q (bc f)); auto. destruct (elements_of elems f) as [|g [|h [|? ?]]]; auto. }
  assert (SE : forall X, stored_energy Q elems facets bc X = 1 / 2 * elastic_form Q elems facets bc X X).
  { intro X. rewrite (stored_is_quadratic Q elems facets bc (eo_n _ _ _ _ PO) X).
    assert (Ld : elastic_load Q elems facets bc X = 0).
    { unfold elastic_load. rewrite (lsum_zero (fun g => evol_load Q g X)), (lsum_zero (fun f => efacet_load Q elems bc f X)); [ring| |].
      - intros f _. rewrite facet_load. destruct (ehas_data Q (bc f)); auto. apply rsum_zero. intros q _. rewrite (rsum_zero (p_dim (e_geo (ep_ref Q)))); [ring|]. intros i _. rewrite PZ. ring.
      - intros g Hg. apply in_seq in Hg. destruct (mp_owned _ _ _ _ _ _ MP g ltac:(lia)) as (p & e & Hp & _). destruct (WO p Hp) as (RD & _ & _ & F0 & _).
        pose proof (er_force _ _ _ _ RD) as F. rewrite F0 in F. unfold evol_load. destruct (e_force (ep_ref Q)); [contradiction|reflexivity]. }
    rewrite Ld. unfold data_energy. rewrite (lsum_zero _ facets); [ring|]. intros f _. apply rsum_zero. intros q _. rewrite (rsum_zero (p_dim (e_geo (ep_ref Q)))); [ring|]. intros i _. rewrite PZ. ring. }
  rewrite !SE in C.
  assert (RK : forall p, (p < procs)%nat -> erank_data k Q (m p) (E p) /\ p_method (e_geo (E p)) = IP /\ facet_table k (m p) = Some (fi p)) by (intros p Hp; destruct (WO p Hp) as (? & ? & ? & _); auto).
  destruct (elasticity_assembly_is_interior_penalty k procs elems facets bc m Q E fi MP PO RK) as (A & r & HA & _ & F).
  pose proof (elasticity_matrix_positive k procs elems facets bc m Q E fi degree A MP PO RK PEN Hd Hk GE TI HA (U t)) as Pos. destruct (F (U t) (U t)) as [F1 _]. cbv zeta in F1. rewrite F1 in Pos. lra.
Qed.
Print Assumptions wave_energy_bounds_motion.
