(** Property C73: the right-hand side of the fault's differential equation. *)
Require Import String List Arith Bool Reals Lra Lia.
Require Import Verif.Base Verif.LinAlg Verif.VecModel Verif.ZeroModel Verif.FrictionModel Verif.FrictionProps Verif.FaultOdeModel Verif.FaultOdeSpec Verif.FaultOdeProofs.
Import ListNotations.
Local Open Scope R_scope.

Lemma fold_left_ext_in : forall (A B : Type) (f g : A -> B -> A) l a, (forall a b, In b l -> f a b = g a b) -> fold_left f l a = fold_left g l a.
Proof. induction l as [|b l IH]; intros a H; [reflexivity|]. cbn. rewrite H by (left; reflexivity). apply IH. intros. apply H. right. assumption. Qed.

Section Rhs.
Variable S : rs_data.
Variables (eps : R) (fuel : nat) (Va_min : R) (nan_rate : nat -> rate).
Hypothesis HD : (1 <= rs_D S)%nat.
Local Notation D := (rs_D S). Local Notation nbf := (rs_nbf S).
Local Notation c := (rs_c S).
Local Notation p f node := (rs_p S (f * nbf + node)).

(** The loads of a node: traction vector and the perturbations given by the user at the position of the
    node. *)
Definition node_sn (time : R) (tr : nat -> R) (f node : nat) : R :=
  normal_of nbf D tr f node + match rs_delta_sn S with Some g => g (rs_x S (f * nbf + node)) time | None => 0 end.
Definition node_tau (time : R) (tr : nat -> R) (f node : nat) : list R :=
  match rs_delta_tau S with Some g => vadd (shear_of nbf D tr f node) (g (rs_x S (f * nbf + node)) time) | None => shear_of nbf D tr f node end.
Definition node_rate (time : R) (tr st : nat -> R) (f node : nat) : rate :=
  slip_rate eps fuel Va_min c (p f node) (node_sn time tr f node) (node_tau time tr f node) (state_of nbf D st f node).
Definition source_term (time : R) (f node : nat) : R := match rs_source S with Some g => g (rs_x S (f * nbf + node)) time | None => 0 end.

Lemma sn_at_eq : forall time tr f node, sn_at S time tr f node = node_sn time tr f node.
Proof. intros. unfold sn_at, node_sn, normal_of. rewrite mat_entry_eq. destruct (rs_delta_sn S); ring. Qed.
Lemma tau_at_eq : forall time tr f node, tau_at S time tr f node = node_tau time tr f node.
Proof.
  intros. unfold tau_at, node_tau, shear_of, tangential.
  assert (E : map (fun t => tr (mat_entry S D f node (t + 1))) (seq 0 (D - 1)) = map (fun t => tr (entry nbf D f node (Datatypes.S t))) (seq 0 (D - 1))).
  { apply map_ext. intro t. rewrite mat_entry_eq, Nat.add_1_r. reflexivity. }
  rewrite E. reflexivity.
Qed.
Lemma psi_entry : forall f node, mat_entry S (num_quantities S) f node (psi_index S) = entry nbf D f node (D - 1).
Proof. intros. rewrite mat_entry_eq, num_quantities_D by exact HD. reflexivity. Qed.

Definition rhs_row (time : R) (tr st : nat -> R) (f node q : nat) : dbl :=
  if (q <? D - 1)%nat then rate_entry (node_rate time tr st f node) q
  else state_rhs (rs_law S) c (p f node) (rate_norm (node_rate time tr st f node)) (state_of nbf D st f node).

Lemma rhs_step : forall time tr st f node a, (node < nbf)%nat ->
  rhs_node S eps fuel Va_min time tr st f a node = match a with
  | None => None
  | Some (m, vmax, emax) => if finished (node_rate time tr st f node) then
      Some (fold_left (fun m q => put m (entry nbf D f node (0 + q)) (rhs_row time tr st f node (0 + q))) (seq 0 (D - 0)) m,
            std_max vmax (rate_norm (node_rate time tr st f node)), new_max (rate_ierr (node_rate time tr st f node)) emax) else None
  end.
Proof.
  intros time tr st f node [[[m vmax] emax]|] Hn; [|reflexivity]. unfold rhs_node.
  rewrite sn_at_eq, tau_at_eq, psi_entry. change (st (entry nbf D f node (D - 1))) with (state_of nbf D st f node).
  change (slip_rate eps fuel Va_min c (p f node) (node_sn time tr f node) (node_tau time tr f node) (state_of nbf D st f node)) with (node_rate time tr st f node).
  destruct (finished (node_rate time tr st f node)); [|reflexivity]. f_equal. f_equal. f_equal.
  replace (D - 0)%nat with (Datatypes.S (D - 1)) by lia. rewrite seq_S, fold_left_app. cbn [fold_left Nat.add].
  unfold rhs_row at 2. rewrite Nat.ltb_irrefl. f_equal. unfold tangential. apply fold_left_ext_in. intros m0 q Hq. apply in_seq in Hq.
  rewrite mat_entry_eq, num_quantities_D by exact HD. unfold rhs_row. destruct (Nat.ltb_spec q (D - 1)); [reflexivity|lia].
Qed.

Lemma source_loop : forall g time f k m, (k <= nbf)%nat ->
  let m' := fold_left (source_node S g time f) (seq 0 k) m in
  (forall node, (node < k)%nat -> m' (entry nbf D f node (D - 1)) = dplus (m (entry nbf D f node (D - 1))) (Some (g (rs_x S (f * nbf + node)) time))) /\
  (forall i, (forall node, (node < k)%nat -> i <> entry nbf D f node (D - 1)) -> m' i = m i).
Proof.
  intros g time f k m Hk. cbn zeta. induction k as [|k IH].
  - split; [intros; lia|reflexivity].
  - rewrite seq_S, fold_left_app. cbn [fold_left Nat.add]. destruct (IH ltac:(lia)) as [I1 I2].
    unfold source_node at 1 3. rewrite psi_entry. split.
    + intros node N. destruct (Nat.eq_dec node k) as [->|NE].
      * rewrite put_same. f_equal. apply I2. intros n N' E. apply entry_inj in E; lia.
      * rewrite put_other; [apply I1; lia|]. intro E. apply entry_inj in E; lia.
    + intros i Hi. rewrite put_other by (apply Hi; lia). apply I2. intros. apply Hi. lia.
Qed.

Definition rhs_final (time : R) (tr st : nat -> R) (f node q : nat) : dbl :=
  if (q <? D - 1)%nat then rate_entry (node_rate time tr st f node) q
  else match state_rhs (rs_law S) c (p f node) (rate_norm (node_rate time tr st f node)) (state_of nbf D st f node) with
       | Some x => Some (x + source_term time f node) | None => None end.

Lemma rhs_block_spec : forall time tr st f m, match rhs_block S eps fuel Va_min time tr st f m with
  | None => exists node, (node < nbf)%nat /\ finished (node_rate time tr st f node) = false
  | Some (m', vmax, emax) =>
     (forall node, (node < nbf)%nat -> finished (node_rate time tr st f node) = true) /\
     (forall node q, (node < nbf)%nat -> (0 <= q < D)%nat -> m' (entry nbf D f node q) = rhs_final time tr st f node q) /\
     (forall i, (forall node q, (node < nbf)%nat -> (0 <= q < D)%nat -> i <> entry nbf D f node q) -> m' i = m i) /\
     largest_or_zero (norms (node_rate time tr st) f nbf) vmax /\
     (forall node, (node < nbf)%nat -> (rate_ierr (node_rate time tr st f node) <= emax)%nat) /\
     (emax = 0%nat \/ exists node, (node < nbf)%nat /\ rate_ierr (node_rate time tr st f node) = emax)
  end.
Proof.
  intros. unfold rhs_block.
  destruct (block_loop S HD (rhs_row time tr st) (node_rate time tr st) 0 (rhs_node S eps fuel Va_min time tr st) (Nat.le_0_l _) (rhs_step time tr st) f m nbf (le_n _))
    as [(m' & v & e & E & F & (W1 & W2) & L & B1 & B2)|(E & X)]; rewrite E; [|exact X].
  split; [exact F|]. split; [|split; [|split; [exact L|split; assumption]]].
  - intros node q N Q. unfold rhs_final, source_term. destruct (rs_source S) as [g|].
    + destruct (source_loop g time f nbf m' (le_n _)) as [I1 I2]. destruct (Nat.ltb_spec q (D - 1)) as [Lq|Lq].
      * rewrite I2; [|intros n' N' E'; apply entry_inj in E'; lia]. rewrite W1 by assumption. unfold rhs_row.
        destruct (Nat.ltb_spec q (D - 1)); [reflexivity|lia].
      * replace q with (D - 1)%nat by lia. rewrite I1 by exact N. rewrite W1 by lia. unfold rhs_row. rewrite Nat.ltb_irrefl.
        destruct (state_rhs _ _ _ _ _); reflexivity.
    + rewrite W1 by assumption. unfold rhs_row. destruct (q <? D - 1)%nat; [reflexivity|].
      destruct (state_rhs _ _ _ _ _); [f_equal; ring|reflexivity].
  - intros i Hi. destruct (rs_source S) as [g|].
    + destruct (source_loop g time f nbf m' (le_n _)) as [_ I2]. rewrite I2 by (intros; apply Hi; lia). apply W2. exact Hi.
    + apply W2. exact Hi.
Qed.

(** C73, every node: whatever the loads, each node gets its own slip rate and state rate. *)
Theorem fault_rhs_nodes : forall num time tr st m,
  match friction_rhs S eps fuel Va_min num time tr st m with
  | None => exists f node, (f < num)%nat /\ (node < nbf)%nat /\ node_rate time tr st f node = Rate_unfinished
  | Some Terminated => exists f node, (f < num)%nat /\ (node < nbf)%nat /\ rate_ierr (node_rate time tr st f node) = 2%nat
  | Some (Done m' vmax) =>
     (forall f node, (f < num)%nat -> (node < nbf)%nat ->
        rate_ierr (node_rate time tr st f node) <> 2%nat /\
        (forall t, (t < D - 1)%nat -> m' (entry nbf D f node t) = rate_entry (node_rate time tr st f node) t) /\
        m' (entry nbf D f node (D - 1)) =
          match state_rhs (rs_law S) c (p f node) (rate_norm (node_rate time tr st f node)) (state_of nbf D st f node) with
          | Some x => Some (x + source_term time f node) | None => None end) /\
     (forall i, (num * (nbf * D) <= i)%nat -> m' i = m i) /\
     largest_or_zero (fun x => exists f node, (f < num)%nat /\ (node < nbf)%nat /\ rate_norm (node_rate time tr st f node) = Some x) vmax
  end.
Proof.
  intros num time tr st m. unfold friction_rhs.
  assert (I : forall f node, (rate_ierr (node_rate time tr st f node) <= 2)%nat) by (intros; apply slip_rate_ierr).
  pose proof (faults_loop S HD (node_rate time tr st) 0 (Nat.le_0_l _) _ (rhs_final time tr st) (rhs_block_spec time tr st) I num m) as L.
  destruct (over_faults _ num m) as [[[m' vmax] ok]|].
  - destruct L as (_ & W & K & V & O). cbn [conclude]. destruct ok.
    + split; [|split; [|exact V]].
      * intros f node F N. split; [|split].
        -- intro E. assert (X : true = false) by (apply O; exists f, node; auto). discriminate.
        -- intros t T. rewrite W by (auto; lia). unfold rhs_final. destruct (Nat.ltb_spec t (D - 1)); [reflexivity|lia].
        -- rewrite W by (auto; lia). unfold rhs_final. rewrite Nat.ltb_irrefl. reflexivity.
      * intros i Hi. apply K. intros f node q F N Q E. subst i. pose proof (entry_bound nbf D f node q num N ltac:(lia) F). lia.
    + apply O. reflexivity.
  - cbn. destruct L as (f & node & F & N & E). exists f, node. split; [exact F|]. split; [exact N|].
    destruct (node_rate time tr st f node); [discriminate|discriminate|reflexivity].
Qed.

(** ** Nodes that slip *)

(** A node of a compressed, damped fault that carries shear traction, with a solution of the balance in
    the range of numbers. *)
Definition loaded (time : R) (tr st : nat -> R) (f node : nat) : Prop :=
  pos_params c (p f node) /\ 0 < peta (p f node) /\ node_sn time tr f node < psn (p f node) /\
  length (ptau (p f node)) = (D - 1)%nat /\ (forall g x, rs_delta_tau S = Some g -> length (g x time) = (D - 1)%nat) /\
  0 < norm (vadd (node_tau time tr f node) (ptau (p f node))) /\
  exists Vs, balance (pa (p f node)) (cV0 c) (peta (p f node)) (psn (p f node) - node_sn time tr f node)
               (norm (vadd (node_tau time tr f node) (ptau (p f node)))) (state_of nbf D st f node) Vs /\
             (pow10 (-32) <= Vs \/ pow10 Va_min <= Vs).
(** The evolution of the state variable: ageing law or slip law. *)
Definition evolution_rate (f node : nat) (V psi : R) : R :=
  match rs_law S with
  | Ageing => cb c * cV0 c / pL (p f node) * (exp ((cf0 c - psi) / cb c) - V / cV0 c)
  | Slipping => - (cb c * V / pL (p f node)) * (ln (V / cV0 c) + (psi - cf0 c) / cb c)
  end.

Lemma length_zip : forall g a b, length (zipR g a b) = min (length a) (length b).
Proof. induction a as [|x a IH]; intros [|y b]; cbn; auto. Qed.
Lemma node_tau_length : forall time tr f node, (forall g x, rs_delta_tau S = Some g -> length (g x time) = (D - 1)%nat) -> length (node_tau time tr f node) = (D - 1)%nat.
Proof.
  intros time tr f node H. unfold node_tau, shear_of. destruct (rs_delta_tau S) as [g|].
  - unfold vadd. rewrite length_zip, map_length, seq_length, (H g _ eq_refl). lia.
  - rewrite map_length, seq_length. reflexivity.
Qed.

Lemma loaded_rate : forall time tr st f node, 0 <= eps -> loaded time tr st f node ->
  node_rate time tr st f node = Rate_unfinished \/
  exists v, node_rate time tr st f node = Rate v 0 /\ length v = (D - 1)%nat /\
    obeys_friction eps c (p f node) (node_sn time tr f node) (node_tau time tr f node) (state_of nbf D st f node) v.
Proof.
  intros time tr st f node He (Pp & Eta & Sn & Lt & Ld & HT & Vs & HB & R).
  assert (Es : sn_hat (p f node) (node_sn time tr f node) = psn (p f node) - node_sn time tr f node) by (unfold sn_hat; ring).
  rewrite <- Es in HB.
  destruct (slip_rate_correct eps fuel Va_min c (p f node) (node_sn time tr f node) (node_tau time tr f node) (state_of nbf D st f node) Vs He Pp Eta) as [Q _];
    [rewrite Es; lra|exact HT|exact HB|].
  destruct (Q R) as [U|(V & HV & HL & EV)]; [left; exact U|right].
  destruct (slip_rate_vector (p f node) (node_tau time tr f node) V ltac:(lra) HT) as (NV & _).
  eexists. split; [exact EV|]. split.
  - unfold vscale. rewrite map_length. unfold vadd. rewrite length_zip, node_tau_length, Lt by exact Ld. lia.
  - unfold obeys_friction. rewrite NV. split; [exact HV|]. split; [reflexivity|]. exists Vs. rewrite <- Es. split; [|split; [exact HB|exact HL]].
    destruct R as [R|R]; (eapply Rlt_le_trans; [apply pow10_pos|exact R]).
Qed.

(** C73: if every node of the rank's fault faces is loaded, and the root finder finishes, the program does
    not end; the slip rates it stores obey the friction law at the traction, the perturbations and the
    state of their own node, the state rates are those of the evolution law plus the source, the peak slip
    rate is the largest size of all slip rates, and nothing else is written. *)
Theorem fault_rhs_obeys_friction : forall num time tr st m, 0 <= eps -> 0 < cV0 c ->
  (forall f node, (f < num)%nat -> (node < nbf)%nat -> loaded time tr st f node) ->
  friction_rhs S eps fuel Va_min num time tr st m <> None ->
  exists m' vmax (v : nat -> nat -> list R), friction_rhs S eps fuel Va_min num time tr st m = Some (Done m' vmax) /\
    (forall f node, (f < num)%nat -> (node < nbf)%nat ->
       length (v f node) = (D - 1)%nat /\
       obeys_friction eps c (p f node) (node_sn time tr f node) (node_tau time tr f node) (state_of nbf D st f node) (v f node) /\
       (forall t, (t < D - 1)%nat -> m' (entry nbf D f node t) = Some (nth t (v f node) 0)) /\
       m' (entry nbf D f node (D - 1)) = Some (evolution_rate f node (norm (v f node)) (state_of nbf D st f node) + source_term time f node)) /\
    largest_or_zero (fun x => exists f node, (f < num)%nat /\ (node < nbf)%nat /\ x = norm (v f node)) vmax /\
    (forall i, (num * (nbf * D) <= i)%nat -> m' i = m i).
Proof.
  intros num time tr st m He HV0 HL NN. pose proof (fault_rhs_nodes num time tr st m) as G.
  assert (FIN : forall f node, (f < num)%nat -> (node < nbf)%nat -> node_rate time tr st f node <> Rate_unfinished).
  { intros f node F N. pose proof (faults_loop S HD (node_rate time tr st) 0 (Nat.le_0_l _) _ (rhs_final time tr st) (rhs_block_spec time tr st) (fun f node => slip_rate_ierr _ _ _ _ _ _ _ _) num m) as L.
    unfold friction_rhs in NN. destruct (over_faults _ num m) as [[[m2 v2] ok2]|]; [|exfalso; apply NN; reflexivity].
    destruct L as (L & _). specialize (L f node F N). intro E. rewrite E in L. discriminate. }
  set (vv := fun f node => match node_rate time tr st f node with Rate v _ => v | _ => [] end).
  destruct (friction_rhs S eps fuel Va_min num time tr st m) as [[m' vmax|]|]; [| |contradiction].
  2:{ exfalso. destruct G as (f & node & F & N & E). destruct (loaded_rate time tr st f node He (HL f node F N)) as [U|(v & Ev & _)].
      - rewrite U in E. discriminate.
      - rewrite Ev in E. discriminate. }
  destruct G as (G1 & G2 & G3).
  assert (VV : forall f node, (f < num)%nat -> (node < nbf)%nat -> node_rate time tr st f node = Rate (vv f node) 0 /\ length (vv f node) = (D - 1)%nat /\
    obeys_friction eps c (p f node) (node_sn time tr f node) (node_tau time tr f node) (state_of nbf D st f node) (vv f node)).
  { intros f node F N. destruct (loaded_rate time tr st f node He (HL f node F N)) as [U|(v & Ev & Lv & O)]; [exfalso; exact (FIN f node F N U)|].
    unfold vv. rewrite Ev. auto. }
  exists m', vmax, vv. split; [reflexivity|]. split; [|split; [|exact G2]].
  - intros f node F N. destruct (VV f node F N) as (Ev & Lv & O). destruct (G1 f node F N) as (_ & G4 & G5).
    split; [exact Lv|]. split; [exact O|]. split.
    + intros t T. rewrite G4 by exact T. rewrite Ev. reflexivity.
    + rewrite G5, Ev. cbn [rate_norm state_rhs]. unfold evolution_rate. destruct (rs_law S); [reflexivity|].
      unfold slip_rhs. assert (0 < norm (vv f node)) by apply O.
      destruct (Rlt_dec 0 (norm (vv f node) / cV0 c)) as [_|X]; [|exfalso; apply X; apply Rdiv_lt_0_compat; assumption].
      f_equal. unfold Rdiv. ring.
  - eapply largest_iff; [|exact G3]. intro x. split; intros (f & node & F & N & E); exists f, node; split; auto; split; auto; destruct (VV f node F N) as (Ev & _).
    + rewrite Ev in E. injection E as <-. reflexivity.
    + rewrite Ev. cbn. congruence.
Qed.

(** C73, failure: a node whose solution is below the smallest numbers ends the program. *)
Theorem fault_rhs_no_solution : forall num time tr st m f node Vs, 0 <= eps -> (f < num)%nat -> (node < nbf)%nat ->
  pos_params c (p f node) -> 0 < peta (p f node) -> node_sn time tr f node < psn (p f node) ->
  0 < norm (vadd (node_tau time tr f node) (ptau (p f node))) ->
  balance (pa (p f node)) (cV0 c) (peta (p f node)) (psn (p f node) - node_sn time tr f node)
    (norm (vadd (node_tau time tr f node) (ptau (p f node)))) (state_of nbf D st f node) Vs ->
  Vs < pow10 (-32) -> Vs < pow10 Va_min ->
  friction_rhs S eps fuel Va_min num time tr st m = Some Terminated \/ friction_rhs S eps fuel Va_min num time tr st m = None.
Proof.
  intros num time tr st m f node Vs He F N Pp Eta Sn HT HB H1 H2. pose proof (fault_rhs_nodes num time tr st m) as G.
  assert (Es : sn_hat (p f node) (node_sn time tr f node) = psn (p f node) - node_sn time tr f node) by (unfold sn_hat; ring).
  rewrite <- Es in HB.
  destruct (slip_rate_correct eps fuel Va_min c (p f node) (node_sn time tr f node) (node_tau time tr f node) (state_of nbf D st f node) Vs He Pp Eta) as [_ Q];
    [rewrite Es; lra|exact HT|exact HB|].
  specialize (Q H1 H2). change (node_rate time tr st f node = Rate_nan 2) in Q.
  destruct (friction_rhs S eps fuel Va_min num time tr st m) as [[m' vmax|]|]; [|left; reflexivity|right; reflexivity].
  exfalso. destruct G as (G & _). destruct (G f node F N) as (X & _). rewrite Q in X. apply X. reflexivity.
Qed.

(** Finding: a node without shear traction, which the slip rate zero balances, gets NaN as slip rate and
    state rate, and neither the error code nor the peak slip rate tells. *)
Theorem fault_rhs_nan_refuted : forall num time tr st m f node m' vmax, (f < num)%nat -> (node < nbf)%nat -> (2 <= D)%nat ->
  pos_params c (p f node) -> 0 < peta (p f node) -> node_sn time tr f node < psn (p f node) ->
  norm (vadd (node_tau time tr f node) (ptau (p f node))) = 0 ->
  friction_rhs S eps fuel Va_min num time tr st m = Some (Done m' vmax) ->
  balance (pa (p f node)) (cV0 c) (peta (p f node)) (psn (p f node) - node_sn time tr f node) 0 (state_of nbf D st f node) 0 /\
  m' (entry nbf D f node 0) = None /\ m' (entry nbf D f node (D - 1)) = None /\ 0 <= vmax.
Proof.
  intros num time tr st m f node m' vmax F N D2 Pp Eta Sn HT E. pose proof (fault_rhs_nodes num time tr st m) as G. rewrite E in G.
  destruct (slip_rate_zero_traction_refuted eps fuel Va_min c (p f node) (node_sn time tr f node) (node_tau time tr f node) (state_of nbf D st f node) Pp) as [B Q];
    [unfold sn_hat; lra|lra|exact HT|].
  change (node_rate time tr st f node = Rate_nan 0) in Q. destruct G as (G & _ & V). destruct (G f node F N) as (_ & G1 & G2).
  split; [|split; [|split]].
  - rewrite HT in B. replace (psn (p f node) - node_sn time tr f node) with (sn_hat (p f node) (node_sn time tr f node)) by (unfold sn_hat; ring). exact B.
  - rewrite G1 by lia. rewrite Q. reflexivity.
  - rewrite G2, Q. reflexivity.
  - exact (proj1 V).
Qed.

(** ** Initial values *)

Definition init_rate (time : R) (tr : nat -> R) (f node : nat) : rate :=
  match psi_init c (p f node) (node_sn time tr f node) (node_tau time tr f node) with
  | Some x => slip_rate eps fuel Va_min c (p f node) (node_sn time tr f node) (node_tau time tr f node) x
  | None => nan_rate (f * nbf + node)%nat end.
Lemma init_step : forall time tr f node a, (node < nbf)%nat ->
  init_node S eps fuel Va_min nan_rate time tr f a node = match a with
  | None => None
  | Some (m, vmax, emax) => if finished (init_rate time tr f node) then
      Some (fold_left (fun m q => put m (entry nbf D f node (D - 1 + q)) (psi_init c (p f node) (node_sn time tr f node) (node_tau time tr f node))) (seq 0 (D - (D - 1))) m,
            std_max vmax (rate_norm (init_rate time tr f node)), new_max (rate_ierr (init_rate time tr f node)) emax) else None
  end.
Proof.
  intros time tr f node [[[m vmax] emax]|] Hn; [|reflexivity]. unfold init_node.
  rewrite sn_at_eq, tau_at_eq, psi_entry. fold (init_rate time tr f node). unfold init_rate. destruct (finished _); [|reflexivity].
  replace (D - (D - 1))%nat with 1%nat by lia. cbn [seq fold_left]. rewrite Nat.add_0_r. reflexivity.
Qed.
Lemma init_block_spec : forall time tr f m, match init_block S eps fuel Va_min nan_rate time tr f m with
  | None => exists node, (node < nbf)%nat /\ finished (init_rate time tr f node) = false
  | Some (m', vmax, emax) =>
     (forall node, (node < nbf)%nat -> finished (init_rate time tr f node) = true) /\
     (forall node q, (node < nbf)%nat -> (D - 1 <= q < D)%nat -> m' (entry nbf D f node q) = psi_init c (p f node) (node_sn time tr f node) (node_tau time tr f node)) /\
     (forall i, (forall node q, (node < nbf)%nat -> (D - 1 <= q < D)%nat -> i <> entry nbf D f node q) -> m' i = m i) /\
     largest_or_zero (norms (init_rate time tr) f nbf) vmax /\
     (forall node, (node < nbf)%nat -> (rate_ierr (init_rate time tr f node) <= emax)%nat) /\
     (emax = 0%nat \/ exists node, (node < nbf)%nat /\ rate_ierr (init_rate time tr f node) = emax)
  end.
Proof.
  intros. unfold init_block.
  destruct (block_loop S HD (fun f node _ => psi_init c (p f node) (node_sn time tr f node) (node_tau time tr f node)) (init_rate time tr) (D - 1)
      (init_node S eps fuel Va_min nan_rate time tr) ltac:(lia) (init_step time tr) f m nbf (le_n _))
    as [(m' & v & e & E & F & (W1 & W2) & L & B1 & B2)|(E & X)]; rewrite E; [|exact X].
  split; [exact F|]. split; [exact W1|]. split; [exact W2|]. split; [exact L|]. split; assumption.
Qed.

Lemma pre_init_block_spec : forall f m,
  (forall node t, (node < nbf)%nat -> (t < D - 1)%nat -> pre_init_block S m f (entry nbf D f node t) = Some (nth t (pSinit (p f node)) 0)) /\
  (forall i, (forall node t, (node < nbf)%nat -> (t < D - 1)%nat -> i <> entry nbf D f node t) -> pre_init_block S m f i = m i).
Proof.
  intros f m. unfold pre_init_block.
  assert (G : forall k, (k <= nbf)%nat -> let m' := fold_left (pre_init_node S f) (seq 0 k) m in
    (forall node t, (node < k)%nat -> (t < D - 1)%nat -> m' (entry nbf D f node t) = Some (nth t (pSinit (p f node)) 0)) /\
    (forall i, (forall node t, (node < k)%nat -> (t < D - 1)%nat -> i <> entry nbf D f node t) -> m' i = m i)).
  { induction k as [|k IH]; intro Hk; cbn zeta; [split; [intros; lia|reflexivity]|].
    rewrite seq_S, fold_left_app. cbn [fold_left Nat.add]. destruct (IH ltac:(lia)) as [I1 I2].
    unfold pre_init_node at 1 3.
    destruct (put_row (fun t => mat_entry S (num_quantities S) f k t) (fun t => Some (nth t (pSinit (p f k)) 0)) (tangential S) (fold_left (pre_init_node S f) (seq 0 k) m)) as [P1 P2].
    { intros a b Ha Hb E. unfold tangential in *. rewrite !mat_entry_eq, num_quantities_D in E by exact HD. apply entry_inj in E; lia. }
    split.
    - intros node t N T. destruct (Nat.eq_dec node k) as [->|NE].
      + specialize (P1 t T). cbv beta in P1. replace (entry nbf D f k t) with (mat_entry S (num_quantities S) f k t) by (rewrite mat_entry_eq, num_quantities_D by exact HD; reflexivity). exact P1.
      + rewrite P2; [apply I1; lia|]. intros t' T' E. unfold tangential in T'. rewrite mat_entry_eq, num_quantities_D in E by exact HD. apply entry_inj in E; lia.
    - intros i Hi. rewrite P2; [apply I2; intros; apply Hi; lia|]. intros t T. unfold tangential in T. rewrite mat_entry_eq, num_quantities_D by exact HD. apply Hi; lia. }
  exact (G nbf (le_n _)).
Qed.
Lemma pre_init_spec : forall num m,
  (forall f node t, (f < num)%nat -> (node < nbf)%nat -> (t < D - 1)%nat -> pre_init S num m (entry nbf D f node t) = Some (nth t (pSinit (p f node)) 0)) /\
  (forall i, (forall f node t, (f < num)%nat -> (node < nbf)%nat -> (t < D - 1)%nat -> i <> entry nbf D f node t) -> pre_init S num m i = m i).
Proof.
  intros num m. unfold pre_init. induction num as [|num [I1 I2]]; [split; [intros; lia|reflexivity]|].
  rewrite seq_S, fold_left_app. cbn [fold_left Nat.add].
  destruct (pre_init_block_spec num (fold_left (pre_init_block S) (seq 0 num) m)) as [P1 P2]. split.
  - intros f node t F N T. destruct (Nat.eq_dec f num) as [->|]; [apply P1; assumption|]. rewrite P2; [apply I1; lia|].
    intros node' t' N' T' E. apply entry_inj in E; lia.
  - intros i Hi. rewrite P2; [apply I2; intros; apply Hi; lia|]. intros; apply Hi; lia.
Qed.

(** C73, initial values: pre_init and then init give every node the slip asked for and the state at which
    the traction balances friction at the slip rate asked for, and the peak slip rate is the largest
    initial slip rate up to the accuracy of the root finder. *)
Theorem fault_init_state : forall num time tr m, 0 <= eps -> 
  (forall f node, (f < num)%nat -> (node < nbf)%nat ->
     pos_params c (p f node) /\ 0 < peta (p f node) /\ node_sn time tr f node < psn (p f node) /\ pow10 (-32) <= norm (pVinit (p f node)) /\
     peta (p f node) * norm (pVinit (p f node)) < norm (vadd (node_tau time tr f node) (ptau (p f node)))) ->
  friction_init S eps fuel Va_min nan_rate num time tr (pre_init S num m) <> None ->
  exists m' vmax, friction_init S eps fuel Va_min nan_rate num time tr (pre_init S num m) = Some (Done m' vmax) /\
    (forall f node, (f < num)%nat -> (node < nbf)%nat ->
       (forall t, (t < D - 1)%nat -> m' (entry nbf D f node t) = Some (nth t (pSinit (p f node)) 0)) /\
       exists psi, m' (entry nbf D f node (D - 1)) = Some psi /\
         balance (pa (p f node)) (cV0 c) (peta (p f node)) (psn (p f node) - node_sn time tr f node)
           (norm (vadd (node_tau time tr f node) (ptau (p f node)))) psi (norm (pVinit (p f node)))) /\
    (exists V : nat -> nat -> R, largest_or_zero (fun x => exists f node, (f < num)%nat /\ (node < nbf)%nat /\ x = V f node) vmax /\
       forall f node, (f < num)%nat -> (node < nbf)%nat -> 0 < V f node /\ Rabs (log10 (V f node) - log10 (norm (pVinit (p f node)))) <= 4 * eps * Rabs (log10 (V f node))) /\
    (forall i, (num * (nbf * D) <= i)%nat -> m' i = m i).
Proof.
  intros num time tr m He H NN.
  set (nr := fun f node => init_rate time tr f node).
  assert (K : forall f node, (f < num)%nat -> (node < nbf)%nat -> exists psi, psi_init c (p f node) (node_sn time tr f node) (node_tau time tr f node) = Some psi /\
     balance (pa (p f node)) (cV0 c) (peta (p f node)) (psn (p f node) - node_sn time tr f node) (norm (vadd (node_tau time tr f node) (ptau (p f node)))) psi (norm (pVinit (p f node))) /\
     (init_rate time tr f node = Rate_unfinished \/ exists v, init_rate time tr f node = Rate v 0 /\ 0 < norm v /\
        Rabs (log10 (norm v) - log10 (norm (pVinit (p f node)))) <= 4 * eps * Rabs (log10 (norm v)))).
  { intros f node F N. destruct (H f node F N) as (Pp & Eta & Sn & V32 & Ex).
    assert (Es : sn_hat (p f node) (node_sn time tr f node) = psn (p f node) - node_sn time tr f node) by (unfold sn_hat; ring).
    assert (Sn' : 0 < sn_hat (p f node) (node_sn time tr f node)) by lra. assert (Vi : 0 < norm (pVinit (p f node))) by (pose proof (pow10_pos (-32)); lra).
    destruct (psi_init_balances c (p f node) (node_sn time tr f node) (node_tau time tr f node) Pp Sn' Vi Ex) as (psi & E & B).
    exists psi. split; [exact E|]. rewrite <- Es. split; [exact B|]. unfold init_rate. rewrite E.
    exact (psi_init_slip_rate eps fuel Va_min c (p f node) (node_sn time tr f node) (node_tau time tr f node) psi He Pp Eta Sn' Vi Ex V32 E). }
  (* the error codes of the faults of this rank; [nan_rate] is not consulted *)
  set (rt := fun f node => if andb (f <? num)%nat (node <? nbf)%nat then init_rate time tr f node else Rate_nan 0).
  assert (RT : forall f node, (f < num)%nat -> (node < nbf)%nat -> rt f node = init_rate time tr f node).
  { intros f node F N. unfold rt. rewrite (proj2 (Nat.ltb_lt f num) F), (proj2 (Nat.ltb_lt node nbf) N). reflexivity. }
  pose (blk := fun f m0 => if (f <? num)%nat then init_block S eps fuel Va_min nan_rate time tr f m0
                 else Some (fold_left (fun m0 node => put m0 (entry nbf D f node (D - 1)) (psi_init c (p f node) (node_sn time tr f node) (node_tau time tr f node))) (seq 0 nbf) m0, 0, 0%nat)).
  assert (EB : over_faults blk num (pre_init S num m) = over_faults (init_block S eps fuel Va_min nan_rate time tr) num (pre_init S num m)).
  { unfold over_faults. apply fold_left_ext_in. intros [[[m0 v0] o0]|] f Hf; [|reflexivity]. apply in_seq in Hf. unfold blk.
    rewrite (proj2 (Nat.ltb_lt f num)) by lia. reflexivity. }
  assert (I : forall f node, (rate_ierr (rt f node) <= 2)%nat).
  { intros f node. unfold rt. destruct (Nat.ltb_spec f num) as [F|F]; [|cbn; lia]. destruct (Nat.ltb_spec node nbf) as [N|N]; [|cbn; lia]. cbn [andb].
    destruct (K f node F N) as (psi & E & _). unfold init_rate. rewrite E. apply slip_rate_ierr. }
  pose proof (faults_loop S HD rt (D - 1) ltac:(lia) blk (fun f node _ => psi_init c (p f node) (node_sn time tr f node) (node_tau time tr f node))) as L.
  assert (BS : forall f m0, match blk f m0 with
    | None => exists node, (node < nbf)%nat /\ finished (rt f node) = false
    | Some (m', vmax, emax) =>
       (forall node, (node < nbf)%nat -> finished (rt f node) = true) /\
       (forall node q, (node < nbf)%nat -> (D - 1 <= q < D)%nat -> m' (entry nbf D f node q) = psi_init c (p f node) (node_sn time tr f node) (node_tau time tr f node)) /\
       (forall i, (forall node q, (node < nbf)%nat -> (D - 1 <= q < D)%nat -> i <> entry nbf D f node q) -> m' i = m0 i) /\
       largest_or_zero (norms rt f nbf) vmax /\
       (forall node, (node < nbf)%nat -> (rate_ierr (rt f node) <= emax)%nat) /\
       (emax = 0%nat \/ exists node, (node < nbf)%nat /\ rate_ierr (rt f node) = emax) end).
  { intros f m0. unfold blk. destruct (Nat.ltb_spec f num) as [F|F].
    - pose proof (init_block_spec time tr f m0) as B. destruct (init_block S eps fuel Va_min nan_rate time tr f m0) as [[[m1 v1] e1]|].
      + destruct B as (B1 & B2 & B3 & B4 & B5 & B6). split; [intros; rewrite RT by auto; auto|]. split; [exact B2|]. split; [exact B3|]. split; [|split].
        * eapply largest_iff; [|exact B4]. intro x. split; intros (n & N & E); exists n; (split; [exact N|]); [rewrite RT by auto|rewrite <- RT by auto]; exact E.
        * intros. rewrite RT by auto. auto.
        * destruct B6 as [B6|(n & N & E)]; [left; exact B6|right; exists n; split; [exact N|rewrite RT by auto; exact E]].
      + destruct B as (n & N & E). exists n. split; [exact N|rewrite RT by auto; exact E].
    - assert (R0 : forall node, rt f node = Rate_nan 0) by (intro; unfold rt; destruct (Nat.ltb_spec f num); [lia|reflexivity]).
      destruct (put_row (fun node => entry nbf D f node (D - 1)) (fun node => psi_init c (p f node) (node_sn time tr f node) (node_tau time tr f node)) nbf m0) as [P1 P2].
      { intros a b A B E. apply entry_inj in E; lia. }
      split; [intros; rewrite R0; reflexivity|]. split; [intros node q N Q; replace q with (D - 1)%nat by lia; apply P1; exact N|].
      split; [intros i Hi; apply P2; intros; apply Hi; lia|]. split.
      + split; [lra|]. split; [intros x (n & N & E); rewrite R0 in E; discriminate|left; reflexivity].
      + split; [intros; rewrite R0; cbn; lia|left; reflexivity]. }
  specialize (L BS I num (pre_init S num m)). unfold friction_init in *. rewrite EB in L.
  destruct (over_faults _ num (pre_init S num m)) as [[[m' vmax] ok]|]; [|exfalso; apply NN; reflexivity].
  destruct L as (F1 & W & KK & V & O). destruct (pre_init_spec num m) as [PI1 PI2].
  assert (VV : forall f node, (f < num)%nat -> (node < nbf)%nat -> exists v, rt f node = Rate v 0 /\ 0 < norm v /\
        Rabs (log10 (norm v) - log10 (norm (pVinit (p f node)))) <= 4 * eps * Rabs (log10 (norm v))).
  { intros f node F N. destruct (K f node F N) as (psi & _ & _ & [U|X]); [|rewrite RT by auto; exact X].
    specialize (F1 f node F N). rewrite RT, U in F1 by auto. discriminate. }
  assert (OK : ok = true).
  { destruct ok; [reflexivity|]. destruct (proj1 O eq_refl) as (f & n & F & N & E). destruct (VV f n F N) as (v & Ev & _). rewrite Ev in E. discriminate. }
  subst ok. exists m', vmax. split; [reflexivity|]. split; [|split].
  - intros f node F N. split.
    + intros t T. rewrite KK; [apply PI1; assumption|]. intros f' n' q F' N' Q E. apply entry_inj in E; lia.
    + destruct (K f node F N) as (psi & E & B & _). exists psi. split; [rewrite W by (auto; lia); exact E|exact B].
  - exists (fun f node => match rt f node with Rate v _ => norm v | _ => 0 end). split.
    + eapply largest_iff; [|exact V]. intro x. split; intros (f & n & F & N & E); exists f, n; split; auto; split; auto; destruct (VV f n F N) as (v & Ev & _).
      * rewrite Ev in *. injection E as <-. reflexivity.
      * rewrite Ev in *. cbn. congruence.
    + intros f node F N. destruct (VV f node F N) as (v & Ev & A & B). rewrite Ev. split; assumption.
  - intros i Hi. rewrite KK, PI2; [reflexivity| |].
    + intros f node t F N T E. subst i. pose proof (entry_bound nbf D f node t num N ltac:(lia) F). lia.
    + intros f node t F N T E. subst i. pose proof (entry_bound nbf D f node t num N ltac:(lia) F). lia.
Qed.
End Rhs.
Print Assumptions fault_rhs_nodes.
Print Assumptions fault_rhs_obeys_friction.
Print Assumptions fault_rhs_no_solution.
Print Assumptions fault_rhs_nan_refuted.
Print Assumptions fault_init_state.

Lemma finitely_many : forall (n : nat) (P : nat -> nat -> Prop), (forall a, (a < n)%nat -> exists N, forall k, (N <= k)%nat -> P a k) ->
  exists N, forall k, (N <= k)%nat -> forall a, (a < n)%nat -> P a k.
Proof.
  induction n as [|n IH]; intros P H; [exists 0%nat; intros; lia|].
  destruct (IH P) as [N1 H1]; [intros; apply H; lia|]. destruct (H n ltac:(lia)) as [N2 H2].
  exists (max N1 N2). intros k Hk a Ha. destruct (Nat.eq_dec a n) as [->|]; [apply H2; lia|apply H1; lia].
Qed.
(** C73, termination: with tractions below eta (slip rates below 1 m/s) finitely many iterations of the
    root finder are enough for all nodes. *)
Theorem fault_rhs_finishes : forall S eps Va_min num time tr st m, (1 <= rs_D S)%nat -> 0 < eps ->
  (forall f node, (f < num)%nat -> (node < rs_nbf S)%nat -> loaded S Va_min time tr st f node /\
     norm (vadd (node_tau S time tr f node) (ptau (rs_p S (f * rs_nbf S + node)))) < peta (rs_p S (f * rs_nbf S + node))) ->
  exists N, forall fuel, (N <= fuel)%nat -> friction_rhs S eps fuel Va_min num time tr st m <> None.
Proof.
  intros S eps Va_min num time tr st m HD He H.
  destruct (finitely_many num (fun f fuel => forall node, (node < rs_nbf S)%nat -> node_rate S eps fuel Va_min time tr st f node <> Rate_unfinished)) as [N HN].
  - intros f F. destruct (finitely_many (rs_nbf S) (fun node fuel => node_rate S eps fuel Va_min time tr st f node <> Rate_unfinished)) as [N HN].
    + intros node N. destruct (H f node F N) as ((Pp & Eta & Sn & _ & _ & HT & Vs & HB & _) & Lt).
      unfold node_rate. apply (slip_rate_terminates eps Va_min _ _ _ _ _ Vs He Pp Eta); [unfold sn_hat; lra|split; assumption|].
      replace (sn_hat (rs_p S (f * rs_nbf S + node)) (node_sn S time tr f node)) with (psn (rs_p S (f * rs_nbf S + node)) - node_sn S time tr f node) by (unfold sn_hat; ring). exact HB.
    + exists N. exact HN.
  - exists N. intros fuel Hf E. pose proof (fault_rhs_nodes S eps fuel Va_min HD num time tr st m) as G. rewrite E in G.
    destruct G as (f & node & F & Nn & U). exact (HN fuel Hf f F node Nn U).
Qed.
Print Assumptions fault_rhs_finishes.

(** C73, output: the columns of the fault output, in two and in three dimensions, with their names.  [v] is
    the slip rate of the node, [tau] its shear traction. *)
Theorem fault_output_2d : forall S eps fuel Va_min time tr st f node v e pre, rs_D S = 2%nat ->
  node_rate S eps fuel Va_min time tr st f node = Rate [v] e ->
  (forall g x, rs_delta_tau S = Some g -> length (g x time) = 1%nat) -> ptau (rs_p S (f * rs_nbf S + node)) = [pre] ->
  exists tau, node_tau S time tr f node = [tau] /\
  combine (state_names S) (state_row S eps fuel Va_min time tr st f node) =
    [("state", Some (state_of (rs_nbf S) 2 st f node)); ("slip0", Some (st (entry (rs_nbf S) 2 f node 0)));
     ("traction0", Some (tau + pre + peta (rs_p S (f * rs_nbf S + node)) * v)); ("slip-rate0", Some v);
     ("normal-stress", Some (psn (rs_p S (f * rs_nbf S + node)) - node_sn S time tr f node))]%string /\
  length (state_names S) = length (state_row S eps fuel Va_min time tr st f node).
Proof.
  intros S eps fuel Va_min time tr st f node v e pre HD E Ld Hp.
  assert (L : length (node_tau S time tr f node) = 1%nat) by (replace 1%nat with (rs_D S - 1)%nat by lia; apply node_tau_length; [lia|rewrite HD; exact Ld]).
  destruct (node_tau S time tr f node) as [|tau [|]] eqn:ET; try discriminate. exists tau. split; [reflexivity|].
  unfold state_row, state_names. rewrite sn_at_eq, tau_at_eq, psi_entry by lia.
  change (slip_rate eps fuel Va_min (rs_c S) (rs_p S (f * rs_nbf S + node)) (node_sn S time tr f node) (node_tau S time tr f node) (st (entry (rs_nbf S) (rs_D S) f node (rs_D S - 1)))) with (node_rate S eps fuel Va_min time tr st f node).
  rewrite E, ET. unfold num_quantities, tangential, state_of. rewrite HD. split; [|reflexivity]. cbn. unfold tau_hat. rewrite Hp, !mat_entry_eq. cbn.
  do 4 f_equal. f_equal. f_equal. f_equal. unfold sn_hat. ring.
Qed.
Theorem fault_output_3d : forall S eps fuel Va_min time tr st f node v0 v1 e pre0 pre1, rs_D S = 3%nat ->
  node_rate S eps fuel Va_min time tr st f node = Rate [v0; v1] e ->
  (forall g x, rs_delta_tau S = Some g -> length (g x time) = 2%nat) -> ptau (rs_p S (f * rs_nbf S + node)) = [pre0; pre1] ->
  exists tau0 tau1, node_tau S time tr f node = [tau0; tau1] /\
  combine (state_names S) (state_row S eps fuel Va_min time tr st f node) =
    [("state", Some (state_of (rs_nbf S) 3 st f node)); ("slip0", Some (st (entry (rs_nbf S) 3 f node 0))); ("slip1", Some (st (entry (rs_nbf S) 3 f node 1)));
     ("traction0", Some (tau0 + pre0 + peta (rs_p S (f * rs_nbf S + node)) * v0)); ("traction1", Some (tau1 + pre1 + peta (rs_p S (f * rs_nbf S + node)) * v1));
     ("slip-rate0", Some v0); ("slip-rate1", Some v1);
     ("normal-stress", Some (psn (rs_p S (f * rs_nbf S + node)) - node_sn S time tr f node))]%string /\
  length (state_names S) = length (state_row S eps fuel Va_min time tr st f node).
Proof.
  intros S eps fuel Va_min time tr st f node v0 v1 e pre0 pre1 HD E Ld Hp.
  assert (L : length (node_tau S time tr f node) = 2%nat) by (replace 2%nat with (rs_D S - 1)%nat by lia; apply node_tau_length; [lia|rewrite HD; exact Ld]).
  destruct (node_tau S time tr f node) as [|tau0 [|tau1 [|]]] eqn:ET; try discriminate. exists tau0, tau1. split; [reflexivity|].
  unfold state_row, state_names. rewrite sn_at_eq, tau_at_eq, psi_entry by lia.
  change (slip_rate eps fuel Va_min (rs_c S) (rs_p S (f * rs_nbf S + node)) (node_sn S time tr f node) (node_tau S time tr f node) (st (entry (rs_nbf S) (rs_D S) f node (rs_D S - 1)))) with (node_rate S eps fuel Va_min time tr st f node).
  rewrite E, ET. unfold num_quantities, tangential, state_of. rewrite HD. split; [|reflexivity]. cbn. unfold tau_hat. rewrite Hp, !mat_entry_eq. cbn.
  do 7 f_equal. f_equal. f_equal. f_equal. unfold sn_hat. ring.
Qed.
Print Assumptions fault_output_2d.
Print Assumptions fault_output_3d.

(** C73, output of some faults: what is written for them is what the output of all faults holds for them,
    in the order asked for, with one row for each node. *)
Theorem fault_output_rows : forall S eps fuel Va_min time tr st num faults, (forall f, In f faults -> (f < num)%nat) ->
  let out := state_output S eps fuel Va_min time tr st in let all := out (seq 0 num) in
  length (out faults) = length faults /\
  (forall k f, nth_error faults k = Some f -> nth_error (out faults) k = nth_error all f) /\
  (forall f, (f < num)%nat -> exists rows, nth_error all f = Some rows /\ length rows = rs_nbf S /\
     forall node, (node < rs_nbf S)%nat -> nth_error rows node = Some (state_row S eps fuel Va_min time tr st f node)) /\
  length (param_output S faults) = length faults /\
  (forall k f node, nth_error faults k = Some f -> (node < rs_nbf S)%nat -> exists rows, nth_error (param_output S faults) k = Some rows /\ length rows = rs_nbf S /\ nth_error rows node = Some (param_row S f node)).
Proof.
  intros S eps fuel Va_min time tr st num faults HF out all. unfold all, out, state_output, param_output.
  assert (NS : forall n f, (f < n)%nat -> nth_error (seq 0 n) f = Some f) by (intros n f Hf; rewrite (nth_error_nth' _ 0%nat) by (now rewrite seq_length); now rewrite seq_nth).
  rewrite !map_length. split; [reflexivity|]. split; [|split; [|split; [reflexivity|]]].
  - intros k f E. rewrite (map_nth_error _ _ _ E). rewrite (map_nth_error _ _ _ (NS num f (HF f (nth_error_In _ _ E)))). reflexivity.
  - intros f Hf. eexists. split; [apply map_nth_error, NS, Hf|]. rewrite map_length, seq_length. split; [reflexivity|]. intros node Hn. apply map_nth_error, NS, Hn.
  - intros k f node E Hn. eexists. split; [apply map_nth_error, E|]. rewrite map_length, seq_length. split; [reflexivity|]. apply map_nth_error, NS, Hn.
Qed.
Print Assumptions fault_output_rows.

Theorem fault_params_output : forall S f node, length (ptau (rs_p S (f * rs_nbf S + node))) = (rs_D S - 1)%nat ->
  let p := rs_p S (f * rs_nbf S + node) in
  length (param_row S f node) = length (param_names S) /\
  firstn 4 (combine (param_names S) (param_row S f node)) = [("a", pa p); ("eta", peta p); ("L", pL p); ("sn_pre", psn p)]%string /\
  forall t, (t < rs_D S - 1)%nat -> nth_error (combine (param_names S) (param_row S f node)) (4 + t) = Some (append "tau_pre" (digit t), nth t (ptau p) 0).
Proof.
  intros S f node L p. unfold param_row, param_names, tangential. fold p in L |- *.
  split; [cbn; rewrite map_length, seq_length, L; reflexivity|]. split; [reflexivity|].
  intros t T. cbn [app combine Nat.add nth_error].
  assert (G : forall s (l : list R) t, (t < length l)%nat -> nth_error (combine (map (fun t => append "tau_pre" (digit t)) (seq s (length l))) l) t = Some (append "tau_pre" (digit (s + t)), nth t l 0)).
  { intros s l. revert s. induction l as [|x l IH]; intros s u U; [cbn in U; lia|]. destruct u as [|u]; cbn.
    - rewrite Nat.add_0_r. reflexivity.
    - rewrite IH by (cbn in U; lia). rewrite Nat.add_succ_r. reflexivity. }
  rewrite <- L. apply (G 0%nat). lia.
Qed.
Print Assumptions fault_params_output.
