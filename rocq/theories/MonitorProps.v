(** Property theorems: adaptive output (C34) and monitored output (C35). *)
Require Import List Reals Bool Lra Lia.
Require Import Verif.MonitorModel.
Import ListNotations.
Local Open Scope R_scope.

Lemma rlt_spec a b : rlt a b = true <-> a < b.
Proof. unfold rlt. destruct (Rlt_dec a b); split; auto; discriminate. Qed.
Lemma rle_spec a b : rle a b = true <-> a <= b.
Proof. unfold rle. destruct (Rle_dec a b); split; auto; discriminate. Qed.

(** The tolerance the change of the peak slip rate is compared with. *)
Definition tolerance (oi : interval) (v0 v1 : R) : R := atol oi + rtol oi * Rmax v0 v1.

Lemma interval_call_spec oi dt v0 v1 : 0 < tolerance oi v0 v1 ->
  (interval_call oi dt v0 v1 = true <->
   t_max oi < dt \/ (t_min oi < dt /\ tolerance oi v0 v1 <= Rabs (v1 - v0))).
Proof.
  intro H. unfold interval_call. rewrite orb_true_iff, andb_true_iff, !rlt_spec, rle_spec.
  replace (atol oi + Rmax v0 v1 * rtol oi) with (tolerance oi v0 v1) by (unfold tolerance; ring).
  assert (E : 1 <= Rabs (v1 - v0) / tolerance oi v0 v1 <-> tolerance oi v0 v1 <= Rabs (v1 - v0)).
  { split; intro Q.
    - apply (Rmult_le_compat_r (tolerance oi v0 v1)) in Q; [|lra].
      unfold Rdiv in Q. rewrite Rmult_assoc, Rinv_l, Rmult_1_r in Q by lra. lra.
    - apply (Rmult_le_reg_r (tolerance oi v0 v1)); auto.
      unfold Rdiv. rewrite Rmult_assoc, Rinv_l, Rmult_1_r by lra. lra. }
  rewrite E. tauto.
Qed.

(** The last call before position k at which output was written: [Some (t, v)], or [None]. *)
Fixpoint last_written (cs : list (R * R)) (os : list (option nat)) : option (R * R) :=
  match cs, os with
  | c :: cs', o :: os' =>
      match last_written cs' os' with
      | Some x => Some x
      | None => match o with Some _ => Some c | None => None end
      end
  | _, _ => None
  end.

Lemma calls_app cs1 cs2 : forall w, calls w (cs1 ++ cs2) =
  let '(o1, w1) := calls w cs1 in let '(o2, w2) := calls w1 cs2 in (o1 ++ o2, w2).
Proof.
  induction cs1 as [|[t v] r IH]; intro w; cbn.
  - destruct (calls w cs2); auto.
  - destruct (is_write_required w t v).
    + rewrite IH. destruct (calls (increase_step w t v) r). destruct (calls w0 cs2). auto.
    + rewrite IH. destruct (calls w r). destruct (calls w0 cs2). auto.
Qed.

Lemma calls_state cs : forall w os w', w_skip w = false -> calls w cs = (os, w') ->
  w_skip w' = false /\ w_oi w' = w_oi w /\ w_level w' = w_level w /\ length os = length cs /\
  (w_time w', w_vmax w') = match last_written cs os with Some x => x | None => (w_time w, w_vmax w) end /\
  w_step w' = (w_step w + length (filter (fun o => match o with Some _ => true | None => false end) os))%nat.
Proof.
  induction cs as [|[t v] r IH]; intros w os w' Sk E; cbn in E.
  - injection E as <- <-. cbn. repeat split; auto.
  - destruct (is_write_required w t v) eqn:Q.
    + destruct (calls (increase_step w t v) r) as [o1 w1] eqn:E1. injection E as <- <-.
      assert (Sk1 : w_skip (increase_step w t v) = false) by (unfold increase_step; rewrite Sk; auto).
      destruct (IH _ _ _ Sk1 E1) as (A & B & C & D & F & G).
      unfold increase_step in B, C, F, G. rewrite Sk in *. cbn in B, C, F, G. cbn [last_written].
      repeat split; auto; [cbn; congruence| |cbn; rewrite G; lia].
      rewrite F. destruct (last_written r o1); auto.
    + destruct (calls w r) as [o1 w1] eqn:E1. injection E as <- <-.
      destruct (IH _ _ _ Sk E1) as (A & B & C & D & F & G).
      cbn [last_written]. repeat split; auto; [cbn; congruence|].
      rewrite F. destruct (last_written r o1); auto.
Qed.

(** C34: for every history [cs] of monitor calls and next call (t, v) of a writer (other than the
    moment rate writer) with output interval [oi]:
    - if nothing has been written yet, output is written when t - lowest exceeds t_max (so at the
      first call, lowest being about -1.8e308);
    - if the last output was at (t0, v0), output is written exactly when more than t_max has passed,
      or more than t_min has passed and the peak slip rate has changed by at least the tolerance.
    Outputs are numbered 0, 1, 2, ... *)
Theorem output_interval_correct : forall lowest l oi cs t v,
  l <> MomentRate ->
  (forall v0 v1, 0 < tolerance oi v0 v1 \/ v0 < 0 \/ v1 < 0) ->
  Forall (fun c => 0 <= snd c) cs -> 0 <= v ->
  let os := fst (calls (new_writer lowest l oi) cs) in
  let all := fst (calls (new_writer lowest l oi) (cs ++ [(t, v)])) in
  exists o, all = os ++ [o] /\
    (last_written cs os = None -> t_max oi < t - lowest -> o = Some 0%nat) /\
    (forall t0 v0, last_written cs os = Some (t0, v0) ->
       (o <> None <-> t_max oi < t - t0 \/ (t_min oi < t - t0 /\ tolerance oi v0 v <= Rabs (v - v0)))) /\
    (forall k, o = Some k -> k = length (filter (fun o => match o with Some _ => true | None => false end) os)).
Proof.
  intros lowest l oi cs t v Hl Tol Pos Hv os all.
  assert (Sk : w_skip (new_writer lowest l oi) = false) by (destruct l; auto; congruence).
  subst all os. rewrite calls_app.
  destruct (calls (new_writer lowest l oi) cs) as [os w] eqn:E. cbn [fst].
  destruct (calls_state _ _ _ _ Sk E) as (A & B & C & D & F & G).
  cbn in B, G, F.
  exists (if is_write_required w t v then Some (w_step w) else None).
  split; [cbn; destruct (is_write_required w t v); reflexivity|].
  split; [|split].
  - intros N Hm. rewrite N in F. injection F as Ft Fv.
    unfold is_write_required, interval_call. rewrite B, Ft.
    replace (rlt (t_max oi) (t - lowest)) with true by (symmetry; apply rlt_spec; auto). cbn.
    rewrite G. f_equal.
    assert (Z : forall cs os, length os = length cs -> last_written cs os = None ->
      length (filter (fun o : option nat => match o with Some _ => true | None => false end) os) = 0%nat).
    { clear. induction cs as [|c cs IH]; intros [|o os] L H; try discriminate; auto. cbn in *.
      destruct (last_written cs os) eqn:Q; [discriminate|]. destruct o; [discriminate|]. apply IH; auto. }
    rewrite (Z cs os); auto.
  - intros t0 v0 N. rewrite N in F. injection F as Ft Fv.
    assert (Hv0 : 0 <= v0).
    { assert (I : forall cs os x, last_written cs os = Some x -> In x cs).
      { clear. induction cs as [|c cs IH]; intros [|o os] x H; try discriminate. cbn in H.
        destruct (last_written cs os) eqn:Q.
        - right. apply (IH os). congruence.
        - destruct o; [|discriminate]. left. congruence. }
      apply I in N. rewrite Forall_forall in Pos. exact (Pos _ N). }
    assert (T : 0 < tolerance oi v0 v) by (destruct (Tol v0 v) as [?|[?|?]]; lra).
    rewrite <- (interval_call_spec oi (t - t0) v0 v T).
    unfold is_write_required. rewrite B, Ft, Fv.
    destruct (interval_call oi (t - t0) v0 v); split; intro Q; congruence.
  - intros k Q. destruct (is_write_required w t v); [|discriminate]. injection Q as <-. rewrite G. lia.
Qed.
Print Assumptions output_interval_correct.

(** Consecutive outputs are more than t_min apart (when t_min <= t_max), and the longest time
    without output is t_max. *)
Theorem output_spacing : forall lowest l oi cs t v t0 v0 o,
  l <> MomentRate -> t_min oi <= t_max oi ->
  (forall v0 v1, 0 < tolerance oi v0 v1 \/ v0 < 0 \/ v1 < 0) ->
  Forall (fun c => 0 <= snd c) cs -> 0 <= v ->
  last_written cs (fst (calls (new_writer lowest l oi) cs)) = Some (t0, v0) ->
  fst (calls (new_writer lowest l oi) (cs ++ [(t, v)])) = fst (calls (new_writer lowest l oi) cs) ++ [o] ->
  match o with
  | Some _ => t_min oi < t - t0
  | None => t - t0 <= t_max oi /\ (t - t0 <= t_min oi \/ Rabs (v - v0) < tolerance oi v0 v)
  end.
Proof.
  intros lowest l oi cs t v t0 v0 o Hl Hm Tol Pos Hv N E.
  destruct (output_interval_correct lowest l oi cs t v Hl Tol Pos Hv) as (o' & E' & _ & Q & _).
  rewrite E in E'. apply app_inj_tail in E'. destruct E' as [_ <-].
  specialize (Q t0 v0 N). destruct o as [k|].
  - destruct (proj1 Q ltac:(congruence)) as [?|[? _]]; lra.
  - assert (NQ : ~ (t_max oi < t - t0 \/ t_min oi < t - t0 /\ tolerance oi v0 v <= Rabs (v - v0)))
      by (intro X; apply Q in X; congruence).
    destruct (Rlt_dec (t_max oi) (t - t0)); [tauto|].
    destruct (Rlt_dec (t_min oi) (t - t0)); [|split; [lra|left; lra]].
    destruct (Rle_dec (tolerance oi v0 v) (Rabs (v - v0))); [tauto|]. split; [lra|right; lra].
Qed.
Print Assumptions output_spacing.

Definition ex_oi : interval := {| atol := 1; rtol := 0; t_min := 1; t_max := 10 |}.
Example output_interval_ex :
  (forall v0 v1, 0 < tolerance ex_oi v0 v1 \/ v0 < 0 \/ v1 < 0) /\
  fst (calls (new_writer (-1000) Scalar ex_oi) [(0, 0); (2, 0); (3, 5)]) = [Some 0%nat; None; Some 1%nat].
Proof.
  split; [intros; left; unfold tolerance, ex_oi; cbn; lra|].
  assert (C : forall dt v0 v1, interval_call ex_oi dt v0 v1 = true <-> 10 < dt \/ (1 < dt /\ 1 <= Rabs (v1 - v0))).
  { intros. rewrite interval_call_spec; unfold tolerance, ex_oi; cbn; [|lra].
    replace (1 + 0 * Rmax v0 v1) with 1 by ring. tauto. }
  cbn. unfold is_write_required. cbn.
  replace (interval_call ex_oi (0 - -1000) 0 0) with true by (symmetry; apply C; left; lra). cbn.
  replace (interval_call ex_oi (2 - 0) 0 0) with false.
  2: { symmetry. apply not_true_iff_false. rewrite C. replace (0 - 0) with 0 by ring. rewrite Rabs_R0. lra. }
  cbn. replace (interval_call ex_oi (3 - 0) 0 5) with true; auto.
  symmetry. apply C. right. split; [lra|]. rewrite Rabs_right; lra.
Qed.

(** The moment rate writer violates this: its first two outputs both go to step 0, and the second
    is written at the very next call, however little time has passed. *)
Theorem moment_rate_output_refuted : forall lowest oi t0 v0 dt v1,
  t_max oi < t0 - lowest -> t_max oi < t0 + dt - lowest ->
  fst (calls (new_writer lowest MomentRate oi) [(t0, v0); (t0 + dt, v1)]) = [Some 0%nat; Some 0%nat].
Proof.
  intros. cbn. unfold is_write_required, interval_call. cbn.
  replace (rlt (t_max oi) (t0 - lowest)) with true by (symmetry; apply rlt_spec; auto). cbn.
  replace (rlt (t_max oi) (t0 + dt - lowest)) with true by (symmetry; apply rlt_spec; auto). cbn. auto.
Qed.

Section C35.
  Variables S Sl U Tr M : Type.
  Variable slip : S -> Sl.
  Variable solve : R -> Sl -> U.
  Variable trac : U -> Sl -> Tr.
  Variable gtrac : R -> Sl -> Tr.
  Variable rhs_vmax : R -> Tr -> S -> R.
  Variable rhs_moment : R -> Tr -> S -> M.
  Variable init_vmax : R -> Tr -> S -> R.
  Variable pre_init : S -> S.
  Variable init_psi : R -> Tr -> S -> S.
  Variable green : bool.

  Notation run := (run_events S Sl U Tr M slip solve trac gtrac rhs_vmax rhs_moment init_vmax pre_init init_psi green).
  Notation mon := (monitor S Sl U Tr M slip solve trac gtrac green).
  Notation ic := (initial_condition S Sl U Tr M slip solve trac gtrac init_vmax pre_init init_psi green).
  Notation event := (event S).

  (** The traction and displacement of a time and slip: what a fresh computation would give. *)
  Definition traction_at (t : R) (x : Sl) : Tr := if green then gtrac t x else trac (solve t x) x.

  (** The last right-hand side evaluation of a history was at (t, s) (or the history ends with the
      initial condition, whose state is s, at time 0). *)
  Definition evaluated_at (es : list event) (t : R) (s : S) : Prop :=
    exists before after, 
      (es = before ++ [ERhs S t s] ++ after \/
       exists s0 o0, es = before ++ [EInit S s0] ++ after /\ t = 0 /\ s = snd (ic o0 s0)) /\
      forall e, In e after -> match e with EMonitor _ _ _ => True | _ => False end.

  (** Initial conditions set the slip in pre_init and only the state variable afterwards. *)
  Hypothesis init_keeps_slip : forall t tr s, slip (init_psi t tr s) = slip s.

  Notation op := (op U Tr M).
  Definition fresh_op (o : op) (t : R) (s : S) : Prop :=
    traction _ _ _ o = traction_at t (slip s) /\ (green = false -> disp _ _ _ o = solve t (slip s)).

  Lemma monitors_keep_fresh t s : forall after c,
    (forall e, In e after -> match e with EMonitor _ _ _ => True | _ => False end) ->
    fresh_op (fst c) t s -> fresh_op (fst (run true c after)) t s /\
      vmax _ _ _ (fst (run true c after)) = vmax _ _ _ (fst c) /\
      moment _ _ _ (fst (run true c after)) = moment _ _ _ (fst c).
  Proof.
    induction after as [|e after IH]; intros c He F; [cbn; auto|].
    pose proof (He e (or_introl eq_refl)) as Ee. destruct e as [|?|t' s']; try contradiction.
    cbn. unfold run_events in IH.
    match goal with |- context [fold_left _ after ?c'] => set (c1 := c') end.
    assert (F1 : fresh_op (fst c1) t s /\ vmax _ _ _ (fst c1) = vmax _ _ _ (fst c)
      /\ moment _ _ _ (fst c1) = moment _ _ _ (fst c)).
    { subst c1. cbn. unfold update_internal_state. destruct F as [F1 F2]. unfold fresh_op in *. destruct green eqn:G; cbn.
      - destruct (existsb _ _); cbn; repeat split; auto; discriminate.
      - repeat split; auto. }
    destruct F1 as (F1 & V1 & M1).
    destruct (IH c1 (fun x Hx => He x (or_intror Hx)) F1) as (A & B & C).
    split; auto. split; congruence.
  Qed.

  Lemma evaluated_fresh es t s c : evaluated_at es t s -> fresh_op (fst (run true c es)) t s.
  Proof.
    intros (before & after & E & Ha).
    destruct E as [->|(s0 & o0 & -> & -> & ->)];
      unfold run_events; rewrite !fold_left_app; apply monitors_keep_fresh; auto; cbn.
    - unfold rhs, fresh_op, traction_at. destruct green; cbn; split; auto; discriminate.
    - unfold initial_condition, fresh_op, traction_at. destruct green; cbn; rewrite init_keeps_slip;
        split; auto; discriminate.
  Qed.

  (** C35: for every history of initial condition, evaluations and monitor calls followed by a
      monitor call at (t, s), whichever writers are due: fault output contains the traction of
      (t, s) and volume output the displacement of (t, s), provided that for first-same-as-last
      schemes the last evaluation was at (t, s). *)
  Theorem monitored_output_is_current : forall fsal o0 ws es t s i out,
    (fsal = true -> evaluated_at es t s) ->
    let c := run fsal (o0, ws) es in
    nth_error (snd (mon fsal (fst c) (snd c) t s)) i = Some (Some out) ->
    match out with
    | OutBoundary _ _ _ _ t' tr s' => t' = t /\ s' = s /\ tr = traction_at t (slip s)
    | OutVolume _ _ _ _ t' u => t' = t /\ u = solve t (slip s)
    | OutScalar _ _ _ _ t' _ => t' = t
    | OutMoment _ _ _ _ t' _ => t' = t
    end.
  Proof.
    intros fsal o0 ws es t s i out Hf c H. cbn [snd monitor] in H.
    assert (Fr : fsal = true -> fresh_op (fst c) t s).
    { intro Q. subst fsal. apply evaluated_fresh. auto. }
    set (VM := vmax _ _ _ (fst c)) in *.
    match type of H with context [update_internal_state _ _ _ _ _ _ _ _ _ _ _ _ _ _ ?rb ?rv] =>
      set (RB := rb) in *; set (RV := rv) in * end.
    rewrite nth_error_map in H. destruct (nth_error (snd c) i) as [w|] eqn:Ew; [|discriminate].
    cbn in H. destruct (is_write_required w t VM) eqn:Q; [|discriminate].
    injection H as <-.
    assert (Req : forall l, w_level w = l ->
       existsb (fun w => is_write_required w t VM && level_eqb (w_level w) l) (snd c) = true).
    { intros l El. apply existsb_exists. exists w. split; [eapply nth_error_In; eauto|].
      rewrite Q, El. destruct l; auto. }
    unfold output_of. destruct (w_level w) eqn:El; auto.
    - (* boundary *)
      assert (RBt : RB = true) by (apply (Req Boundary); auto).
      split; auto. split; auto. clearbody RB RV. subst RB.
      unfold update_internal_state, traction_at. destruct fsal; cbn.
      + destruct (Fr eq_refl) as [F1 _]. unfold traction_at in F1. destruct green; auto.
        destruct RV; cbn; auto.
      + destruct green; cbn; auto. destruct RV; cbn; auto.
    - assert (RVt : RV = true) by (apply (Req Volume); auto).
      split; auto. clearbody RB RV. subst RV.
      unfold update_internal_state. destruct fsal; cbn.
      + destruct (Fr eq_refl) as [_ F2]. destruct green; cbn; auto.
      + rewrite orb_true_r. destruct green; cbn; auto.
  Qed.

  (** With a first-same-as-last scheme the peak slip rate and the moment rate are current too
      (when the last evaluation was a right-hand side). *)
  Theorem monitored_rates_are_current : forall o0 ws es before after t s i out,
    es = before ++ [ERhs S t s] ++ after ->
    (forall e, In e after -> match e with EMonitor _ _ _ => True | _ => False end) ->
    let c := run true (o0, ws) es in
    nth_error (snd (mon true (fst c) (snd c) t s)) i = Some (Some out) ->
    match out with
    | OutScalar _ _ _ _ _ v => v = rhs_vmax t (traction_at t (slip s)) s
    | OutMoment _ _ _ _ _ m => m = rhs_moment t (traction_at t (slip s)) s
    | _ => True
    end.
  Proof.
    intros o0 ws es before after t s i out Ees Ha c H.
    assert (K : vmax _ _ _ (fst c) = rhs_vmax t (traction_at t (slip s)) s /\
                moment _ _ _ (fst c) = rhs_moment t (traction_at t (slip s)) s).
    { subst c es. unfold run_events. rewrite !fold_left_app. cbn [fold_left].
      set (c1 := step _ _ _ _ _ _ _ _ _ _ _ _ _ _ _ _ _ _).
      assert (F : fresh_op (fst c1) t s).
      { subst c1. cbn. unfold rhs, fresh_op, traction_at. destruct green; cbn; split; auto; discriminate. }
      destruct (monitors_keep_fresh t s after c1 Ha F) as (_ & V & Mo). unfold run_events in V, Mo.
      rewrite V, Mo. subst c1. cbn. unfold rhs, traction_at. destruct green; cbn; auto. }
    destruct K as [KV KM]. cbn [snd monitor] in H.
    rewrite nth_error_map in H. destruct (nth_error (snd c) i) as [w|]; [|discriminate]. cbn in H.
    destruct (is_write_required w t (vmax U Tr M (fst c))); [|discriminate]. injection H as <-.
    unfold output_of. destruct (w_level w); auto.
    rewrite <- KM. unfold update_internal_state. cbn. destruct green; cbn; auto.
    destruct (existsb _ _); cbn; auto.
  Qed.
End C35.
Print Assumptions monitored_output_is_current.
Print Assumptions monitored_rates_are_current.

(** A concrete operator: state = (slip, psi), solve t x = t + x, trac u x = u - x, V = trac + psi.
    The hypotheses of the theorems above are met, and a volume writer gets solve t s. *)
Definition ex_slip (s : R * R) : R := fst s.
Definition ex_psi (t tr : R) (s : R * R) : R * R := (fst s, tr).
Example monitored_output_ex :
  (forall t tr (s : R * R), ex_slip (ex_psi t tr s) = ex_slip s) /\
  evaluated_at (R * R) R R R R ex_slip Rplus Rminus Rplus (fun _ tr s => tr + snd s) (fun s => s)
    ex_psi false
    [EInit _ (0, 0); ERhs _ 1 (2, 3); EMonitor _ 1 (2, 3)] 1 (2, 3).
Proof.
  split; auto. exists [EInit _ (0, 0)], [EMonitor _ 1 (2, 3)]. split; [left; reflexivity|].
  intros e [<-|[]]; auto.
Qed.

(** Without the first-same-as-last property the peak slip rate written (and used for the decision)
    is that of the last evaluated stage, not of the state handed to the monitor. *)
Theorem monitored_vmax_stale_refuted : exists o0 es ws t (s : R * R) v,
  let run := run_events (R * R) R R R R ex_slip Rplus Rminus Rplus (fun _ _ s => snd s) (fun _ tr _ => tr)
    (fun _ _ s => snd s) (fun s => s) (fun _ _ s => s) false false in
  let c := run (o0, ws) es in
  snd (monitor (R * R) R R R R ex_slip Rplus Rminus Rplus false false (fst c) (snd c) t s)
    = [Some (OutScalar _ _ _ _ t v)] /\ v <> snd s.
Proof.
  exists {| disp := 0; traction := 0; vmax := 0; moment := 0 |},
    [ERhs _ (1/2) (0, 7)], [new_writer (-1000) Scalar ex_oi], 1, (0, 8), 7.
  cbn. split; [|lra]. unfold is_write_required, interval_call. cbn.
  replace (rlt 10 (1 - -1000)) with true by (symmetry; apply rlt_spec; lra). reflexivity.
Qed.

(** The time step limits reported are the smallest and largest difference of consecutive monitor
    times. *)
Definition no_limits : limits := {| last_time := None; dt_min := None; dt_max := None |}.
Theorem dt_limits_correct : forall ts t0,
  let l := fold_left update_dt_limits (t0 :: ts) no_limits in
  let dts := map (fun p => snd p - fst p) (combine (t0 :: ts) ts) in
  match dt_min l with
  | None => ts = []
  | Some m => In m dts /\ forall d, In d dts -> m <= d
  end /\
  match dt_max l with
  | None => ts = []
  | Some m => In m dts /\ forall d, In d dts -> d <= m
  end.
Proof.
  assert (G : forall ts t0 mn mx, dt_min (fold_left update_dt_limits ts {| last_time := Some t0; dt_min := mn; dt_max := mx |})
     = fold_left (fun m d => Some match m with None => d | Some m => Rmin m d end) (map (fun p => snd p - fst p) (combine (t0 :: ts) ts)) mn /\
     dt_max (fold_left update_dt_limits ts {| last_time := Some t0; dt_min := mn; dt_max := mx |})
     = fold_left (fun m d => Some match m with None => d | Some m => Rmax m d end) (map (fun p => snd p - fst p) (combine (t0 :: ts) ts)) mx).
  { induction ts as [|t ts IH]; intros t0 mn mx; [cbn; auto|].
    cbn [fold_left combine map fst snd]. unfold update_dt_limits at 2 4. cbn [last_time dt_min dt_max].
    apply IH. }
  assert (Mn : forall l mn, let r := fold_left (fun m d => Some match m with None => d | Some m => Rmin m d end) l mn in
     match r with
     | None => l = [] /\ mn = None
     | Some m => (In m l \/ mn = Some m) /\ (forall d, In d l -> m <= d) /\ (forall d, mn = Some d -> m <= d)
     end).
  { induction l as [|d l IH]; intros mn; cbn.
    - destruct mn; auto. repeat split; auto; [intros; contradiction|]. intros d [= <-]. lra.
    - specialize (IH (Some match mn with None => d | Some m => Rmin m d end)). cbn in IH.
      destruct (fold_left _ l _); [|destruct IH; discriminate].
      destruct IH as (A & B & C). specialize (C _ eq_refl). destruct mn as [m|].
      + pose proof (Rmin_l m d). pose proof (Rmin_r m d). split; [|split].
        * destruct A as [A|A]; auto. injection A as A. unfold Rmin in A. destruct (Rle_dec m d); subst; auto.
        * intros x [<-|Hx]; [lra|auto].
        * intros x [= <-]. lra.
      + split; [|split].
        * destruct A as [A|A]; auto. injection A as ->. auto.
        * intros x [<-|Hx]; [lra|auto].
        * discriminate. }
  assert (Mx : forall l mn, let r := fold_left (fun m d => Some match m with None => d | Some m => Rmax m d end) l mn in
     match r with
     | None => l = [] /\ mn = None
     | Some m => (In m l \/ mn = Some m) /\ (forall d, In d l -> d <= m) /\ (forall d, mn = Some d -> d <= m)
     end).
  { induction l as [|d l IH]; intros mn; cbn.
    - destruct mn; auto. repeat split; auto; [intros; contradiction|]. intros d [= <-]. lra.
    - specialize (IH (Some match mn with None => d | Some m => Rmax m d end)). cbn in IH.
      destruct (fold_left _ l _); [|destruct IH; discriminate].
      destruct IH as (A & B & C). specialize (C _ eq_refl). destruct mn as [m|].
      + pose proof (Rmax_l m d). pose proof (Rmax_r m d). split; [|split].
        * destruct A as [A|A]; auto. injection A as A. unfold Rmax in A. destruct (Rle_dec m d); subst; auto.
        * intros x [<-|Hx]; [lra|auto].
        * intros x [= <-]. lra.
      + split; [|split].
        * destruct A as [A|A]; auto. injection A as ->. auto.
        * intros x [<-|Hx]; [lra|auto].
        * discriminate. }
  intros ts t0. cbn [fold_left].
  change (update_dt_limits no_limits t0) with {| last_time := Some t0; dt_min := None; dt_max := None |}.
  cbv zeta. destruct (G ts t0 None None) as [-> ->].
  set (dts := map _ _).
  assert (E : dts = [] -> ts = []) by (unfold dts; destruct ts; [auto|discriminate]).
  specialize (Mn dts None). specialize (Mx dts None). cbv zeta in Mn, Mx. split.
  - destruct (fold_left (fun m d => Some match m with None => d | Some m => Rmin m d end) dts None); [|destruct Mn; auto].
    destruct Mn as ([A|A] & B & _); [auto|discriminate].
  - destruct (fold_left (fun m d => Some match m with None => d | Some m => Rmax m d end) dts None); [|destruct Mx; auto].
    destruct Mx as ([A|A] & B & _); [auto|discriminate].
Qed.
Print Assumptions dt_limits_correct.
