(** C83: the operators of the time integration compute the rates of the whole problem, whatever was
    called before and however the mesh is distributed. *)
Require Import List Arith Bool Reals Lia.
Require Import Verif.Base Verif.SeasOpModel Verif.SeasOpSpec.
Import ListNotations.
Local Open Scope opt_scope.

Section Props.
Context {B SB SV TB : Type}.
Notation seas := (seas B SB SV TB). Notation problem := (problem B SB SV TB).
Notation qd := (qd B SB TB). Notation fd := (fd B SB TB).
Notation E_ := (E_ B SB SV TB). Notation F_ := (F_ B SB SV TB).
Notation q_disp := (q_disp B SB TB). Notation q_state := (q_state B SB TB). Notation q_slip := (q_slip B SB TB). Notation q_dir := (q_dir B SB TB).
Notation q_x := (q_x B SB TB). Notation q_traction := (q_traction B SB TB).
Notation f_disp := (f_disp B SB TB). Notation f_state := (f_state B SB TB). Notation f_slip := (f_slip B SB TB). Notation f_dir := (f_dir B SB TB). Notation f_traction := (f_traction B SB TB).

(** A newly constructed operator (and one between two calls): nothing under way, no slip set, Dirichlet
    data only if there are any. *)
Definition qd_ready (c : seas) (o : qd) : Prop :=
  s_sent (q_disp o) = None /\ s_sent (q_state o) = None /\ q_slip o = None /\ (op_boundary _ _ _ _ c = false -> q_dir o = None).
Definition fd_ready (c : seas) (o : fd) : Prop :=
  s_sent (f_disp o) = None /\ s_sent (f_state o) = None /\ f_slip o = None /\ (op_boundary _ _ _ _ c = false -> f_dir o = None).
Definition qd_do (c : seas) (k : qd_call SB) (o : qd) : option qd :=
  match k with
  | QInit _ s => do r <- qd_initial_condition _ _ _ _ c s o; Some (fst r)
  | QRhs _ t s r => do r <- qd_rhs _ _ _ _ c t s r o; Some (fst r)
  | QUpdate _ t s a b d => qd_update_internal_state _ _ _ _ c t s a b d o
  end.
Definition fd_do (c : seas) (k : fd_call B SB) (o : fd) : option fd :=
  match k with
  | FInit _ _ v u s => do r <- fd_initial_condition _ _ _ _ c v u s o; Some (fst r)
  | FRhs _ _ t v u s dv du ds => do r <- fd_rhs _ _ _ _ c t v u s dv du ds o; Some (fst r)
  end.
Fixpoint qd_calls (c : seas) (ks : list (qd_call SB)) (o : qd) : option qd :=
  match ks with [] => Some o | k :: ks => do o' <- qd_do c k o; qd_calls c ks o' end.
Fixpoint fd_calls (c : seas) (ks : list (fd_call B SB)) (o : fd) : option fd :=
  match ks with [] => Some o | k :: ks => do o' <- fd_do c k o; fd_calls c ks o' end.

Lemma exchanged : forall {A} procs total n gid (x : dvec A) X g, numbered procs total n gid -> holds procs n gid x X ->
  forall p i, p < procs -> i < n_all n p ->
  composite n x (s_ghost (wait_scatter n {| s_sent := Some x; s_ghost := g |})) p i = X (gid p i).
Proof.
  intros A procs total n gid x X g (_ & _ & _ & _ & Hg) Hx p i Hp Hi. unfold composite, wait_scatter. cbn [s_sent s_ghost].
  destruct (i <? n_own n p) eqn:L; [apply Nat.ltb_lt in L; now apply Hx|]. apply Nat.ltb_ge in L.
  destruct (Hg p i Hp (conj L Hi)) as (Hq & Hj & <-). now apply Hx.
Qed.
Lemma each_holds : forall {A} procs n gid f (x : dvec A) X,
  (forall p i, p < procs -> i < n_own n p -> f p i (x p i) = X (gid p i)) -> holds procs n gid (each n f x) X.
Proof. intros A procs n gid f x X H p i Hp Hi. unfold each. destruct (i <? n_own n p) eqn:L; [now apply H|apply Nat.ltb_ge in L; lia]. Qed.

Section OneDistribution.
Variables (P : problem) (procs : nat) (ge gf : nat -> nat -> nat) (c : seas).
Hypothesis D : distributes _ _ _ _ P procs ge gf c.

(** The part common to rhs, initial_condition and update_internal_state. *)
Lemma solve_step : forall t s S o, solver_solves _ _ _ _ P procs ge c -> qd_ready c o -> holds procs (F_ c) gf s S ->
  exists o1 o2, update_ghost_state _ _ _ _ c s o = Some o1 /\
    solve _ _ _ _ c t (make_state_view _ _ _ _ c s (q_state o1)) o1 = Some o2 /\ qd_ready c o2 /\
    exists U, equilibrium _ _ _ _ P t S U /\ holds procs (E_ c) ge (q_x o2) U /\
      (forall p i, p < procs -> i < n_all (E_ c) p -> composite (E_ c) (q_x o2) (s_ghost (q_disp o2)) p i = U (ge p i)) /\
      (forall p i, p < procs -> i < n_all (F_ c) p -> make_state_view _ _ _ _ c s (q_state o2) p i = S (gf p i)) /\
      q_dir o2 = boundary_time _ _ _ _ P t.
Proof.
  intros t s S o Hk (Hd & Hs & Hsl & Hdir) HS.
  destruct D as (NE & NF & _ & Dslip & _ & Dload & _ & _ & _ & _ & Dbnd & _).
  unfold update_ghost_state, begin_scatter. rewrite Hs. cbn [bind].
  match goal with |- exists o1 o2, Some ?x = Some o1 /\ _ => exists x end.
  set (view := make_state_view _ _ _ _ c s (q_state _)).
  assert (V : forall p i, p < procs -> i < n_all (F_ c) p -> view p i = S (gf p i))
    by (intros p i; apply (exchanged procs (faults _ _ _ _ P) (F_ c) gf s S (s_ghost (q_state o)) NF HS)).
  assert (Ed : set_dirichlet _ _ _ _ c t (q_dir o) = boundary_time _ _ _ _ P t)
    by (unfold set_dirichlet, boundary_time; rewrite <- Dbnd; destruct (op_boundary _ _ _ _ c); auto).
  set (b := fun p e => match eval_slip _ _ _ _ c (Some view) p with Some sl => op_load _ _ _ _ c p e sl (set_dirichlet _ _ _ _ c t (q_dir o)) | None => op_zero _ _ _ _ c end).
  assert (Hb : holds procs (E_ c) ge b (fun g => load_of _ _ _ _ P g (slips _ _ _ _ P S) (boundary_time _ _ _ _ P t))).
  { intros p e Hp He. unfold b. cbn [eval_slip bind]. rewrite Ed. apply Dload; auto. intros i Hi. rewrite (Dslip p i _ Hp Hi), (V p i Hp Hi). reflexivity. }
  destruct (Hk b (q_x o) _ Hb) as (U & HU & HE).
  eexists. split; [reflexivity|]. split.
  - unfold solve. cbn [eval_slip bind q_disp SeasOpModel.q_disp SeasOpModel.q_x SeasOpModel.q_dir]. unfold begin_scatter. rewrite Hd. cbn [bind]. reflexivity.
  - split; [|exists U; split; [exact HE|split; [exact HU|split; [|split; [exact V|exact Ed]]]]].
    + repeat split. intros Hn. cbn. unfold set_dirichlet. rewrite Hn. auto.
    + intros p i Hp Hi. apply (exchanged procs (elements _ _ _ _ P) (E_ c) ge _ U (s_ghost (q_disp o)) NE HU); auto.
Qed.

Lemma traction_step : forall S o (U : nat -> B) view,
  (forall p i, p < procs -> i < n_all (E_ c) p -> composite (E_ c) (q_x o) (s_ghost (q_disp o)) p i = U (ge p i)) ->
  (forall p i, p < procs -> i < n_all (F_ c) p -> view p i = S (gf p i)) ->
  exists o', update_traction _ _ _ _ c view o = Some o' /\ holds procs (F_ c) gf (q_traction o') (traction_at _ _ _ _ P S U) /\
    q_x o' = q_x o /\ q_disp o' = q_disp o /\ q_state o' = q_state o /\ q_slip o' = None /\ q_dir o' = q_dir o.
Proof.
  intros S o U view HU V. destruct D as (NE & NF & Dup & Dslip & Dtr & _).
  unfold update_traction, traction. cbn [eval_slip bind]. eexists. split; [reflexivity|]. cbn.
  split; [|now repeat split]. apply each_holds. intros p i Hp Hi. destruct (Dup p i Hp Hi) as (H0 & E0 & H1 & E1).
  destruct NF as (Hle & _). specialize (Hle p Hp).
  rewrite !HU, Dtr, Dslip, V, E0, E1 by (auto; lia). reflexivity.
Qed.

Lemma qd_rhs_step : forall t s S r o, solver_solves _ _ _ _ P procs ge c -> qd_ready c o -> holds procs (F_ c) gf s S ->
  exists o' r', qd_rhs _ _ _ _ c t s r o = Some (o', r') /\ qd_ready c o' /\
    exists U, equilibrium _ _ _ _ P t S U /\ holds procs (F_ c) gf r' (state_rate _ _ _ _ P t S U) /\
      holds procs (E_ c) ge (q_x o') U /\ holds procs (F_ c) gf (q_traction o') (traction_at _ _ _ _ P S U).
Proof.
  intros t s S r o Hk Ho HS. destruct (solve_step t s S o Hk Ho HS) as (o1 & o2 & E1 & E2 & R2 & U & HE & HX & HC & V & Hdir).
  destruct (traction_step S o2 U _ HC V) as (o3 & E3 & HT & X3 & D3 & S3 & L3 & Q3).
  unfold qd_rhs. rewrite E1. cbn [bind]. rewrite E2. cbn [bind]. rewrite E3. cbn [bind].
  do 2 eexists. split; [reflexivity|]. split.
  - destruct R2 as (A1 & A2 & A3 & A4). unfold qd_ready. rewrite D3, S3, L3, Q3. auto.
  - exists U. split; [exact HE|]. rewrite X3. split; [|split; [exact HX|exact HT]]. apply each_holds. intros p i Hp Hi.
    destruct D as (_ & _ & _ & _ & _ & _ & _ & _ & _ & Drate & _). rewrite Drate, HT, HS by auto. reflexivity.
Qed.

Lemma qd_init_step : forall s S o, solver_solves _ _ _ _ P procs ge c -> qd_ready c o -> holds procs (F_ c) gf s S ->
  exists o' s', qd_initial_condition _ _ _ _ c s o = Some (o', s') /\ qd_ready c o' /\
    exists U, equilibrium _ _ _ _ P 0 (start_state _ _ _ _ P S) U /\ holds procs (F_ c) gf s' (initial_state _ _ _ _ P S U).
Proof.
  intros s S o Hk Ho HS.
  assert (HS1 : holds procs (F_ c) gf (friction_pre_init _ _ _ _ c s) (start_state _ _ _ _ P S)).
  { apply each_holds. intros p i Hp Hi. destruct D as (_ & _ & _ & _ & _ & _ & _ & Dpre & _). rewrite Dpre, HS by auto. reflexivity. }
  destruct (solve_step 0 _ _ o Hk Ho HS1) as (o1 & o2 & E1 & E2 & R2 & U & HE & HX & HC & V & Hdir).
  destruct (traction_step _ o2 U _ HC V) as (o3 & E3 & HT & X3 & D3 & S3 & L3 & Q3).
  unfold qd_initial_condition. rewrite E1. cbn [bind]. rewrite E2. cbn [bind]. rewrite E3. cbn [bind].
  do 2 eexists. split; [reflexivity|]. split.
  - destruct R2 as (A1 & A2 & A3 & A4). unfold qd_ready. rewrite D3, S3, L3, Q3. auto.
  - exists U. split; [exact HE|]. apply each_holds. intros p i Hp Hi.
    destruct D as (_ & _ & _ & _ & _ & _ & _ & _ & Dinit & _). rewrite Dinit, HT, HS1 by auto. reflexivity.
Qed.

Lemma fd_traction_step : forall u U s S o,
  (forall p i, p < procs -> i < n_all (E_ c) p -> composite (E_ c) u (s_ghost (f_disp o)) p i = U (ge p i)) ->
  (forall p i, p < procs -> i < n_all (F_ c) p -> make_state_view _ _ _ _ c s (f_state o) p i = S (gf p i)) ->
  exists o', fd_update_traction _ _ _ _ c u s o = Some o' /\ holds procs (F_ c) gf (f_traction o') (traction_at _ _ _ _ P S U) /\
    f_disp o' = f_disp o /\ f_state o' = f_state o /\ f_slip o' = None /\ f_dir o' = f_dir o.
Proof.
  intros u U s S o HU V. destruct D as (NE & NF & Dup & Dslip & Dtr & _).
  unfold fd_update_traction, traction. cbn [eval_slip bind]. eexists. split; [reflexivity|]. cbn.
  split; [|now repeat split]. apply each_holds. intros p i Hp Hi. destruct (Dup p i Hp Hi) as (H0 & E0 & H1 & E1).
  destruct NF as (Hle & _). specialize (Hle p Hp).
  rewrite !HU, Dtr, Dslip, V, E0, E1 by (auto; lia). reflexivity.
Qed.

Lemma fd_rhs_step : forall t v u s V U S dv du ds o, fd_ready c o -> op_has_wave _ _ _ _ c = true ->
  holds procs (E_ c) ge v V -> holds procs (E_ c) ge u U -> holds procs (F_ c) gf s S ->
  exists o' dv' du' ds', fd_rhs _ _ _ _ c t v u s dv du ds o = Some (o', (dv', du', ds')) /\
    holds procs (E_ c) ge dv' (acceleration _ _ _ _ P t S U) /\ holds procs (E_ c) ge du' V /\
    holds procs (F_ c) gf ds' (state_rate _ _ _ _ P t S U) /\
    holds procs (F_ c) gf (f_traction o') (traction_at _ _ _ _ P S U).
Proof.
  intros t v u s V U S dv du ds o (Hd & Hs & Hsl & Hdir) Hw HV HU HS.
  destruct D as (NE & NF & _ & Dslip & _ & _ & Dwave & _ & _ & Drate & Dbnd & _).
  assert (W : forall p i, p < procs -> i < n_all (F_ c) p ->
    make_state_view _ _ _ _ c s (wait_scatter (F_ c) {| s_sent := Some s; s_ghost := s_ghost (f_state o) |}) p i = S (gf p i))
    by (intros p i; apply (exchanged procs (faults _ _ _ _ P) (F_ c) gf s S (s_ghost (f_state o)) NF HS)).
  assert (Ed : set_dirichlet _ _ _ _ c t (f_dir o) = boundary_time _ _ _ _ P t)
    by (unfold set_dirichlet, boundary_time; rewrite <- Dbnd; destruct (op_boundary _ _ _ _ c); auto).
  unfold fd_rhs, fd_begin, begin_scatter. rewrite Hd, Hs. cbn [bind eval_slip]. rewrite Hw.
  match goal with |- context [fd_update_traction _ _ _ _ c u s ?x] => destruct (fd_traction_step u U s S x) as (o3 & E3 & HT & _) end.
  - intros p i. apply (exchanged procs (elements _ _ _ _ P) (E_ c) ge u U (s_ghost (f_disp o)) NE HU).
  - exact W.
  - rewrite E3. cbn [bind]. do 4 eexists. split; [reflexivity|]. split; [|split; [|split]].
    + apply each_holds. intros p e Hp He. cbn [eval_slip bind SeasOpModel.f_dir]. rewrite Ed. apply Dwave; auto.
      * intros i Hi. rewrite Dslip, W by auto. reflexivity.
      * intros i. apply (exchanged procs (elements _ _ _ _ P) (E_ c) ge u U u NE HU); auto.
    + apply each_holds. auto.
    + apply each_holds. intros p i Hp Hi. rewrite Drate, HT, HS by auto. reflexivity.
    + exact HT.
Qed.

Lemma initial_field_holds : forall ini INI x, op_has_wave _ _ _ _ c = true -> op_zero _ _ _ _ c = zero_block _ _ _ _ P ->
  same_field procs (E_ c) ge ini INI ->
  holds procs (E_ c) ge (initial_field _ _ _ _ c ini x) (fun g => match INI with Some f => f g | None => zero_block _ _ _ _ P end).
Proof. intros [f|] INI x Hw Hz Hm; unfold initial_field; [rewrite Hw; destruct Hm as (Y & -> & Hm)|cbn in Hm; rewrite Hm]; apply each_holds; auto. Qed.

(** The vectors that the ghosts are copied from are those before initialisation. *)
Lemma fd_init_step : forall v u s S o, fd_ready c o -> op_has_wave _ _ _ _ c = true -> holds procs (F_ c) gf s S ->
  (forall p i, p < procs -> n_own (E_ c) p <= i < n_all (E_ c) p ->
    u (fst (n_src (E_ c) p i)) (snd (n_src (E_ c) p i)) = initial_displacement _ _ _ _ P (ge p i)) ->
  (forall p i, p < procs -> n_own (F_ c) p <= i < n_all (F_ c) p ->
    s (fst (n_src (F_ c) p i)) (snd (n_src (F_ c) p i)) = start_state _ _ _ _ P S (gf p i)) ->
  exists o' v' u' s', fd_initial_condition _ _ _ _ c v u s o = Some (o', (v', u', s')) /\
    holds procs (E_ c) ge v' (initial_velocity _ _ _ _ P) /\ holds procs (E_ c) ge u' (initial_displacement _ _ _ _ P) /\
    holds procs (F_ c) gf s' (initial_state _ _ _ _ P S (initial_displacement _ _ _ _ P)).
Proof.
  intros v u s S o (Hd & Hs & Hsl & Hdir) Hw HS Gu Gs.
  destruct D as (NE & NF & _ & _ & _ & _ & _ & Dpre & Dinit & _ & _ & Dz & Du & Dv).
  pose proof (initial_field_holds (op_u_ini _ _ _ _ c) (ini_u _ _ _ _ P) u Hw Dz Du) as HU. pose proof (initial_field_holds (op_v_ini _ _ _ _ c) (ini_v _ _ _ _ P) v Hw Dz Dv) as HV.
  assert (HS1 : holds procs (F_ c) gf (friction_pre_init _ _ _ _ c s) (start_state _ _ _ _ P S)).
  { apply each_holds. intros p i Hp Hi. rewrite Dpre, HS by auto. reflexivity. }
  unfold fd_initial_condition, fd_begin, begin_scatter. rewrite Hd, Hs. cbn [bind].
  match goal with |- context [fd_update_traction _ _ _ _ c ?u' ?s' ?x] => destruct (fd_traction_step u' (initial_displacement _ _ _ _ P) s' (start_state _ _ _ _ P S) x) as (o3 & E3 & HT & _) end.
  - intros p i Hp Hi. unfold composite. destruct (i <? n_own (E_ c) p) eqn:L.
    + apply Nat.ltb_lt in L. now apply HU.
    + apply Nat.ltb_ge in L. exact (Gu p i Hp (conj L Hi)).
  - intros p i Hp Hi. unfold make_state_view, composite. destruct (i <? n_own (F_ c) p) eqn:L.
    + apply Nat.ltb_lt in L. now apply HS1.
    + apply Nat.ltb_ge in L. exact (Gs p i Hp (conj L Hi)).
  - rewrite E3. cbn [bind]. do 4 eexists. split; [reflexivity|]. split; [exact HV|]. split; [exact HU|].
    apply each_holds. intros p i Hp Hi. rewrite Dinit, HT, HS1 by auto. reflexivity.
Qed.
End OneDistribution.

(** ** No call fails and none leaves the operator in another condition *)
Lemma solve_ready : forall c t s view o, qd_ready c o -> exists o1 o2, update_ghost_state _ _ _ _ c s o = Some o1 /\
  solve _ _ _ _ c t view o1 = Some o2 /\ qd_ready c o2 /\ q_state o2 = q_state o1 /\ qd_ready c o1.
Proof.
  intros c t s view o (Hd & Hs & Hsl & Hdir). unfold update_ghost_state, begin_scatter. rewrite Hs. cbn [bind].
  do 2 eexists. split; [reflexivity|]. unfold solve. cbn [eval_slip bind SeasOpModel.q_disp]. unfold begin_scatter. rewrite Hd. cbn [bind].
  split; [reflexivity|]. repeat split; cbn; auto. intros Hn. unfold set_dirichlet. rewrite Hn. auto.
Qed.
Lemma traction_ready : forall c view o, qd_ready c o -> exists o', update_traction _ _ _ _ c view o = Some o' /\ qd_ready c o'.
Proof. intros c view o (Hd & Hs & Hsl & Hdir). unfold update_traction, traction. cbn [eval_slip bind]. eexists. split; [reflexivity|]. repeat split; cbn; auto. Qed.
Lemma qd_do_ready : forall c k o, qd_ready c o -> exists o', qd_do c k o = Some o' /\ qd_ready c o'.
Proof.
  assert (A : forall c t s o, qd_ready c o -> exists o1 o2, update_ghost_state _ _ _ _ c s o = Some o1 /\
    solve _ _ _ _ c t (make_state_view _ _ _ _ c s (q_state o1)) o1 = Some o2 /\ qd_ready c o2).
  { intros c t s o Ho. destruct (solve_ready c t s (fun p i => s p i) o Ho) as (o1 & _ & E1 & _ & _ & _ & R1).
    destruct (solve_ready c t s (make_state_view _ _ _ _ c s (q_state o1)) o Ho) as (o1' & o2 & E1' & E2 & R2 & _).
    rewrite E1 in E1'. injection E1' as <-. eauto. }
  intros c [s|t s r|t s a b d] o Ho; cbn [qd_do].
  - unfold qd_initial_condition. destruct (A c 0%R (friction_pre_init _ _ _ _ c s) o Ho) as (o1 & o2 & -> & E2 & R2). cbn [bind]. rewrite E2. cbn [bind].
    destruct (traction_ready c (make_state_view _ _ _ _ c (friction_pre_init _ _ _ _ c s) (q_state o2)) o2 R2) as (o3 & -> & R3). cbn. eauto.
  - unfold qd_rhs. destruct (A c t s o Ho) as (o1 & o2 & -> & E2 & R2). cbn [bind]. rewrite E2. cbn [bind].
    destruct (traction_ready c (make_state_view _ _ _ _ c s (q_state o2)) o2 R2) as (o3 & -> & R3). cbn. eauto.
  - unfold qd_update_internal_state. destruct (negb (a && (b || d))); [eauto|].
    destruct (A c t s o Ho) as (o1 & o2 & -> & E2 & R2). cbn [bind]. rewrite E2. cbn [bind]. destruct b; [|eauto].
    apply traction_ready, R2.
Qed.
Lemma fd_do_ready : forall c k o, fd_ready c o -> exists o', fd_do c k o = Some o' /\ fd_ready c o'.
Proof.
  intros c [v u s|t v u s dv du ds] o (Hd & Hs & Hsl & Hdir); cbn [fd_do];
    unfold fd_initial_condition, fd_rhs, fd_begin, begin_scatter, fd_update_traction, traction; rewrite Hd, Hs; cbn [bind eval_slip fst];
    eexists; (split; [reflexivity|]); repeat split; cbn; auto; intros Hn; unfold set_dirichlet; rewrite Hn; auto.
Qed.

Theorem qd_calls_succeed : forall c ks o, qd_ready c o -> exists o', qd_calls c ks o = Some o' /\ qd_ready c o'.
Proof. intros c ks. induction ks as [|k ks IH]; intros o Ho; [cbn; eauto|]. cbn. destruct (qd_do_ready c k o Ho) as (o1 & -> & R1). cbn. auto. Qed.
Theorem fd_calls_succeed : forall c ks o, fd_ready c o -> exists o', fd_calls c ks o = Some o' /\ fd_ready c o'.
Proof. intros c ks. induction ks as [|k ks IH]; intros o Ho; [cbn; eauto|]. cbn. destruct (fd_do_ready c k o Ho) as (o1 & -> & R1). cbn. auto. Qed.

(** ** Quasi-dynamic: after any calls, the rate is the one of the whole problem *)
Theorem qd_rhs_is_the_state_rate : forall (P : problem) procs ge gf c, distributes _ _ _ _ P procs ge gf c -> solver_solves _ _ _ _ P procs ge c ->
  forall ks o o', qd_ready c o -> qd_calls c ks o = Some o' -> forall t s r S, holds procs (F_ c) gf s S ->
  exists o2 r', qd_rhs _ _ _ _ c t s r o' = Some (o2, r') /\
    exists U, equilibrium _ _ _ _ P t S U /\ holds procs (F_ c) gf r' (state_rate _ _ _ _ P t S U) /\
      holds procs (E_ c) ge (q_x o2) U /\ holds procs (F_ c) gf (q_traction o2) (traction_at _ _ _ _ P S U).
Proof.
  intros P procs ge gf c HD Hk ks o o' Ho Hc t s r S HS. destruct (qd_calls_succeed c ks o Ho) as (o1 & E & R1). rewrite Hc in E. injection E as <-.
  destruct (qd_rhs_step P procs ge gf c HD t s S r o' Hk R1 HS) as (o2 & r' & E & _ & H). eauto.
Qed.
Theorem qd_initial_condition_is_initial : forall (P : problem) procs ge gf c, distributes _ _ _ _ P procs ge gf c -> solver_solves _ _ _ _ P procs ge c ->
  forall ks o o', qd_ready c o -> qd_calls c ks o = Some o' -> forall s S, holds procs (F_ c) gf s S ->
  exists o2 s', qd_initial_condition _ _ _ _ c s o' = Some (o2, s') /\
    exists U, equilibrium _ _ _ _ P 0 (start_state _ _ _ _ P S) U /\ holds procs (F_ c) gf s' (initial_state _ _ _ _ P S U).
Proof.
  intros P procs ge gf c HD Hk ks o o' Ho Hc s S HS. destruct (qd_calls_succeed c ks o Ho) as (o1 & E & R1). rewrite Hc in E. injection E as <-.
  destruct (qd_init_step P procs ge gf c HD s S o' Hk R1 HS) as (o2 & s' & E & _ & H). eauto.
Qed.
(** What the output of a step uses (SeasQDOperator::displacement and ::state): brought up to date. *)
Theorem qd_update_brings_up_to_date : forall (P : problem) procs ge gf c, distributes _ _ _ _ P procs ge gf c -> solver_solves _ _ _ _ P procs ge c ->
  forall ks o o', qd_ready c o -> qd_calls c ks o = Some o' -> forall t s S tr disp, holds procs (F_ c) gf s S -> tr = true \/ disp = true ->
  exists o2, qd_update_internal_state _ _ _ _ c t s true tr disp o' = Some o2 /\
    exists U, equilibrium _ _ _ _ P t S U /\ holds procs (E_ c) ge (q_x o2) U /\
      (tr = true -> holds procs (F_ c) gf (q_traction o2) (traction_at _ _ _ _ P S U)).
Proof.
  intros P procs ge gf c HD Hk ks o o' Ho Hc t s S tr disp HS Hor. destruct (qd_calls_succeed c ks o Ho) as (o0 & E & R1). rewrite Hc in E. injection E as <-.
  destruct (solve_step P procs ge gf c HD t s S o' Hk R1 HS) as (o1 & o2 & E1 & E2 & R2 & U & HE & HX & HC & V & Hdir).
  unfold qd_update_internal_state. replace (negb (true && (tr || disp))) with false by (destruct Hor as [-> | ->]; [reflexivity|now rewrite orb_true_r]).
  rewrite E1. cbn [bind]. rewrite E2. cbn [bind]. destruct tr.
  - destruct (traction_step P procs ge gf c HD S o2 U _ HC V) as (o3 & E3 & HT & X3 & _). exists o3. split; [exact E3|]. exists U. rewrite X3. auto.
  - exists o2. split; [reflexivity|]. exists U. easy.
Qed.
(** Two runs of the same problem with different distributions and different histories. *)
Theorem qd_rhs_independent_of_distribution_and_history : forall (P : problem),
  unique_equilibrium _ _ _ _ P -> sides_in_range _ _ _ _ P ->
  forall procs1 ge1 gf1 c1 procs2 ge2 gf2 c2,
  distributes _ _ _ _ P procs1 ge1 gf1 c1 -> solver_solves _ _ _ _ P procs1 ge1 c1 ->
  distributes _ _ _ _ P procs2 ge2 gf2 c2 -> solver_solves _ _ _ _ P procs2 ge2 c2 ->
  forall ks1 o1 o1' ks2 o2 o2', qd_ready c1 o1 -> qd_calls c1 ks1 o1 = Some o1' -> qd_ready c2 o2 -> qd_calls c2 ks2 o2 = Some o2' ->
  forall t s1 s2 r1 r2 S, holds procs1 (F_ c1) gf1 s1 S -> holds procs2 (F_ c2) gf2 s2 S ->
  forall o1'' o2'' r1' r2', qd_rhs _ _ _ _ c1 t s1 r1 o1' = Some (o1'', r1') -> qd_rhs _ _ _ _ c2 t s2 r2 o2' = Some (o2'', r2') ->
  forall p1 i1 p2 i2, p1 < procs1 -> i1 < n_own (F_ c1) p1 -> p2 < procs2 -> i2 < n_own (F_ c2) p2 ->
    gf1 p1 i1 = gf2 p2 i2 -> r1' p1 i1 = r2' p2 i2.
Proof.
  intros P Hu Hsr procs1 ge1 gf1 c1 procs2 ge2 gf2 c2 D1 K1 D2 K2 ks1 o1 o1' ks2 o2 o2' R1 C1 R2 C2 t s1 s2 r1 r2 S H1 H2 o1'' o2'' r1' r2' E1 E2 p1 i1 p2 i2 Hp1 Hi1 Hp2 Hi2 Eg.
  destruct (qd_rhs_is_the_state_rate P procs1 ge1 gf1 c1 D1 K1 ks1 o1 o1' R1 C1 t s1 r1 S H1) as (oa & ra & Ea & U & EU & HU & _).
  destruct (qd_rhs_is_the_state_rate P procs2 ge2 gf2 c2 D2 K2 ks2 o2 o2' R2 C2 t s2 r2 S H2) as (ob & rb & Eb & V & EV & HV & _).
  rewrite E1 in Ea. injection Ea as <- <-. rewrite E2 in Eb. injection Eb as <- <-.
  rewrite (HU p1 i1 Hp1 Hi1), (HV p2 i2 Hp2 Hi2), <- Eg. unfold state_rate, traction_at.
  assert (Q : forall g, g < elements _ _ _ _ P -> U g = V g) by (apply Hu; intros g Hg; now rewrite (EU g Hg), (EV g Hg)).
  destruct D1 as (_ & (Hle & Hr & _) & _). specialize (Hle p1 Hp1). destruct (Hsr (gf1 p1 i1)) as (A & A'); [apply Hr; auto; lia|].
  now rewrite !Q.
Qed.

(** ** Fully dynamic *)
Theorem fd_rhs_is_the_rate : forall (P : problem) procs ge gf c, distributes _ _ _ _ P procs ge gf c -> op_has_wave _ _ _ _ c = true ->
  forall ks o o', fd_ready c o -> fd_calls c ks o = Some o' ->
  forall t v u s V U S Fv, holds procs (E_ c) ge v V -> holds procs (E_ c) ge u U -> holds procs (F_ c) gf s S ->
  exists o2 dv du ds, fd_RHSFunction _ _ _ _ c t (v, u, s) Fv o' = Some (o2, (dv, du, ds)) /\
    holds procs (E_ c) ge dv (acceleration _ _ _ _ P t S U) /\ holds procs (E_ c) ge du V /\
    holds procs (F_ c) gf ds (state_rate _ _ _ _ P t S U) /\
    holds procs (F_ c) gf (fst (fd_boundary_output _ _ _ s o2)) (traction_at _ _ _ _ P S U).
Proof.
  intros P procs ge gf c HD Hw ks o o' Ho Hc t v u s V U S ((x3 & x4) & x5) HV HU HS. destruct (fd_calls_succeed c ks o Ho) as (o1 & E & R1). rewrite Hc in E. injection E as <-.
  exact (fd_rhs_step P procs ge gf c HD t v u s V U S x3 x4 x5 o' R1 Hw HV HU HS).
Qed.
(** Corollary: neither the distribution nor the history matters. *)
Theorem fd_rhs_independent_of_distribution_and_history : forall (P : problem) procs1 ge1 gf1 c1 procs2 ge2 gf2 c2,
  distributes _ _ _ _ P procs1 ge1 gf1 c1 -> op_has_wave _ _ _ _ c1 = true -> distributes _ _ _ _ P procs2 ge2 gf2 c2 -> op_has_wave _ _ _ _ c2 = true ->
  forall ks1 o1 o1' ks2 o2 o2', fd_ready c1 o1 -> fd_calls c1 ks1 o1 = Some o1' -> fd_ready c2 o2 -> fd_calls c2 ks2 o2 = Some o2' ->
  forall t v1 u1 s1 v2 u2 s2 F1 F2 V U S, holds procs1 (E_ c1) ge1 v1 V -> holds procs1 (E_ c1) ge1 u1 U -> holds procs1 (F_ c1) gf1 s1 S ->
  holds procs2 (E_ c2) ge2 v2 V -> holds procs2 (E_ c2) ge2 u2 U -> holds procs2 (F_ c2) gf2 s2 S ->
  forall o1'' o2'' dv1 du1 ds1 dv2 du2 ds2, fd_RHSFunction _ _ _ _ c1 t (v1, u1, s1) F1 o1' = Some (o1'', (dv1, du1, ds1)) ->
    fd_RHSFunction _ _ _ _ c2 t (v2, u2, s2) F2 o2' = Some (o2'', (dv2, du2, ds2)) ->
  forall p1 p2, p1 < procs1 -> p2 < procs2 ->
    (forall e1 e2, e1 < n_own (E_ c1) p1 -> e2 < n_own (E_ c2) p2 -> ge1 p1 e1 = ge2 p2 e2 -> dv1 p1 e1 = dv2 p2 e2 /\ du1 p1 e1 = du2 p2 e2) /\
    (forall i1 i2, i1 < n_own (F_ c1) p1 -> i2 < n_own (F_ c2) p2 -> gf1 p1 i1 = gf2 p2 i2 -> ds1 p1 i1 = ds2 p2 i2).
Proof.
  intros P procs1 ge1 gf1 c1 procs2 ge2 gf2 c2 D1 W1 D2 W2 ks1 o1 o1' ks2 o2 o2' R1 C1 R2 C2 t v1 u1 s1 v2 u2 s2 F1 F2 V U S Hv1 Hu1 Hs1 Hv2 Hu2 Hs2 o1'' o2'' dv1 du1 ds1 dv2 du2 ds2 E1 E2 p1 p2 Hp1 Hp2.
  destruct (fd_rhs_is_the_rate P procs1 ge1 gf1 c1 D1 W1 ks1 o1 o1' R1 C1 t v1 u1 s1 V U S F1 Hv1 Hu1 Hs1) as (? & ? & ? & ? & Ea & A1 & B1 & G1 & _).
  destruct (fd_rhs_is_the_rate P procs2 ge2 gf2 c2 D2 W2 ks2 o2 o2' R2 C2 t v2 u2 s2 V U S F2 Hv2 Hu2 Hs2) as (? & ? & ? & ? & Eb & A2 & B2 & G2 & _).
  rewrite E1 in Ea. injection Ea as <- <- <- <-. rewrite E2 in Eb. injection Eb as <- <- <- <-. split.
  - intros e1 e2 H1 H2 Eg. now rewrite (A1 _ _ Hp1 H1), (A2 _ _ Hp2 H2), (B1 _ _ Hp1 H1), (B2 _ _ Hp2 H2), Eg.
  - intros i1 i2 H1 H2 Eg. now rewrite (G1 _ _ Hp1 H1), (G2 _ _ Hp2 H2), Eg.
Qed.
(** The initial condition, when no rank has ghosts (one rank) or when the vectors already hold the
    initial displacement and start values. *)
Theorem fd_initial_condition_is_initial : forall (P : problem) procs ge gf c, distributes _ _ _ _ P procs ge gf c -> op_has_wave _ _ _ _ c = true ->
  forall ks o o', fd_ready c o -> fd_calls c ks o = Some o' -> forall v u s S, holds procs (F_ c) gf s S ->
  (forall p, p < procs -> n_all (E_ c) p = n_own (E_ c) p /\ n_all (F_ c) p = n_own (F_ c) p) \/
  (holds procs (E_ c) ge u (initial_displacement _ _ _ _ P) /\ forall f, f < faults _ _ _ _ P -> start_state _ _ _ _ P S f = S f) ->
  exists o2 v' u' s', fd_initial_condition _ _ _ _ c v u s o' = Some (o2, (v', u', s')) /\
    holds procs (E_ c) ge v' (initial_velocity _ _ _ _ P) /\ holds procs (E_ c) ge u' (initial_displacement _ _ _ _ P) /\
    holds procs (F_ c) gf s' (initial_state _ _ _ _ P S (initial_displacement _ _ _ _ P)).
Proof.
  intros P procs ge gf c HD Hw ks o o' Ho Hc v u s S HS Hg. destruct (fd_calls_succeed c ks o Ho) as (o1 & E & R1). rewrite Hc in E. injection E as <-.
  apply (fd_init_step P procs ge gf c HD v u s S o' R1 Hw HS).
  - intros p i Hp Hi. destruct Hg as [Hg|[Hu _]]; [destruct (Hg p Hp); lia|].
    destruct HD as ((_ & _ & _ & _ & Hsrc) & _). destruct (Hsrc p i Hp Hi) as (A & A' & <-). now apply Hu.
  - intros p i Hp Hi. destruct Hg as [Hg|[_ Hst]]; [destruct (Hg p Hp); lia|].
    destruct HD as (_ & (_ & Hr & _ & _ & Hsrc) & _). destruct (Hsrc p i Hp Hi) as (A & A' & Eq). rewrite Hst by (apply Hr; [auto|lia]). rewrite <- Eq. now apply HS.
Qed.
(** Without a wave equation in the local operator (DGOperator.h:245-249; Poisson has none) the rate of
    the velocity is whatever the vector held before. *)
Theorem fd_rhs_without_wave_equation_refuted : forall (c : seas) t v u s dv du ds o o' dv' du' ds', op_has_wave _ _ _ _ c = false ->
  fd_RHSFunction _ _ _ _ c t (v, u, s) (dv, du, ds) o = Some (o', (dv', du', ds')) -> dv' = dv.
Proof.
  intros c t v u s dv du ds o o' dv' du' ds' Hw E. unfold fd_RHSFunction, fd_rhs in E. destruct (fd_begin _ _ _ _ _); [|discriminate].
  cbn [bind eval_slip] in E. rewrite Hw in E. destruct (fd_update_traction _ _ _ _ _ _ _ _); [|discriminate]. cbn [bind] in E. now injection E as _ <-.
Qed.
End Props.
