(** A problem of two elements with one fault facet between them, on one rank and on two, for C83; and
    what the fully dynamic operator gets wrong. *)
Require Import List Arith Bool Reals Lia Lra.
Require Import Verif.Base Verif.SeasOpModel Verif.SeasOpSpec Verif.SeasOpProps.
Import ListNotations.
Local Open Scope opt_scope.

Definition exP : problem R R R R := {|
  elements := 2; faults := 1; side0 := fun _ => 0; side1 := fun _ => 1;
  slip_of := fun _ s => s; traction_of := fun _ u0 u1 s => (u1 - u0 - s)%R;
  load_of := fun g S d => (match g with 0 => - S 0%nat | _ => S 0%nat + match d with Some t => t | None => 0 end end)%R;
  stiffness := fun u g => (match g with 0 => 2 * u 0%nat - u 1%nat | _ => 2 * u 1%nat - u 0%nat end)%R;
  wave_of := fun g S d u => (match g with 0 => u 1%nat - u 0%nat - S 0%nat | _ => u 0%nat - u 1%nat + S 0%nat end)%R;
  start_of := fun _ _ => 0%R; init_of := fun _ _ tr s => (s + tr)%R; rate_of := fun _ t tr s => (t + tr - s)%R;
  has_boundary_data := true; ini_u := Some INR; ini_v := None; zero_block := 0%R |}.

(** Two ranks with one element each; the fault facet belongs to rank 0. *)
Definition exE2 : numbering := {| n_own := fun _ => 1; n_all := fun _ => 2; n_src := fun p _ => (1 - p, 0) |}.
Definition exF2 : numbering := {| n_own := fun p => 1 - p; n_all := fun _ => 1; n_src := fun _ _ => (0, 0) |}.
Definition exge2 (p i : nat) : nat := match p, i with 0, 0 => 0 | 0, _ => 1 | _, 0 => 1 | _, _ => 0 end.
Definition exgf (p i : nat) : nat := 0.
Definition exc2 (wave : bool) : seas R R R R := {|
  E_ := exE2; F_ := exF2; up_0 := fun p _ => p; up_1 := fun p _ => 1 - p;
  op_slip := fun _ _ s => s; op_traction := fun _ _ u0 u1 s => (u1 - u0 - s)%R;
  op_load := fun p e sl d => load_of _ _ _ _ exP (exge2 p e) (fun _ => sl 0) d;
  op_wave := fun p e sl d u => wave_of _ _ _ _ exP (exge2 p e) (fun _ => sl 0) d (fun g => u (exge2 p g));
  op_has_wave := wave; op_pre_init := fun _ _ _ => 0%R; op_init := fun _ _ _ tr s => (s + tr)%R; op_rate := fun _ _ t tr s => (t + tr - s)%R;
  op_boundary := true; op_u_ini := Some (fun p i => INR (exge2 p i)); op_v_ini := None; op_zero := 0%R;
  op_ksp := fun b _ p _ => (match p with 0 => (2 * b 0%nat 0%nat + b 1%nat 0%nat) / 3 | _ => (b 0%nat 0%nat + 2 * b 1%nat 0%nat) / 3 end)%R |}.
(** One rank. *)
Definition exE1 : numbering := {| n_own := fun _ => 2; n_all := fun _ => 2; n_src := fun _ _ => (0, 0) |}.
Definition exF1 : numbering := {| n_own := fun _ => 1; n_all := fun _ => 1; n_src := fun _ _ => (0, 0) |}.
Definition exge1 (p i : nat) : nat := i.
Definition exc1 : seas R R R R := {|
  E_ := exE1; F_ := exF1; up_0 := fun _ _ => 0; up_1 := fun _ _ => 1;
  op_slip := fun _ _ s => s; op_traction := fun _ _ u0 u1 s => (u1 - u0 - s)%R;
  op_load := fun p e sl d => load_of _ _ _ _ exP e (fun _ => sl 0) d;
  op_wave := fun p e sl d u => wave_of _ _ _ _ exP e (fun _ => sl 0) d u;
  op_has_wave := true; op_pre_init := fun _ _ _ => 0%R; op_init := fun _ _ _ tr s => (s + tr)%R; op_rate := fun _ _ t tr s => (t + tr - s)%R;
  op_boundary := true; op_u_ini := Some (fun _ i => INR i); op_v_ini := None; op_zero := 0%R;
  op_ksp := fun b _ _ i => (match i with 0 => (2 * b 0%nat 0%nat + b 0%nat 1%nat) / 3 | _ => (b 0%nat 0%nat + 2 * b 0%nat 1%nat) / 3 end)%R |}.

Ltac small := repeat match goal with
  | H : ?n < 0 |- _ => lia
  | H : ?n < S ?m |- _ => destruct n as [|n]; [clear H|apply Nat.succ_lt_mono in H] end.
Lemma exE2_numbered : numbered 2 2 exE2 exge2.
Proof.
  split; [cbn; intros; lia|]. split; [cbn; intros p i Hp Hi; small; cbn; lia|].
  split; [intros g Hg; small; [exists 0, 0|exists 1, 0]; cbn; repeat split; lia|].
  split; [cbn; intros p i q j Hp Hq Hi Hj E; small; cbn in E; try discriminate; auto|].
  cbn. intros p i Hp [Hl Hi]. small; cbn; repeat split; lia.
Qed.
Lemma exF2_numbered : numbered 2 1 exF2 exgf.
Proof.
  split; [intros p Hp; small; cbn; lia|]. split; [intros p i Hp Hi; unfold exgf; lia|].
  split; [intros g Hg; small; exists 0, 0; cbn; repeat split; lia|].
  split; [intros p i q j Hp Hq Hi Hj E; cbn [n_own exF2] in Hi, Hj; lia|].
  intros p i Hp [Hl Hi]. small; cbn in *; repeat split; lia.
Qed.
Lemma exE1_numbered : numbered 1 2 exE1 exge1.
Proof.
  split; [cbn; intros; lia|]. split; [cbn; intros p i Hp Hi; exact Hi|].
  split; [intros g Hg; exists 0, g; cbn; repeat split; lia|].
  split; [cbn; unfold exge1; intros; lia|]. cbn. intros; lia.
Qed.
Lemma exF1_numbered : numbered 1 1 exF1 exgf.
Proof.
  split; [cbn; intros; lia|]. split; [cbn; unfold exgf; intros; lia|].
  split; [intros g Hg; exists 0, 0; unfold exgf; cbn; repeat split; lia|].
  split; [cbn; intros; lia|]. cbn. intros; lia.
Qed.
Example ex_two_ranks : forall w, distributes _ _ _ _ exP 2 exge2 exgf (exc2 w).
Proof.
  intros w. split; [exact exE2_numbered|]. split; [exact exF2_numbered|].
  split; [intros p i Hp Hi; assert (p = 0 /\ i = 0) as [-> ->] by (cbn [F_ exc2 n_own exF2] in Hi; lia); cbn; repeat split; lia|].
  split; [reflexivity|]. split; [reflexivity|].
  split; [cbn; intros p e sl SL d Hp He Hsl; small; cbn; now rewrite Hsl by lia|].
  split; [cbn; intros p e sl SL d u U Hp He Hsl Hu; small; cbn; rewrite Hsl, !Hu by lia; reflexivity|].
  split; [reflexivity|]. split; [reflexivity|]. split; [reflexivity|]. split; [reflexivity|]. split; [reflexivity|].
  split; [exists INR; split; [reflexivity|intros p i _ _; reflexivity]|reflexivity].
Qed.
Example ex_one_rank : distributes _ _ _ _ exP 1 exge1 exgf exc1.
Proof.
  split; [exact exE1_numbered|]. split; [exact exF1_numbered|].
  split; [cbn; intros p i Hp Hi; repeat split; lia|].
  split; [reflexivity|]. split; [reflexivity|].
  split; [cbn; intros p e sl SL d Hp He Hsl; unfold exge1; now rewrite Hsl by lia|].
  split; [cbn; intros p e sl SL d u U Hp He Hsl Hu; unfold exge1 in *; rewrite Hsl, !Hu by lia; reflexivity|].
  split; [reflexivity|]. split; [reflexivity|]. split; [reflexivity|]. split; [reflexivity|]. split; [reflexivity|].
  split; [exists INR; split; [reflexivity|intros p i _ _; reflexivity]|reflexivity].
Qed.
Example ex_solver2 : forall w, solver_solves _ _ _ _ exP 2 exge2 (exc2 w).
Proof.
  intros w b x0 G Hb. exists (fun g => op_ksp _ _ _ _ (exc2 w) b x0 g 0).
  pose proof (Hb 0 0 ltac:(lia) ltac:(cbn; lia)) as B0. pose proof (Hb 1 0 ltac:(lia) ltac:(cbn; lia)) as B1. cbn in B0, B1. split.
  - intros p i Hp Hi. cbn in Hi. small; reflexivity.
  - intros g Hg. cbn in Hg. small; cbn; rewrite B0, B1; lra.
Qed.
Example ex_solver1 : solver_solves _ _ _ _ exP 1 exge1 exc1.
Proof.
  intros b x0 G Hb. exists (fun g => op_ksp _ _ _ _ exc1 b x0 0 g).
  pose proof (Hb 0 0 ltac:(lia) ltac:(cbn; lia)) as B0. pose proof (Hb 0 1 ltac:(lia) ltac:(cbn; lia)) as B1. cbn in B0, B1. split.
  - intros p i Hp Hi. cbn in Hi. small; reflexivity.
  - intros g Hg. cbn in Hg. small; cbn; unfold exge1 in *; rewrite B0, B1; lra.
Qed.
Example ex_unique : unique_equilibrium _ _ _ _ exP.
Proof. intros U V H. pose proof (H 0 ltac:(cbn; lia)) as H0. pose proof (H 1 ltac:(cbn; lia)) as H1. cbn in H0, H1. intros g Hg. cbn in Hg. small; lra. Qed.
Example ex_sides : sides_in_range _ _ _ _ exP.
Proof. intros f Hf. cbn. lia. Qed.

(** Constructed operators; vectors hold zero. *)
Definition z2 : dvec R := fun _ _ => 0%R.
Definition sc0 : scatter R := {| s_sent := None; s_ghost := z2 |}.
Definition exqd : qd R R R := {| q_x := z2; q_disp := sc0; q_state := sc0; q_traction := z2; q_slip := None; q_dir := None |}.
Definition exfd : fd R R R := {| f_traction := z2; f_disp := sc0; f_state := sc0; f_slip := None; f_dir := None |}.
Example ex_qd_ready : forall c : seas R R R R, qd_ready c exqd.
Proof. repeat split. Qed.
Example ex_fd_ready : forall c : seas R R R R, fd_ready c exfd.
Proof. repeat split. Qed.

(** The rate of fault state 6 at time 9 on two ranks after other calls: u = (1, 8), traction 1, rate 4. *)
Example ex_qd_rate : forall o', qd_calls (exc2 true) [QInit R z2; QRhs R 3 (fun _ _ => 4%R) z2; QUpdate R 5 (fun _ _ => 1%R) true false true] exqd = Some o' ->
  exists o2 r', qd_rhs _ _ _ _ (exc2 true) 9 (fun _ _ => 6%R) z2 o' = Some (o2, r') /\ r' 0 0 = 4%R.
Proof.
  intros o' Hc. destruct (qd_rhs_is_the_state_rate exP 2 exge2 exgf (exc2 true) (ex_two_ranks true) (ex_solver2 true) _ _ _ (ex_qd_ready _) Hc 9%R (fun _ _ => 6%R) z2 (fun _ => 6%R))
    as (o2 & r' & E & U & EU & HU & _); [now intros p i|].
  exists o2, r'. split; [exact E|]. rewrite (HU 0 0 ltac:(lia) ltac:(cbn; lia)). unfold state_rate, traction_at, slips. cbn.
  pose proof (EU 0 ltac:(cbn; lia)) as E0. pose proof (EU 1 ltac:(cbn; lia)) as E1. cbn in E0, E1. unfold slips in E0, E1. cbn in E0, E1. lra.
Qed.

(** ** SeasFDOperator::initial_condition copies the ghosts before it sets the displacement *)
(** On one rank the initial state of the fault facet is 1 (the jump of the initial displacement); on two
    ranks it is 0. *)
Theorem fd_initial_condition_on_two_ranks_refuted :
  (exists o v u s, fd_initial_condition _ _ _ _ exc1 z2 z2 z2 exfd = Some (o, (v, u, s)) /\ s 0 0 = 1%R) /\
  (exists o v u s, fd_initial_condition _ _ _ _ (exc2 true) z2 z2 z2 exfd = Some (o, (v, u, s)) /\ s 0 0 = 0%R) /\
  initial_state _ _ _ _ exP (fun _ => 0%R) (initial_displacement _ _ _ _ exP) 0 = 1%R.
Proof.
  split; [|split].
  - do 4 eexists. split; [reflexivity|]. cbn. lra.
  - do 4 eexists. split; [reflexivity|]. cbn. unfold z2. lra.
  - unfold initial_state, traction_at, slips, start_state. cbn. lra.
Qed.
(** ** The monitor of the fully dynamic mode writes the traction of the last rate evaluation *)
(** A stage of the integrator at displacement [u'] before the accepted state [u]: the boundary output
    at [u] has the traction of [u'].  Only if the last evaluation was at [u] itself (first same as last)
    it is current: fd_rhs_is_the_rate. *)
Theorem fd_boundary_output_is_stale_refuted :
  exists t u' s' dv du ds o2 r, fd_rhs _ _ _ _ exc1 t z2 u' s' dv du ds exfd = Some (o2, r) /\
    exists s U S, holds 1 (E_ _ _ _ _ exc1) exge1 (fun _ i => INR i) U /\ holds 1 (F_ _ _ _ _ exc1) exgf s S /\
      fst (fd_boundary_output _ _ _ s o2) 0 0 <> traction_at _ _ _ _ exP S U 0.
Proof.
  exists 0%R, z2, z2, z2, z2, z2. do 2 eexists. split; [reflexivity|]. exists z2, INR, (fun _ => 0%R).
  split; [now intros p i|]. split; [now intros p i|]. cbn. unfold traction_at, slips, z2. cbn. lra.
Qed.
Theorem fd_poisson_velocity_rate_refuted :
  exists t v u s dv o r, fd_RHSFunction _ _ _ _ (exc2 false) t (v, u, s) (dv, z2, z2) exfd = Some (o, r) /\
    fst (fst r) 0 0 = 7%R /\ acceleration _ _ _ _ exP t (fun _ => 0%R) (fun _ => 0%R) 0 = 0%R.
Proof. exists 0%R, z2, z2, z2, (fun _ _ => 7%R). do 2 eexists. split; [reflexivity|]. cbn. unfold acceleration, slips. cbn. split; lra. Qed.
