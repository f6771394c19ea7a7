(** Models app/tandem/AdaptiveOutputStrategy.h, the output bookkeeping of app/tandem/Writer.h,
    app/tandem/Monitor.cpp and the state handling of app/form/SeasQDOperator.cpp and
    app/form/SeasQDDiscreteGreenOperator.cpp.  Times and slip rates are exact reals. *)
Require Import List Reals Bool.
Import ListNotations.
Local Open Scope R_scope.

Record interval := { atol : R; rtol : R; t_min : R; t_max : R }.

Definition rlt (a b : R) : bool := if Rlt_dec a b then true else false.
Definition rle (a b : R) : bool := if Rle_dec a b then true else false.

(** app/tandem/AdaptiveOutputStrategy.h:15-19. *)
Definition interval_call (oi : interval) (delta_time last_VMax VMax : R) : bool :=
  let tol := atol oi + Rmax last_VMax VMax * rtol oi in
  let lte := Rabs (VMax - last_VMax) / tol in
  rlt (t_max oi) delta_time || (rlt (t_min oi) delta_time && rle 1 lte).

(** app/tandem/Writer.h:34-39 DataLevel. *)
Inductive level := Scalar | Boundary | Volume | MomentRate.

(** app/tandem/Writer.h:82-88: the state of a writer.  [w_skip] models the member
    received_first_step_ of MomentRateWriter (true: the next increase_step does nothing). *)
Record writer := { w_level : level; w_oi : interval; w_step : nat; w_time : R; w_vmax : R; w_skip : bool }.

(** app/tandem/Writer.h:49-52 [is_write_required]. *)
Definition is_write_required (w : writer) (time VMax : R) : bool :=
  interval_call (w_oi w) (time - w_time w) (w_vmax w) VMax.

(** app/tandem/Writer.h:60-64 [increase_step], and 336-342 for MomentRateWriter. *)
Definition increase_step (w : writer) (time VMax : R) : writer :=
  if w_skip w then
    {| w_level := w_level w; w_oi := w_oi w; w_step := w_step w; w_time := w_time w;
       w_vmax := w_vmax w; w_skip := false |}
  else
    {| w_level := w_level w; w_oi := w_oi w; w_step := S (w_step w); w_time := time;
       w_vmax := VMax; w_skip := false |}.

(** A new writer; [lowest] is std::numeric_limits<double>::lowest(). *)
Definition new_writer (lowest : R) (l : level) (oi : interval) : writer :=
  {| w_level := l; w_oi := oi; w_step := 0; w_time := lowest; w_vmax := 0;
     w_skip := match l with MomentRate => true | _ => false end |}.

(** One writer seen on its own: what Monitor.cpp:33-58 does with it at each call (time, VMax).
    The result lists, per call, the step number under which output was written, if any. *)
Fixpoint calls (w : writer) (cs : list (R * R)) : list (option nat) * writer :=
  match cs with
  | [] => ([], w)
  | (t, v) :: r =>
      if is_write_required w t v then
        let '(o, w') := calls (increase_step w t v) r in (Some (w_step w) :: o, w')
      else let '(o, w') := calls w r in (None :: o, w')
  end.

Section Operator.
  (** State of the time integrator, slip part of it, displacement, traction, moment rates. *)
  Variables S Sl U Tr M : Type.
  Variable slip : S -> Sl.
  (** The linear solve for given time (Dirichlet data) and slip: SeasQDOperator.cpp:57-67; the
      evaluation of the traction from displacement and slip: SeasQDOperator.cpp:69-74; both with
      the ghost exchange done.  The solver is modelled as a function (converged solution). *)
  Variable solve : R -> Sl -> U.
  Variable trac : U -> Sl -> Tr.
  (** Traction by matrix-vector product: SeasQDDiscreteGreenOperator.cpp:115-127. *)
  Variable gtrac : R -> Sl -> Tr.
  (** Peak slip rate and moment rates computed by FrictionOperator::rhs (FrictionOperator.h:90-133)
      and the peak slip rate computed by init (60-88). *)
  Variable rhs_vmax : R -> Tr -> S -> R.
  Variable rhs_moment : R -> Tr -> S -> M.
  Variable init_vmax : R -> Tr -> S -> R.
  (** RateAndState.h:110-121 pre_init and 123-153 init: set slip, set psi. *)
  Variable pre_init : S -> S.
  Variable init_psi : R -> Tr -> S -> S.
  (** Which operator: SeasQDOperator or SeasQDDiscreteGreenOperator. *)
  Variable green : bool.

  Record op := { disp : U; traction : Tr; vmax : R; moment : M }.

  (** SeasQDOperator.cpp:24-32, SeasQDDiscreteGreenOperator.h initial_condition. *)
  Definition initial_condition (o : op) (s : S) : op * S :=
    let s := pre_init s in
    if green then
      let tr := gtrac 0 (slip s) in
      ({| disp := disp o; traction := tr; vmax := init_vmax 0 tr s; moment := moment o |}, init_psi 0 tr s)
    else
      let u := solve 0 (slip s) in
      let tr := trac u (slip s) in
      ({| disp := u; traction := tr; vmax := init_vmax 0 tr s; moment := moment o |}, init_psi 0 tr s).

  (** SeasQDOperator.cpp:34-40, SeasQDDiscreteGreenOperator.h rhs. *)
  Definition rhs (o : op) (time : R) (s : S) : op :=
    if green then
      let tr := gtrac time (slip s) in
      {| disp := disp o; traction := tr; vmax := rhs_vmax time tr s; moment := rhs_moment time tr s |}
    else
      let u := solve time (slip s) in
      let tr := trac u (slip s) in
      {| disp := u; traction := tr; vmax := rhs_vmax time tr s; moment := rhs_moment time tr s |}.

  (** SeasQDOperator.cpp:42-55 and SeasQDDiscreteGreenOperator.cpp:95-113. *)
  Definition update_internal_state (o : op) (time : R) (s : S) (changed need_t need_u : bool) : op :=
    if green then
      let o1 := if changed && need_t
                then {| disp := disp o; traction := gtrac time (slip s); vmax := vmax o; moment := moment o |}
                else o in
      if need_u then {| disp := solve time (slip s); traction := traction o1; vmax := vmax o1; moment := moment o1 |}
      else o1
    else if changed && (need_t || need_u) then
      let u := solve time (slip s) in
      {| disp := u; traction := if need_t then trac u (slip s) else traction o; vmax := vmax o; moment := moment o |}
    else o.

  (** What a writer receives: Monitor.cpp:33-57. *)
  Inductive output :=
  | OutScalar (time v : R)
  | OutBoundary (time : R) (tr : Tr) (s : S)
  | OutVolume (time : R) (u : U)
  | OutMoment (time : R) (m : M).

  Definition level_eqb (a b : level) : bool :=
    match a, b with
    | Scalar, Scalar | Boundary, Boundary | Volume, Volume | MomentRate, MomentRate => true
    | _, _ => false
    end.

  Definition output_of (o : op) (time VMax : R) (s : S) (l : level) : output :=
    match l with
    | Scalar => OutScalar time VMax
    | Boundary => OutBoundary time (traction o) s
    | Volume => OutVolume time (disp o)
    | MomentRate => OutMoment time (moment o)
    end.

  (** Monitor.cpp:20-63 [MonitorQD::monitor]; VMax is reduced before the internal state is
      updated.  The result lists one entry per writer: the output written, if any. *)
  Definition monitor (fsal : bool) (o : op) (ws : list writer) (time : R) (s : S)
    : op * list writer * list (option output) :=
    let VMax := vmax o in
    let req l := existsb (fun w => is_write_required w time VMax && level_eqb (w_level w) l) ws in
    let o' := update_internal_state o time s (negb fsal) (req Boundary) (req Volume) in
    (o',
     map (fun w => if is_write_required w time VMax then increase_step w time VMax else w) ws,
     map (fun w => if is_write_required w time VMax
                   then Some (output_of o' time VMax s (w_level w)) else None) ws).

  (** A run: initial condition, right-hand sides and monitor calls in any order; the times and
      states are those the time integrator chooses. *)
  Inductive event := EInit (s : S) | ERhs (time : R) (s : S) | EMonitor (time : R) (s : S).
  Definition step (fsal : bool) (c : op * list writer) (e : event) : op * list writer :=
    match e with
    | EInit s => (fst (initial_condition (fst c) s), snd c)
    | ERhs t s => (rhs (fst c) t s, snd c)
    | EMonitor t s => let '(o, ws, _) := monitor fsal (fst c) (snd c) t s in (o, ws)
    end.
  Definition run_events (fsal : bool) (c : op * list writer) (es : list event) : op * list writer :=
    fold_left (step fsal) es c.
End Operator.

(** app/tandem/Monitor.cpp:11-18 [update_dt_limits]; [None] stands for the initial values
    lowest() / max() / lowest() of last_time_, dt_min_ and dt_max_. *)
Record limits := { last_time : option R; dt_min : option R; dt_max : option R }.
Definition update_dt_limits (l : limits) (time : R) : limits :=
  match last_time l with
  | None => {| last_time := Some time; dt_min := dt_min l; dt_max := dt_max l |}
  | Some t0 =>
      let dt := time - t0 in
      {| last_time := Some time;
         dt_min := Some (match dt_min l with None => dt | Some m => Rmin m dt end);
         dt_max := Some (match dt_max l with None => dt | Some m => Rmax m dt end) |}
  end.
