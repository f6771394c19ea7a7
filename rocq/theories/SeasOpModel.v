(** Models the operators that the time integrator drives: app/form/SeasQDOperator.{h,cpp},
    app/form/SeasFDOperator.{h,cpp}, the two functions of app/form/AdapterOperator.h they call
    (slip_bc :50-57, traction :59-82) and the glue to the time integrator
    (app/common/PetscTimeSolver.h:117-151).  All ranks are modelled together.

    Simplifications.  A vector distributed over the ranks is a function of rank and item; of its
    values on one rank only those below the number of the rank's own items exist.  Blocks are of
    arbitrary types.  What happens inside of an element or of a fault facet (load, stiffness, wave
    equation, traction, friction) is a function, modelled elsewhere (C26, C27, C55-C57, C73).
    The scatter is modelled by what C22 proves of it: begin_scatter copies, wait_scatter delivers
    the copies.  Profiling is left out. *)
Require Import List Arith Bool Reals.
Require Import Verif.Base.
Import ListNotations.
Local Open Scope opt_scope.

(** Items (elements, fault facets) as the ranks number them: rank [p] owns the items below [n_own p];
    an item from there on, below [n_all p], is a copy of item [snd] of rank [fst] of [n_src p i]. *)
Record numbering := { n_own : nat -> nat; n_all : nat -> nat; n_src : nat -> nat -> nat * nat }.
Definition dvec (A : Type) := nat -> nat -> A.

(** src/parallel/Scatter.h: copies under way, if any, and the ghost values received
    (SparseBlockVector). *)
Record scatter (A : Type) := { s_sent : option (dvec A); s_ghost : dvec A }.
Arguments s_sent {A}. Arguments s_ghost {A}.
(** Scatter.h:34-72 [begin_scatter]; with messages under way the requests are overwritten: undefined. *)
Definition begin_scatter {A} (x : dvec A) (c : scatter A) : option (scatter A) :=
  match s_sent c with None => Some {| s_sent := Some x; s_ghost := s_ghost c |} | Some _ => None end.
(** Scatter.h:78 [wait_scatter]. *)
Definition wait_scatter {A} (n : numbering) (c : scatter A) : scatter A :=
  match s_sent c with
  | None => c
  | Some x => {| s_sent := None; s_ghost := fun p i => let s := n_src n p i in x (fst s) (snd s) |}
  end.
(** src/parallel/LocalGhostCompositeView.h:49-55 [get_block]. *)
Definition composite {A} (n : numbering) (x ghost : dvec A) : dvec A := fun p i =>
  if i <? n_own n p then x p i else ghost p i.
(** A loop over the own items that writes one block each. *)
Definition each {A} (n : numbering) (f : nat -> nat -> A -> A) (x : dvec A) : dvec A := fun p i =>
  if i <? n_own n p then f p i (x p i) else x p i.

Section Operators.
(** Blocks of displacement, fault state, slip at the quadrature points of a facet, traction. *)
Variables (B SB SV TB : Type).

(** What the ranks hold.  Arguments: rank and number of the element or fault facet on that rank. *)
Record seas := {
  E_ : numbering; F_ : numbering;
  up_0 : nat -> nat -> nat; up_1 : nat -> nat -> nat;    (* topo_->info(fault_map_->fctNo(faultNo)).up *)
  op_slip : nat -> nat -> SB -> SV;                       (* Adapter::slip *)
  op_traction : nat -> nat -> B -> B -> SV -> TB;         (* traction_skeleton or _boundary, then Adapter::traction *)
  op_load : nat -> nat -> (nat -> SV) -> option R -> B;   (* an element's block of DGOperator::rhs: slip on the rank's fault facets, time of the Dirichlet data *)
  op_wave : nat -> nat -> (nat -> SV) -> option R -> (nat -> B) -> B;  (* an element's block of DGOperator::wave_rhs: and the displacement on the rank's elements *)
  op_has_wave : bool;                                     (* DGOperator.h:245-249: the local operator has wave_rhs and project (Elasticity) or not (Poisson) *)
  op_pre_init : nat -> nat -> SB -> SB;                   (* RateAndState::pre_init *)
  op_init : nat -> nat -> R -> TB -> SB -> SB;            (* RateAndState::init *)
  op_rate : nat -> nat -> R -> TB -> SB -> SB;            (* RateAndState::rhs *)
  op_boundary : bool;                                     (* fun_boundary_ is set *)
  op_u_ini : option (dvec B); op_v_ini : option (dvec B); (* projections of u_ini_ and v_ini_ *)
  op_zero : B;
  op_ksp : dvec B -> dvec B -> dvec B                     (* KSPSolve: right-hand side, previous content of x *) }.
Variable c : seas.

(** The slip boundary condition of the DG operator: AdapterOperator.h:50-57 [slip_bc] of a view of
    the state, or [None]: invalid_slip_bc, which throws (SeasQDOperator.h:76-80). *)
Definition handler := option (dvec SB).
Definition eval_slip (h : handler) (p : nat) : option (nat -> SV) :=
  do view <- h; Some (fun i => op_slip c p i (view p i)).
(** Dirichlet data: set for a time, or not at all. *)
Definition set_dirichlet (t : R) (d : option R) : option R := if op_boundary c then Some t else d.

(** AdapterOperator.h:59-82 [traction]. *)
Definition traction (h : handler) (u : dvec B) (result : dvec TB) : option (dvec TB) :=
  do _ <- eval_slip h 0;
  Some (each (F_ c) (fun p i tr => match eval_slip h p with
    | Some sl => op_traction c p i (u p (up_0 c p i)) (u p (up_1 c p i)) (sl i) | None => tr end) result).
(** FrictionOperator.h:51-58, 60-87 and 89-130 without errors (see C73). *)
Definition friction_pre_init (s : dvec SB) : dvec SB := each (F_ c) (op_pre_init c) s.
Definition friction_init (t : R) (tr : dvec TB) (s : dvec SB) : dvec SB := each (F_ c) (fun p i => op_init c p i t (tr p i)) s.
Definition friction_rhs (t : R) (tr : dvec TB) (s result : dvec SB) : dvec SB := each (F_ c) (fun p i _ => op_rate c p i t (tr p i) (s p i)) result.

(** * SeasQDOperator *)
Record qd := { q_x : dvec B; q_disp : scatter B; q_state : scatter SB; q_traction : dvec TB; q_slip : handler; q_dir : option R }.
(** SeasQDOperator.h:82-85 [update_ghost_state]. *)
Definition update_ghost_state (s : dvec SB) (o : qd) : option qd :=
  do sc <- begin_scatter s (q_state o);
  Some {| q_x := q_x o; q_disp := q_disp o; q_state := wait_scatter (F_ c) sc; q_traction := q_traction o; q_slip := q_slip o; q_dir := q_dir o |}.
(** SeasQDOperator.h:87-89 [make_state_view]. *)
Definition make_state_view (s : dvec SB) (sc : scatter SB) : dvec SB := composite (F_ c) s (s_ghost sc).
(** SeasQDOperator.cpp:57-67 [solve]; update_rhs is DGOperator::rhs into b. *)
Definition solve (t : R) (view : dvec SB) (o : qd) : option qd :=
  let h := Some view in
  let d := set_dirichlet t (q_dir o) in
  do _ <- eval_slip h 0;
  let b := fun p e => match eval_slip h p with Some sl => op_load c p e sl d | None => op_zero c end in
  let x := op_ksp c b (q_x o) in
  do sc <- begin_scatter x (q_disp o);
  Some {| q_x := x; q_disp := wait_scatter (E_ c) sc; q_state := q_state o; q_traction := q_traction o; q_slip := None; q_dir := d |}.
(** SeasQDOperator.cpp:69-74 [update_traction]. *)
Definition update_traction (view : dvec SB) (o : qd) : option qd :=
  let disp_view := composite (E_ c) (q_x o) (s_ghost (q_disp o)) in
  do tr <- traction (Some view) disp_view (q_traction o);
  Some {| q_x := q_x o; q_disp := q_disp o; q_state := q_state o; q_traction := tr; q_slip := None; q_dir := q_dir o |}.
(** SeasQDOperator.cpp:24-32. *)
Definition qd_initial_condition (s : dvec SB) (o : qd) : option (qd * dvec SB) :=
  let s1 := friction_pre_init s in
  do o1 <- update_ghost_state s1 o;
  do o2 <- solve 0 (make_state_view s1 (q_state o1)) o1;
  do o3 <- update_traction (make_state_view s1 (q_state o2)) o2;
  Some (o3, friction_init 0 (q_traction o3) s1).
(** SeasQDOperator.cpp:34-40. *)
Definition qd_rhs (t : R) (s result : dvec SB) (o : qd) : option (qd * dvec SB) :=
  do o1 <- update_ghost_state s o;
  do o2 <- solve t (make_state_view s (q_state o1)) o1;
  do o3 <- update_traction (make_state_view s (q_state o2)) o2;
  Some (o3, friction_rhs t (q_traction o3) s result).
(** SeasQDOperator.cpp:42-55. *)
Definition qd_update_internal_state (t : R) (s : dvec SB) (changed require_traction require_displacement : bool) (o : qd) : option qd :=
  if negb (changed && (require_traction || require_displacement)) then Some o else
  do o1 <- update_ghost_state s o;
  do o2 <- solve t (make_state_view s (q_state o1)) o1;
  if require_traction then update_traction (make_state_view s (q_state o2)) o2 else Some o2.

(** * SeasFDOperator *)
Record fd := { f_traction : dvec TB; f_disp : scatter B; f_state : scatter SB; f_slip : handler; f_dir : option R }.
(** SeasFDOperator.cpp:91-97 [update_traction]. *)
Definition fd_update_traction (u : dvec B) (s : dvec SB) (o : fd) : option fd :=
  let disp_view := composite (E_ c) u (s_ghost (f_disp o)) in
  do tr <- traction (Some (make_state_view s (f_state o))) disp_view (f_traction o);
  Some {| f_traction := tr; f_disp := f_disp o; f_state := f_state o; f_slip := None; f_dir := f_dir o |}.
Definition fd_begin (u : dvec B) (s : dvec SB) (o : fd) : option fd :=
  do ss <- begin_scatter s (f_state o); do ds <- begin_scatter u (f_disp o);
  Some {| f_traction := f_traction o; f_disp := ds; f_state := ss; f_slip := f_slip o; f_dir := f_dir o |}.
(** DGOperator.h:251-260 [project], or BlockVector::set_zero. *)
Definition initial_field (ini : option (dvec B)) (x : dvec B) : dvec B :=
  match ini with
  | Some f => if op_has_wave c then each (E_ c) (fun p e _ => f p e) x else x
  | None => each (E_ c) (fun _ _ _ => op_zero c) x
  end.
(** SeasFDOperator.cpp:32-52 [initial_condition]: the scatters begin before the vectors are set. *)
Definition fd_initial_condition (v u : dvec B) (s : dvec SB) (o : fd) : option (fd * (dvec B * dvec B * dvec SB)) :=
  do o1 <- fd_begin u s o;
  let u1 := initial_field (op_u_ini c) u in
  let v1 := initial_field (op_v_ini c) v in
  let s1 := friction_pre_init s in
  let o2 := {| f_traction := f_traction o1; f_disp := wait_scatter (E_ c) (f_disp o1); f_state := wait_scatter (F_ c) (f_state o1); f_slip := f_slip o1; f_dir := f_dir o1 |} in
  do o3 <- fd_update_traction u1 s1 o2;
  Some (o3, (v1, u1, friction_init 0 (f_traction o3) s1)).
(** SeasFDOperator.cpp:54-89 [rhs]; wave_rhs exchanges the displacement itself (C25); without it dv is
    not written. *)
Definition fd_rhs (t : R) (v u : dvec B) (s : dvec SB) (dv du : dvec B) (ds : dvec SB) (o : fd) : option (fd * (dvec B * dvec B * dvec SB)) :=
  do o1 <- fd_begin u s o;
  let du1 := each (E_ c) (fun p e _ => v p e) du in
  let ss := wait_scatter (F_ c) (f_state o1) in
  let h := Some (make_state_view s ss) in
  let d := set_dirichlet t (f_dir o1) in
  do _ <- eval_slip h 0;
  let ghost_u := s_ghost (wait_scatter (E_ c) {| s_sent := Some u; s_ghost := u |}) in
  let dv1 := if op_has_wave c then each (E_ c) (fun p e x => match eval_slip h p with
    | Some sl => op_wave c p e sl d (composite (E_ c) u ghost_u p) | None => x end) dv else dv in
  let o2 := {| f_traction := f_traction o1; f_disp := wait_scatter (E_ c) (f_disp o1); f_state := ss; f_slip := None; f_dir := d |} in
  do o3 <- fd_update_traction u s o2;
  Some (o3, (dv1, du1, friction_rhs t (f_traction o3) s ds)).

(** * The time integrator's view *)
(** app/common/PetscTimeSolver.h:117-133 [RHSFunction] for three vectors: the state and its rate are
    nested vectors; the sub-vectors of both are passed in order. *)
Definition fd_RHSFunction (t : R) (U Fv : dvec B * dvec B * dvec SB) (o : fd) : option (fd * (dvec B * dvec B * dvec SB)) :=
  let '(x0, x1, x2) := U in let '(x3, x4, x5) := Fv in fd_rhs t x0 x1 x2 x3 x4 x5 o.
(** app/tandem/Monitor.cpp:90-125 [MonitorFD::monitor]: what is written at the levels Boundary
    (FrictionOperator::state of the traction and the fault state) and Volume. *)
Definition fd_boundary_output (s : dvec SB) (o : fd) : dvec TB * dvec SB := (f_traction o, s).
Definition fd_volume_output (v u : dvec B) : dvec B * dvec B := (v, u).
End Operators.
