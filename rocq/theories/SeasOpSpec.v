(** Specification for C83: the earthquake-cycle problem on the whole mesh, without ranks, ghosts or
    operator state. *)
Require Import List Arith Reals.
Require Import Verif.SeasOpModel.

Section Spec.
Variables (B SB SV TB : Type).
(** The problem on [elements] elements and [faults] fault facets with global numbers. *)
Record problem := {
  elements : nat; faults : nat;
  side0 : nat -> nat; side1 : nat -> nat;                  (* the elements at a fault facet *)
  slip_of : nat -> SB -> SV;
  traction_of : nat -> B -> B -> SV -> TB;
  load_of : nat -> (nat -> SV) -> option R -> B;           (* slip and time of the boundary data *)
  stiffness : (nat -> B) -> nat -> B;
  wave_of : nat -> (nat -> SV) -> option R -> (nat -> B) -> B;
  start_of : nat -> SB -> SB;
  init_of : nat -> R -> TB -> SB -> SB;
  rate_of : nat -> R -> TB -> SB -> SB;
  has_boundary_data : bool;
  ini_u : option (nat -> B); ini_v : option (nat -> B); zero_block : B }.
Variable P : problem.

Definition boundary_time (t : R) : option R := if has_boundary_data P then Some t else None.
Definition slips (s : nat -> SB) (f : nat) : SV := slip_of P f (s f).
(** Displacement [u] is in equilibrium with slip [s] and the boundary data at time [t]. *)
Definition equilibrium (t : R) (s : nat -> SB) (u : nat -> B) : Prop :=
  forall g, g < elements P -> stiffness P u g = load_of P g (slips s) (boundary_time t).
Definition traction_at (s : nat -> SB) (u : nat -> B) (f : nat) : TB := traction_of P f (u (side0 P f)) (u (side1 P f)) (slips s f).
(** The rate of the fault state. *)
Definition state_rate (t : R) (s : nat -> SB) (u : nat -> B) (f : nat) : SB := rate_of P f t (traction_at s u f) (s f).
Definition acceleration (t : R) (s : nat -> SB) (u : nat -> B) (g : nat) : B := wave_of P g (slips s) (boundary_time t) u.
(** The initial fault state, from any content [s]. *)
Definition start_state (s : nat -> SB) (f : nat) : SB := start_of P f (s f).
Definition initial_state (s : nat -> SB) (u : nat -> B) (f : nat) : SB :=
  init_of P f 0 (traction_at (start_state s) u f) (start_state s f).
Definition initial_displacement (g : nat) : B := match ini_u P with Some f => f g | None => zero_block P end.
Definition initial_velocity (g : nat) : B := match ini_v P with Some f => f g | None => zero_block P end.

(** ** Distribution over [procs] ranks; [gid p i] is the global number of item [i] of rank [p]. *)
Definition numbered (procs total : nat) (n : numbering) (gid : nat -> nat -> nat) : Prop :=
  (forall p, p < procs -> n_own n p <= n_all n p) /\
  (forall p i, p < procs -> i < n_all n p -> gid p i < total) /\
  (forall g, g < total -> exists p i, p < procs /\ i < n_own n p /\ gid p i = g) /\
  (forall p i q j, p < procs -> q < procs -> i < n_own n p -> j < n_own n q -> gid p i = gid q j -> p = q /\ i = j) /\
  (forall p i, p < procs -> n_own n p <= i < n_all n p ->
     fst (n_src n p i) < procs /\ snd (n_src n p i) < n_own n (fst (n_src n p i)) /\
     gid (fst (n_src n p i)) (snd (n_src n p i)) = gid p i).
(** The own items of the ranks hold the global vector. *)
Definition holds {A} (procs : nat) (n : numbering) (gid : nat -> nat -> nat) (x : dvec A) (X : nat -> A) : Prop :=
  forall p i, p < procs -> i < n_own n p -> x p i = X (gid p i).
Definition same_field {A} (procs : nat) (n : numbering) (gid : nat -> nat -> nat) (x : option (dvec A)) (X : option (nat -> A)) : Prop :=
  match x with
  | Some x => exists Y, X = Some Y /\ holds procs n gid x Y
  | None => X = None
  end.
(** The ranks' local data are the problem's data at the global numbers. *)
Definition distributes (procs : nat) (ge gf : nat -> nat -> nat) (c : seas B SB SV TB) : Prop :=
  numbered procs (elements P) (E_ _ _ _ _ c) ge /\ numbered procs (faults P) (F_ _ _ _ _ c) gf /\
  (forall p i, p < procs -> i < n_own (F_ _ _ _ _ c) p ->
     up_0 _ _ _ _ c p i < n_all (E_ _ _ _ _ c) p /\ ge p (up_0 _ _ _ _ c p i) = side0 P (gf p i) /\
     up_1 _ _ _ _ c p i < n_all (E_ _ _ _ _ c) p /\ ge p (up_1 _ _ _ _ c p i) = side1 P (gf p i)) /\
  (forall p i s, p < procs -> i < n_all (F_ _ _ _ _ c) p -> op_slip _ _ _ _ c p i s = slip_of P (gf p i) s) /\
  (forall p i u0 u1 sl, p < procs -> i < n_own (F_ _ _ _ _ c) p -> op_traction _ _ _ _ c p i u0 u1 sl = traction_of P (gf p i) u0 u1 sl) /\
  (forall p e sl SL d, p < procs -> e < n_own (E_ _ _ _ _ c) p -> (forall i, i < n_all (F_ _ _ _ _ c) p -> sl i = SL (gf p i)) ->
     op_load _ _ _ _ c p e sl d = load_of P (ge p e) SL d) /\
  (forall p e sl SL d u U, p < procs -> e < n_own (E_ _ _ _ _ c) p ->
     (forall i, i < n_all (F_ _ _ _ _ c) p -> sl i = SL (gf p i)) -> (forall i, i < n_all (E_ _ _ _ _ c) p -> u i = U (ge p i)) ->
     op_wave _ _ _ _ c p e sl d u = wave_of P (ge p e) SL d U) /\
  (forall p i s, p < procs -> i < n_own (F_ _ _ _ _ c) p -> op_pre_init _ _ _ _ c p i s = start_of P (gf p i) s) /\
  (forall p i t tr s, p < procs -> i < n_own (F_ _ _ _ _ c) p -> op_init _ _ _ _ c p i t tr s = init_of P (gf p i) t tr s) /\
  (forall p i t tr s, p < procs -> i < n_own (F_ _ _ _ _ c) p -> op_rate _ _ _ _ c p i t tr s = rate_of P (gf p i) t tr s) /\
  op_boundary _ _ _ _ c = has_boundary_data P /\ op_zero _ _ _ _ c = zero_block P /\
  same_field procs (E_ _ _ _ _ c) ge (op_u_ini _ _ _ _ c) (ini_u P) /\
  same_field procs (E_ _ _ _ _ c) ge (op_v_ini _ _ _ _ c) (ini_v P).
(** The linear solver solves (up to its tolerance, which is left out): whatever the start vector, the
    distributed result is a solution for the right-hand side. *)
Definition solver_solves (procs : nat) (ge : nat -> nat -> nat) (c : seas B SB SV TB) : Prop :=
  forall b x0 G, holds procs (E_ _ _ _ _ c) ge b G ->
    exists X, holds procs (E_ _ _ _ _ c) ge (op_ksp _ _ _ _ c b x0) X /\ forall g, g < elements P -> stiffness P X g = G g.
(** The stiffness operator is injective (C81, C82). *)
Definition unique_equilibrium : Prop :=
  forall U V, (forall g, g < elements P -> stiffness P U g = stiffness P V g) -> forall g, g < elements P -> U g = V g.
(** Elements at a fault facet are elements. *)
Definition sides_in_range : Prop := forall f, f < faults P -> side0 P f < elements P /\ side1 P f < elements P.
End Spec.

(** Calls of the two operators. *)
Inductive qd_call (SB : Type) :=
| QInit (s : dvec SB) | QRhs (t : R) (s r : dvec SB) | QUpdate (t : R) (s : dvec SB) (changed tr disp : bool).
Inductive fd_call (B SB : Type) :=
| FInit (v u : dvec B) (s : dvec SB) | FRhs (t : R) (v u : dvec B) (s : dvec SB) (dv du : dvec B) (ds : dvec SB).
