(** Specification: what the rate and state equations on a fault are, node by node, and what a moment
    rate is (C73, C74). *)
Require Import String List Arith Reals.
Require Import Verif.Base Verif.LinAlg Verif.VecModel Verif.FrictionModel Verif.FrictionProps.
Import ListNotations.
Local Open Scope R_scope.

(** Vectors over a fault hold, fault face after fault face, one run of nodal values per quantity. *)
Definition entry (nodes quantities f node q : nat) : nat := (f * quantities + q) * nodes + node.
(** A traction vector has D quantities: normal stress, then D - 1 shear components.  A state vector has D
    quantities: D - 1 slip components, then the state variable. *)
Definition normal_of (nodes D : nat) (tr : nat -> R) (f node : nat) : R := tr (entry nodes D f node 0).
Definition shear_of (nodes D : nat) (tr : nat -> R) (f node : nat) : list R := map (fun t => tr (entry nodes D f node (S t))) (seq 0 (D - 1)).
Definition slip_of (nodes D : nat) (st : nat -> R) (f node : nat) : list R := map (fun t => st (entry nodes D f node t)) (seq 0 (D - 1)).
Definition state_of (nodes D : nat) (st : nat -> R) (f node : nat) : R := st (entry nodes D f node (D - 1)).

(** A slip rate v obeys the friction law for normal stress sn, shear traction tau and state psi: it points
    against the total shear traction T, and its size is that of the solution Vs of the balance of T,
    frictional strength and radiation damping, up to the relative accuracy 4 eps of the logarithm. *)
Definition obeys_friction (eps : R) (c : cparams) (p : params) (sn : R) (tau : list R) (psi : R) (v : list R) : Prop :=
  let T := vadd tau (ptau p) in
  0 < norm v /\ v = vscale (- (norm v / norm T)) T /\
  exists Vs, 0 < Vs /\ balance (pa p) (cV0 c) (peta p) (psn p - sn) (norm T) psi Vs /\
    Rabs (log10 (norm v) - log10 Vs) <= 4 * eps * Rabs (log10 (norm v)).

(** v is the largest of the numbers that satisfy P, or 0 if there are none. *)
Definition largest_or_zero (P : R -> Prop) (v : R) : Prop := 0 <= v /\ (forall x, P x -> x <= v) /\ (v = 0 \/ P v).

(** The integral over a fault face by the quadrature rule: weights w, surface elements nl. *)
Definition face_integral (nq : nat) (w nl g : nat -> R) : R := rsum nq (fun q => w q * nl q * g q).
