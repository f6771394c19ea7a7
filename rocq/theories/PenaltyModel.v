(** Models the penalty of the interior penalty method: Poisson::prepare_penalty and what it uses. *)
Require Import List Arith Bool Reals.
Require Import Verif.Base Verif.LinAlg Verif.TopoModel Verif.PoissonModel.
Local Open Scope R_scope.

(** src/form/InverseInequality.h:27-29 [trace_constant], in D dimensions for degree N. *)
Definition trace_constant (D N : nat) : R := INR (N + 1) * INR (N + D) / INR D.

(** *std::min_element and *std::max_element over f 0 .. f (n - 1); at the end iterator, n = 0, the
    dereference is undefined and the value here arbitrary. *)
Fixpoint min_element (n : nat) (f : nat -> R) : R :=
  match n with O => 0 | S O => f 0%nat | S n' => Rmin (min_element n' f) (f n') end.
Fixpoint max_element (n : nat) (f : nat -> R) : R :=
  match n with O => 0 | S O => f 0%nat | S n' => Rmax (max_element n' f) (f n') end.

Section Penalty.
Variable P : pdata.
Variable degree : nat.  (* PolynomialDegree *)
(** src/form/DGCurvilinearCommon.cpp:90-94 and :55-59 (for ghost elements received, :103-107). *)
Definition area (fct : nat) : R := rsum (p_nq P) (fun q => p_w P q * p_nl P fct q).
Definition volume (el : nat) : R := rsum (p_Nq P) (fun q => p_W P q * p_J P el q).
(** app/localoperator/Poisson.cpp:209-223 [prepare_penalty]. *)
Definition penalty_side (fct el : nat) : R :=
  let k0 := min_element (p_N P) (p_K P el) in
  let k1 := max_element (p_N P) (p_K P el) in
  INR (p_dim P + 1) * trace_constant (p_dim P) (degree - 1) * (area fct / volume el) * (k1 * k1 / k0).
Definition prepare_penalty (fct : nat) (x : facet_info) : R :=
  if negb (fi_up0 x =? fi_up1 x) then (penalty_side fct (fi_up0 x) + penalty_side fct (fi_up1 x)) / 4
  else penalty_side fct (fi_up0 x).
End Penalty.
