(** Polynomial methods for A x = b with a preconditioner B, written without reference to any code. *)
Require Import List Arith Reals.
Require Import Verif.LinAlg Verif.IntegralSpec.
Local Open Scope R_scope.

(** The residual, the preconditioned residual, the preconditioned operator and its powers. *)
Definition residual (N : nat) (A : nat -> nat -> R) (b x : nat -> R) : nat -> R := fun i => b i - mat_vec N A x i.
Definition preconditioned (N : nat) (A B : nat -> nat -> R) (v : nat -> R) : nat -> R := mat_vec N B (mat_vec N A v).
Fixpoint power (op : (nat -> R) -> nat -> R) (k : nat) (v : nat -> R) : nat -> R :=
  match k with O => v | S k => op (power op k v) end.
(** The value of the polynomial with coefficients c 0 .. c d at the number t, and at the operator op applied to v. *)
Definition at_number (d : nat) (c : nat -> R) (t : R) : R := rsum (S d) (fun j => c j * t ^ j).
Definition at_operator (op : (nat -> R) -> nat -> R) (d : nat) (c v : nat -> R) (i : nat) : R := rsum (S d) (fun j => c j * power op j v i).

(** x is x0 with a correction whose preconditioned residual is p(BA) times that of x0, where p(t) = 1 - t s(t) has the
    coefficients c. *)
Definition corrected (N : nat) (A B : nat -> nat -> R) (b x0 : nat -> R) (k : nat) (c : nat -> R) (x : nat -> R) : Prop :=
  (forall i, (i < N)%nat ->
     x i = x0 i + rsum k (fun j => - c (S j) * power (preconditioned N A B) j (mat_vec N B (residual N A b x0)) i))
  /\ (forall i, (i < N)%nat ->
     mat_vec N B (residual N A b x) i = at_operator (preconditioned N A B) k c (mat_vec N B (residual N A b x0)) i).

(** Among all polynomials of degree at most k with value one at zero, the one with coefficients c has the smallest integral
    of its square over [0, emax], with the weight (1 - x)^alpha (1 + x)^beta, x = 2 t / emax - 1; no other is as small. *)
Definition weight (alpha beta : nat) (emax t : R) : R := (1 - (2 * t / emax - 1)) ^ alpha * (1 + (2 * t / emax - 1)) ^ beta.
Definition least_squares (k alpha beta : nat) (emax : R) (c : nat -> R) : Prop :=
  c 0%nat = 1
  /\ exists I, is_integral (fun t => weight alpha beta emax t * (at_number k c t * at_number k c t)) 0 emax I
     /\ forall c' J, c' 0%nat = 1 -> is_integral (fun t => weight alpha beta emax t * (at_number k c' t * at_number k c' t)) 0 emax J ->
        I <= J /\ (J = I -> forall t, at_number k c' t = at_number k c t).

(** v is an eigenvector of op for the eigenvalue l. *)
Definition eigenvector (N : nat) (op : (nat -> R) -> nat -> R) (l : R) (v : nat -> R) : Prop := forall i, (i < N)%nat -> op v i = l * v i.
(** u is the sum of n multiples of vectors. *)
Definition combination (N n : nat) (u : nat -> R) (c : nat -> R) (v : nat -> nat -> R) : Prop :=
  forall i, (i < N)%nat -> u i = rsum n (fun m => c m * v m i).
Definition dot (N : nat) (u v : nat -> R) : R := rsum N (fun i => u i * v i).
Definition symmetric (N : nat) (A : nat -> nat -> R) : Prop := forall i j, (i < N)%nat -> (j < N)%nat -> A i j = A j i.
