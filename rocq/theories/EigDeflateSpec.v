(** Specification for C72: families of vectors (column, row), spans, independence, and what an eigenvalue solver for small
    symmetric matrices promises. *)
Require Import Arith Reals.
Require Import Verif.LinAlg Verif.LsPolySpec.
Local Open Scope R_scope.

(** v is a linear combination of the vectors X_0, ..., X_(n-1), in R^N. *)
Definition in_span (N n : nat) (X : nat -> nat -> R) (v : nat -> R) : Prop := exists c, combination N n v c X.
(** The same subspace. *)
Definition same_span (N n : nat) (X Y : nat -> nat -> R) : Prop :=
  (forall j, (j < n)%nat -> in_span N n X (Y j)) /\ (forall j, (j < n)%nat -> in_span N n Y (X j)).
Definition independent (N n : nat) (X : nat -> nat -> R) : Prop :=
  forall c, (forall i, (i < N)%nat -> rsum n (fun j => c j * X j i) = 0) -> forall j, (j < n)%nat -> c j = 0.
Definition orthonormal (N n : nat) (X : nat -> nat -> R) : Prop :=
  forall i j, (i < n)%nat -> (j < n)%nat -> dot N (X i) (X j) = if Nat.eqb i j then 1 else 0.
Definition positive_definite (N : nat) (A : nat -> nat -> R) : Prop :=
  symmetric N A /\ forall v, (exists i, (i < N)%nat /\ v i <> 0) -> 0 < dot N v (mat_vec N A v).
(** The result (w, Z) for the symmetric matrix M: ascending eigenvalues, orthonormal eigenvectors in the columns of Z. *)
Definition eigen_answer (n : nat) (M : nat -> nat -> R) (w : nat -> R) (Z : nat -> nat -> R) : Prop :=
  (forall i j, (i <= j)%nat -> (j < n)%nat -> w i <= w j)
  /\ orthonormal n n (fun j i => Z i j)
  /\ forall j, (j < n)%nat -> eigenvector n (mat_vec n M) (w j) (fun i => Z i j).
Definition eigen_solver (n : nat) (eigh : nat -> (nat -> nat -> R) -> (nat -> R) * (nat -> nat -> R)) : Prop :=
  forall M, symmetric n M -> eigen_answer n M (fst (eigh n M)) (snd (eigh n M)).
(** The vectors A^p X_j. *)
Definition powers (N : nat) (A : nat -> nat -> R) (p : nat) (X : nat -> nat -> R) : nat -> nat -> R := fun j => power (mat_vec N A) p (X j).
(** Richardson's iteration: u is replaced t times by u + alpha (x - A u). *)
Fixpoint richardson (N : nat) (A : nat -> nat -> R) (alpha : R) (t : nat) (x u : nat -> R) : nat -> R :=
  match t with
  | O => u
  | S t' => richardson N A alpha t' x (fun i => u i + alpha * (x i - mat_vec N A u i))
  end.
