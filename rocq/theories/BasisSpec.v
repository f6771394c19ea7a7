(** Jacobi polynomials, partial derivatives and integrals over the reference simplices. *)
Require Import List Arith Reals.
Require Import Verif.LinAlg.
Local Open Scope R_scope.

Definition factR (n : nat) : R := INR (fact n).
(** The Jacobi polynomial P_n^(a,b), for natural a and b, by its series at x = 1:
    P_n^(a,b)(x) = sum_k (a+n)! (a+b+n+k)! / ((a+b+n)! (a+k)! k! (n-k)!) ((x-1)/2)^k. *)
Definition jacobi_coeff (n a b k : nat) : R :=
  factR (a + n) * factR (a + b + n + k) / (factR (a + b + n) * factR (a + k) * factR k * factR (n - k)).
Definition jacobi (n a b : nat) (x : R) : R :=
  rsum (S n) (fun k => jacobi_coeff n a b k * ((x - 1) / 2) ^ k).

(** The point xi with coordinate d replaced by t. *)
Definition with_coord (xi : nat -> R) (d : nat) (t : R) : nat -> R :=
  fun e => if Nat.eqb e d then t else xi e.
(** l is the partial derivative of f in direction d at xi. *)
Definition partial_derivative (f : (nat -> R) -> R) (d : nat) (xi : nat -> R) (l : R) : Prop :=
  derivable_pt_lim (fun t => f (with_coord xi d t)) (xi d) l.

(** The Dubiner basis in collapsed coordinates (away from the collapsed edge or vertex), multi-index i. *)
Definition dubiner_interval (i : list nat) (xi : nat -> R) : R := jacobi (nth 0 i 0%nat) 0 0 (2 * xi 0%nat - 1).
Definition dubiner_triangle (i : list nat) (xi : nat -> R) : R :=
  let p := nth 0 i 0%nat in let q := nth 1 i 0%nat in
  let theta := 1 - xi 1%nat in
  let r := (2 * xi 0%nat - theta) / theta in
  jacobi p 0 0 r * theta ^ p * jacobi q (2 * p + 1) 0 (2 * xi 1%nat - 1).
Definition dubiner_tetrahedron (i : list nat) (xi : nat -> R) : R :=
  let p := nth 0 i 0%nat in let q := nth 1 i 0%nat in let l := nth 2 i 0%nat in
  let theta := 1 - xi 2%nat in
  let rho := 1 - xi 1%nat - xi 2%nat in
  let r := (2 * xi 0%nat - rho) / rho in
  let s := (2 * xi 1%nat - theta) / theta in
  jacobi p 0 0 r * rho ^ p * (jacobi q (2 * p + 1) 0 s * theta ^ q)
  * jacobi l (2 * p + 2 * q + 2) 0 (2 * xi 2%nat - 1).
