(** Specification: displacement, strain, stress and traction of a discrete function, for stating the
    properties of the elasticity operator. *)
Require Import List Arith Reals.
Require Import Verif.Base Verif.LinAlg Verif.PoissonModel Verif.ElasticityModel.
Import ListNotations.
Local Open Scope R_scope.

Section E.
Variable E : edata.
Local Notation N := (p_N (e_geo E)). Local Notation dim := (p_dim (e_geo E)).
(** Displacement, its gradient (d u_r / d x_s), stress and traction of the function with coefficients U. *)
Definition trc (Eb : nat -> nat -> R) (U : nat -> R) (p q : nat) : R := rsum N (fun l => Eb l q * U (ix E l p)).
Definition dgr (Dx : nat -> nat -> nat -> R) (U : nat -> R) (r s q : nat) : R := rsum N (fun l => Dx l s q * U (ix E l r)).
Definition sig (lam mu : nat -> R) (Dx : nat -> nat -> nat -> R) (U : nat -> R) (i j q : nat) : R :=
  lam q * delta i j * rsum dim (fun r => dgr Dx U r r q) + mu q * (dgr Dx U i j q + dgr Dx U j i q).
Definition tct (n : nat -> nat -> R) (lam mu : nat -> R) (Dx : nat -> nat -> nat -> R) (U : nat -> R) (p q : nat) : R :=
  rsum dim (fun j => n j q * sig lam mu Dx U p j q).

End E.
