(** What is asked of the tables of quadrature rules (C85). *)
Require Import List Arith Reals.
Require Import Verif.LinAlg Verif.BasisSpec Verif.IntegralSpec Verif.QuadratureSpec.
Import ListNotations.
Local Open Scope R_scope.

(** A polynomial in up to three coordinates written out: the coefficient and the exponents of every term. *)
Definition term := (R * (nat * nat * nat))%type.
Definition poly_value (l : list term) (xi : nat -> R) : R :=
  fold_right (fun t s => fst t * (xi 0%nat ^ fst (fst (snd t)) * xi 1%nat ^ snd (fst (snd t)) * xi 2%nat ^ snd (snd t)) + s) 0 l.
(** Its terms are of total degree at most d and use the first D coordinates only. *)
Definition terms_ok (D d : nat) (l : list term) : Prop :=
  forall c p q r, In (c, (p, q, r)) l -> (p + q + r <= d)%nat /\ ((D < 2)%nat -> q = 0%nat) /\ ((D < 3)%nat -> r = 0%nat).
(** The sum of the magnitudes of its coefficients. *)
Definition coef_sum (l : list term) : R := fold_right (fun t s => Rabs (fst t) + s) 0 l.

(** Every polynomial of total degree at most d is integrated over the reference simplex up to [eps] times the sum of
    the magnitudes of its coefficients. *)
Definition nearly_exact (eps : R) (D : nat) (r : list ((nat -> R) * R)) (d : nat) : Prop :=
  forall l, terms_ok D d l -> forall I, is_simplex_integral D (poly_value l) I ->
    Rabs (rule_sum r (poly_value l) - I) <= eps * coef_sum l.
(** The reference simplex. *)
Definition in_simplex (D : nat) (x : nat -> R) : Prop := (forall d, (d < D)%nat -> 0 <= x d) /\ rsum D x <= 1.
(** Every weight is positive, every point is in the simplex. *)
Definition proper_rule (D : nat) (r : list ((nat -> R) * R)) : Prop := forall x w, In (x, w) r -> in_simplex D x /\ 0 < w.
