(** Specification: reference elements of any polynomial degree, and materials within the range of their
    nodal values (C76). *)
Require Import List Arith Reals.
Require Import Verif.Base Verif.LinAlg Verif.PoissonModel Verif.GeometryModel Verif.BasisSpec Verif.IntegralSpec Verif.QuadratureSpec Verif.MeshSpec.
Local Open Scope R_scope.

(** [R_] holds values and derivatives of basis functions [phi], polynomials of degree [k] at most, at the
    quadrature points [xi] of the element and [chi] of a facet; the rules have nonnegative weights and
    are exact for degree 2k. *)
Record reference_of_degree (D k : nat) (xi chi : nat -> nat -> R) (phi : nat -> (nat -> R) -> R) (R_ : pdata) : Prop := {
  rd_dim : p_dim R_ = D;
  rd_N : (0 < p_N R_)%nat;
  rd_W : good_weights (p_Nq R_) (p_W R_);
  rd_w : good_weights (p_nq R_) (p_w R_);
  rd_volume : forall f, polynomial D (2 * k) f -> is_simplex_integral D f (rsum (p_Nq R_) (fun q => p_W R_ q * f (xi q)));
  rd_facet : forall f, polynomial (D - 1) (2 * k) f -> is_simplex_integral (D - 1) f (rsum (p_nq R_) (fun q => p_w R_ q * f (chi q)));
  rd_phi : forall l, (l < p_N R_)%nat -> polynomial D k (phi l);
  rd_EQ : forall l q, (l < p_N R_)%nat -> (q < p_Nq R_)%nat -> p_EQ R_ l q = phi l (xi q);
  rd_DxiQ : forall l e q, (l < p_N R_)%nat -> (e < D)%nat -> (q < p_Nq R_)%nat -> partial_derivative (phi l) e (xi q) (p_DxiQ R_ l e q);
  rd_E : forall s l q, (s < D + 1)%nat -> (l < p_N R_)%nat -> (q < p_nq R_)%nat -> p_E R_ s l q = phi l (facet_param D (ref_facet D s) (chi q));
  rd_Dxi : forall s l e q, (s < D + 1)%nat -> (l < p_N R_)%nat -> (e < D)%nat -> (q < p_nq R_)%nat ->
    partial_derivative (phi l) e (facet_param D (ref_facet D s) (chi q)) (p_Dxi R_ s l e q) }.

(** The interpolated value lies between two of the nodal values [v]. *)
Definition within (n : nat) (c v : nat -> R) : Prop :=
  (exists l, (l < n)%nat /\ v l <= rsum n (fun t => c t * v t)) /\ (exists l, (l < n)%nat /\ rsum n (fun t => c t * v t) <= v l).
(** That at all quadrature points of an element and of its facets. *)
Definition in_range (D : nat) (R_ : pdata) (v : nat -> R) : Prop :=
  (forall q, (q < p_Nq R_)%nat -> within (p_N R_) (p_matEQ R_ q) v) /\
  (forall s q, (s < D + 1)%nat -> (q < p_nq R_)%nat -> within (p_N R_) (p_matE R_ s q) v).
