(** Specification of the second method of Bassi and Rebay on the global mesh. *)
Require Import List Arith Bool Reals.
Require Import Verif.Base Verif.LinAlg Verif.SimplexModel Verif.TopoModel Verif.TopoSpec Verif.AssembleModel Verif.AssembleSpec Verif.MatFree Verif.PoissonModel Verif.SipSpec.
Import ListNotations.
Local Open Scope R_scope.

Section Form.
Variable Q : problem.
Local Notation P := (pb_ref Q).
Local Notation N := (p_N P). Local Notation dim := (p_dim P). Local Notation nq := (p_nq P).

(** r is the lifting into element g of the vector field j given on its facet f: r is a vector field
    on g whose components lie in the space of trial functions, and for each basis function phi
    int_g r phi = c int_f j phi.  r i l: coefficient l of component i. *)
Definition is_lifting (f : list nat) (g : nat) (c : R) (j : nat -> nat -> R) (r : nat -> nat -> R) : Prop :=
  forall i t, (i < dim)%nat -> (t < N)%nat ->
    rsum (p_Nq P) (fun q => p_W P q * p_J P g q * value Q g (r i) q * p_EQ P t q) =
    c * rsum nq (fun q => p_w P q * j i q * p_E P (pb_loc Q f g) t q).
(** int_f K r . j, with j the jump of the test function. *)
Definition lift_term (f : list nat) (g : nat) (j : nat -> nat -> R) (r : nat -> nat -> R) : R :=
  rsum nq (fun q => p_w P q * kappa_on Q f g q * rsum dim (fun i => j i q * trace Q f g (r i) q)).
(** The jump u n on the boundary, the prescribed jump and the prescribed value. *)
Definition bjump (f : list nat) (g : nat) (U : nat -> nat -> R) (i q : nat) : R := trace Q f g (U g) q * pb_n Q f g i q.
Definition djump (f : list nat) (g : nat) (i q : nat) : R := pb_jump Q f g q * pb_n Q f g i q.
Definition dvalue (f : list nat) (g : nat) (i q : nat) : R := pb_value Q f q * pb_n Q f g i q.

(** Interior facet f of g and h: - {K grad u} . [v] - {K grad v} . [u] + (D + 1) sum over the two
    elements of 1/2 K r([u]) . [v], with the lifting of half the jump. *)
Definition br2_int (f : list nat) (g h : nat) (r : nat -> nat -> nat -> R) (U V : nat -> nat -> R) : R :=
  rsum nq (fun q => p_w P q *
    (- rsum dim (fun i => mean_flux Q f g h U i q * jump Q f g h V i q)
     - rsum dim (fun i => mean_flux Q f g h V i q * jump Q f g h U i q)))
  + INR (dim + 1) * (1 / 2 * lift_term f g (jump Q f g h V) (r g) + 1 / 2 * lift_term f h (jump Q f g h V) (r h)).
(** Boundary facet f of g. *)
Definition br2_bnd (f : list nat) (g : nat) (r : nat -> nat -> nat -> R) (U V : nat -> nat -> R) : R :=
  rsum nq (fun q => p_w P q *
    (- rsum dim (fun i => kappa_on Q f g q * grad_on Q f g (U g) i q * bjump f g V i q)
     - rsum dim (fun i => kappa_on Q f g q * grad_on Q f g (V g) i q * bjump f g U i q)))
  + INR (dim + 1) * lift_term f g (bjump f g V) (r g).
Definition br2_facet (elems : list (list nat)) (bc : list nat -> nat) (f : list nat) (r : nat -> nat -> nat -> R) (U V : nat -> nat -> R) : R :=
  match elements_of elems f with
  | [g] => if bc f =? BC_Natural then 0 else br2_bnd f g r U V
  | [g; h] => br2_int f g h r U V
  | _ => 0
  end.
Definition br2_form (elems facets : list (list nat)) (bc : list nat -> nat) (r : list nat -> nat -> nat -> nat -> R) (U V : nat -> nat -> R) : R :=
  lsum (fun g => vol_term Q g U V) (seq 0 (length elems)) + lsum (fun f => br2_facet elems bc f (r f) U V) facets.
(** r f g is the lifting of the jump of u on f into g. *)
Definition lifts_jump (elems facets : list (list nat)) (U : nat -> nat -> R) (r : list nat -> nat -> nat -> nat -> R) : Prop :=
  forall f, In f facets ->
    (forall g, elements_of elems f = [g] -> is_lifting f g 1 (bjump f g U) (r f g)) /\
    (forall g h, elements_of elems f = [g; h] ->
       is_lifting f g (1 / 2) (jump Q f g h U) (r f g) /\ is_lifting f h (1 / 2) (jump Q f g h U) (r f h)).

(** The linear form, with the lifting of the prescribed jump. *)
Definition br2_int_load (f : list nat) (g h : nat) (r : nat -> nat -> nat -> R) (V : nat -> nat -> R) : R :=
  rsum nq (fun q => p_w P q * - rsum dim (fun i => mean_flux Q f g h V i q * djump f g i q))
  + INR (dim + 1) * (1 / 2 * lift_term f g (jump Q f g h V) (r g) + 1 / 2 * lift_term f h (jump Q f g h V) (r h)).
Definition br2_bnd_load (f : list nat) (g : nat) (r : nat -> nat -> nat -> R) (V : nat -> nat -> R) : R :=
  rsum nq (fun q => p_w P q * - rsum dim (fun i => kappa_on Q f g q * grad_on Q f g (V g) i q * dvalue f g i q))
  + INR (dim + 1) * lift_term f g (bjump f g V) (r g).
Definition br2_facet_load (elems : list (list nat)) (bc : list nat -> nat) (f : list nat) (r : nat -> nat -> nat -> R) (V : nat -> nat -> R) : R :=
  if has_data (bc f) then
    match elements_of elems f with
    | [g] => br2_bnd_load f g r V
    | [g; h] => br2_int_load f g h r V
    | _ => 0
    end
  else 0.
Definition br2_load (elems facets : list (list nat)) (bc : list nat -> nat) (r : list nat -> nat -> nat -> nat -> R) (V : nat -> nat -> R) : R :=
  lsum (fun g => vol_load Q g V) (seq 0 (length elems)) + lsum (fun f => br2_facet_load elems bc f (r f) V) facets.
Definition lifts_data (elems facets : list (list nat)) (r : list nat -> nat -> nat -> nat -> R) : Prop :=
  forall f, In f facets ->
    (forall g, elements_of elems f = [g] -> is_lifting f g 1 (dvalue f g) (r f g)) /\
    (forall g h, elements_of elems f = [g; h] ->
       is_lifting f g (1 / 2) (djump f g) (r f g) /\ is_lifting f h (1 / 2) (djump f g) (r f h)).

(** Straight-sided elements: the Jacobian determinant is constant and positive on each element.  The matrix that
    the operator keeps is the inverse of the mass matrix of the reference element. *)
Definition constant_jacobian (elems : list (list nat)) (jac : nat -> R) : Prop :=
  forall g, (g < length elems)%nat -> 0 < jac g /\ forall q, (q < p_Nq P)%nat -> p_J P g q = jac g.
Definition inverts_mass : Prop :=
  forall s u, (s < N)%nat -> (u < N)%nat ->
    rsum N (fun t => p_MinvRef P s t * rsum (p_Nq P) (fun q => p_W P q * p_EQ P t q * p_EQ P u q)) = if s =? u then 1 else 0.
End Form.
