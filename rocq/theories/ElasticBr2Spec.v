(** Specification of the second method of Bassi and Rebay for linear elasticity on the global mesh. *)
Require Import List Arith Bool Reals.
Require Import Verif.Base Verif.LinAlg Verif.SimplexModel Verif.TopoModel Verif.TopoSpec Verif.AssembleModel Verif.AssembleSpec Verif.MatFree
  Verif.PoissonModel Verif.SipSpec Verif.ElasticityModel Verif.ElasticFormSpec.
Import ListNotations.
Local Open Scope R_scope.

Section Form.
Variable Q : eproblem.
Local Notation P := (e_geo (ep_ref Q)).
Local Notation N := (p_N P). Local Notation dim := (p_dim P). Local Notation nq := (p_nq P).

(** r is the lifting into element g of the tensor field j given on its facet f: a tensor field on g whose
    components lie in the space of trial functions, and for each basis function phi
    int_g r phi = c int_f j phi.  r i k l: coefficient l of component (i, k). *)
Definition field (g : nat) (r : nat -> R) (q : nat) : R := rsum N (fun l => p_EQ P l q * r l).
Definition field_on (f : list nat) (g : nat) (r : nat -> R) (q : nat) : R := rsum N (fun l => p_E P (ep_loc Q f g) l q * r l).
Definition is_elifting (f : list nat) (g : nat) (c : R) (j : nat -> nat -> nat -> R) (r : nat -> nat -> nat -> R) : Prop :=
  forall i k t, (i < dim)%nat -> (k < dim)%nat -> (t < N)%nat ->
    rsum (p_Nq P) (fun q => p_W P q * p_J P g q * field g (r i k) q * p_EQ P t q) =
    c * rsum nq (fun q => p_w P q * j q i k * p_E P (ep_loc Q f g) t q).
(** int_f C r : j, with C the elastic moduli of g. *)
Definition elift_term (f : list nat) (g : nat) (j : nat -> nat -> nat -> R) (r : nat -> nat -> nat -> R) : R :=
  rsum nq (fun q => p_w P q * contract Q (hooke Q (lam_on Q f g q) (mu_on Q f g q) (fun i k => field_on f g (r i k) q)) (j q)).
(** The jump u (x) n on the boundary, the prescribed jump and the prescribed value. *)
Definition ebjump (f : list nat) (g : nat) (U : nat -> nat -> R) (q i k : nat) : R := disp_on Q f g (U g) q i * ep_n Q f g k q.
Definition edjump (f : list nat) (g q i k : nat) : R := ep_jump Q f g i q * ep_n Q f g k q.
Definition edvalue (f : list nat) (g q i k : nat) : R := ep_value Q f i q * ep_n Q f g k q.

(** Interior facet f of g and h: - {stress(u)} : [v] - {stress(v)} : [u] + (D + 1) sum over the two
    elements of 1/2 C r([u]) : [v], with the lifting of half the jump. *)
Definition ebr2_int (f : list nat) (g h : nat) (r : nat -> nat -> nat -> nat -> R) (U V : nat -> nat -> R) : R :=
  rsum nq (fun q => p_w P q *
    (- contract Q (mean_stress Q f g h U q) (djump Q f g h V q)
     - contract Q (mean_stress Q f g h V q) (djump Q f g h U q)))
  + INR (dim + 1) * (1 / 2 * elift_term f g (djump Q f g h V) (r g) + 1 / 2 * elift_term f h (djump Q f g h V) (r h)).
(** Boundary facet f of g. *)
Definition ebr2_bnd (f : list nat) (g : nat) (r : nat -> nat -> nat -> nat -> R) (U V : nat -> nat -> R) : R :=
  rsum nq (fun q => p_w P q *
    (- contract Q (stress_on Q f g (U g) q) (ebjump f g V q)
     - contract Q (stress_on Q f g (V g) q) (ebjump f g U q)))
  + INR (dim + 1) * elift_term f g (ebjump f g V) (r g).
Definition ebr2_facet (elems : list (list nat)) (bc : list nat -> nat) (f : list nat) (r : nat -> nat -> nat -> nat -> R) (U V : nat -> nat -> R) : R :=
  match elements_of elems f with
  | [g] => if bc f =? BC_Natural then 0 else ebr2_bnd f g r U V
  | [g; h] => ebr2_int f g h r U V
  | _ => 0
  end.
Definition ebr2_form (elems facets : list (list nat)) (bc : list nat -> nat) (r : list nat -> nat -> nat -> nat -> nat -> R) (U V : nat -> nat -> R) : R :=
  lsum (fun g => evol_term Q g U V) (seq 0 (length elems)) + lsum (fun f => ebr2_facet elems bc f (r f) U V) facets.
(** r f g is the lifting of the jump of u on f into g. *)
Definition elifts_jump (elems facets : list (list nat)) (U : nat -> nat -> R) (r : list nat -> nat -> nat -> nat -> nat -> R) : Prop :=
  forall f, In f facets ->
    (forall g, elements_of elems f = [g] -> is_elifting f g 1 (ebjump f g U) (r f g)) /\
    (forall g h, elements_of elems f = [g; h] ->
       is_elifting f g (1 / 2) (djump Q f g h U) (r f g) /\ is_elifting f h (1 / 2) (djump Q f g h U) (r f h)).

(** The linear form, with the lifting of the prescribed jump. *)
Definition ebr2_int_load (f : list nat) (g h : nat) (r : nat -> nat -> nat -> nat -> R) (V : nat -> nat -> R) : R :=
  rsum nq (fun q => p_w P q * - contract Q (mean_stress Q f g h V q) (edjump f g q))
  + INR (dim + 1) * (1 / 2 * elift_term f g (djump Q f g h V) (r g) + 1 / 2 * elift_term f h (djump Q f g h V) (r h)).
Definition ebr2_bnd_load (f : list nat) (g : nat) (r : nat -> nat -> nat -> nat -> R) (V : nat -> nat -> R) : R :=
  rsum nq (fun q => p_w P q * - contract Q (stress_on Q f g (V g) q) (edvalue f g q))
  + INR (dim + 1) * elift_term f g (ebjump f g V) (r g).
Definition ebr2_facet_load (elems : list (list nat)) (bc : list nat -> nat) (f : list nat) (r : nat -> nat -> nat -> nat -> R) (V : nat -> nat -> R) : R :=
  if ehas_data Q (bc f) then
    match elements_of elems f with
    | [g] => ebr2_bnd_load f g r V
    | [g; h] => ebr2_int_load f g h r V
    | _ => 0
    end
  else 0.
Definition ebr2_load (elems facets : list (list nat)) (bc : list nat -> nat) (r : list nat -> nat -> nat -> nat -> nat -> R) (V : nat -> nat -> R) : R :=
  lsum (fun g => evol_load Q g V) (seq 0 (length elems)) + lsum (fun f => ebr2_facet_load elems bc f (r f) V) facets.
Definition elifts_data (elems facets : list (list nat)) (r : list nat -> nat -> nat -> nat -> nat -> R) : Prop :=
  forall f, In f facets ->
    (forall g, elements_of elems f = [g] -> is_elifting f g 1 (edvalue f g) (r f g)) /\
    (forall g h, elements_of elems f = [g; h] ->
       is_elifting f g (1 / 2) (edjump f g) (r f g) /\ is_elifting f h (1 / 2) (edjump f g) (r f h)).
End Form.

(** What an operator keeps for element e is the inverse of the mass matrix that it computes for e. *)
Definition keeps_inverse (E : edata) (e : nat) : Prop :=
  forall s u, (s < p_N (e_geo E))%nat -> (u < p_N (e_geo E))%nat ->
    rsum (p_N (e_geo E)) (fun t => e_Minv E e s t * mass_matrix E e t u) = if s =? u then 1 else 0.
