(** Specification: the energy stored in the antiplane body (or of the potential), the forces on the facets
    where slip or values are prescribed, and their work (C93); compare ElasticEnergySpec. *)
Require Import List Arith Bool Reals.
Require Import Verif.Base Verif.LinAlg Verif.AssembleSpec Verif.MatFree Verif.PoissonModel Verif.SipSpec.
Import ListNotations.
Local Open Scope R_scope.

(** The problem with other prescribed jumps and boundary values. *)
Definition with_values (Q : problem) (jump : list nat -> nat -> nat -> R) (value : list nat -> nat -> R) : problem := {|
  pb_ref := pb_ref Q; pb_loc := pb_loc Q; pb_n := pb_n Q; pb_nl := pb_nl Q; pb_G := pb_G Q; pb_pen := pb_pen Q; pb_jump := jump; pb_value := value |}.

Section Energy.
Variables (Q : problem) (elems facets : list (list nat)) (bc : list nat -> nat).
Local Notation P := (pb_ref Q). Local Notation dim := (p_dim P).
(** On facet f, at quadrature point q.  Interior facets are seen from the first of their elements.
    Shear traction (mean flux along the normal) times surface element: *)
Definition normal_flux (f : list nat) (U : nat -> nat -> R) (q : nat) : R :=
  match elements_of elems f with
  | [g] => rsum dim (fun i => kappa_on Q f g q * grad_on Q f g (U g) i q * pb_n Q f g i q)
  | [g; h] => rsum dim (fun i => mean_flux Q f g h U i q * pb_n Q f g i q)
  | _ => 0
  end.
(** Jump, or value on the boundary. *)
Definition facet_step (f : list nat) (U : nat -> nat -> R) (q : nat) : R :=
  match elements_of elems f with
  | [g] => trace Q f g (U g) q
  | [g; h] => trace Q f g (U g) q - trace Q f h (U h) q
  | _ => 0
  end.
(** What is prescribed for it: zero where no data are set. *)
Definition imposed (f : list nat) (q : nat) : R :=
  if has_data (bc f) then
    match elements_of elems f with [g] => pb_value Q f q | [g; h] => pb_jump Q f g q | _ => 0 end
  else 0.
(** Boundaries with natural conditions are free. *)
Definition unloaded (f : list nat) : bool := match elements_of elems f with [_] => bc f =? BC_Natural | _ => false end.
(** The traction with which the body acts on the facet, penalty included, times surface element. *)
Definition shear_force (f : list nat) (U : nat -> nat -> R) (q : nat) : R :=
  normal_flux f U q - pb_pen Q f * pb_nl Q f q * (facet_step f U q - imposed f q).
(** Energy of the elements, less the work of the force, and the interior penalty energy of the difference
    between the jump and what is prescribed for it. *)
Definition element_energy (g : nat) (U : nat -> nat -> R) : R :=
  1 / 2 * rsum (p_Nq P) (fun q => p_W P q * p_J P g q * kappa Q g q * rsum dim (fun i => grad Q g (U g) i q * grad Q g (U g) i q)).
Definition gap_energy (f : list nat) (U : nat -> nat -> R) : R :=
  if unloaded f then 0 else
  rsum (p_nq P) (fun q => p_w P q * (
    let d := facet_step f U q - imposed f q in
    - normal_flux f U q * d + 1 / 2 * (pb_pen Q f * pb_nl Q f q) * (d * d))).
Definition total_energy (U : nat -> nat -> R) : R :=
  lsum (fun g => element_energy g U - vol_load Q g U) (seq 0 (length elems)) + lsum (fun f => gap_energy f U) facets.
(** Work of the facet forces on increments of the prescribed jumps and values. *)
Definition shear_work (U : nat -> nat -> R) (djump : list nat -> nat -> nat -> R) (dvalue : list nat -> nat -> R) : R :=
  lsum (fun f => if has_data (bc f) then
      rsum (p_nq P) (fun q => p_w P q * (shear_force f U q *
        match elements_of elems f with [g] => dvalue f q | [g; h] => djump f g q | _ => 0 end))
    else 0) facets.
End Energy.
