(** Specification: the energy stored in the elastic body, the forces on the facets where slip or
    displacement are prescribed, and their work (C84). *)
Require Import List Arith Bool Reals.
Require Import Verif.Base Verif.LinAlg Verif.AssembleSpec Verif.MatFree Verif.PoissonModel Verif.ElasticityModel Verif.ElasticFormSpec.
Import ListNotations.
Local Open Scope R_scope.

(** The problem with other prescribed jumps and boundary values. *)
Definition with_data (Q : eproblem) (jump : list nat -> nat -> nat -> nat -> R) (value : list nat -> nat -> nat -> R) : eproblem := {|
  ep_ref := ep_ref Q; ep_loc := ep_loc Q; ep_n := ep_n Q; ep_nl := ep_nl Q; ep_G := ep_G Q; ep_pen := ep_pen Q;
  ep_has_slip := ep_has_slip Q; ep_has_dir := ep_has_dir Q; ep_jump := jump; ep_value := value |}.

Section Energy.
Variables (Q : eproblem) (elems facets : list (list nat)) (bc : list nat -> nat).
Local Notation P := (e_geo (ep_ref Q)). Local Notation dim := (p_dim P).
(** On facet f, at quadrature point q, component i.  Interior facets are seen from the first of their
    elements (the product of force and jump is the same from both).  Traction (of the mean stress)
    times surface element: *)
Definition facet_traction (f : list nat) (U : nat -> nat -> R) (q i : nat) : R :=
  match elements_of elems f with
  | [g] => rsum dim (fun j => stress_on Q f g (U g) q i j * ep_n Q f g j q)
  | [g; h] => rsum dim (fun j => mean_stress Q f g h U q i j * ep_n Q f g j q)
  | _ => 0
  end.
(** Jump of the displacement, or its value on the boundary. *)
Definition facet_jump (f : list nat) (U : nat -> nat -> R) (q i : nat) : R :=
  match elements_of elems f with
  | [g] => disp_on Q f g (U g) q i
  | [g; h] => disp_on Q f g (U g) q i - disp_on Q f h (U h) q i
  | _ => 0
  end.
(** What is prescribed for it: zero where no data are set. *)
Definition prescribed (f : list nat) (q i : nat) : R :=
  if ehas_data Q (bc f) then
    match elements_of elems f with [g] => ep_value Q f i q | [g; h] => ep_jump Q f g i q | _ => 0 end
  else 0.
(** Boundaries with natural conditions are free. *)
Definition free (f : list nat) : bool := match elements_of elems f with [_] => bc f =? BC_Natural | _ => false end.
(** The traction with which the body acts on the facet, penalty included, times surface element. *)
Definition facet_force (f : list nat) (U : nat -> nat -> R) (q i : nat) : R :=
  facet_traction f U q i - ep_pen Q f * ep_nl Q f q * (facet_jump f U q i - prescribed f q i).
(** Strain energy, less the work of the body force, and the interior penalty energy of the
    difference between the jump and what is prescribed for it. *)
Definition strain_energy (g : nat) (U : nat -> nat -> R) : R :=
  1 / 2 * rsum (p_Nq P) (fun q => p_W P q * p_J P g q * contract Q (stress Q g (U g) q) (dgrad Q g (U g) q)).
Definition defect_energy (f : list nat) (U : nat -> nat -> R) : R :=
  if free f then 0 else
  rsum (p_nq P) (fun q => p_w P q * rsum dim (fun i =>
    let d := facet_jump f U q i - prescribed f q i in
    - facet_traction f U q i * d + 1 / 2 * (ep_pen Q f * ep_nl Q f q) * (d * d))).
Definition stored_energy (U : nat -> nat -> R) : R :=
  lsum (fun g => strain_energy g U - evol_load Q g U) (seq 0 (length elems)) + lsum (fun f => defect_energy f U) facets.
(** Work of the facet forces on increments of the prescribed jumps and values. *)
Definition work (U : nat -> nat -> R) (djump : list nat -> nat -> nat -> nat -> R) (dvalue : list nat -> nat -> nat -> R) : R :=
  lsum (fun f => if ehas_data Q (bc f) then
      rsum (p_nq P) (fun q => p_w P q * rsum dim (fun i => facet_force f U q i *
        match elements_of elems f with [g] => dvalue f i q | [g; h] => djump f g i q | _ => 0 end))
    else 0) facets.
(** Discrete equilibrium. *)
Definition in_equilibrium (U : nat -> nat -> R) : Prop := forall V, elastic_form Q elems facets bc U V = elastic_load Q elems facets bc V.
End Energy.
