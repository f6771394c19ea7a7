(** Specification: the elasticity problem that belongs to a mesh given by its vertices, and the ranks
    that solve it (C64). *)
Require Import List Arith Bool Reals Factorial.
Require Import Verif.Base Verif.LinAlg Verif.SimplexModel Verif.TopoModel Verif.TopoSpec Verif.AssembleModel Verif.AssembleSpec Verif.MatFree Verif.FaultModel
  Verif.PoissonModel Verif.PenaltyModel Verif.GeometryModel Verif.GeometrySpec Verif.MeshSpec Verif.ElasticityModel Verif.ElasticFormSpec.
Import ListNotations.
Local Open Scope R_scope.

Section Problem.
Variables (G : geo_setup) (elems : list (list nat)).
Local Notation D := (gs_D G).
(** [E_]: the reference element, and Lame parameters and inverse density by global element number. *)
Variable E_ : edata.
Local Notation N := (p_N (e_geo E_)).
Definition with_egeometry : edata := {|
  e_geo := with_geometry G elems (e_geo E_); e_lam := e_lam E_; e_mu := e_mu E_; e_rhoInv := e_rhoInv E_; e_Minv := e_Minv E_;
  e_force := None; e_dir := None; e_slip := None |}.
(** The penalty is (D + 1) C area/volume c1^2/c0, with the constant C of the inverse trace inequality, the
    largest D lambda + 2 mu and the smallest 2 mu, a quarter of the sum of the two on facets between
    elements.  No force and no prescribed values: they do not enter the matrix. *)
Definition elastic_penalty (degree : nat) (f : list nat) (g : nat) : R :=
  INR (D + 1) * (INR degree * INR (degree - 1 + D) / INR D) * (mesh_area G elems (e_geo E_) f / mesh_volume G elems (e_geo E_) g)
  * (largest N (fun l => INR D * e_lam E_ g l + 2 * e_mu E_ g l) * largest N (fun l => INR D * e_lam E_ g l + 2 * e_mu E_ g l)
     / smallest N (fun l => 2 * e_mu E_ g l)).
Definition mesh_eproblem (degree : nat) : eproblem := {|
  ep_ref := with_egeometry; ep_loc := facet_number D elems;
  ep_n := mesh_normal G elems; ep_nl := mesh_length G elems; ep_G := mesh_inverse G elems;
  ep_pen := fun f => match elements_of elems f with
    | [g] => elastic_penalty degree f g
    | [g; h] => (elastic_penalty degree f g + elastic_penalty degree f h) / 4
    | _ => 0 end;
  ep_has_slip := false; ep_has_dir := false;
  ep_jump := fun _ _ _ _ => 0; ep_value := fun _ _ _ => 0 |}.
End Problem.

(** A rank that computed geometry and penalties from its part of the mesh and has the nodal values of
    the material on its elements. *)
Record elastic_rank (G : geo_setup) (E_ : edata) (degree : nat) (m : topo_mesh) (fi : list facet_info) (E : edata) : Prop := {
  el_ref : same_reference (e_geo E_) (e_geo E);
  el_geometry : rank_geometry G m (e_geo E);
  el_material : forall e g, nth_error (tm_l2cg m) e = Some g -> e_lam E e = e_lam E_ g /\ e_mu E e = e_mu E_ g /\ e_rhoInv E e = e_rhoInv E_ g;
  el_method : p_method (e_geo E) = IP;
  el_table : facet_table (gs_D G) m = Some fi;
  el_pen : forall i x, nth_error fi i = Some x -> p_pen (e_geo E) i = ElasticityModel.prepare_penalty E degree i x }.

(** The quadrature rules integrate products of two linear functions exactly; [ref_facet D l] are the
    vertices of facet l, whose basis functions are the only ones that do not vanish there. *)
Record exact_quadrature (D : nat) (R_ : pdata) : Prop := {
  xq_volume : INR (fact D) * rsum (p_Nq R_) (p_W R_) = 1;
  xq_area : INR (fact (D - 1)) * rsum (p_nq R_) (p_w R_) = 1;
  xq_mass : forall i j, (i < D + 1)%nat -> (j < D + 1)%nat ->
    INR (fact (D + 2)) * rsum (p_Nq R_) (fun q => p_W R_ q * (p_EQ R_ i q * p_EQ R_ j q)) = if (i =? j)%nat then 2 else 1;
  xq_facet : forall l i j, (l < D + 1)%nat -> (i < D + 1)%nat -> (j < D + 1)%nat ->
    INR (fact (D + 1)) * rsum (p_nq R_) (fun q => p_w R_ q * (p_E R_ l i q * p_E R_ l j q)) =
      if in_dec Nat.eq_dec i (ref_facet D l) then if in_dec Nat.eq_dec j (ref_facet D l) then if (i =? j)%nat then 2 else 1 else 0 else 0 }.
