(** Specification: piecewise smooth solutions of the Poisson problem with prescribed slip and boundary
    values on a mesh, and ranks that hold the prescribed values (C79). *)
Require Import List Arith Bool Reals.
Require Import Verif.Base Verif.LinAlg Verif.SimplexModel Verif.TopoModel Verif.TopoSpec Verif.AssembleModel Verif.AssembleSpec Verif.MatFree Verif.FaultModel
  Verif.PoissonModel Verif.SipSpec Verif.GeometryModel Verif.GeometrySpec Verif.MeshSpec Verif.IntegralSpec Verif.ErrorSpec.
Import ListNotations.
Local Open Scope R_scope.

Section Solution.
Variables (G : geo_setup) (elems facets : list (list nat)) (bc : list nat -> nat).
Local Notation D := (gs_D G).
(** Places in space: of a point xi of element g, and of quadrature point q of facet f, a facet of g (the
    same for both elements of f by C62). *)
Definition place_in (g : nat) (xi : vec) : vec := position_at G (nth g elems []) xi.
Definition place_on (f : list nat) (g q : nat) : vec := place_in g (facet_param D (ref_facet D (facet_number D elems f g)) (gs_chi G q)).
(** The Poisson problem of a mesh with prescribed slip and boundary values: the force is in [R_]. *)
Definition data_problem (R_ : pdata) (degree : nat) (slip : list nat -> nat -> nat -> R) (value : list nat -> nat -> R) : problem :=
  let Q := mesh_problem G elems R_ degree in {|
    pb_ref := pb_ref Q; pb_loc := pb_loc Q; pb_n := pb_n Q; pb_nl := pb_nl Q; pb_G := pb_G Q; pb_pen := pb_pen Q;
    pb_jump := slip; pb_value := value |}.

(** In each element g, w g is twice differentiable with gradient dw g and
      - div (c g  grad (w g)) = force
    at the quadrature points; between elements w jumps by the prescribed slip (not at all if none is
    prescribed) and the flux through the facet is continuous; on the boundary w has the prescribed value
    (zero if none is prescribed), and on natural boundaries the flux is zero. *)
Record classical_solution (force : nat -> nat -> R) (slip : list nat -> nat -> nat -> R) (value : list nat -> nat -> R)
    (Nq nq : nat) (c w : nat -> vec -> R) (dw : nat -> vec -> vec) : Prop := {
  cs_gradient : forall g x, (g < length elems)%nat -> gradient_at D (w g) x (dw g x);
  cs_equation : exists dflux : nat -> vec -> nat -> vec,
    (forall g x i, (g < length elems)%nat -> (i < D)%nat -> gradient_at D (fun y => c g y * dw g y i) x (dflux g x i)) /\
    (forall g q, (g < length elems)%nat -> (q < Nq)%nat -> force g q = - rsum D (fun i => dflux g (place_in g (gs_xi G q)) i i));
  cs_inner : forall f g h q, In f facets -> elements_of elems f = [g; h] -> (q < nq)%nat ->
    w g (place_on f g q) - w h (place_on f h q) = (if has_data (bc f) then slip f g q else 0) /\
    rsum D (fun i => c g (place_on f g q) * dw g (place_on f g q) i * mesh_normal G elems f g i q)
    = rsum D (fun i => c h (place_on f h q) * dw h (place_on f h q) i * mesh_normal G elems f g i q);
  cs_natural : forall f g q, In f facets -> elements_of elems f = [g] -> (q < nq)%nat -> bc f = BC_Natural ->
    rsum D (fun i => c g (place_on f g q) * dw g (place_on f g q) i * mesh_normal G elems f g i q) = 0;
  cs_boundary : forall f g q, In f facets -> elements_of elems f = [g] -> (q < nq)%nat -> bc f <> BC_Natural ->
    w g (place_on f g q) = (if has_data (bc f) then value f q else 0) }.

(** The coefficient that the operators interpolate is c. *)
Definition coefficient_is (R_ : pdata) (c : nat -> vec -> R) : Prop :=
  (forall g q, (g < length elems)%nat -> (q < p_Nq R_)%nat -> rsum (p_N R_) (fun t => p_K R_ g t * p_matEQ R_ q t) = c g (place_in g (gs_xi G q))) /\
  (forall f g q, In f facets -> In g (elements_of elems f) -> (q < p_nq R_)%nat ->
     rsum (p_N R_) (fun t => p_K R_ g t * p_matE R_ (facet_number D elems f g) q t) = c g (place_on f g q)).
(** U holds the coefficients of w. *)
Definition represents (R_ : pdata) (phi : nat -> vec -> R) (w : nat -> vec -> R) (U : nat -> nat -> R) : Prop :=
  forall g xi, (g < length elems)%nat -> rsum (p_N R_) (fun l => U g l * phi l xi) = w g (place_in g xi).
End Solution.

(** A rank that has the force on its elements, and the slip and the boundary values on its facets. *)
Record holds_data (k : nat) (R_ : pdata) (slip : list nat -> nat -> nat -> R) (value : list nat -> nat -> R) (m : topo_mesh) (P : pdata) : Prop := {
  hd_force : forall e g, nth_error (tm_l2cg m) e = Some g -> p_force P e = p_force R_ g;
  hd_skeleton : forall i f x, (i < tm_num_local_facets m)%nat -> nth_error (tm_facets m) i = Some f -> facet_record_ok k m i x ->
     fi_up0 x <> fi_up1 x ->
     (fi_bc x = BC_Fault -> p_slip P i false = slip f (fi_g0 x)) /\
     (fi_bc x = BC_Dirichlet -> p_dir P i false = slip f (fi_g0 x));
  hd_boundary : forall i f x, (i < tm_num_local_facets m)%nat -> nth_error (tm_facets m) i = Some f -> facet_record_ok k m i x ->
     fi_up0 x = fi_up1 x ->
     (fi_bc x = BC_Fault -> forall q, p_slip P i true q * (1 / 2) = value f q) /\
     (fi_bc x = BC_Dirichlet -> p_dir P i true = value f) }.
