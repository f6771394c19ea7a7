(** Specification: piecewise smooth equilibria of linear elasticity with prescribed slip and boundary
    displacement on a mesh, and ranks that hold the prescribed values (C80). *)
Require Import List Arith Bool Reals.
Require Import Verif.Base Verif.LinAlg Verif.SimplexModel Verif.TopoModel Verif.TopoSpec Verif.AssembleModel Verif.AssembleSpec Verif.MatFree Verif.FaultModel
  Verif.PoissonModel Verif.SipSpec Verif.GeometryModel Verif.GeometrySpec Verif.MeshSpec Verif.IntegralSpec Verif.ErrorSpec
  Verif.ElasticityModel Verif.ElasticFormSpec Verif.MeshElasticSpec Verif.ConsistencySpec.
Import ListNotations.
Local Open Scope R_scope.

(** What is prescribed: force (f_force g p q), slip (component p of u_g - u_other on facet f) and boundary
    displacement; None: the function is not set.  On facets both functions share the table of values. *)
Record loads := {
  ld_force : option (nat -> nat -> nat -> R);
  ld_slip : bool;                                       (* a slip function is set: fault facets *)
  ld_dir : bool;                                        (* a Dirichlet function is set: Dirichlet facets *)
  ld_jump : list nat -> nat -> nat -> nat -> R;         (* f g p q *)
  ld_value : list nat -> nat -> nat -> R                (* f p q *) }.
Definition ld_on (L : loads) (b : nat) : bool := ((b =? BC_Fault) && ld_slip L) || ((b =? BC_Dirichlet) && ld_dir L).
Definition ld_body (L : loads) (g p q : nat) : R := match ld_force L with Some F => F g p q | None => 0 end.

(** Isotropic stress of the displacement gradient H (H i j = d u_i / d x_j). *)
Definition isotropic (D : nat) (lam mu : R) (H : nat -> vec) (i j : nat) : R :=
  (if (i =? j)%nat then lam * rsum D (fun r => H r r) else 0) + mu * (H i j + H j i).

Section Solution.
Variables (G : geo_setup) (elems facets : list (list nat)) (bc : list nat -> nat).
Local Notation D := (gs_D G).
Definition load_problem (E_ : edata) (degree : nat) (L : loads) : eproblem :=
  let Q := mesh_eproblem G elems E_ degree in {|
    ep_ref := {| e_geo := e_geo (ep_ref Q); e_lam := e_lam (ep_ref Q); e_mu := e_mu (ep_ref Q); e_rhoInv := e_rhoInv (ep_ref Q); e_Minv := e_Minv (ep_ref Q);
                 e_force := ld_force L; e_dir := None; e_slip := None |};
    ep_loc := ep_loc Q; ep_n := ep_n Q; ep_nl := ep_nl Q; ep_G := ep_G Q; ep_pen := ep_pen Q;
    ep_has_slip := ld_slip L; ep_has_dir := ld_dir L; ep_jump := ld_jump L; ep_value := ld_value L |}.

Section Sigma.
Variables (lam mu : nat -> vec -> R) (dw : nat -> vec -> nat -> vec).
(** Stress of the displacement with gradients dw g x p in element g at x, and traction with respect to
    the normal of facet f that points out of element n. *)
Definition sigma (g : nat) (x : vec) : nat -> nat -> R := isotropic D (lam g x) (mu g x) (dw g x).
Definition traction_of (f : list nat) (g n p q : nat) : R := rsum D (fun j => sigma g (place_on G elems f g q) p j * mesh_normal G elems f n j q).
End Sigma.
(** In each element g the displacement w g has the gradients dw g and its stress satisfies
      - div sigma = force
    at the quadrature points; between elements the displacement jumps by the prescribed slip (not at all
    if none is prescribed) and the traction is continuous; on the boundary the displacement is prescribed
    (zero if nothing is), and natural boundaries are free of traction. *)
Record equilibrium (L : loads) (Nq nq : nat) (lam mu : nat -> vec -> R) (w : nat -> vec -> nat -> R) (dw : nat -> vec -> nat -> vec) : Prop := {
  eq_gradient : forall g x p, (g < length elems)%nat -> (p < D)%nat -> gradient_at D (fun y => w g y p) x (dw g x p);
  eq_balance : exists dsigma : nat -> vec -> nat -> nat -> vec,
    (forall g x p j, (g < length elems)%nat -> (p < D)%nat -> (j < D)%nat -> gradient_at D (fun y => sigma lam mu dw g y p j) x (dsigma g x p j)) /\
    (forall g p q, (g < length elems)%nat -> (p < D)%nat -> (q < Nq)%nat -> ld_body L g p q = - rsum D (fun j => dsigma g (place_in G elems g (gs_xi G q)) p j j));
  eq_inner : forall f g h p q, In f facets -> elements_of elems f = [g; h] -> (p < D)%nat -> (q < nq)%nat ->
    w g (place_on G elems f g q) p - w h (place_on G elems f h q) p = (if ld_on L (bc f) then ld_jump L f g p q else 0) /\
    traction_of lam mu dw f g g p q = traction_of lam mu dw f h g p q;
  eq_natural : forall f g p q, In f facets -> elements_of elems f = [g] -> (p < D)%nat -> (q < nq)%nat -> bc f = BC_Natural ->
    traction_of lam mu dw f g g p q = 0;
  eq_boundary : forall f g p q, In f facets -> elements_of elems f = [g] -> (p < D)%nat -> (q < nq)%nat -> bc f <> BC_Natural ->
    w g (place_on G elems f g q) p = (if ld_on L (bc f) then ld_value L f p q else 0) }.

(** The nodal values K g t of a material parameter, interpolated, are the function c. *)
Definition parameter_is (R_ : pdata) (K : nat -> nat -> R) (c : nat -> vec -> R) : Prop :=
  (forall g q, (g < length elems)%nat -> (q < p_Nq R_)%nat -> rsum (p_N R_) (fun t => p_matEQ R_ q t * K g t) = c g (place_in G elems g (gs_xi G q))) /\
  (forall f g q, In f facets -> In g (elements_of elems f) -> (q < p_nq R_)%nat ->
     rsum (p_N R_) (fun t => p_matE R_ (facet_number D elems f g) q t * K g t) = c g (place_on G elems f g q)).
(** U holds the coefficients of w, component after component. *)
Definition represents_displacement (R_ : pdata) (phi : nat -> vec -> R) (w : nat -> vec -> nat -> R) (U : nat -> nat -> R) : Prop :=
  forall g p xi, (g < length elems)%nat -> (p < D)%nat -> rsum (p_N R_) (fun l => U g (l + p_N R_ * p)%nat * phi l xi) = w g (place_in G elems g xi) p.
End Solution.

(** A rank that has the force on its elements, and the slip and the boundary displacement on its facets. *)
Record holds_loads (k : nat) (L : loads) (m : topo_mesh) (E : edata) : Prop := {
  hl_force : match ld_force L, e_force E with
    | None, None => True
    | Some F, Some F' => forall e g, nth_error (tm_l2cg m) e = Some g -> F' e = F g
    | _, _ => False end;
  hl_slip : match e_slip E with
    | None => ld_slip L = false
    | Some s => ld_slip L = true /\
        forall i f x, (i < tm_num_local_facets m)%nat -> nth_error (tm_facets m) i = Some f -> facet_record_ok k m i x -> fi_bc x = BC_Fault ->
          (fi_up0 x <> fi_up1 x -> s i false = ld_jump L f (fi_g0 x)) /\
          (fi_up0 x = fi_up1 x -> forall p q, s i true p q * (1 / 2) = ld_value L f p q)
    end;
  hl_dir : match e_dir E with
    | None => ld_dir L = false
    | Some d => ld_dir L = true /\
        forall i f x, (i < tm_num_local_facets m)%nat -> nth_error (tm_facets m) i = Some f -> facet_record_ok k m i x -> fi_bc x = BC_Dirichlet ->
          (fi_up0 x <> fi_up1 x -> d i false = ld_jump L f (fi_g0 x)) /\
          (fi_up0 x = fi_up1 x -> d i true = ld_value L f)
    end }.
