(** Specification of linear elasticity on the whole mesh: the symmetric interior penalty form, its
    linear form, and what it means that a rank holds its part of the data. *)
Require Import List Arith Bool Reals.
Require Import Verif.Base Verif.LinAlg Verif.SimplexModel Verif.TopoModel Verif.TopoSpec Verif.AssembleModel Verif.AssembleSpec Verif.MatFree
  Verif.PoissonModel Verif.SipSpec Verif.ElasticityModel.
Import ListNotations.
Local Open Scope R_scope.

(** Data of the problem on the global mesh; a facet is its list of vertices.  [ep_ref] holds the
    reference element and, by global element number, AbsDetJ, the inverse Jacobian, the nodal values of
    lambda, mu and 1/rho, and the force (its facet data are not used). *)
Record eproblem := {
  ep_ref : edata;
  ep_loc : list nat -> nat -> nat;                     (* f g: which of element g's facets f is *)
  ep_n : list nat -> nat -> nat -> nat -> R;           (* f g i q: normal out of g, times surface element *)
  ep_nl : list nat -> nat -> R;                        (* f q: length of the normal *)
  ep_G : list nat -> nat -> nat -> nat -> nat -> R;    (* f g e i q: inverse Jacobian of g on f *)
  ep_pen : list nat -> R;                              (* penalty *)
  ep_has_slip : bool;                                  (* a slip function is set *)
  ep_has_dir : bool;                                   (* a Dirichlet function is set *)
  ep_jump : list nat -> nat -> nat -> nat -> R;        (* f g p q: prescribed component p of u_g - u_other *)
  ep_value : list nat -> nat -> nat -> R               (* f p q: prescribed component p of u on the boundary *) }.

Section Form.
Variable Q : eproblem.
Local Notation P := (e_geo (ep_ref Q)).
Local Notation N := (p_N P). Local Notation dim := (p_dim P).

(** Component p of the function with coefficients U has the coefficients U (0 + N p) .. U (N - 1 + N p). *)
Definition coef (U : nat -> R) (p l : nat) : R := U (l + N * p)%nat.
(** Isotropic stress of the displacement gradient H (H i j = d u_i / d x_j). *)
Definition hooke (lam mu : R) (H : nat -> nat -> R) (i j : nat) : R :=
  lam * (if i =? j then 1 else 0) * rsum dim (fun r => H r r) + mu * (H i j + H j i).

(** In element g, at volume quadrature point q. *)
Definition lam_in (g q : nat) : R := rsum N (fun t => p_matEQ P q t * e_lam (ep_ref Q) g t).
Definition mu_in (g q : nat) : R := rsum N (fun t => p_matEQ P q t * e_mu (ep_ref Q) g t).
Definition dgrad (g : nat) (U : nat -> R) (q i j : nat) : R :=
  rsum N (fun l => rsum dim (fun e => p_GQ P g e j q * p_DxiQ P l e q) * coef U i l).
Definition disp (U : nat -> R) (q i : nat) : R := rsum N (fun l => p_EQ P l q * coef U i l).
Definition stress (g : nat) (U : nat -> R) (q : nat) : nat -> nat -> R := hooke (lam_in g q) (mu_in g q) (dgrad g U q).
(** On facet f of element g, at facet quadrature point q. *)
Definition lam_on (f : list nat) (g q : nat) : R := rsum N (fun t => p_matE P (ep_loc Q f g) q t * e_lam (ep_ref Q) g t).
Definition mu_on (f : list nat) (g q : nat) : R := rsum N (fun t => p_matE P (ep_loc Q f g) q t * e_mu (ep_ref Q) g t).
Definition dgrad_on (f : list nat) (g : nat) (U : nat -> R) (q i j : nat) : R :=
  rsum N (fun l => rsum dim (fun e => ep_G Q f g e j q * p_Dxi P (ep_loc Q f g) l e q) * coef U i l).
Definition disp_on (f : list nat) (g : nat) (U : nat -> R) (q i : nat) : R := rsum N (fun l => p_E P (ep_loc Q f g) l q * coef U i l).
Definition stress_on (f : list nat) (g : nat) (U : nat -> R) (q : nat) : nat -> nat -> R := hooke (lam_on f g q) (mu_on f g q) (dgrad_on f g U q).

Definition contract (A B : nat -> nat -> R) : R := rsum dim (fun i => rsum dim (fun j => A i j * B i j)).
(** Volume term: integral of stress(u) : grad v over element g. *)
Definition evol_term (g : nat) (U V : nat -> nat -> R) : R :=
  rsum (p_Nq P) (fun q => p_W P q * p_J P g q * contract (stress g (U g) q) (dgrad g (V g) q)).
(** Interior facet f of g and h: integral of - {stress(u)} : [v] - {stress(v)} : [u] + penalty (u_g - u_h) . (v_g - v_h),
    with the mean {.} and the jump [v] = v_g (x) n_g + v_h (x) n_h. *)
Definition mean_stress (f : list nat) (g h : nat) (U : nat -> nat -> R) (q i j : nat) : R :=
  1 / 2 * (stress_on f g (U g) q i j + stress_on f h (U h) q i j).
Definition djump (f : list nat) (g h : nat) (U : nat -> nat -> R) (q i j : nat) : R :=
  disp_on f g (U g) q i * ep_n Q f g j q + disp_on f h (U h) q i * ep_n Q f h j q.
Definition eint_term (f : list nat) (g h : nat) (U V : nat -> nat -> R) : R :=
  rsum (p_nq P) (fun q => p_w P q *
    (- contract (mean_stress f g h U q) (djump f g h V q)
     - contract (mean_stress f g h V q) (djump f g h U q)
     + ep_pen Q f * ep_nl Q f q * rsum dim (fun i =>
         (disp_on f g (U g) q i - disp_on f h (U h) q i) * (disp_on f g (V g) q i - disp_on f h (V h) q i)))).
(** Boundary facet f of g: the same with u = v = 0 outside. *)
Definition ebnd_term (f : list nat) (g : nat) (U V : nat -> nat -> R) : R :=
  rsum (p_nq P) (fun q => p_w P q *
    (- contract (stress_on f g (U g) q) (fun i j => disp_on f g (V g) q i * ep_n Q f g j q)
     - contract (stress_on f g (V g) q) (fun i j => disp_on f g (U g) q i * ep_n Q f g j q)
     + ep_pen Q f * ep_nl Q f q * rsum dim (fun i => disp_on f g (U g) q i * disp_on f g (V g) q i))).
Definition efacet_term (elems : list (list nat)) (bc : list nat -> nat) (f : list nat) (U V : nat -> nat -> R) : R :=
  match elements_of elems f with
  | [g] => if bc f =? BC_Natural then 0 else ebnd_term f g U V
  | [g; h] => eint_term f g h U V
  | _ => 0
  end.
(** The bilinear form on the whole mesh. *)
Definition elastic_form (elems facets : list (list nat)) (bc : list nat -> nat) (U V : nat -> nat -> R) : R :=
  lsum (fun g => evol_term g U V) (seq 0 (length elems)) + lsum (fun f => efacet_term elems bc f U V) facets.

(** The linear form: the force, the prescribed jump on fault and inner Dirichlet facets, the prescribed
    value on the boundary, as far as the functions are set. *)
Definition ehas_data (b : nat) : bool := ((b =? BC_Fault) && ep_has_slip Q) || ((b =? BC_Dirichlet) && ep_has_dir Q).
Definition evol_load (g : nat) (V : nat -> nat -> R) : R :=
  match e_force (ep_ref Q) with
  | None => 0
  | Some F => rsum (p_Nq P) (fun q => p_W P q * p_J P g q * rsum dim (fun i => F g i q * disp (V g) q i))
  end.
Definition eint_load (f : list nat) (g h : nat) (V : nat -> nat -> R) : R :=
  rsum (p_nq P) (fun q => p_w P q *
    (- contract (mean_stress f g h V q) (fun i j => ep_jump Q f g i q * ep_n Q f g j q)
     + ep_pen Q f * ep_nl Q f q * rsum dim (fun i => ep_jump Q f g i q * (disp_on f g (V g) q i - disp_on f h (V h) q i)))).
Definition ebnd_load (f : list nat) (g : nat) (V : nat -> nat -> R) : R :=
  rsum (p_nq P) (fun q => p_w P q *
    (- contract (stress_on f g (V g) q) (fun i j => ep_value Q f i q * ep_n Q f g j q)
     + ep_pen Q f * ep_nl Q f q * rsum dim (fun i => ep_value Q f i q * disp_on f g (V g) q i))).
Definition efacet_load (elems : list (list nat)) (bc : list nat -> nat) (f : list nat) (V : nat -> nat -> R) : R :=
  if ehas_data (bc f) then
    match elements_of elems f with
    | [g] => ebnd_load f g V
    | [g; h] => eint_load f g h V
    | _ => 0
    end
  else 0.
Definition elastic_load (elems facets : list (list nat)) (bc : list nat -> nat) (V : nat -> nat -> R) : R :=
  lsum (fun g => evol_load g V) (seq 0 (length elems)) + lsum (fun f => efacet_load elems bc f V) facets.
End Form.

(** The data fit the mesh: [ep_loc] is the position in downward(), the two normals of an interior
    facet are opposite, and so are the jumps seen from its two sides. *)
Record eproblem_ok (k : nat) (elems facets : list (list nat)) (Q : eproblem) : Prop := {
  eo_loc : forall f g plex, In f facets -> nth_error elems g = Some plex -> incl f plex ->
     exists ds, downward k plex = Some ds /\ nth_error ds (ep_loc Q f g) = Some f;
  eo_n : forall f g h i q, In f facets -> elements_of elems f = [g; h] -> ep_n Q f h i q = - ep_n Q f g i q;
  eo_jump : forall f g h i q, In f facets -> elements_of elems f = [g; h] -> ep_jump Q f h i q = - ep_jump Q f g i q }.

(** A rank's operator data E are those of the problem on its part m of the mesh. *)
Record erank_data (k : nat) (Q : eproblem) (m : topo_mesh) (E : edata) : Prop := {
  er_dim : p_dim (e_geo E) = p_dim (e_geo (ep_ref Q));
  er_N : p_N (e_geo E) = p_N (e_geo (ep_ref Q));
  er_Nq : p_Nq (e_geo E) = p_Nq (e_geo (ep_ref Q));
  er_nq : p_nq (e_geo E) = p_nq (e_geo (ep_ref Q));
  er_W : p_W (e_geo E) = p_W (e_geo (ep_ref Q));
  er_w : p_w (e_geo E) = p_w (e_geo (ep_ref Q));
  er_EQ : p_EQ (e_geo E) = p_EQ (e_geo (ep_ref Q));
  er_DxiQ : p_DxiQ (e_geo E) = p_DxiQ (e_geo (ep_ref Q));
  er_matEQ : p_matEQ (e_geo E) = p_matEQ (e_geo (ep_ref Q));
  er_E : p_E (e_geo E) = p_E (e_geo (ep_ref Q));
  er_Dxi : p_Dxi (e_geo E) = p_Dxi (e_geo (ep_ref Q));
  er_matE : p_matE (e_geo E) = p_matE (e_geo (ep_ref Q));
  er_elem : forall e g, nth_error (tm_l2cg m) e = Some g ->
     p_J (e_geo E) e = p_J (e_geo (ep_ref Q)) g /\ p_GQ (e_geo E) e = p_GQ (e_geo (ep_ref Q)) g /\
     e_lam E e = e_lam (ep_ref Q) g /\ e_mu E e = e_mu (ep_ref Q) g /\ e_rhoInv E e = e_rhoInv (ep_ref Q) g;
  er_force : match e_force (ep_ref Q), e_force E with
    | None, None => True
    | Some F, Some F' => forall e g, nth_error (tm_l2cg m) e = Some g -> F' e = F g
    | _, _ => False end;
  er_facet : forall i f x, (i < tm_num_local_facets m)%nat -> nth_error (tm_facets m) i = Some f -> facet_record_ok k m i x ->
     p_n (e_geo E) i = ep_n Q f (fi_g0 x) /\ p_nl (e_geo E) i = ep_nl Q f /\ p_pen (e_geo E) i = ep_pen Q f /\
     p_G0 (e_geo E) i = ep_G Q f (fi_g0 x) /\ p_G1 (e_geo E) i = ep_G Q f (fi_g1 x);
  er_slip : match e_slip E with
    | None => ep_has_slip Q = false
    | Some s => ep_has_slip Q = true /\
        forall i f x, (i < tm_num_local_facets m)%nat -> nth_error (tm_facets m) i = Some f -> facet_record_ok k m i x -> fi_bc x = BC_Fault ->
          (fi_up0 x <> fi_up1 x -> s i false = ep_jump Q f (fi_g0 x)) /\
          (fi_up0 x = fi_up1 x -> forall p q, s i true p q * (1 / 2) = ep_value Q f p q)
    end;
  er_dir : match e_dir E with
    | None => ep_has_dir Q = false
    | Some d => ep_has_dir Q = true /\
        forall i f x, (i < tm_num_local_facets m)%nat -> nth_error (tm_facets m) i = Some f -> facet_record_ok k m i x -> fi_bc x = BC_Dirichlet ->
          (fi_up0 x <> fi_up1 x -> d i false = ep_jump Q f (fi_g0 x)) /\
          (fi_up0 x = fi_up1 x -> d i true = ep_value Q f)
    end }.
