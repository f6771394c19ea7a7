(** Specification of the discretisation as a whole: the symmetric interior penalty form on the global
    mesh, and what it means that a rank holds its part of the data. *)
Require Import List Arith Bool Reals.
Require Import Verif.Base Verif.LinAlg Verif.SimplexModel Verif.TopoModel Verif.TopoSpec Verif.AssembleModel Verif.AssembleSpec Verif.MatFree Verif.PoissonModel.
Import ListNotations.
Local Open Scope R_scope.

(** Data of the problem on the global mesh.  A facet is its list of vertices.  [pb_ref] holds the
    reference element and, by global element number, AbsDetJ, the inverse Jacobian, the material
    coefficients and the force at the quadrature points (its facet data are not used). *)
Record problem := {
  pb_ref : pdata;
  pb_loc : list nat -> nat -> nat;                     (* f g: which of element g's facets f is *)
  pb_n : list nat -> nat -> nat -> nat -> R;           (* f g i q: normal out of g, times surface element *)
  pb_nl : list nat -> nat -> R;                        (* f q: length of the normal *)
  pb_G : list nat -> nat -> nat -> nat -> nat -> R;    (* f g e i q: inverse Jacobian of g on f *)
  pb_pen : list nat -> R;                              (* penalty *)
  pb_jump : list nat -> nat -> nat -> R;               (* f g q: prescribed u_g - u_other *)
  pb_value : list nat -> nat -> R                      (* f q: prescribed u on the boundary *) }.

Section Form.
Variable Q : problem.
Local Notation P := (pb_ref Q).
Local Notation N := (p_N P). Local Notation dim := (p_dim P).

(** In element g, at volume quadrature point q: coefficient, and gradient of the function with
    coefficients U. *)
Definition kappa (g q : nat) : R := rsum N (fun m => p_K P g m * p_matEQ P q m).
Definition grad (g : nat) (U : nat -> R) (i q : nat) : R :=
  rsum N (fun l => rsum dim (fun e => p_GQ P g e i q * p_DxiQ P l e q) * U l).
Definition value (g : nat) (U : nat -> R) (q : nat) : R := rsum N (fun l => p_EQ P l q * U l).
(** On facet f of element g, at facet quadrature point q. *)
Definition kappa_on (f : list nat) (g q : nat) : R := rsum N (fun m => p_K P g m * p_matE P (pb_loc Q f g) q m).
Definition grad_on (f : list nat) (g : nat) (U : nat -> R) (i q : nat) : R :=
  rsum N (fun l => rsum dim (fun e => pb_G Q f g e i q * p_Dxi P (pb_loc Q f g) l e q) * U l).
Definition trace (f : list nat) (g : nat) (U : nat -> R) (q : nat) : R := rsum N (fun l => p_E P (pb_loc Q f g) l q * U l).

(** Volume term: integral of K grad u . grad v over element g. *)
Definition vol_term (g : nat) (U V : nat -> nat -> R) : R :=
  rsum (p_Nq P) (fun q => p_W P q * p_J P g q * kappa g q * rsum dim (fun i => grad g (U g) i q * grad g (V g) i q)).
(** Interior facet f of g and h: integral of - {K grad u} . [v] - {K grad v} . [u] + penalty (u_g - u_h) (v_g - v_h),
    with the mean {.} and the jump [v] = v_g n_g + v_h n_h. *)
Definition mean_flux (f : list nat) (g h : nat) (U : nat -> nat -> R) (i q : nat) : R :=
  1 / 2 * (kappa_on f g q * grad_on f g (U g) i q + kappa_on f h q * grad_on f h (U h) i q).
Definition jump (f : list nat) (g h : nat) (U : nat -> nat -> R) (i q : nat) : R :=
  trace f g (U g) q * pb_n Q f g i q + trace f h (U h) q * pb_n Q f h i q.
Definition int_term (f : list nat) (g h : nat) (U V : nat -> nat -> R) : R :=
  rsum (p_nq P) (fun q => p_w P q *
    (- rsum dim (fun i => mean_flux f g h U i q * jump f g h V i q)
     - rsum dim (fun i => mean_flux f g h V i q * jump f g h U i q)
     + pb_pen Q f * pb_nl Q f q * (trace f g (U g) q - trace f h (U h) q) * (trace f g (V g) q - trace f h (V h) q))).
(** Boundary facet f of g: the same with u = v = 0 outside. *)
Definition bnd_term (f : list nat) (g : nat) (U V : nat -> nat -> R) : R :=
  rsum (p_nq P) (fun q => p_w P q *
    (- rsum dim (fun i => kappa_on f g q * grad_on f g (U g) i q * (trace f g (V g) q * pb_n Q f g i q))
     - rsum dim (fun i => kappa_on f g q * grad_on f g (V g) i q * (trace f g (U g) q * pb_n Q f g i q))
     + pb_pen Q f * pb_nl Q f q * trace f g (U g) q * trace f g (V g) q)).
Definition facet_term (elems : list (list nat)) (bc : list nat -> nat) (f : list nat) (U V : nat -> nat -> R) : R :=
  match elements_of elems f with
  | [g] => if bc f =? BC_Natural then 0 else bnd_term f g U V
  | [g; h] => int_term f g h U V
  | _ => 0
  end.
(** The bilinear form on the whole mesh; U, V give the coefficients by global element number. *)
Definition sip_form (elems facets : list (list nat)) (bc : list nat -> nat) (U V : nat -> nat -> R) : R :=
  lsum (fun g => vol_term g U V) (seq 0 (length elems)) + lsum (fun f => facet_term elems bc f U V) facets.

(** The linear form: the force, the prescribed jump on fault and inner Dirichlet facets, the prescribed
    value on the boundary. *)
Definition has_data (b : nat) : bool := (b =? BC_Fault) || (b =? BC_Dirichlet).
Definition vol_load (g : nat) (V : nat -> nat -> R) : R :=
  rsum (p_Nq P) (fun q => p_W P q * p_J P g q * p_force P g q * value g (V g) q).
Definition int_load (f : list nat) (g h : nat) (V : nat -> nat -> R) : R :=
  rsum (p_nq P) (fun q => p_w P q *
    (- rsum dim (fun i => mean_flux f g h V i q * (pb_jump Q f g q * pb_n Q f g i q))
     + pb_pen Q f * pb_nl Q f q * pb_jump Q f g q * (trace f g (V g) q - trace f h (V h) q))).
Definition bnd_load (f : list nat) (g : nat) (V : nat -> nat -> R) : R :=
  rsum (p_nq P) (fun q => p_w P q *
    (- rsum dim (fun i => kappa_on f g q * grad_on f g (V g) i q * (pb_value Q f q * pb_n Q f g i q))
     + pb_pen Q f * pb_nl Q f q * pb_value Q f q * trace f g (V g) q)).
Definition facet_load (elems : list (list nat)) (bc : list nat -> nat) (f : list nat) (V : nat -> nat -> R) : R :=
  if has_data (bc f) then
    match elements_of elems f with
    | [g] => bnd_load f g V
    | [g; h] => int_load f g h V
    | _ => 0
    end
  else 0.
Definition sip_load (elems facets : list (list nat)) (bc : list nat -> nat) (V : nat -> nat -> R) : R :=
  lsum (fun g => vol_load g V) (seq 0 (length elems)) + lsum (fun f => facet_load elems bc f V) facets.
End Form.

(** V^T A U for a matrix, and V^T b for a vector, given as lists of blocks. *)
Definition pairing (n : nat) (A : list (nat * nat * (nat -> nat -> R))) (V U : nat -> nat -> R) : R :=
  lsum (fun '(i, j, B) => rsum n (fun k => V i k * rsum n (fun l => B k l * U j l))) A.
Definition vpairing (n : nat) (b : list (nat * (nat -> R))) (V : nat -> nat -> R) : R :=
  lsum (fun '(i, B) => rsum n (fun k => V i k * B k)) b.

(** The data fit the mesh: [pb_loc] is the position in downward(), the two normals of an interior
    facet are opposite, and so are the jumps seen from its two sides. *)
Record problem_ok (k : nat) (elems facets : list (list nat)) (Q : problem) : Prop := {
  po_loc : forall f g plex, In f facets -> nth_error elems g = Some plex -> incl f plex ->
     exists ds, downward k plex = Some ds /\ nth_error ds (pb_loc Q f g) = Some f;
  po_n : forall f g h i q, In f facets -> elements_of elems f = [g; h] -> pb_n Q f h i q = - pb_n Q f g i q;
  po_jump : forall f g h q, In f facets -> elements_of elems f = [g; h] -> pb_jump Q f h q = - pb_jump Q f g q }.

(** A rank's operator data P are those of the problem on its part m of the mesh; the first element of
    a facet record is the one whose outward normal is kept. *)
Record rank_data (k : nat) (Q : problem) (m : topo_mesh) (P : pdata) : Prop := {
  rd_dim : p_dim P = p_dim (pb_ref Q);
  rd_N : p_N P = p_N (pb_ref Q);
  rd_Nq : p_Nq P = p_Nq (pb_ref Q);
  rd_nq : p_nq P = p_nq (pb_ref Q);
  rd_W : p_W P = p_W (pb_ref Q);
  rd_w : p_w P = p_w (pb_ref Q);
  rd_EQ : p_EQ P = p_EQ (pb_ref Q);
  rd_DxiQ : p_DxiQ P = p_DxiQ (pb_ref Q);
  rd_matEQ : p_matEQ P = p_matEQ (pb_ref Q);
  rd_E : p_E P = p_E (pb_ref Q);
  rd_Dxi : p_Dxi P = p_Dxi (pb_ref Q);
  rd_matE : p_matE P = p_matE (pb_ref Q);
  rd_elem : forall e g, nth_error (tm_l2cg m) e = Some g ->
     p_J P e = p_J (pb_ref Q) g /\ p_GQ P e = p_GQ (pb_ref Q) g /\ p_K P e = p_K (pb_ref Q) g /\ p_force P e = p_force (pb_ref Q) g;
  rd_facet : forall i f x, (i < tm_num_local_facets m)%nat -> nth_error (tm_facets m) i = Some f -> facet_record_ok k m i x ->
     p_n P i = pb_n Q f (fi_g0 x) /\ p_nl P i = pb_nl Q f /\ p_pen P i = pb_pen Q f /\
     p_G0 P i = pb_G Q f (fi_g0 x) /\ p_G1 P i = pb_G Q f (fi_g1 x);
  rd_skeleton : forall i f x, (i < tm_num_local_facets m)%nat -> nth_error (tm_facets m) i = Some f -> facet_record_ok k m i x ->
     fi_up0 x <> fi_up1 x ->
     (fi_bc x = BC_Fault -> p_slip P i false = pb_jump Q f (fi_g0 x)) /\
     (fi_bc x = BC_Dirichlet -> p_dir P i false = pb_jump Q f (fi_g0 x));
  rd_boundary : forall i f x, (i < tm_num_local_facets m)%nat -> nth_error (tm_facets m) i = Some f -> facet_record_ok k m i x ->
     fi_up0 x = fi_up1 x ->
     (fi_bc x = BC_Fault -> forall q, p_slip P i true q * (1 / 2) = pb_value Q f q) /\
     (fi_bc x = BC_Dirichlet -> p_dir P i true = pb_value Q f) }.
