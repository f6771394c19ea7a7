(** Specification: the problem that belongs to a mesh given by its vertices, and the ranks that solve it
    (C63). *)
Require Import List Arith Bool Reals.
Require Import Verif.Base Verif.LinAlg Verif.SimplexModel Verif.TopoModel Verif.TopoSpec Verif.AssembleModel Verif.AssembleSpec Verif.MatFree Verif.FaultModel
  Verif.PoissonModel Verif.PenaltyModel Verif.SipSpec Verif.GeometryModel Verif.GeometrySpec.
Import ListNotations.
Local Open Scope R_scope.

(** Position in a list. *)
Fixpoint position (f : list nat) (ds : list (list nat)) : nat :=
  match ds with [] => 0 | d :: t => if list_eq_dec Nat.eq_dec d f then 0 else S (position f t) end.
(** Which of the facets of element g facet f is, and which vertices of the reference element it has. *)
Definition facet_number (D : nat) (elems : list (list nat)) (f : list nat) (g : nat) : nat :=
  match downward D (nth g elems []) with Some ds => position f ds | None => 0 end.
Definition ref_facet (D : nat) (l : nat) : list nat := match f2v D with Some fs => nth l fs [] | None => [] end.
(** Smallest and largest of n values. *)
Definition smallest (n : nat) (f : nat -> R) : R := fold_right Rmin (f 0%nat) (map f (seq 0 n)).
Definition largest (n : nat) (f : nat -> R) : R := fold_right Rmax (f 0%nat) (map f (seq 0 n)).

Section Problem.
Variables (G : geo_setup) (elems : list (list nat)).
Local Notation D := (gs_D G).
(** [R_]: the reference element, and coefficient and force by global element number. *)
Variable R_ : pdata.
Definition with_geometry : pdata := {|
  p_dim := p_dim R_; p_N := p_N R_; p_Nq := p_Nq R_; p_nq := p_nq R_; p_method := p_method R_;
  p_W := p_W R_; p_w := p_w R_; p_EQ := p_EQ R_; p_DxiQ := p_DxiQ R_; p_matEQ := p_matEQ R_;
  p_E := p_E R_; p_Dxi := p_Dxi R_; p_matE := p_matE R_; p_MinvRef := p_MinvRef R_;
  p_J := fun g q => Rabs (geo_det D (jacobian_at G (nth g elems []) (gs_xi G q)));
  p_GQ := fun g e i q => geo_inverse D (jacobian_at G (nth g elems []) (gs_xi G q)) e i;
  p_K := p_K R_; p_n := p_n R_; p_nu := p_nu R_; p_nl := p_nl R_; p_G0 := p_G0 R_; p_G1 := p_G1 R_;
  p_pen := p_pen R_; p_force := p_force R_; p_dir := p_dir R_; p_slip := p_slip R_ |}.
(** Normals, their length and inverse Jacobians on facets. *)
Definition mesh_point (f : list nat) (g q : nat) : facet_point :=
  let plex := nth g elems [] in let fl := ref_facet D (facet_number D elems f g) in point_data G plex fl plex fl q.
Definition mesh_normal (f : list nat) (g i q : nat) : R := components G (fq_normal (mesh_point f g q)) i.
Definition mesh_length (f : list nat) (q : nat) : R := match elements_of elems f with g :: _ => fq_length (mesh_point f g q) | [] => 0 end.
Definition mesh_inverse (f : list nat) (g e i q : nat) : R :=
  geo_inverse D (jacobian_at G (nth g elems []) (facet_param D (ref_facet D (facet_number D elems f g)) (gs_chi G q))) e i.
Definition mesh_area (f : list nat) : R := rsum (p_nq R_) (fun q => p_w R_ q * mesh_length f q).
Definition mesh_volume (g : nat) : R := rsum (p_Nq R_) (fun q => p_W R_ q * p_J with_geometry g q).

(** The Poisson problem of a mesh: the penalty is (D + 1) C area/volume K1^2/K0, with the constant C of the
    inverse trace inequality, a quarter of the sum of the two on facets between elements.  No prescribed
    values: they do not enter the matrix. *)
Definition poisson_penalty (degree : nat) (f : list nat) (g : nat) : R :=
  INR (D + 1) * (INR degree * INR (degree - 1 + D) / INR D) * (mesh_area f / mesh_volume g)
  * (largest (p_N R_) (p_K R_ g) * largest (p_N R_) (p_K R_ g) / smallest (p_N R_) (p_K R_ g)).
Definition mesh_problem (degree : nat) : problem := {|
  pb_ref := with_geometry; pb_loc := facet_number D elems;
  pb_n := mesh_normal; pb_nl := mesh_length; pb_G := mesh_inverse;
  pb_pen := fun f => match elements_of elems f with
    | [g] => poisson_penalty degree f g
    | [g; h] => (poisson_penalty degree f g + poisson_penalty degree f h) / 4
    | _ => 0 end;
  pb_jump := fun _ _ _ => 0; pb_value := fun _ _ => 0 |}.
End Problem.

(** The reference data of a rank are [R_]. *)
Record same_reference (R_ P : pdata) : Prop := {
  sr_dim : p_dim P = p_dim R_; sr_N : p_N P = p_N R_; sr_Nq : p_Nq P = p_Nq R_; sr_nq : p_nq P = p_nq R_;
  sr_W : p_W P = p_W R_; sr_w : p_w P = p_w R_; sr_EQ : p_EQ P = p_EQ R_; sr_DxiQ : p_DxiQ P = p_DxiQ R_; sr_matEQ : p_matEQ P = p_matEQ R_;
  sr_E : p_E P = p_E R_; sr_Dxi : p_Dxi P = p_Dxi R_; sr_matE : p_matE P = p_matE R_ }.
(** A rank that computed geometry and penalties from its part of the mesh and has the nodal values of the
    coefficient on its elements. *)
Record poisson_rank (G : geo_setup) (R_ : pdata) (degree : nat) (m : topo_mesh) (fi : list facet_info) (P : pdata) : Prop := {
  pr_ref : same_reference R_ P;
  pr_geometry : rank_geometry G m P;
  pr_K : forall e g, nth_error (tm_l2cg m) e = Some g -> p_K P e = p_K R_ g;
  pr_method : p_method P = IP;
  pr_table : facet_table (gs_D G) m = Some fi;
  pr_pen : forall i x, nth_error fi i = Some x -> p_pen P i = prepare_penalty P degree i x }.

(** Quadrature weights are nonnegative and do not all vanish. *)
Definition good_weights (n : nat) (w : nat -> R) : Prop := (forall q, (q < n)%nat -> 0 <= w q) /\ exists q, (q < n)%nat /\ 0 < w q.
(** Interpolation with nonnegative weights of sum one. *)
Definition convex (n : nat) (c : nat -> R) : Prop := (forall l, (l < n)%nat -> 0 <= c l) /\ rsum n c = 1.
