(** Specification of element geometry (C62). *)
Require Import List Arith Bool Reals.
Require Import Verif.Base Verif.LinAlg Verif.SimplexModel Verif.LocalMeshModel Verif.LocalMeshProps Verif.TopoModel Verif.TopoSpec Verif.AssembleSpec Verif.FaultModel Verif.GeometryModel
  Verif.PoissonModel Verif.SipSpec.
Import ListNotations.
Local Open Scope R_scope.

(** The edge of facet f from its first vertex to vertex number j, in the reference element, and from the
    first vertex to the vertex of the element that is not in f. *)
Definition ref_edge (f : list nat) (j : nat) : vec := vdiff (ref_vertex (nth j f 0%nat)) (ref_vertex (nth 0 f 0%nat)).
Definition ref_inward (D : nat) (f : list nat) : vec := vdiff (ref_vertex (missing_vertex D f)) (ref_vertex (nth 0 f 0%nat)).
(** What the linear map with matrix A makes of v. *)
Definition image (D : nat) (A : nat -> nat -> R) (v : vec) : vec := fun i => rsum D (fun e => A i e * v e).
(** Length of the vector, area of the parallelogram: the square root of Gram's determinant. *)
Definition surface_element (D : nat) (t1 t2 : vec) : R :=
  match D with 2 => sqrt (vdot D t1 t1) | _ => sqrt (vdot D t1 t1 * vdot D t2 t2 - vdot D t1 t2 * vdot D t1 t2) end.

(** Everything the geometry of a mesh is computed from: coordinates of the vertices, transformation of
    the mesh, nodal basis of the elements with its derivatives, quadrature points (the functions
    [gs_xi] and [gs_chi] are meant for numbers below the number of points). *)
Record geo_setup := {
  gs_D : nat; gs_X : nat -> vec; gs_T : vec -> vec;
  gs_nb : nat; gs_node : nat -> vec; gs_phi : nat -> vec -> R; gs_dphi : nat -> nat -> vec -> R;
  gs_xi : nat -> vec; gs_chi : nat -> vec }.
Section Setup.
Variable G : geo_setup.
Local Notation D := (gs_D G).
(** Of the element with sorted vertices [plex]: nodes, position of a point, Jacobian. *)
Definition positions (plex : list nat) : nat -> vec := geo_nodes D (gs_T G) (geo_verts (gs_X G) plex) (gs_node G).
Definition position_at (plex : list nat) (xi : vec) : vec := geo_map (gs_nb G) (positions plex) (fun j => gs_phi G j xi).
Definition jacobian_at (plex : list nat) (xi : vec) : nat -> nat -> R := geo_jacobian (gs_nb G) (positions plex) (fun j e => gs_dphi G j e xi).

(** The basis is nodal; it restricts to each facet of the reference element as one and the same
    interpolation between the [nf] points C of the facet, which are among the nodes: [psi] and its
    derivatives [dpsi].  Functions of a point only depend on its D coordinates. *)
Record conforming_basis (nf : nat) (C : nat -> vec) (psi : nat -> vec -> R) (dpsi : nat -> nat -> vec -> R) : Prop := {
  cb_ext : forall j x y, (j < gs_nb G)%nat -> (forall d, (d < D)%nat -> x d = y d) -> gs_phi G j x = gs_phi G j y;
  cb_text : forall x y, (forall d, (d < D)%nat -> x d = y d) -> forall i, (i < D)%nat -> gs_T G x i = gs_T G y i;
  cb_nodal : forall i j, (i < gs_nb G)%nat -> (j < gs_nb G)%nat -> gs_phi G j (gs_node G i) = if (i =? j)%nat then 1 else 0;
  cb_nodes : forall fs f c, f2v D = Some fs -> In f fs -> (c < nf)%nat ->
     exists j, (j < gs_nb G)%nat /\ forall d, (d < D)%nat -> gs_node G j d = facet_param D f (C c) d;
  cb_trace : forall fs f j chi, f2v D = Some fs -> In f fs -> (j < gs_nb G)%nat ->
     gs_phi G j (facet_param D f chi) = rsum nf (fun c => gs_phi G j (facet_param D f (C c)) * psi c chi);
  cb_dtrace : forall fs f j d chi, f2v D = Some fs -> In f fs -> (j < gs_nb G)%nat -> (0 < d < D)%nat ->
     rsum D (fun e => gs_dphi G j e (facet_param D f chi) * ref_edge f d e)
     = rsum nf (fun c => gs_phi G j (facet_param D f (C c)) * dpsi c d chi) }.

(** The two elements lie on different sides of the facet, at the point with parameter chi: some
    direction perpendicular to the facet points out of the one and into the other. *)
Definition on_different_sides (plex1 f1 plex2 f2 : list nat) (chi : vec) : Prop :=
  exists m, (forall d, (0 < d < D)%nat -> vdot D m (image D (jacobian_at plex1 (facet_param D f1 chi)) (ref_edge f1 d)) = 0) /\
    vdot D m (image D (jacobian_at plex1 (facet_param D f1 chi)) (ref_inward D f1)) < 0 /\
    0 < vdot D m (image D (jacobian_at plex2 (facet_param D f2 chi)) (ref_inward D f2)).

(** A mesh without degenerate or overlapping elements, as far as quadrature points tell. *)
Record valid_geometry (elems facets : list (list nat)) : Prop := {
  vg_dim : (D = 2 \/ D = 3)%nat;
  vg_elems : plex_list (D + 1) elems;
  vg_facets : plex_list D facets;
  vg_basis : exists nf C psi dpsi, conforming_basis nf C psi dpsi;
  vg_vol : forall plex q, In plex elems -> geo_det D (jacobian_at plex (gs_xi G q)) <> 0;
  vg_fct : forall plex fs f q, In plex elems -> f2v D = Some fs -> In f fs -> geo_det D (jacobian_at plex (facet_param D f (gs_chi G q))) <> 0;
  vg_sides : forall f g h plex1 plex2 f1 f2 q, In f facets -> elements_of elems f = [g; h] ->
     nth_error elems g = Some plex1 -> nth_error elems h = Some plex2 ->
     map (fun v => nth v plex1 0%nat) f1 = f -> map (fun v => nth v plex2 0%nat) f2 = f ->
     (exists fs, f2v D = Some fs /\ In f1 fs /\ In f2 fs) -> on_different_sides plex1 f1 plex2 f2 (gs_chi G q) }.

(** ** The arrays of the operators *)
Definition components (v : vec) : vec := fun i => if (i <? D)%nat then v i else 0.
(** What prepare_bndskl computes at quadrature point q of a facet of [plex0] and [plex1]. *)
Definition point_data (plex0 f0 plex1 f1 : list nat) (q : nat) : facet_point :=
  prepare_bndskl D f0 (jacobian_at plex0 (facet_param D f0 (gs_chi G q))) (jacobian_at plex1 (facet_param D f1 (gs_chi G q)))
    (position_at plex0 (facet_param D f0 (gs_chi G q))).
(** The geometric data of a problem are those of this mesh: [P] holds the data of the elements, by global
    number; [loc], [n], [nl] and [Gm] those of facets (see [problem] in SipSpec.v and [eproblem] in
    ElasticFormSpec.v). *)
Record problem_geometry (elems facets : list (list nat)) (P : pdata) (loc : list nat -> nat -> nat)
    (n : list nat -> nat -> nat -> nat -> R) (nl : list nat -> nat -> R) (Gm : list nat -> nat -> nat -> nat -> nat -> R) : Prop := {
  pg_dim : p_dim P = D;
  pg_loc : forall f g plex, In f facets -> nth_error elems g = Some plex -> incl f plex ->
     exists ds, downward D plex = Some ds /\ nth_error ds (loc f g) = Some f;
  pg_J : forall g plex, nth_error elems g = Some plex -> p_J P g = fun q => Rabs (geo_det D (jacobian_at plex (gs_xi G q)));
  pg_GQ : forall g plex, nth_error elems g = Some plex -> p_GQ P g = fun e i q => geo_inverse D (jacobian_at plex (gs_xi G q)) e i;
  pg_facet : forall f g plex fs fl, In f facets -> nth_error elems g = Some plex -> incl f plex -> f2v D = Some fs -> nth_error fs (loc f g) = Some fl ->
     n f g = (fun i q => components (fq_normal (point_data plex fl plex fl q)) i) /\
     Gm f g = (fun e i q => geo_inverse D (jacobian_at plex (facet_param D fl (gs_chi G q))) e i) /\
     (forall rest, elements_of elems f = g :: rest -> nl f = fun q => fq_length (point_data plex fl plex fl q)) }.
(** The arrays a rank computes from its part of the mesh. *)
Record rank_geometry (m : topo_mesh) (P : pdata) : Prop := {
  rg_vol : forall e plex, nth_error (tm_elems m) e = Some plex ->
     p_J P e = (fun q => Rabs (geo_det D (jacobian_at plex (gs_xi G q)))) /\
     p_GQ P e = (fun e i q => geo_inverse D (jacobian_at plex (gs_xi G q)) e i);
  rg_fct : forall i x plex0 plex1 fs f0 f1, (i < tm_num_local_facets m)%nat -> facet_record_ok D m i x ->
     nth_error (tm_elems m) (fi_up0 x) = Some plex0 -> nth_error (tm_elems m) (fi_up1 x) = Some plex1 -> f2v D = Some fs ->
     nth_error fs (fi_local0 x) = Some f0 -> nth_error fs (fi_local1 x) = Some f1 ->
     let pt := point_data plex0 f0 plex1 f1 in
     p_n P i = (fun a q => components (fq_normal (pt q)) a) /\ p_nl P i = (fun q => fq_length (pt q)) /\
     p_G0 P i = (fun e a q => fq_jInv0 (pt q) e a) /\ p_G1 P i = (fun e a q => fq_jInv1 (pt q) e a) }.
End Setup.
