(** Specification of the topology tables: what a facet record and a neighbour slot mean in terms of
    the mesh's vertex lists and downward(). *)
Require Import List Arith Sorted.
Require Import Verif.Base Verif.LocalMeshModel Verif.LocalMeshProps Verif.TopoModel.
Import ListNotations.

(** Facet i is a facet of element e: its vertices are among the element's. *)
Definition contains (m : topo_mesh) (e i : nat) : Prop :=
  exists plex f, nth_error (tm_elems m) e = Some plex /\ nth_error (tm_facets m) i = Some f /\ incl f plex.
(** Facet i is the l-th facet of element e, as downward() numbers them. *)
Definition facet_at (k : nat) (m : topo_mesh) (e l i : nat) : Prop :=
  exists plex d, nth_error (tm_elems m) e = Some plex /\ mesh_downward k (tm_facets m) plex = Some d /\
    nth_error d l = Some i.

(** A local mesh the tables can be built for: distinct elements with k+1 vertices, all their facets
    with k vertices, the facets of local elements first, no facet in more than two elements, and one
    entry per element or facet in the attached arrays. *)
Record topo_ok (k : nat) (m : topo_mesh) : Prop := {
  to_elems : plex_list (k + 1) (tm_elems m);
  to_facets : plex_list k (tm_facets m);
  to_all : has_all_faces k (tm_elems m) (tm_facets m);
  to_local_facets : forall i, i < length (tm_facets m) ->
    (i < tm_num_local_facets m <-> exists e, e < tm_num_local m /\ contains m e i);
  to_two : forall i a b c, contains m a i -> contains m b i -> contains m c i -> a = b \/ a = c \/ b = c;
  to_local_le : tm_num_local m <= length (tm_elems m);
  to_facets_le : tm_num_local_facets m <= length (tm_facets m);
  to_owner : length (tm_owner m) = length (tm_elems m);
  to_l2cg : length (tm_l2cg m) = length (tm_elems m);
  to_shared : length (tm_shared m) = length (tm_elems m);
  to_bc : exists b, tm_bc m = Some b /\ length b = length (tm_facets m) }.

(** The record of facet i: the one or two elements that contain it in increasing order (the same
    element twice on the boundary), their global numbers, the facet's position in each, whether each
    is local (the first always is), and the facet's boundary condition. *)
Record facet_record_ok (k : nat) (m : topo_mesh) (i : nat) (x : facet_info) : Prop := {
  fr_up : forall e, contains m e i <-> e = fi_up0 x \/ e = fi_up1 x;
  fr_order : fi_up0 x <= fi_up1 x;
  fr_local0 : facet_at k m (fi_up0 x) (fi_local0 x) i;
  fr_local1 : facet_at k m (fi_up1 x) (fi_local1 x) i;
  fr_g0 : nth_error (tm_l2cg m) (fi_up0 x) = Some (fi_g0 x);
  fr_g1 : nth_error (tm_l2cg m) (fi_up1 x) = Some (fi_g1 x);
  fr_inside0 : fi_inside0 x = (fi_up0 x <? tm_num_local m);
  fr_inside1 : fi_inside1 x = (fi_up1 x <? tm_num_local m);
  fr_first : fi_inside0 x = true;
  fr_bc : exists b, tm_bc m = Some b /\ nth_error b i = Some (fi_bc x) }.

(** Slot l of element e describes what is behind facet i: the facet's number and boundary condition,
    the other element that contains the facet and the facet's position there -- on the boundary the
    element itself -- and the side the element is on. *)
Record slot_ok (k : nat) (m : topo_mesh) (e l i : nat) (s : side_info) : Prop := {
  sl_fct : si_fct s = i;
  sl_bc : exists b, tm_bc m = Some b /\ nth_error b i = Some (si_bc s);
  sl_other : forall e', contains m e' i <-> e' = e \/ e' = si_lid s;
  sl_local : facet_at k m (si_lid s) (si_local s) i;
  sl_side : si_side s = if e <? si_lid s then 0 else 1 }.

(** Two elements share a facet. *)
Definition adjacent (m : topo_mesh) (e e' : nat) : Prop :=
  e <> e' /\ exists i, contains m e i /\ contains m e' i.
