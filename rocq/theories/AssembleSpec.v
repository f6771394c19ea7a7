(** Specification of global assembly: the global mesh and the sum over its elements and facets. *)
Require Import List Arith Bool.
Require Import Verif.Base Verif.LocalMeshModel Verif.LocalMeshProps Verif.TopoModel Verif.TopoSpec Verif.AssembleModel.
Import ListNotations.

(** The ranks' local meshes [m] are parts of one mesh with elements [elems], [facets] and boundary
    conditions [bc] (of a facet): global number g is element g; every element is local on exactly one
    rank; a rank that has an element locally has every element that shares a facet with it. *)
Record mesh_parts (k procs : nat) (elems facets : list (list nat)) (bc : list nat -> nat) (m : nat -> topo_mesh) : Prop := {
  mp_mesh : forall p, p < procs -> topo_ok k (m p);
  mp_elem : forall p e g, p < procs -> nth_error (tm_l2cg (m p)) e = Some g ->
     g < length elems /\ nth_error elems g = nth_error (tm_elems (m p)) e;
  mp_nodup : forall p, p < procs -> NoDup (tm_l2cg (m p));
  mp_owned : forall g, g < length elems ->
     exists p e, p < procs /\ e < tm_num_local (m p) /\ nth_error (tm_l2cg (m p)) e = Some g;
  mp_once : forall p q e e' g, p < procs -> q < procs -> e < tm_num_local (m p) -> e' < tm_num_local (m q) ->
     nth_error (tm_l2cg (m p)) e = Some g -> nth_error (tm_l2cg (m q)) e' = Some g -> p = q;
  mp_halo : forall p e i f g plex, p < procs -> e < tm_num_local (m p) -> contains (m p) e i ->
     nth_error (tm_facets (m p)) i = Some f -> nth_error elems g = Some plex -> incl f plex -> In g (tm_l2cg (m p));
  mp_bc : forall p b i f, p < procs -> tm_bc (m p) = Some b -> nth_error (tm_facets (m p)) i = Some f -> nth_error b i = Some (bc f);
  (* the facets of the mesh, each once *)
  mp_facets : plex_list k facets;
  mp_facets_all : forall f, In f facets <-> length f = k /\ Sorted.StronglySorted lt f /\ exists plex, In plex elems /\ incl f plex }.

(** The elements that contain facet f, in increasing order. *)
Definition elements_of (elems : list (list nat)) (f : list nat) : list nat :=
  filter (fun g => forallb (fun v => existsb (Nat.eqb v) (nth g elems [])) f) (seq 0 (length elems)).

(** The variational form: contributions by element, by interior facet (facet, boundary condition,
    the two elements) and by boundary facet. *)
Record mat_form (B : Type) := {
  f_volume : nat -> option B;
  f_skeleton : list nat -> nat -> nat -> nat -> option (B * B * B * B);
  f_boundary : list nat -> nat -> nat -> option B;
  f_post : nat -> option B }.
Arguments f_volume {B}. Arguments f_skeleton {B}. Arguments f_boundary {B}. Arguments f_post {B}.
(** The sum: each element once, the four blocks of each interior facet once, each boundary facet once. *)
Definition global_matrix {B} (elems facets : list (list nat)) (bc : list nat -> nat) (F : mat_form B) : list (nat * nat * B) :=
  flat_map (fun g => if_some (f_volume F g) (fun b => [(g, g, b)])) (seq 0 (length elems)) ++
  flat_map (fun f => match elements_of elems f with
                     | [g] => if_some (f_boundary F f (bc f) g) (fun b => [(g, g, b)])
                     | [g; h] => if_some (f_skeleton F f (bc f) g h)
                         (fun '(gg, gh, hg, hh) => [(g, g, gg); (g, h, gh); (h, g, hg); (h, h, hh)])
                     | _ => []
                     end) facets ++
  flat_map (fun g => if_some (f_post F g) (fun b => [(g, g, b)])) (seq 0 (length elems)).
(** The form does not depend on which of the two elements is called first. *)
Definition form_symmetric {B} (F : mat_form B) : Prop :=
  forall f bc g h, f_skeleton F f bc h g = match f_skeleton F f bc g h with
    | Some (gg, gh, hg, hh) => Some (hh, hg, gh, gg) | None => None end.
(** A rank's local operator evaluates the form on its part: on its elements, and on its local facets
    with their records. *)
Definition evaluates {B} (k : nat) (F : mat_form B) (m : topo_mesh) (L : mat_lop B) : Prop :=
  (forall e g, e < tm_num_local m -> nth_error (tm_l2cg m) e = Some g -> a_volume L e = f_volume F g /\ a_post L e = f_post F g) /\
  (forall i f x, i < tm_num_local_facets m -> nth_error (tm_facets m) i = Some f -> facet_record_ok k m i x ->
     (fi_up0 x <> fi_up1 x -> a_skeleton L i x = f_skeleton F f (fi_bc x) (fi_g0 x) (fi_g1 x)) /\
     (fi_up0 x = fi_up1 x -> a_boundary L i x = f_boundary F f (fi_bc x) (fi_g0 x))).

(** The same for the right-hand side. *)
Record vec_form (B : Type) := {
  v_volume : nat -> option B;
  v_skeleton : list nat -> nat -> nat -> nat -> option (B * B);
  v_boundary : list nat -> nat -> nat -> option B;
  v_post : nat -> option B }.
Arguments v_volume {B}. Arguments v_skeleton {B}. Arguments v_boundary {B}. Arguments v_post {B}.
Definition global_vector {B} (elems facets : list (list nat)) (bc : list nat -> nat) (F : vec_form B) : list (nat * B) :=
  flat_map (fun g => if_some (v_volume F g) (fun b => [(g, b)])) (seq 0 (length elems)) ++
  flat_map (fun f => match elements_of elems f with
                     | [g] => if_some (v_boundary F f (bc f) g) (fun b => [(g, b)])
                     | [g; h] => if_some (v_skeleton F f (bc f) g h) (fun '(bg, bh) => [(g, bg); (h, bh)])
                     | _ => []
                     end) facets ++
  flat_map (fun g => if_some (v_post F g) (fun b => [(g, b)])) (seq 0 (length elems)).
Definition vform_symmetric {B} (F : vec_form B) : Prop :=
  forall f bc g h, v_skeleton F f bc h g = match v_skeleton F f bc g h with Some (a, b) => Some (b, a) | None => None end.
Definition evaluates_rhs {B} (k : nat) (F : vec_form B) (m : topo_mesh) (L : vec_lop B) : Prop :=
  (forall e g, e < tm_num_local m -> nth_error (tm_l2cg m) e = Some g -> r_volume L e = v_volume F g /\ r_post L e = v_post F g) /\
  (forall i f x, i < tm_num_local_facets m -> nth_error (tm_facets m) i = Some f -> facet_record_ok k m i x ->
     (fi_up0 x <> fi_up1 x -> r_skeleton L i x = v_skeleton F f (fi_bc x) (fi_g0 x) (fi_g1 x)) /\
     (fi_up0 x = fi_up1 x -> r_boundary L i x = v_boundary F f (fi_bc x) (fi_g0 x))).
