(** Specification for the drawing of facets: which facet a pair of element and face number stands for. *)
Require Import List Arith.
Require Import Verif.LocalMeshModel Verif.TopoModel.
Import ListNotations.

(** The vertices of an element without the one with number v. *)
Definition face_without (v : nat) (plex : list nat) : list nat := firstn v plex ++ skipn (S v) plex.
(** Face number l of an element with k+1 vertices is opposite to vertex k-l; the cell (element, face) shows the facet
    with the vertices f. *)
Definition shows (k : nat) (m : topo_mesh) (cell : nat * nat) (f : list nat) : Prop :=
  exists plex, nth_error (tm_elems m) (fst cell) = Some plex /\ snd cell <= k /\ f = face_without (k - snd cell) plex.
