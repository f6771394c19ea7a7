(** Specification of the layer of ghost elements. *)
Require Import List Arith Permutation Sorted.
Require Import Verif.Base Verif.LocalMeshModel.
Import ListNotations.

(** f is a facet of e: k of its vertices, in ascending order. *)
Definition facet_of (k : nat) (f e : list nat) : Prop := length f = k /\ StronglySorted lt f /\ incl f e.
(** Two different elements with a common facet. *)
Definition touches (k : nat) (e e' : list nat) : Prop := e <> e' /\ exists f, facet_of k f e /\ facet_of k f e'.

(** A conforming mesh, distributed over the ranks: [elems q] are the elements of rank q. *)
Record global_mesh (procs k : nat) (elems : nat -> list (list nat)) : Prop := {
  gm_elem : forall q e, q < procs -> In e (elems q) -> length e = k + 1 /\ StronglySorted lt e;
  gm_distinct : NoDup (concat (map elems (seq 0 procs)));
  gm_two : forall f a b c, In a (concat (map elems (seq 0 procs))) -> In b (concat (map elems (seq 0 procs))) ->
     In c (concat (map elems (seq 0 procs))) -> facet_of k f a -> facet_of k f b -> facet_of k f c -> a = b \/ a = c \/ b = c }.

(** The values attached to the elements of rank q are those given for them. *)
Definition data_attached {A} (procs : nat) (elems : nat -> list (list nat)) (d0 : option (nat -> list A))
    (faces : list (list nat)) (d : option (list A)) : Prop :=
  match d0 with
  | None => d = None
  | Some d0 => exists x, d = Some x /\ length x = length faces /\
      forall i e p j, nth_error faces i = Some e -> p < procs -> nth_error (elems p) j = Some e -> nth_error x i = nth_error (d0 p) j
  end.

(** What rank q gets: its own elements first, of those the ones that touch no element of another rank
    before the others; then the elements of other ranks that touch one of its own, by ascending
    global number. *)
Record ghost_layer {A} (procs k : nat) (elems : nat -> list (list nat)) (data0 tags0 : option (nat -> list A))
    (gid : list nat -> nat) (lf : nat -> local_faces A) (q : nat) : Prop := {
  gl_num : lf_local_size (lf q) = length (elems q);
  gl_local : Permutation (firstn (length (elems q)) (lf_faces (lf q))) (elems q);
  gl_interior : exists c, c <= length (elems q) /\ forall i e, nth_error (lf_faces (lf q)) i = Some e -> i < length (elems q) ->
     (c <= i <-> exists p e', p < procs /\ p <> q /\ In e' (elems p) /\ touches k e e');
  gl_nodup : NoDup (lf_faces (lf q));
  gl_ghosts : forall e, In e (skipn (length (elems q)) (lf_faces (lf q))) <->
     exists p e', p < procs /\ p <> q /\ In e (elems p) /\ In e' (elems q) /\ touches k e e';
  gl_gid : lf_l2cg (lf q) = map gid (lf_faces (lf q));
  gl_order : StronglySorted lt (skipn (length (elems q)) (lf_l2cg (lf q)));
  gl_owner : length (lf_owner (lf q)) = length (lf_faces (lf q)) /\
     forall i e, nth_error (lf_faces (lf q)) i = Some e ->
     exists p, nth_error (lf_owner (lf q)) i = Some p /\ p < procs /\ In e (elems p);
  gl_shared : forall i e, nth_error (lf_faces (lf q)) i = Some e ->
     StronglySorted lt (shared_ranks (lf_ranks (lf q)) (lf_displs (lf q)) i) /\
     forall p, In p (shared_ranks (lf_ranks (lf q)) (lf_displs (lf q)) i) <-> p < procs /\ p <> q /\ In e (lf_faces (lf p));
  gl_data : data_attached procs elems data0 (lf_faces (lf q)) (lf_data (lf q));
  gl_tags : data_attached procs elems tags0 (lf_faces (lf q)) (lf_tags (lf q));
  gl_g2l : forall e i, map_at (lf_g2l (lf q)) e = Some i <-> nth_error (lf_faces (lf q)) i = Some e }.
