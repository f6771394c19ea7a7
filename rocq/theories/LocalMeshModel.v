(** Models src/mesh/LocalFaces.h and src/mesh/LocalSimplexMesh.h. *)
Require Import List Arith Bool.
Require Import Verif.Base Verif.CombinatoricsModel Verif.SimplexModel Verif.AlgorithmModel.
Import ListNotations.
Local Open Scope opt_scope.

Notation simplex := (list nat) (only parsing).
Definition simplex_eqb (a b : simplex) : bool := if list_eq_dec Nat.eq_dec a b then true else false.

(** std::unordered_map<Simplex<D>, std::size_t>: the most recent assignment comes first.  The
    hash function (Simplex.h:112-122) does not influence what the map contains. *)
Definition plex_map := list (simplex * nat).
Definition map_set (m : plex_map) (k : simplex) (v : nat) : plex_map := (k, v) :: m.
(** unordered_map::at; [None]: throws std::out_of_range. *)
Fixpoint map_at (m : plex_map) (k : simplex) : option nat :=
  match m with [] => None | (k', v) :: t => if simplex_eqb k k' then Some v else map_at t k end.

(** src/mesh/LocalFaces.h:113-119 [makeG2LMap]; the loop from local = [n]. *)
Fixpoint g2l_loop (n : nat) (faces : list simplex) (m : plex_map) : plex_map :=
  match faces with [] => m | f :: t => g2l_loop (n + 1) t (map_set m f n) end.
Definition makeG2LMap (faces : list simplex) : plex_map := g2l_loop 0 faces [].

(** mneme::Displacements (external): prefix sums of the counts; d[i] and count(i) = d[i+1]-d[i]. *)
Fixpoint displacements (acc : nat) (counts : list nat) : list nat :=
  acc :: match counts with [] => [] | c :: t => displacements (acc + c) t end.
Definition displ_count (d : list nat) (i : nat) : nat := nth (i + 1) d 0 - nth i d 0.

(** src/mesh/LocalFaces.h:122-131, the members. [mesh_data] and [volume_tags] model the payload of
    the MeshData pointers (None: nullptr). *)
Record local_faces (A : Type) := {
  lf_faces : list simplex; lf_owner : list nat; lf_l2cg : list nat; lf_local_size : nat;
  lf_g2l : plex_map; lf_ranks : list nat; lf_displs : list nat;
  lf_data : option (list A); lf_tags : option (list A) }.
Arguments lf_faces {A}. Arguments lf_owner {A}. Arguments lf_l2cg {A}. Arguments lf_local_size {A}.
Arguments lf_g2l {A}. Arguments lf_ranks {A}. Arguments lf_displs {A}. Arguments lf_data {A}.
Arguments lf_tags {A}.

(** src/mesh/LocalFaces.h:29-36, constructor. *)
Definition mk_local_faces {A} (faces : list simplex) (owner gids : list nat) (local : nat) : local_faces A :=
  {| lf_faces := faces; lf_owner := owner; lf_l2cg := gids; lf_local_size := local;
     lf_g2l := makeG2LMap faces; lf_ranks := []; lf_displs := []; lf_data := None; lf_tags := None |}.

(** src/mesh/LocalFaces.h:72-76 [getSharedRanks]. *)
Definition shared_ranks (ranks displs : list nat) (lid : nat) : list nat :=
  firstn (displ_count displs lid) (skipn (nth lid displs 0) ranks).

(** src/mesh/LocalFaces.h:96-111 [permuteSharedRanks]: the loop over the permutation. *)
Fixpoint permute_shared_loop (perm ranks displs out counts : list nat) : list nat * list nat :=
  match perm with
  | [] => (out, counts)
  | p :: t => permute_shared_loop t ranks displs
                (out ++ shared_ranks ranks displs p) (counts ++ [displ_count displs p])
  end.
Definition permute_shared (perm ranks displs : list nat) : list nat * list nat :=
  let '(out, counts) := permute_shared_loop perm ranks displs [] [] in (out, displacements 0 counts).

(** src/mesh/LocalFaces.h:83-93 [permute].  volumeTagData_ is not touched. *)
Definition permute_faces {A} (x : local_faces A) (perm : list nat) : option (local_faces A) :=
  do fs <- apply_permutation_vec (lf_faces x) perm;
  do ow <- apply_permutation_vec (lf_owner x) perm;
  do cg <- apply_permutation_vec (lf_l2cg x) perm;
  do da <- match lf_data x with
           | None => Some None
           | Some d => do d' <- apply_permutation_vec d perm; Some (Some d')
           end;
  let '(ranks, displs) := permute_shared perm (lf_ranks x) (lf_displs x) in
  Some {| lf_faces := fs; lf_owner := ow; lf_l2cg := cg; lf_local_size := lf_local_size x;
          lf_g2l := makeG2LMap fs; lf_ranks := ranks; lf_displs := displs;
          lf_data := da; lf_tags := lf_tags x |}.

(** src/mesh/LocalSimplexMesh.h:45-58 [downward<Dto,Dfrom>] with k = Dto+1: local numbers of the
    faces.  [None]: a face is missing in the map. *)
Fixpoint lids_of (m : plex_map) (ds : list simplex) : option (list nat) :=
  match ds with
  | [] => Some []
  | d :: t => do i <- map_at m d; do r <- lids_of m t; Some (i :: r)
  end.
Definition mesh_downward (k : nat) (faces : list simplex) (plex : simplex) : option (list nat) :=
  do ds <- downward k plex; lids_of (makeG2LMap faces) ds.

(** map[i].push_back(u); [None]: out of bounds. *)
Definition push_at (um : list (list nat)) (i u : nat) : option (list (list nat)) :=
  do l <- nth_error um i; upd um i (l ++ [u]).

(** src/mesh/LocalSimplexMesh.h:79-81, the inner loop. *)
Fixpoint push_faces (down : plex_map) (ds : list simplex) (u : nat) (um : list (list nat))
  : option (list (list nat)) :=
  match ds with
  | [] => Some um
  | d :: t => do i <- map_at down d; do um' <- push_at um i u; push_faces down t u um'
  end.
(** src/mesh/LocalSimplexMesh.h:77-82, the outer loop; k = DD+1 vertices per lower face. *)
Fixpoint upward_loop (k : nat) (up down : plex_map) (fs : list simplex) (um : list (list nat))
  : option (list (list nat)) :=
  match fs with
  | [] => Some um
  | f :: t =>
      do u <- map_at up f;
      do ds <- downward k f;
      do um' <- push_faces down ds u um;
      upward_loop k up down t um'
  end.
(** src/mesh/LocalSimplexMesh.h:71-83 [makeUpwardMap<DD>]. *)
Definition makeUpwardMap (k : nat) (uppers lowers : list simplex) : option (list (list nat)) :=
  upward_loop k (makeG2LMap uppers) (makeG2LMap lowers) uppers (repeat [] (length lowers)).
