(** Models how a rank's part of the mesh comes about: GlobalSimplexMesh::repartition, then
    getLocalMesh(1) (src/mesh/GlobalSimplexMesh.h:128-132, 150-158), and what DGOperatorTopo reads from
    the result.  The steps are the models of PartitionModel, GhostModel and FacesModel. *)
Require Import List Arith Bool.
Require Import Verif.Base Verif.CommModel Verif.LocalMeshModel Verif.PartitionModel Verif.FacesModel Verif.GhostModel Verif.TopoModel.
Import ListNotations.
Local Open Scope opt_scope.

(** src/mesh/GlobalSimplexMesh.cpp:32-67 [doPartition] on all ranks. *)
Definition redistribute {A} (dA : A) (procs : nat) (part enum : nat -> list nat) (elems : nat -> list simplex) (data : nat -> list A)
    (o1 o2 : list nat) : option ((nat -> list simplex) * (nat -> list A)) :=
  let r q := doPartition [] dA procs part enum elems data o1 o2 q in
  if all_ranks procs r then Some (fun q => fst (get ([], []) (r q)), fun q => snd (get ([], []) (r q))) else None.

(** What DGOperatorTopo.cpp:13-17, 21-24, 30-31, 50-60 and LocalSimplexMesh.h:20-60 read from the
    elements and the facets of the local mesh. *)
Definition topo_of (el fc : local_faces nat) : topo_mesh :=
  {| tm_elems := lf_faces el; tm_num_local := lf_local_size el;
     tm_facets := lf_faces fc; tm_num_local_facets := lf_local_size fc;
     tm_owner := lf_owner el; tm_l2cg := lf_l2cg el;
     tm_shared := map (shared_ranks (lf_ranks el) (lf_displs el)) (seq 0 (length (lf_faces el)));
     tm_bc := lf_data fc |}.

(** [elems], [belems], [bdata]: the elements, the tagged facets and their boundary conditions (numbers
    of the enumeration BC) as read, on any rank.  [part]: the vectors from ParMETIS; [enum], [benum]:
    outcomes of std::sort in doPartition; [sh], [si]: iteration orders of unordered sets; [ob], [og],
    [off]: orders of arrival.  GlobalSimplexMesh.cpp:8-14 (repartition), GlobalSimplexMesh.h:150-157
    (getGhostElements, then getFaces) and :279-281 (repartitionByHash of the tagged facets; the hash
    decides for facets of both meshes alike).  The other faces (D=3: edges; vertices) and the data
    attached to elements and vertices do not enter. *)
Definition local_topology (procs k : nat) (plex2rank : simplex -> nat)
    (elems : nat -> list simplex) (part enum : nat -> list nat) (oe : list nat)
    (belems : nat -> list simplex) (bdata : nat -> list nat) (benum : nat -> list nat) (ob : list nat)
    (sh : nat -> nat -> list simplex -> list simplex) (si : nat -> nat -> list up_item -> list up_item)
    (og : nat -> nat -> list nat) (off : nat -> list nat) : option (nat -> topo_mesh) :=
  do es <- redistribute [] procs part enum elems elems oe oe;
  do el <- getGhostElements 0 procs k plex2rank (fst es) None None sh si og;
  do be <- redistribute 0 procs (fun q => map plex2rank (belems q)) benum belems bdata ob ob;
  do fc <- getFaces 0 procs k plex2rank (fun q => lf_faces (el q)) (fun q => lf_local_size (el q))
             (Some (boundary_lookup 0 (fst be) (snd be))) off;
  Some (fun q => topo_of (el q) (fc q)).
