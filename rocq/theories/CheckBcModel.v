(** Models app/check-bc.cpp, the program that draws the boundary conditions of a mesh, and the choice of faces in the
    constructor of CurvilinearBoundaryVTUAdapter (src/io/VTUAdapter.h).  The mesh is TopoModel.topo_mesh; k = D is the
    number of vertices of a facet. *)
Require Import List Arith Bool.
Require Import Verif.Base Verif.LocalMeshModel Verif.TopoModel.
Import ListNotations.
Local Open Scope opt_scope.

(** app/check-bc.cpp:72-77, the loop; [bc] are the codes of the facets (BC::None is 0), [fcts] the numbers still to
    visit.  [None]: a code is missing. *)
Fixpoint find_loop (bc : list nat) (fcts : list nat) (nos codes : list nat) : option (list nat * list nat) :=
  match fcts with
  | [] => Some (nos, codes)
  | f :: r =>
      do b <- nth_error bc f;
      if negb (b =? 0) then find_loop bc r (nos ++ [f]) (codes ++ [b]) else find_loop bc r nos codes
  end.
(** app/check-bc.cpp:56-79 [find_facets]; [None] without boundary conditions: std::runtime_error. *)
Definition find_facets (m : topo_mesh) : option (list nat * list nat) :=
  do bc <- tm_bc m;
  find_loop bc (seq 0 (tm_num_local_facets m)) [] [].

(** src/io/VTUAdapter.h:79-88, one step of the loop: the element and the number of the facet in it.  [None]: an
    assertion fails or an index does not exist. *)
Definition adapter_face (k : nat) (m : topo_mesh) (um : list (list nat)) (fct : nat) : option (nat * nat) :=
  do elNos <- nth_error um fct;
  do elNo <- nth_error elNos 0;
  do plex <- nth_error (tm_elems m) elNo;
  do dws <- mesh_downward k (tm_facets m) plex;
  let localFaceNo := find_pos fct dws in
  if localFaceNo <? k + 1 then Some (elNo, localFaceNo) else None.
(** src/io/VTUAdapter.h:74-89, the constructor. *)
Definition boundary_adapter (k : nat) (m : topo_mesh) (fctNos : list nat) : option (list (nat * nat)) :=
  do um <- facet_upward k m;
  map_opt (adapter_face k m um) fctNos.

(** app/check-bc.cpp:81-107, write_bcs and check_bc after the mesh has been read: for every cell of the file the
    element, the face and the value of "bc".  [None]: the program ends with an exception or an assertion. *)
Definition check_bc (k : nat) (m : topo_mesh) : option (list (nat * nat) * list nat) :=
  do (nos, codes) <- find_facets m;
  do bnds <- boundary_adapter k m nos;
  Some (bnds, codes).

(** app/check-bc.cpp:109-147 after the arguments have been read, if no exception is thrown: [loaded] says whether the
    mesh could be read.  The exit status and whether check_bc wrote a file. *)
Definition check_bc_main (dim : nat) (loaded : bool) : nat * bool :=
  if dim =? 2 then (0, loaded) else if dim =? 3 then (0, loaded) else (0, false).
