(** Models src/form/DGOperatorTopo.cpp and src/form/FacetInfo.h: the tables that say which elements
    meet at a facet and who is behind the facets of an element. *)
Require Import List Arith Bool.
Require Import Verif.Base Verif.LocalMeshModel.
Import ListNotations.
Local Open Scope opt_scope.

(** What the constructor reads from LocalSimplexMesh<D> (k = D vertices per facet, D+1 per element):
    src/mesh/LocalSimplexMesh.h:20-60 and src/mesh/LocalFaces.h:38-76. *)
Record topo_mesh := {
  tm_elems : list simplex; tm_num_local : nat;
  tm_facets : list simplex; tm_num_local_facets : nat;
  tm_owner : list nat; tm_l2cg : list nat; tm_shared : list (list nat);
  tm_bc : option (list nat) }.

(** src/form/FacetInfo.h:19-25 [FacetInfo]. *)
Record facet_info := {
  fi_up0 : nat; fi_up1 : nat; fi_g0 : nat; fi_g1 : nat; fi_local0 : nat; fi_local1 : nat;
  fi_inside0 : bool; fi_inside1 : bool; fi_bc : nat }.
(** src/form/FacetInfo.h:11-17 [SideInfo]. *)
Record side_info := { si_fct : nat; si_side : nat; si_lid : nat; si_local : nat; si_bc : nat }.
(** A slot that nothing was written to. *)
Definition no_side : side_info := {| si_fct := 0; si_side := 0; si_lid := 0; si_local := 0; si_bc := 0 |}.

(** std::distance(begin, std::find(begin, end, x)); the length if x is absent. *)
Fixpoint find_pos (x : nat) (l : list nat) : nat :=
  match l with [] => 0 | y :: t => if x =? y then 0 else 1 + find_pos x t end.

(** src/form/DGOperatorTopo.cpp:27-36: number of interior elements; [None]: throws because they do
    not come first.  Simplification: the loop index and the counters are the recursion's arguments. *)
Fixpoint count_interior (rank el : nat) (owner : list nat) (shared : list (list nat)) (n last : nat) : nat * nat :=
  match owner, shared with
  | o :: ot, s :: st =>
      if (o =? rank) && (length s =? 0) then count_interior rank (el + 1) ot st (n + 1) el
      else count_interior rank (el + 1) ot st n last
  | _, _ => (n, last)
  end.
Definition num_interior (rank : nat) (m : topo_mesh) : option nat :=
  let '(n, last) := count_interior rank 0 (tm_owner m) (tm_shared m) 0 0 in
  if (0 <? n) && negb (last + 1 =? n) then None else Some n.

(** One side of a facet: DGOperatorTopo.cpp:52-59 and :63-71.  [None]: the element or the facet is
    missing (assertion or std::out_of_range). *)
Definition facet_side (k : nat) (m : topo_mesh) (fct el : nat) : option (nat * nat * bool) :=
  do plex <- nth_error (tm_elems m) el;
  do dws <- mesh_downward k (tm_facets m) plex;
  do g <- nth_error (tm_l2cg m) el;
  let l := find_pos fct dws in
  if l <? k + 1 then Some (g, l, el <? tm_num_local m) else None.

(** DGOperatorTopo.cpp:48-79: the facet's record; [um] is the upward map.  [None]: the asserted
    bounds on the number of elements fail. *)
Definition facet_info_of (k : nat) (m : topo_mesh) (um : list (list nat)) (fct : nat) : option facet_info :=
  do ups <- nth_error um fct;
  do bcs <- tm_bc m;
  do bc <- nth_error bcs fct;
  match ups with
  | [] => None
  | e0 :: rest =>
      do s0 <- facet_side k m fct e0;
      let '(g0, l0, in0) := s0 in
      match rest with
      | [] => Some {| fi_up0 := e0; fi_up1 := e0; fi_g0 := g0; fi_g1 := g0; fi_local0 := l0;
                      fi_local1 := l0; fi_inside0 := in0; fi_inside1 := in0; fi_bc := bc |}
      | [e1] =>
          do s1 <- facet_side k m fct e1;
          let '(g1, l1, in1) := s1 in
          Some {| fi_up0 := e0; fi_up1 := e1; fi_g0 := g0; fi_g1 := g1; fi_local0 := l0;
                  fi_local1 := l1; fi_inside0 := in0; fi_inside1 := in1; fi_bc := bc |}
      | _ => None
      end
  end.

(** DGOperatorTopo.cpp:81-91: the writes of one facet to neighbourInfo, in program order.  Slot l of
    element e is entry e*(D+1)+l of the storage. *)
Definition side_writes (k fct : nat) (i : facet_info) : list (nat * side_info) :=
  (if fi_inside0 i
   then [(fi_up0 i * (k + 1) + fi_local0 i,
          {| si_fct := fct; si_side := 0; si_lid := fi_up1 i; si_local := fi_local1 i; si_bc := fi_bc i |})]
   else []) ++
  (if fi_inside1 i
   then [(fi_up1 i * (k + 1) + fi_local1 i,
          {| si_fct := fct; si_side := 1; si_lid := fi_up0 i; si_local := fi_local0 i; si_bc := fi_bc i |})]
   else []).

(** The upward map of the facets, src/mesh/LocalSimplexMesh.h:62-83. *)
Definition facet_upward (k : nat) (m : topo_mesh) : option (list (list nat)) :=
  makeUpwardMap k (tm_elems m) (tm_facets m).

Fixpoint map_opt {A B} (f : A -> option B) (l : list A) : option (list B) :=
  match l with [] => Some [] | a :: t => do b <- f a; do r <- map_opt f t; Some (b :: r) end.

(** DGOperatorTopo.cpp:44-79: fctInfo for all local facets. *)
Definition facet_table (k : nat) (m : topo_mesh) : option (list facet_info) :=
  do um <- facet_upward k m;
  map_opt (facet_info_of k m um) (seq 0 (tm_num_local_facets m)).

(** DGOperatorTopo.cpp:42-45 (#pragma omp for): the threads' writes happen in any interleaving of the
    iterations' own sequences. *)
Inductive interleaving {A} : list (list A) -> list A -> Prop :=
| il_nil : forall ps, (forall p, In p ps -> p = []) -> interleaving ps []
| il_step : forall ps1 x p ps2 w, interleaving (ps1 ++ p :: ps2) w ->
    interleaving (ps1 ++ (x :: p) :: ps2) (x :: w).
(** Executes writes in order; [None]: out of bounds. *)
Fixpoint do_writes (t : list side_info) (w : list (nat * side_info)) : option (list side_info) :=
  match w with [] => Some t | (i, s) :: r => do t' <- upd t i s; do_writes t' r end.
(** DGOperatorTopo.cpp:38-40: fresh storage. *)
Definition fresh_sides (k : nat) (m : topo_mesh) : list side_info :=
  repeat no_side (tm_num_local m * (k + 1)).
(** The writes of each iteration of the facet loop. *)
Definition all_side_writes (k : nat) (fi : list facet_info) : list (list (nat * side_info)) :=
  map (fun p => side_writes k (fst p) (snd p)) (combine (seq 0 (length fi)) fi).

(** DGOperatorTopo.cpp:100-115: neighbour counts of element [el]; the inner loop over upward(dw). *)
Fixpoint count_up (rank el : nat) (owner : list nat) (us : list nat) (c : nat * nat) : option (nat * nat) :=
  match us with
  | [] => Some c
  | u :: t =>
      if u =? el then count_up rank el owner t c
      else do o <- nth_error owner u;
           count_up rank el owner t (if o =? rank then (fst c + 1, snd c) else (fst c, snd c + 1))
  end.
Fixpoint count_down (rank el : nat) (owner : list nat) (um : list (list nat)) (dws : list nat) (c : nat * nat)
  : option (nat * nat) :=
  match dws with
  | [] => Some c
  | d :: t => do us <- nth_error um d; do c' <- count_up rank el owner us c; count_down rank el owner um t c'
  end.
(** (NumLocalNeighbours, NumGhostNeighbours) of a local element. *)
Definition neighbour_counts (k rank : nat) (m : topo_mesh) (el : nat) : option (nat * nat) :=
  do um <- facet_upward k m;
  do plex <- nth_error (tm_elems m) el;
  do dws <- mesh_downward k (tm_facets m) plex;
  count_down rank el (tm_owner m) um dws (1, 0).
