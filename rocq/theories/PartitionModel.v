(** Models src/mesh/GlobalSimplexMesh.{h,cpp}: graph for the partitioner and redistribution. *)
Require Import List Arith Bool.
Require Import Verif.Base Verif.CommModel.
Import ListNotations.
Local Open Scope opt_scope.

Notation simplex := (list nat) (only parsing).

(** src/mesh/GlobalSimplexMesh.h:97-103: inner loop over the vertices of one element;
    [col] is csr.colInd, [ind] the running index. *)
Fixpoint csr_verts (e : simplex) (col : list nat) (ind : nat) : option (list nat * nat) :=
  match e with
  | [] => Some (col, ind)
  | p :: t => do col' <- upd col ind p; csr_verts t col' (ind + 1)
  end.
(** src/mesh/GlobalSimplexMesh.h:99-104: loop over the elements. *)
Fixpoint csr_elems (es : list simplex) (row col : list nat) (ptr ind : nat)
  : option (list nat * list nat * nat) :=
  match es with
  | [] => Some (row, col, ind)
  | e :: t =>
      do row' <- upd row ptr ind;
      do r <- csr_verts e col ind;
      csr_elems t row' (fst r) (ptr + 1) (snd r)
  end.
(** src/mesh/GlobalSimplexMesh.h:86-108 [distributedCSR], the row pointers and column indices on
    one rank; D is the template parameter.  idx_t overflow is not modelled.  csr.dist is
    makeSortedDistribution (DistributeModel). *)
Definition distributedCSR (D : nat) (elems : list simplex) : option (list nat * list nat) :=
  let n := length elems in
  do r <- csr_elems elems (repeat 0 (n + 1)) (repeat 0 (n * (D + 1))) 0 0;
  let '(row, col, ind) := r in
  do row' <- upd row (length row - 1) ind;
  Some (row', col).

(** src/mesh/GlobalSimplexMesh.cpp:49-53: the while loop; returns how many entries of the
    enumeration were consumed, the elements appended, and the rest of the enumeration. *)
Fixpoint take_upto {A} (part : list nat) (elems : list A) (p : nat) (enum : list nat)
  : option (nat * list A * list nat) :=
  match enum with
  | [] => Some (0, [], [])
  | i :: t =>
      do x <- nth_error part i;
      if x <=? p then
        do e <- nth_error elems i;
        do r <- take_upto part elems p t;
        let '(c, es, rest) := r in Some (S c, e :: es, rest)
      else Some (0, [], enum)
  end.
(** src/mesh/GlobalSimplexMesh.cpp:48-54: the loop over the ranks [ps].  The final assertion that
    the enumeration is used up is compiled out in a release build: entries left over are dropped. *)
Fixpoint pack_loop {A} (part : list nat) (elems : list A) (ps : list nat) (enum : list nat)
  : option (list nat * list A) :=
  match ps with
  | [] => Some ([], [])
  | p :: t =>
      do r <- take_upto part elems p enum;
      let '(c, es, rest) := r in
      do r' <- pack_loop part elems t rest;
      Some (c :: fst r', es ++ snd r')
  end.

(** src/mesh/MeshData.h:41-53 [VertexData::redistributed] (likewise BoundaryData, ElementData,
    ScalarData): the values at the given local ids, in that order. *)
Fixpoint gather_lids {A} (data : list A) (lids : list nat) : option (list A) :=
  match lids with
  | [] => Some []
  | i :: t => do x <- nth_error data i; do r <- gather_lids data t; Some (x :: r)
  end.

(** Value of an optional result; only used where the result is known to exist on every rank. *)
Definition get {A} (d : A) (o : option A) : A := match o with Some x => x | None => d end.
Definition all_ranks {A} (procs : nat) (f : nat -> option A) : bool :=
  forallb (fun q => match f q with Some _ => true | None => false end) (seq 0 procs).

(** src/mesh/GlobalSimplexMesh.cpp:32-67 [doPartition], run collectively on ranks 0..procs-1.
    [elems q], [data q], [part q]: rank q's elements, attached data (elementData or
    volumeTagData; both are treated alike) and partition vector.  [enum q] is what std::sort
    leaves in [enumeration] on rank q; it is an arbitrary sorted permutation since std::sort is
    not stable.  [o1], [o2]: order of message arrival.  [None]: undefined behaviour on a rank. *)
Definition doPartition {A} (dE : simplex) (dA : A) (procs : nat) (part enum : nat -> list nat)
    (elems : nat -> list simplex) (data : nat -> list A) (o1 o2 : list nat) (q : nat)
  : option (list simplex * list A) :=
  let packed p := pack_loop (part p) (elems p) (seq 0 procs) (enum p) in
  let gathered p := gather_lids (data p) (enum p) in
  if all_ranks procs packed && all_ranks procs gathered then
    let counts p := fst (get ([], []) (packed p)) in
    let send p := snd (get ([], []) (packed p)) in
    let pat p := mk_alltoallv procs counts p in
    if all_ranks procs pat then
      let pat' p := get {| sendcounts := []; recvcounts := []; sdispls := []; rdispls := [] |} (pat p) in
      do es <- exchange dE pat' send o1 q;
      do ds <- exchange dA pat' (fun p => get [] (gathered p)) o2 q;
      Some (es, ds)
    else None
  else None.

(** State of a global mesh with respect to partitioning: its elements per rank and the flag. *)
Record gmesh := { gm_elems : nat -> list simplex; gm_by_hash : bool }.

(** The calls that change a global mesh: src/mesh/GlobalSimplexMesh.cpp:8-14 [repartition] with
    the vector ParMETIS returns, and :16-29 [repartitionByHash]; [plex2rank] is
    GlobalSimplexMesh.h:188-201 (hash modulo number of ranks).  [enums] are the outcomes of
    std::sort and [o] the order of arrival. *)
Inductive gm_call := Repartition (part : nat -> list nat) | RepartitionByHash.
Definition gm_step (dE : simplex) (procs : nat) (plex2rank : simplex -> nat) (c : gm_call)
    (enum : nat -> list nat) (o : list nat) (m : gmesh) : option gmesh :=
  let run part flag :=
    let r q := doPartition dE dE procs part enum (gm_elems m) (gm_elems m) o o q in
    if all_ranks procs r
    then Some {| gm_elems := fun q => fst (get ([], []) (r q)); gm_by_hash := flag |} else None in
  match c with
  | Repartition part => run part false
  | RepartitionByHash =>
      if gm_by_hash m then Some m
      else run (fun q => map plex2rank (gm_elems m q)) true
  end.
