(** Models src/mesh/GlobalSimplexMesh.h:210-404: face construction, global numbers, shared ranks. *)
Require Import List Arith Bool ZArith.
Require Import Verif.Base Verif.CommModel Verif.DistributeModel Verif.SimplexModel Verif.AlgorithmModel Verif.LocalMeshModel
  Verif.PartitionModel.
Import ListNotations.
Local Open Scope opt_scope.

(** A collective operation: every rank's result; [None] if it fails on some rank. *)
Definition collective {A} (d : A) (procs : nat) (f : nat -> option A) : option (nat -> A) :=
  let t := map f (seq 0 procs) in
  if forallb (fun x => match x with Some _ => true | None => false end) t
  then Some (fun q => get d (nth q t None)) else None.
Definition no_pattern : AllToAllV := {| sendcounts := []; recvcounts := []; sdispls := []; rdispls := [] |}.

(** Simplices are std::array; std::set and std::map order them lexicographically. *)
Fixpoint lex_ltb (a b : simplex) : bool :=
  match a, b with
  | _, [] => false
  | [], _ :: _ => true
  | x :: a', y :: b' => if x <? y then true else if y <? x then false else lex_ltb a' b'
  end.
(** std::set::insert / key insertion of std::map, as a sorted list. *)
Fixpoint set_insert (x : simplex) (s : list simplex) : list simplex :=
  match s with
  | [] => [x]
  | y :: t => if lex_ltb x y then x :: s else if lex_ltb y x then y :: set_insert x t else s
  end.

(** src/mesh/GlobalSimplexMesh.h:218-222: loop state. [sc_req] is requiredFaces, [sc_order] faceOrder. *)
Record scan := { sc_req : list (list simplex); sc_order : plex_map; sc_no : nat; sc_local : nat }.
(** h:225-231: one face. *)
Definition scan_face (plex2rank : simplex -> nat) (st : scan) (s : simplex) : option scan :=
  do r <- nth_error (sc_req st) (plex2rank s);
  do req <- upd (sc_req st) (plex2rank s) (set_insert s r);
  match map_at (sc_order st) s with
  | Some _ => Some {| sc_req := req; sc_order := sc_order st; sc_no := sc_no st; sc_local := sc_local st |}
  | None => Some {| sc_req := req; sc_order := map_set (sc_order st) s (sc_no st);
                    sc_no := sc_no st + 1; sc_local := sc_local st |}
  end.
Fixpoint scan_faces (plex2rank : simplex -> nat) (ds : list simplex) (st : scan) : option scan :=
  match ds with
  | [] => Some st
  | s :: t => do st' <- scan_face plex2rank st s; scan_faces plex2rank t st'
  end.
(** h:222-236: loop over the elements, k = DD+1 vertices per face; [elNo] runs up. *)
Fixpoint scan_elems (plex2rank : simplex -> nat) (k localElems : nat) (elNo : nat)
    (es : list simplex) (st : scan) : option scan :=
  match es with
  | [] => Some st
  | e :: t =>
      do ds <- downward k e;
      do st1 <- scan_faces plex2rank ds st;
      let st2 := if elNo <? localElems
                 then {| sc_req := sc_req st1; sc_order := sc_order st1; sc_no := sc_no st1; sc_local := sc_no st1 |}
                 else st1 in
      scan_elems plex2rank k localElems (elNo + 1) t st2
  end.
Definition scan_init (procs : nat) : scan :=
  {| sc_req := repeat [] procs; sc_order := []; sc_no := 0; sc_local := 0 |}.

(** h:308-343 [getContiguousGIDs] before the exchange, on one rank.  [dd0]: DD == 0;
    [offset] is gidOffset after the subtraction (exclusive prefix sum of the owned sizes). *)
Definition owned_set (requested : list simplex) : list simplex := fold_left (fun s f => set_insert f s) requested [].
Fixpoint number_from (n : nat) (ks : list simplex) : plex_map :=
  match ks with [] => [] | f :: t => (f, n) :: number_from (n + 1) t end.
Fixpoint lookup_all (m : plex_map) (fs : list simplex) : option (list nat) :=
  match fs with
  | [] => Some []
  | f :: t => do i <- map_at m f; do r <- lookup_all m t; Some (i :: r)
  end.
Fixpoint heads (fs : list simplex) : option (list nat) :=
  match fs with
  | [] => Some []
  | f :: t => do v <- nth_error f 0; do r <- heads t; Some (v :: r)
  end.
Definition gids_local (dd0 : bool) (offset : nat) (requested : list simplex) : option (list nat) :=
  if dd0 then heads requested
  else lookup_all (number_from offset (owned_set requested)) requested.
(** MPI_Scan with MPI_SUM on rank q, minus the own contribution. *)
Definition scan_offset (sizes : nat -> nat) (q : nat) : nat := sumn sizes (S q) - sizes q.

(** src/parallel/CommPattern.cpp:30-38: constructor from send and receive counts. *)
Definition mk_alltoallv2 (sc rc : list nat) : option AllToAllV :=
  do sd <- make_displs sc (fun p => p);
  do rd <- make_displs rc (fun p => p);
  Some {| sendcounts := sc; recvcounts := rc; sdispls := sd; rdispls := rd |}.

(** for (auto&& i : range). *)
Definition range (r : nat * nat) : list nat := seq (fst r) (snd r - fst r).

(** h:351-356: sharedRanksInfo as the sequence of its emplace_back operations. *)
Fixpoint info_range (req : list simplex) (p : nat) (is : list nat) : option (list (simplex * nat)) :=
  match is with
  | [] => Some []
  | i :: t => do f <- nth_error req i; do r <- info_range req p t; Some ((f, p) :: r)
  end.
Fixpoint shared_info (req : list simplex) (x : AllToAllV) (ps : list nat) : option (list (simplex * nat)) :=
  match ps with
  | [] => Some []
  | p :: t => do a <- info_range req p (range (sendRange x p)); do b <- shared_info req x t; Some (a ++ b)
  end.
Definition info_get (info : list (simplex * nat)) (f : simplex) : list nat :=
  map snd (filter (fun kv => simplex_eqb (fst kv) f) info).
(** h:371-381: requestedSharedRanks; [pps] is the sequence of the pp. *)
Fixpoint shared_range (info : list (simplex * nat)) (req : list simplex) (pp : nat) (is : list nat)
  : option (list nat) :=
  match is with
  | [] => Some []
  | i :: t => do f <- nth_error req i; do r <- shared_range info req pp t;
              Some (filter (fun s => negb (s =? pp)) (info_get info f) ++ r)
  end.
Fixpoint shared_req (info : list (simplex * nat)) (req : list simplex) (x : AllToAllV) (pps : list nat)
  : option (list nat) :=
  match pps with
  | [] => Some []
  | pp :: t => do a <- shared_range info req pp (range (sendRange x pp));
               do b <- shared_req info req x t; Some (a ++ b)
  end.
(** h:384-393: sums of per-face counts over a range; out-of-range entries are undefined behaviour
    in the code and read as 0 here (the ranges are within bounds, see the proofs). *)
Definition range_sum (counts : list nat) (r : nat * nat) : nat :=
  list_sum (map (fun i => nth i counts 0) (range r)).

(** h:345-404 [getSharedRanks], collectively; [pat] is the a2a argument of every rank, [req] its
    requestedFaces, [perms] the rank permutations if any.  The pattern at h:395 is made on
    MPI_COMM_WORLD instead of the mesh's communicator; here both are the same. *)
Definition getSharedRanks (procs : nat) (pat : nat -> AllToAllV) (req : nat -> list simplex)
    (perms : option (nat -> list nat)) (o1 o2 : list nat) : option (nat -> list nat * list nat) :=
  do info <- collective [] procs (fun r => shared_info (req r) (pat r) (seq 0 procs));
  let sendCount r := map (fun f => length (info_get (info r) f) - 1) (req r) in
  do recvCount <- collective [] procs (exchange 0 pat sendCount o1);
  let pps r := match perms with Some pm => map (fun p => nth p (pm r) 0) (seq 0 procs) | None => seq 0 procs end in
  do rq <- collective [] procs (fun r => shared_req (info r) (req r) (pat r) (pps r));
  let sc r := map (fun p => range_sum (sendCount r) (sendRange (pat r) p)) (seq 0 procs) in
  let rc r := map (fun p => range_sum (recvCount r) (recvRange (pat r) p)) (seq 0 procs) in
  do pat2 <- collective no_pattern procs (fun r =>
    do x <- mk_alltoallv2 (sc r) (rc r);
    match perms with Some pm => setRankPermutation x (pm r) | None => Some x end);
  do sr <- collective [] procs (exchange 0 pat2 rq o2);
  Some (fun r => (sr r, displacements 0 (recvCount r))).

(** std::sort of 0..n-1 by a key; the keys are distinct in every use, so the outcome is unique
    and insertion sort computes it. *)
Fixpoint ins_by (key : nat -> nat) (x : nat) (l : list nat) : list nat :=
  match l with [] => [x] | y :: t => if key x <=? key y then x :: l else y :: ins_by key x t end.
Definition sort_by (key : nat -> nat) (l : list nat) : list nat := fold_right (ins_by key) [] l.

(** Values found at the owner: MeshData::redistributed after the lookup of local ids. *)
Fixpoint lookup_data {A} (look : simplex -> option A) (fs : list simplex) : option (list A) :=
  match fs with
  | [] => Some []
  | f :: t => do x <- look f; do r <- lookup_data look t; Some (x :: r)
  end.

Definition no_faces {A} : local_faces A := mk_local_faces [] [] [] 0.

(** h:210-306 [getFaces<DD>], collectively, with k = DD+1.  [elems q], [localElems q]: arguments on
    rank q.  [look q f]: the data rank q answers for face f (None: undefined behaviour); no look-up
    ([None]): the mesh has no such data.  [o]: order of arrival in the i-th exchange. *)
Definition getFaces {A} (dA : A) (procs k : nat) (plex2rank : simplex -> nat)
    (elems : nat -> list simplex) (localElems : nat -> nat)
    (look : option (nat -> simplex -> option A)) (o : nat -> list nat) : option (nat -> local_faces A) :=
  do sc <- collective (scan_init 0) procs (fun q =>
             scan_elems plex2rank k (localElems q) 0 (elems q) (scan_init procs));
  let counts q := map (@length simplex) (sc_req (sc q)) in
  let faces q := concat (sc_req (sc q)) in
  let owner q := concat (map (fun p => repeat p (length (nth p (sc_req (sc q)) []))) (seq 0 procs)) in
  do pat0 <- collective no_pattern procs (mk_alltoallv procs counts);
  do req <- collective [] procs (exchange [] pat0 faces (o 0));
  let pat q := swap_pattern (pat0 q) in
  (* getContiguousGIDs *)
  do g <- collective [] procs (fun q =>
            gids_local (k =? 1) (scan_offset (fun p => length (owned_set (req p))) q) (req q));
  do gids <- collective [] procs (exchange 0 pat g (o 1));
  (* mesh data *)
  do data <- match look with
             | None => Some (fun _ => None)
             | Some lk =>
                 do d <- collective [] procs (fun q => lookup_data (lk q) (req q));
                 do r <- collective [] procs (exchange dA pat d (o 2));
                 Some (fun q => Some (r q))
             end;
  do shared <- getSharedRanks procs pat req None (o 3) (o 4);
  collective no_faces procs (fun q =>
    let lf0 := mk_local_faces (A := A) (faces q) (owner q) (gids q) (sc_local (sc q)) in
    let lf := {| lf_faces := lf_faces lf0; lf_owner := lf_owner lf0; lf_l2cg := lf_l2cg lf0;
                 lf_local_size := lf_local_size lf0; lf_g2l := lf_g2l lf0;
                 lf_ranks := fst (shared q); lf_displs := snd (shared q);
                 lf_data := data q; lf_tags := None |} in
    let key i := match map_at (sc_order (sc q)) (nth i (faces q) []) with Some n => n | None => 0 end in
    permute_faces lf (sort_by key (seq 0 (length (faces q))))).

(** h:188-197 [getPlex2Rank<0>] with a vertex distribution, and h:203-208 [getVertexLID] followed by
    the array access of VertexData::redistributed (MeshData.h:41-53).  [dist] is vtxdist. *)
Definition vertex_rank (dist : list Z) (f : simplex) : nat :=
  get 0 (rank_of dist (Z.of_nat (nth 0 f 0))).
Definition vertex_lookup {A} (dist : list Z) (vdata : nat -> list A) (q : nat) (f : simplex) : option A :=
  do lo <- nth_error dist q;
  do hi <- nth_error dist (q + 1);
  let v := Z.of_nat (nth 0 f 0) in
  if ((lo <=? v) && (v <? hi))%Z then nth_error (vdata q) (Z.to_nat (v - lo)) else None.

(** h:279-294 and BoundaryData::redistributed (MeshData.h:73-86): [belems], [bdata] are the elements
    and boundary conditions of the boundary mesh after repartitionByHash; faces that are not in the
    boundary mesh get [bc_none] (the lid SIZE_MAX). *)
Definition boundary_lookup {A} (bc_none : A) (belems : nat -> list simplex) (bdata : nat -> list A)
    (q : nat) (f : simplex) : option A :=
  match map_at (makeG2LMap (belems q)) f with
  | None => Some bc_none
  | Some lid => nth_error (bdata q) lid
  end.
