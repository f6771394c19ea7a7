(** Models src/mesh/GlobalSimplexMesh.cpp:69-407 (getGhostElements, setSharedRanksAndElementData,
    deleteDomainBoundaryFaces) and GlobalSimplexMesh.h:164-185: the layer of ghost elements.
    k is the number of vertices of a facet (D), elements have k+1. *)
Require Import List Arith Bool ZArith.
Require Import Verif.Base Verif.CommModel Verif.DistributeModel Verif.SimplexModel Verif.AlgorithmModel Verif.LocalMeshModel
  Verif.PartitionModel Verif.FacesModel.
Import ListNotations.
Local Open Scope opt_scope.

(** GlobalSimplexMesh.h:164-174 [makeUpwardMap]: the multimap's entries in insertion order; [n] is
    the number of the first element.  Also cpp:265-270 (entries of added elements). *)
Fixpoint up_entries (k n : nat) (es : list simplex) : option (list (simplex * nat)) :=
  match es with
  | [] => Some []
  | e :: t => do ds <- downward k e; do r <- up_entries k (n + 1) t; Some (map (fun s => (s, n)) ds ++ r)
  end.
(** unordered_multimap::equal_range; the order within the range is taken up at the uses. *)
Definition up_get (um : list (simplex * nat)) (f : simplex) : list nat :=
  map snd (filter (fun x => simplex_eqb (fst x) f) um).
(** GlobalSimplexMesh.h:175-185 [getBoundaryFaces], a set; [None]: assertion. *)
Fixpoint bfaces_loop (um : list (simplex * nat)) (todo : list (simplex * nat)) (s : list simplex) : option (list simplex) :=
  match todo with
  | [] => Some s
  | x :: t =>
      let c := length (up_get um (fst x)) in
      if (1 <=? c) && (c <=? 2) then bfaces_loop um t (if c =? 1 then set_insert (fst x) s else s) else None
  end.
Definition getBoundaryFaces (um : list (simplex * nat)) : option (list simplex) := bfaces_loop um um [].

(** Sorting items into the send buffer by receiving rank: counts (cpp:134-137, 195-198, 368-371),
    offsets by std::partial_sum, and the loop that stores and advances.  Parallel arrays are one array
    of tuples. *)
Fixpoint count_ranks {A} (rk : A -> nat) (l : list A) (counts : list nat) : option (list nat) :=
  match l with
  | [] => Some counts
  | a :: t => do c <- nth_error counts (rk a); do counts' <- upd counts (rk a) (c + 1); count_ranks rk t counts'
  end.
Fixpoint store_items {A} (rk : A -> nat) (l : list A) (offsets : list nat) (buf : list A) : option (list A) :=
  match l with
  | [] => Some buf
  | a :: t =>
      do o <- nth_error offsets (rk a);
      do buf' <- upd buf o a;
      do offsets' <- upd offsets (rk a) (o + 1);
      store_items rk t offsets' buf'
  end.
Definition pack_items {A} (d : A) (procs : nat) (rk : A -> nat) (l : list A) : option (list nat * list A) :=
  do counts <- count_ranks rk l (repeat 0 procs);
  let offsets := displacements 0 counts in
  do buf <- store_items rk l offsets (repeat d (last offsets 0));
  Some (counts, buf).

(** cpp:361-407 [deleteDomainBoundaryFaces], collectively.  [sh q]: order in which rank q's set is
    iterated; [o]: orders of arrival.  [None]: assertion on the count. *)
Fixpoint erase_loop (s : list simplex) (l : list (simplex * nat)) : option (list simplex) :=
  match l with
  | [] => Some s
  | (f, c) :: t =>
      if (1 <=? c) && (c <=? 2)
      then erase_loop (if c =? 1 then filter (fun g => negb (simplex_eqb g f)) s else s) t
      else None
  end.
Definition count_face (f : simplex) (l : list simplex) : nat := length (filter (fun g => simplex_eqb g f) l).
Definition deleteDomainBoundaryFaces (procs : nat) (plex2rank : simplex -> nat)
    (sh : nat -> list simplex -> list simplex) (o : nat -> list nat) (bf : nat -> list simplex) : option (nat -> list simplex) :=
  do pk <- collective ([], []) procs (fun q => pack_items [] procs plex2rank (sh q (bf q)));
  do pat <- collective no_pattern procs (mk_alltoallv procs (fun q => fst (pk q)));
  do req <- collective [] procs (exchange [] pat (fun q => snd (pk q)) (o 0));
  do cnt <- collective [] procs (exchange 0 (fun q => swap_pattern (pat q)) (fun q => map (fun f => count_face f (req q)) (req q)) (o 1));
  collective [] procs (fun q =>
    if length (cnt q) =? length (snd (pk q)) then erase_loop (bf q) (combine (snd (pk q)) (cnt q)) else None).

(** cpp:93-127 [sortInteriorCopy] with overlap 1: elements at a face shared with another rank go to
    the end.  [bf]: the remaining boundary faces.  The sorting keys (copy?, number) are distinct. *)
Definition copy_elements (um : list (simplex * nat)) (bf : list simplex) : list nat :=
  nodup Nat.eq_dec (flat_map (up_get um) bf).
Definition sort_interior_copy (es : list simplex) (copies : list nat) : option (list simplex * nat) :=
  let n := length es in
  let key a := if existsb (Nat.eqb a) copies then n + a else a in
  do es' <- apply_permutation_vec es (sort_by key (seq 0 n));
  Some (es', n - length copies).

(** cpp:131-177 [makeDistributedUpwardMap]: what a rank sends: (face, (global number, element)) for
    every element at a face of a copy element. *)
Definition up_item := (simplex * (nat * simplex))%type.
Fixpoint face_items (es : list simplex) (gids : list nat) (f : simplex) (els : list nat) : option (list up_item) :=
  match els with
  | [] => Some []
  | e :: t => do plex <- nth_error es e; do g <- nth_error gids e; do r <- face_items es gids f t; Some ((f, (g, plex)) :: r)
  end.
Fixpoint all_items (um : list (simplex * nat)) (es : list simplex) (gids : list nat) (fs : list simplex) : option (list up_item) :=
  match fs with
  | [] => Some []
  | f :: t => do a <- face_items es gids f (up_get um f); do r <- all_items um es gids t; Some (a ++ r)
  end.
Definition required_faces (k : nat) (es : list simplex) (copyBegin : nat) : option (list simplex) :=
  do um <- up_entries k 0 (skipn copyBegin es);
  Some (owned_set (map fst um)).

(** cpp:204-216: the vertex of the element that is not in the face. *)
Fixpoint missing_vertex (elem face : simplex) : option nat :=
  match elem, face with
  | x :: e, y :: f => if x =? y then missing_vertex e f else Some x
  | x :: _, [] => Some x
  | [], _ => None
  end.
Fixpoint requests (um : list (simplex * nat)) (es : list simplex) (fs : list simplex) : option (list (simplex * nat)) :=
  match fs with
  | [] => Some []
  | f :: t =>
      do e <- nth_error (up_get um f) 0;
      do plex <- nth_error es e;
      do v <- missing_vertex plex f;
      do r <- requests um es t;
      Some ((f, v) :: r)
  end.
(** cpp:229-246: the answer of the face's rank; [None]: invalidSimplex and SIZE_MAX. *)
Definition answer (distUp : list up_item) (rq : simplex * nat) : option (nat * simplex) :=
  option_map snd (find (fun x => simplex_eqb (fst x) (fst rq) && negb (existsb (Nat.eqb (snd rq)) (snd (snd x)))) distUp).

(** cpp:251-274: sort by element (invalidSimplex is the largest), drop the invalid ones, remove
    duplicates from the elements and from the numbers separately.  Equal elements come with equal
    numbers, so that the order of equivalent elements does not matter.  cpp:262-265 uses firstInvalid
    after erase invalidated it; taken to still point to the same position. *)
Definition cand_leb (a b : option (nat * simplex)) : bool :=
  match a, b with
  | _, None => true
  | None, Some _ => false
  | Some (_, x), Some (_, y) => negb (lex_ltb y x)
  end.
Fixpoint ins_cand (x : option (nat * simplex)) (l : list (option (nat * simplex))) :=
  match l with [] => [x] | y :: t => if cand_leb x y then x :: l else y :: ins_cand x t end.
Definition sort_cands (l : list (option (nat * simplex))) := fold_right ins_cand [] l.
Fixpoint until_invalid (l : list (option (nat * simplex))) : list (nat * simplex) :=
  match l with Some x :: t => x :: until_invalid t | _ => [] end.
Fixpoint uniq {A} (eqb : A -> A -> bool) (l : list A) : list A :=
  match l with
  | x :: ((y :: _) as t) => if eqb x y then uniq eqb t else x :: uniq eqb t
  | _ => l
  end.
Definition new_ghosts (cands : list (option (nat * simplex))) : option (list simplex * list nat) :=
  let l := until_invalid (sort_cands cands) in
  let es := uniq simplex_eqb (map snd l) in
  let gs := uniq Nat.eqb (map fst l) in
  if length es =? length gs then Some (es, gs) else None.

(** cpp:281-296: order by (owner, own rank first; global number). *)
Fixpoint owners_of (dist : list Z) (gids : list nat) : option (list nat) :=
  match gids with
  | [] => Some []
  | g :: t => do r <- rank_of dist (Z.of_nat g); do rs <- owners_of dist t; Some (r :: rs)
  end.
Definition ghost_leb (q : nat) (owner gids : list nat) (a b : nat) : bool :=
  let p i := if nth i owner 0 =? q then 0 else 1 + nth i owner 0 in
  (p a <? p b) || (p a =? p b) && (nth a gids 0 <=? nth b gids 0).
Fixpoint ins_cmp (leb : nat -> nat -> bool) (x : nat) (l : list nat) : list nat :=
  match l with [] => [x] | y :: t => if leb x y then x :: l else y :: ins_cmp leb x t end.
Definition sort_cmp (leb : nat -> nat -> bool) (l : list nat) : list nat := fold_right (ins_cmp leb) [] l.

(** cpp:324-327: the own rank first, then the others. *)
Definition rank_perm (procs q : nat) : list nat := q :: seq 0 q ++ seq (q + 1) (procs - 1 - q).
(** cpp:338-358: values of the elements asked for, looked up by the rank that has them and sent back;
    nullptr: [None].  The same for elementData and volumeTagData. *)
Definition attach_data {A} (dA : A) (procs : nat) (elems0 : nat -> list simplex) (data0 : option (nat -> list A))
    (pat : nat -> AllToAllV) (req : nat -> list simplex) (o : list nat) : option (nat -> option (list A)) :=
  match data0 with
  | None => Some (fun _ => None)
  | Some d0 =>
      do d <- collective [] procs (fun q => lookup_data (fun f => do i <- map_at (makeG2LMap (elems0 q)) f; nth_error (d0 q) i) (req q));
      do r <- collective [] procs (exchange dA pat d o);
      Some (fun q => Some (r q))
  end.
(** cpp:310-359 [setSharedRanksAndElementData], collectively.  [elems0], [data0], [tags0]: the elements
    of the global mesh on the rank, their data and volume tags. *)
Definition setSharedRanksAndElementData {A} (dA : A) (procs : nat) (dist : list Z) (elems0 : nat -> list simplex)
    (data0 tags0 : option (nat -> list A)) (lf : nat -> local_faces A) (o : nat -> list nat) : option (nat -> local_faces A) :=
  do ow <- collective [] procs (fun q => owners_of dist (lf_l2cg (lf q)));
  do counts <- collective [] procs (fun q => count_ranks (fun r => r) (ow q) (repeat 0 procs));
  do pat <- collective no_pattern procs (fun q => do x <- mk_alltoallv procs counts q; setRankPermutation x (rank_perm procs q));
  do req <- collective [] procs (exchange [] pat (fun q => lf_faces (lf q)) (o 0));
  let pat' q := swap_pattern (pat q) in
  do shared <- getSharedRanks procs pat' req (Some (rank_perm procs)) (o 1) (o 2);
  do data <- attach_data dA procs elems0 data0 pat' req (o 3);
  do tags <- attach_data dA procs elems0 tags0 pat' req (o 4);
  Some (fun q =>
    {| lf_faces := lf_faces (lf q); lf_owner := lf_owner (lf q); lf_l2cg := lf_l2cg (lf q);
       lf_local_size := lf_local_size (lf q); lf_g2l := lf_g2l (lf q);
       lf_ranks := fst (shared q); lf_displs := snd (shared q); lf_data := data q; lf_tags := tags q |}).

(** cpp:69-308 [getGhostElements] with overlap 1, the value used for solving (tandem.cpp:130,
    static.cpp:375), collectively.  [sh i q]: iteration order of a set of faces on rank q; [si i q]:
    iteration order of items; [o]: orders of arrival.  elemDist is makeSortedDistribution of the
    element counts (GlobalSimplexMesh.h:153). *)
Definition elem_dist (procs : nat) (elems : nat -> list simplex) : list Z :=
  makeSortedDistribution (map (fun q => Z.of_nat (length (elems q))) (seq 0 procs)).
Definition getGhostElements {A} (dA : A) (procs k : nat) (plex2rank : simplex -> nat) (elems : nat -> list simplex)
    (data0 tags0 : option (nat -> list A))
    (sh : nat -> nat -> list simplex -> list simplex) (si : nat -> nat -> list up_item -> list up_item) (o : nat -> nat -> list nat)
  : option (nat -> local_faces A) :=
  let dist := elem_dist procs elems in
  do gids <- collective [] procs (fun q => do d <- nth_error dist q; Some (seq (Z.to_nat d) (length (elems q))));
  (* sortInteriorCopy *)
  do um0 <- collective [] procs (fun q => up_entries k 0 (elems q));
  do bf0 <- collective [] procs (fun q => getBoundaryFaces (um0 q));
  do bf <- deleteDomainBoundaryFaces procs plex2rank (sh 0) (o 0) bf0;
  do ic <- collective ([], 0) procs (fun q => sort_interior_copy (elems q) (copy_elements (um0 q) (bf q)));
  let es q := fst (ic q) in
  (* makeDistributedUpwardMap *)
  do um <- collective [] procs (fun q => up_entries k 0 (es q));
  do items <- collective [] procs (fun q =>
     do rf <- required_faces k (es q) (snd (ic q)); do l <- all_items (um q) (es q) (gids q) rf; Some (si 0 q l));
  do pk1 <- collective ([], []) procs (fun q => pack_items ([], (0, [])) procs (fun x => plex2rank (fst x)) (items q));
  do pat1 <- collective no_pattern procs (mk_alltoallv procs (fun q => fst (pk1 q)));
  do rec1 <- collective [] procs (exchange ([], (0, [])) pat1 (fun q => snd (pk1 q)) (o 1 0));
  let distUp q := si 1 q (rec1 q) in
  (* requests and answers *)
  do rqs <- collective [] procs (fun q => do b <- getBoundaryFaces (um q); requests (um q) (es q) (sh 1 q b));
  do pk2 <- collective ([], []) procs (fun q => pack_items ([], 0) procs (fun x => plex2rank (fst x)) (rqs q));
  do pat2 <- collective no_pattern procs (mk_alltoallv procs (fun q => fst (pk2 q)));
  do rec2 <- collective [] procs (exchange ([], 0) pat2 (fun q => snd (pk2 q)) (o 2 0));
  do cands <- collective [] procs (exchange None (fun q => swap_pattern (pat2 q)) (fun q => map (answer (distUp q)) (rec2 q)) (o 2 1));
  (* new elements, order, owners *)
  do lf <- collective no_faces procs (fun q =>
     do ng <- new_ghosts (cands q);
     let es1 := es q ++ fst ng in
     let gs1 := gids q ++ snd ng in
     do ow <- owners_of dist gs1;
     let perm := sort_cmp (ghost_leb q ow gs1) (seq 0 (length es1)) in
     do es2 <- apply_permutation_vec es1 perm;
     do gs2 <- apply_permutation_vec gs1 perm;
     do ow2 <- owners_of dist gs2;
     Some (mk_local_faces es2 ow2 gs2 (length (es q))));
  setSharedRanksAndElementData dA procs dist elems data0 tags0 lf (o 3).

(** cpp:80-86, overlap 0. *)
Definition getNoGhosts {A} (dA : A) (procs : nat) (elems : nat -> list simplex) (data0 tags0 : option (nat -> list A)) (o : nat -> list nat)
  : option (nat -> local_faces A) :=
  let dist := elem_dist procs elems in
  do gids <- collective [] procs (fun q => do d <- nth_error dist q; Some (seq (Z.to_nat d) (length (elems q))));
  setSharedRanksAndElementData dA procs dist elems data0 tags0
    (fun q => mk_local_faces (elems q) (repeat q (length (elems q))) (gids q) (length (elems q))) o.
