(** Models src/io/HDF5MeshParser.cpp: import of meshes in the PUMGen format.  The HDF5 library is modelled by the
    contents of the four data sets, converted to the type that is asked for; [None]: the data set cannot be read. *)
Require Import List Arith ZArith Bool Lia.
Require Import Verif.Base Verif.GmshModel Verif.BuilderModel.
Import ListNotations.

Section Parser.
  Variable num : Type.
  Record h5file := {
    geometry : option (list num);
    boundary : option (list Z);       (* uint32_t *)
    connect : option (list Z);
    group : option (list Z) }.        (* uint32_t *)

  (** Messages; errorMsg_ is the list of them.  A read error leaves two messages (:27-62 and the caller). *)
  Inductive message := M_read (name : nat) | M_elements | M_nodes | M_boundary | M_count.

  (** cpp:93-115: tetrahedra and group tags.  (A missing group clears the messages.) *)
  Definition chunk {A} (d : A) (k : nat) (l : list A) (i : nat) : list A := map (fun j => nth (i * k + j) l d) (seq 0 k).
  Definition parseElements (f : h5file) : option (list (list Z) * list Z) :=
    match connect f with
    | None => None
    | Some elementData =>
        let numElements := length elementData / 4 in
        let groupTags := match group f with Some g => g | None => repeat 0%Z numElements end in
        Some (map (chunk 0%Z 4 elementData) (seq 0 numElements), groupTags)
    end.
  (** cpp:67-84. *)
  Definition parseNodes (zero : num) (f : h5file) : option (list (call num)) :=
    match geometry f with
    | None => None
    | Some nodeData =>
        let numVertices := length nodeData / 3 in
        Some (SetNumVertices (Z.of_nat numVertices) ::
              map (fun i => SetVertex (Z.of_nat i) (chunk zero 3 nodeData i)) (seq 0 numVertices))
    end.

  (** cpp:123-124. *)
  Definition SVERT_SEISSOL : list (list nat) := [[0; 2; 1]; [0; 1; 3]; [1; 2; 3]; [0; 3; 2]].
  (** std::sort of three numbers. *)
  Fixpoint insert_Z (x : Z) (l : list Z) : list Z :=
    match l with [] => [x] | y :: t => if (x <=? y)%Z then x :: l else y :: insert_Z x t end.
  Fixpoint sort_Z (l : list Z) : list Z := match l with [] => [] | x :: t => insert_Z x (sort_Z t) end.
  (** cpp:154. *)
  Definition faceTag (word : Z) (face : nat) : Z := Z.land (Z.shiftr word (8 * Z.of_nat face)) 255.
  (** cpp:151-173: the loop over the faces of one tetrahedron.  [seen] holds the keys inserted so far. *)
  Record found := { seen : list (list Z); lower : list (list Z); tags : list Z }.
  Definition visit_face (tet : list Z) (word : Z) (st : found) (face : nat) : found :=
    let faceNodes := map (fun j => nth j tet 0%Z) (nth face SVERT_SEISSOL []) in
    let key := sort_Z faceNodes in
    if in_dec (list_eq_dec Z.eq_dec) key (seen st) then st
    else {| seen := key :: seen st; lower := lower st ++ [faceNodes]; tags := tags st ++ [faceTag word face] |}.
  (** cpp:141-149: the loop over the tetrahedra; boundaryData_[i] exists, as the sizes were compared. *)
  Definition visit_tet (st : found) (tw : list Z * Z) : found :=
    fold_left (visit_face (fst tw) (snd tw)) (seq 0 4) st.
  Definition retrieve (tets : list (list Z)) (words : list Z) : found :=
    fold_left visit_tet (combine tets words) {| seen := []; lower := []; tags := [] |}.

  (** cpp:177-193; [None]: groupTags_ is read past its end. *)
  Fixpoint tet_calls (tets : list (list Z)) (groups : list Z) : option (list (call num)) :=
    match tets, groups with
    | [], _ => Some []
    | _ :: _, [] => None
    | t :: ts, g :: gs => option_map (cons (AddElement 4 g t)) (tet_calls ts gs)
    end.
  Definition addAllElements (st : found) (tets : list (list Z)) (groups : list Z) : option (list (call num)) :=
    option_map (app (map (fun x => AddElement 2 (snd x) (fst x)) (combine (lower st) (tags st)))) (tet_calls tets groups).

  (** cpp:195-215: the returned bool, the calls of the builder and the messages. *)
  Definition parseFile (zero : num) (f : h5file) : outcome (bool * list (call num) * list message) :=
    match parseElements f with
    | None => Done (false, [], [M_read 2; M_elements])
    | Some (tets, groups) =>
        match parseNodes zero f with
        | None => Done (false, [], [M_read 0; M_nodes])
        | Some cs =>
            match boundary f with
            | None => Done (false, cs, [M_read 1; M_boundary])
            | Some words =>
                if length words =? length tets
                then let! cs' := defined (addAllElements (retrieve tets words) tets groups) in
                     Done (true, cs ++ cs', [])
                else Done (false, cs, [M_count])
            end
        end
    end.
End Parser.
Arguments geometry {num}. Arguments boundary {num}. Arguments connect {num}. Arguments group {num}.
