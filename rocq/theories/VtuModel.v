(** Models src/io/VTUWriter.cpp and VTUWriter.h: data arrays, piece layout, XML offsets, the
    appended section and the naming of the files.  Bytes are integers 0..255; the XML is reduced to
    the list of (array name, offset) in document order; zlib is a function on byte lists. *)
Require Import List ZArith Bool Arith.
Require Import Verif.Base.
Import ListNotations.
Local Open Scope opt_scope.

Definition bytes := list Z.

(** The object representation of a uint64_t (memcpy of the header, VTUWriter.cpp:61, 66). *)
Fixpoint le_bytes (k : nat) (n : Z) : bytes :=
  match k with O => [] | S k' => (n mod 256)%Z :: le_bytes k' (n / 256)%Z end.
Definition u64 (big_endian : bool) (n : Z) : bytes :=
  if big_endian then rev (le_bytes 8 n) else le_bytes 8 n.

(** VTKDataArray, VTUWriter.h:30-70: [da_app] is the member appended_. *)
Record data_array := { da_name : nat; da_app : bytes }.

(** VTUWriter.cpp:39-70 [make_appended]; the size in bytes is that of the data (VTUWriter.h:43, 54).
    [zlib] is compress(), None: no compression. *)
Definition make_array (big_endian : bool) (zlib : option (bytes -> bytes)) (name : nat) (data : bytes)
    : data_array :=
  let size := Z.of_nat (length data) in
  {| da_name := name;
     da_app := match zlib with
               | Some compress =>
                   let c := compress data in
                   u64 big_endian 1 ++ u64 big_endian size ++ u64 big_endian size ++
                   u64 big_endian (Z.of_nat (length c)) ++ c
               | None => u64 big_endian size ++ data
               end |}.

(** VTUWriter.cpp:25-33 [make_xml]: the entry and the next offset. *)
Definition array_xml (a : data_array) (offset : nat) : list (nat * nat) * nat :=
  ([(da_name a, offset)], offset + length (da_app a)).

(** The same for a list of arrays: VTUWriter.cpp:243-246, 250-253, 281-284. *)
Fixpoint arrays_xml (l : list data_array) (offset : nat) : list (nat * nat) * nat :=
  match l with
  | [] => ([], offset)
  | a :: r =>
      let '(x, o) := array_xml a offset in
      let '(y, o') := arrays_xml r o in (x ++ y, o')
  end.

(** VTUPiece, VTUWriter.h:167-170. *)
Record piece := { pc_points : data_array; pc_conn : data_array; pc_offsets : data_array;
                  pc_types : data_array; pc_cell : list data_array; pc_point : list data_array }.

(** VTUWriter.cpp:229-259. *)
Definition piece_xml (p : piece) (offset : nat) : list (nat * nat) * nat :=
  let '(x1, o) := array_xml (pc_points p) offset in
  let '(x2, o) := array_xml (pc_conn p) o in
  let '(x3, o) := array_xml (pc_offsets p) o in
  let '(x4, o) := array_xml (pc_types p) o in
  let '(x5, o) := arrays_xml (pc_cell p) o in
  let '(x6, o) := arrays_xml (pc_point p) o in
  (x1 ++ x2 ++ x3 ++ x4 ++ x5 ++ x6, o).

(** VTUWriter.cpp:261-272 (and 35-37). *)
Definition piece_appended (p : piece) : bytes :=
  da_app (pc_points p) ++ da_app (pc_conn p) ++ da_app (pc_offsets p) ++ da_app (pc_types p) ++
  flat_map da_app (pc_cell p) ++ flat_map da_app (pc_point p).

(** VTUWriter.cpp:274-287. *)
Fixpoint pieces_xml (ps : list piece) (offset : nat) : list (nat * nat) * nat :=
  match ps with
  | [] => ([], offset)
  | p :: r =>
      let '(x, o) := piece_xml p offset in
      let '(y, o') := pieces_xml r o in (x ++ y, o')
  end.
Definition writer_xml (ps : list piece) (field : list data_array) : list (nat * nat) :=
  let '(x, o) := pieces_xml ps 0 in
  let '(y, _) := arrays_xml field o in x ++ y.

(** VTUWriter.cpp:289-296. *)
Definition writer_appended (ps : list piece) (field : list data_array) : bytes :=
  flat_map piece_appended ps ++ flat_map da_app field.

(** ** Points *)

Section Expand.
  Variable A : Type.
  Variable zero : A.
  Variable pd : nat.    (* pointDim *)

  (** VTUWriter.cpp:129-131: d = PointDim-1 downto pointDim; [k] counts the remaining values. *)
  Fixpoint zero_loop (i k : nat) (buf : list A) : option (list A) :=
    match k with
    | O => Some buf
    | S k' => do b <- upd buf (pd + k' + i * 3) zero; zero_loop i k' b
    end.
  (** VTUWriter.cpp:132-134: d = pointDim-1 downto 0. *)
  Fixpoint copy_loop (i k : nat) (buf : list A) : option (list A) :=
    match k with
    | O => Some buf
    | S d => do v <- nth_error buf (d + i * pd); do b <- upd buf (d + i * 3) v; copy_loop i d b
    end.
  (** VTUWriter.cpp:128-136: i = pointsPerElement-1 downto 0. *)
  Fixpoint expand_loop (n : nat) (buf : list A) : option (list A) :=
    match n with
    | O => Some buf
    | S i => do b <- zero_loop i (3 - pd) buf; do b <- copy_loop i pd b; expand_loop i b
    end.
  (** VTUWriter.cpp:121-138: the points of one element; [pts] is what adapter.map stores, point by
      point with pd coordinates each, at the beginning of the element's buffer of 3 n numbers
      (initialised with zeros). *)
  Definition element_points (n : nat) (pts : list A) : option (list A) :=
    let buf := pts ++ repeat zero (n * 3 - length pts) in
    if pd <? 3 then expand_loop n buf else Some buf.

  Fixpoint all_points (n : nat) (els : list (list A)) : option (list A) :=
    match els with
    | [] => Some []
    | e :: r => do x <- element_points n e; do y <- all_points n r; Some (x ++ y)
    end.
End Expand.

(** VTUWriter.cpp:139, VTUWriter.h:156-158: MPI_Gatherv to the root of the group concatenates in
    rank order. *)
Definition gather {A} (parts : list (list A)) : list A := concat parts.

(** VTUWriter.cpp:149-151 (std::iota on int32_t; overflow is undefined) and 153-155. *)
Definition int32_max : Z := 2147483647.
Definition connectivity (ppe num : nat) : option (list Z) :=
  if (Z.of_nat (num * ppe) <=? int32_max)%Z then Some (map Z.of_nat (seq 0 (num * ppe))) else None.
Definition cell_offsets (ppe num : nat) : option (list Z) :=
  if (Z.of_nat (num * ppe) <=? int32_max)%Z
  then Some (map (fun n => Z.of_nat (ppe * n)) (seq 1 num)) else None.

(** ** Files *)

(** VTUWriter.cpp:303-309: [writers r] tells whether rank r is root of its group; MPI_Scan gives the
    number of writers up to and including r. *)
Definition writer_no (writers : list bool) (r : nat) : nat :=
  length (filter (fun b => b) (firstn (S r) writers)) - 1.
Definition num_writers (writers : list bool) : nat := length (filter (fun b => b) writers).
(** Numbers k of the files base_k.vtu written (by the writers, VTUWriter.cpp:311-325) and listed in
    the .pvtu file (375-378). *)
Definition written (writers : list bool) : list nat :=
  map (writer_no writers) (filter (fun r => nth r writers false) (seq 0 (length writers))).
Definition listed (writers : list bool) : list nat := seq 0 (num_writers writers).
