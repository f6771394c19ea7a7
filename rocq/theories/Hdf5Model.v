(* Extendible HDF5 datasets: src/io/HDF5Writer.cpp, and its users MomentRateWriter
   (app/tandem/Writer.h:243-350) and HDF5ProbeWriter (src/io/HDF5ProbeWriter.cpp).
   The HDF5 library is external.  A dataset is its current extents and the value at each
   multi-index; the library's documented effect of H5Dcreate, H5Dset_extent, H5Sselect_hyperslab and
   H5Dwrite is what is written below.  Collective calls are functions of all the ranks' arguments. *)
Require Import List Arith Lia String.
Require Import Verif.Base.
Import ListNotations.
Local Open Scope nat_scope.
Local Open Scope list_scope.
Local Open Scope opt_scope.

Section Hdf5.
Variable A : Type.
Variable fill : A.

(* the value an extent has that was never written is the fill value *)
Record dset := { extents : list nat; cell : list nat -> A }.

(* HDF5Writer::calculateOffsets, HDF5Writer.cpp:154-164: Allreduce(SUM) and Exscan(SUM), rank 0 gets 0;
   n r is rank r's argument. *)
Definition total_of (procs : nat) (n : nat -> nat) : nat := sumn n procs.
Definition offset_of (n : nat -> nat) (r : nat) : nat := sumn n r.

(* v[i] = x for a vector of extents *)
Fixpoint set_nth (v : list nat) (i x : nat) : list nat :=
  match v, i with
  | [], _ => []
  | _ :: v, 0 => x :: v
  | y :: v, S i => y :: set_nth v i x
  end.

(* HDF5Writer::createExtendibleDataset, HDF5Writer.cpp:47-82.  dims r are rank r's arguments; the library
   requires the same extents from every rank, which are rank 0's here.  H5Dcreate fails when
   the name is taken, which throws (None).  Chunking and maximal extents are left out: the dimension that
   grows is unlimited in both callers. *)
Definition file := string -> option dset.
Definition create (f : file) (name : string) (procs : nat) (dims : nat -> list nat) (glue : nat) (distributed : bool)
  : option file :=
  match f name with
  | Some _ => None
  | None =>
      let d0 := dims 0 in
      let d := if distributed
               then set_nth d0 glue (total_of procs (fun r => nth glue (dims r) 0)) else d0 in
      Some (fun s => if String.eqb s name then Some {| extents := d; cell := fun _ => fill |} else f s)
  end.

(* hyperslab: start[i] <= idx[i] < start[i] + count[i] *)
Fixpoint in_slab (start count idx : list nat) : bool :=
  match start, count, idx with
  | s :: start, c :: count, i :: idx => (s <=? i) && (i <? s + c) && in_slab start count idx
  | [], [], [] => true
  | _, _, _ => false
  end.
(* the selection lies within the extents, otherwise H5Dwrite fails *)
Fixpoint fits (start count ext : list nat) : bool :=
  match start, count, ext with
  | s :: start, c :: count, e :: ext => (s + c <=? e) && fits start count ext
  | [], [], [] => true
  | _, _, _ => false
  end.
(* position in memory, row-major *)
Fixpoint row_major (count idx : list nat) (acc : nat) : nat :=
  match count, idx with
  | c :: count, i :: idx => row_major count idx (acc * c + i)
  | _, _ => acc
  end.
Definition volume (count : list nat) : nat := fold_right Nat.mul 1 count.
Fixpoint sub_idx (idx start : list nat) : list nat :=
  match idx, start with
  | i :: idx, s :: start => (i - s) :: sub_idx idx start
  | _, _ => []
  end.

(* H5Dwrite by one rank: the memory space has the shape count; reading past the end of the caller's
   array is None. *)
Definition write_slab (d : dset) (start count : list nat) (data : list A) : option dset :=
  if fits start count (extents d)
  then if volume count <=? List.length data
       then Some {| extents := extents d;
                    cell := fun idx => if in_slab start count idx
                                       then nth (row_major count (sub_idx idx start) 0) data fill
                                       else cell d idx |}
       else None
  else None.

(* HDF5Writer::writeToDataset, HDF5Writer.cpp:84-150, for all ranks.  start and count of rank r: *)
Definition slab_of (cur : list nat) (timestep : nat) (dims : nat -> list nat) (glue ext : nat) (distributed : bool)
    (r : nat) : list nat * list nat :=
  let start := set_nth (repeat 0 (List.length cur)) glue
                 (if distributed then offset_of (fun q => nth glue (dims q) 0) r else 0) in
  let '(start, count) :=
    if nth ext cur 0 <=? timestep
    then (set_nth start ext timestep, set_nth (dims r) ext 1) else (start, dims r) in
  (start, if distributed then set_nth count glue (nth glue (dims r) 0) else count).
Definition extended (cur : list nat) (timestep ext : nat) : list nat :=
  if nth ext cur 0 <=? timestep then set_nth cur ext (timestep + 1) else cur.

(* The ranks' parts of a collective write reach the file in some order. *)
Fixpoint write_ranks (d : dset) (slabs : nat -> list nat * list nat) (data : nat -> list A) (order : list nat)
  : option dset :=
  match order with
  | [] => Some d
  | r :: rest =>
      do d <- write_slab d (fst (slabs r)) (snd (slabs r)) (data r);
      write_ranks d slabs data rest
  end.

Definition write_dataset (d : dset) (timestep : nat) (data : nat -> list A) (dims : nat -> list nat)
    (glue ext : nat) (distributed : bool) (order : list nat) : option dset :=
  write_ranks {| extents := extended (extents d) timestep ext; cell := cell d |}
    (slab_of (extents d) timestep dims glue ext distributed) data order.

(* MomentRateWriter::write (Writer.h:270-301) and HDF5ProbeWriter::write (HDF5ProbeWriter.cpp:143-217),
   without probeFields.  name is "momentRate" or "probeData"; n r is rank r's number of elements or
   probes, Q the number of quantities.  The handles of the two datasets are -1 until the writer created
   them itself: `opened`. *)
Definition upd_file (f : file) (name : string) (d : dset) : file :=
  fun s => if String.eqb s name then Some d else f s.
Definition write_named (f : file) (name : string) (timestep : nat) (data : nat -> list A) (dims : nat -> list nat)
    (glue ext : nat) (distributed : bool) (order : list nat) : option file :=
  do d <- f name;
  do d' <- write_dataset d timestep data dims glue ext distributed order;
  Some (upd_file f name d').

Record hwriter := { h_file : file; h_opened : bool }.

Definition record_write (procs : nat) (order : list nat) (name : string) (n : nat -> nat) (Q : nat)
    (w : hwriter) (step : nat) (time : A) (data : nat -> list A) : option hwriter :=
  do f <- (if h_opened w then Some (h_file w)
           else create (h_file w) name procs (fun r => [n r; 1; Q]) 0 true);
  do f <- write_named f name step data (fun r => [n r; step + 1; Q]) 0 1 true order;
  do f <- (if h_opened w then Some f else create f "time" procs (fun _ => [1]) 0 false);
  do f <- write_named f "time" step (fun _ => [time]) (fun _ => [step + 1]) 0 0 false order;
  Some {| h_file := f; h_opened := true |}.

(* a run: the records (step, time, data of each rank) in the order of the write calls *)
Definition record := (nat * A * (nat -> list A))%type.
Fixpoint record_run (procs : nat) (order : record -> list nat) (name : string) (n : nat -> nat) (Q : nat)
    (w : hwriter) (recs : list record) : option hwriter :=
  match recs with
  | [] => Some w
  | rc :: recs =>
      do w <- record_write procs (order rc) name n Q w (fst (fst rc)) (snd (fst rc)) (snd rc);
      record_run procs order name n Q w recs
  end.

(* HDF5Writer::HDF5Writer, HDF5Writer.cpp:9-40: with checkpointing an existing file is opened, otherwise a
   fresh file is made.  MomentRateWriter's constructor (Writer.h:250-266) then takes its step
   from the extent of "time". *)
Definition open_file (checkpoint : bool) (disk : option file) : file :=
  match disk with
  | Some f => if checkpoint then f else fun _ => None
  | None => fun _ => None
  end.
Definition resume_step (f : file) : nat :=
  match f "time"%string with Some d => nth 0 (extents d) 0 | None => 0 end.

End Hdf5.
