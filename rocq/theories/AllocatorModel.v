(** Models src/util/LinearAllocator.h.  Pointers are byte addresses (Z); std::size_t arithmetic is
    modulo 2^64. *)
Require Import List ZArith Lia Bool.
Require Import Verif.Base Verif.DistributeModel.
Import ListNotations.
Local Open Scope Z_scope.
Local Open Scope opt_scope.

(** src/util/LinearAllocator.h:28-32 [allocation_size]; [sz] = sizeof(T). *)
Definition allocation_size (sz n alignment : Z) : Z :=
  let size := wrap64 (n * sz) in
  let a_size := wrap64 (wrap64 (1 + wrap64 (size - 1) / alignment) * alignment) in
  wrap64 (1 + wrap64 (a_size - 1) / sz).

(** src/util/LinearAllocator.h:72-75, data members. *)
Record Alloc := { start_ : Z; end_ : Z; current_ : Z; alignment_ : Z }.

(** src/util/LinearAllocator.h:34-41, constructor; [None]: throws std::invalid_argument. *)
Definition mk_alloc (start stop alignment : Z) : option Alloc :=
  if start mod alignment =? 0
  then Some {| start_ := start; end_ := stop; current_ := start; alignment_ := alignment |}
  else None.

(** std::align (C++17 [ptr.align]): the first aligned address at or after [ptr] if [size] bytes
    starting there fit into [space] bytes from [ptr]. *)
Definition std_align (alignment size ptr space : Z) : option Z :=
  let aligned := (ptr + (alignment - 1)) / alignment * alignment in
  if aligned - ptr + size <=? space then Some aligned else None.

(** src/util/LinearAllocator.h:45-60 [allocate]: returned address and new state; [None]: throws
    std::bad_alloc, in which case the state is unchanged.  The pointer difference end_-current_ is
    in units of T and truncates. *)
Definition allocate (sz n : Z) (s : Alloc) : option (Z * Alloc) :=
  let al := alignment_ s in
  if (0 <? al) && (Z.land al (al - 1) =? 0) then
    let size := wrap64 (n * sz) in
    let space := wrap64 ((end_ s - current_ s) / sz * sz) in
    do ptr <- std_align al size (current_ s) space;
    Some (ptr, {| start_ := start_ s; end_ := end_ s; current_ := ptr + n * sz; alignment_ := al |})
  else None.

(** src/util/LinearAllocator.h:62 [reset]. *)
Definition reset (s : Alloc) : Alloc :=
  {| start_ := start_ s; end_ := end_ s; current_ := start_ s; alignment_ := alignment_ s |}.

(** A client history: allocations (of n elements) and resets, in order.  [live] collects the
    blocks (address, bytes) handed out since the last reset; a failing allocation throws and the
    client carries on. *)
Inductive op := OpAlloc (n : Z) | OpReset.
Fixpoint run (sz : Z) (ops : list op) (s : Alloc) (live : list (Z * Z)) : Alloc * list (Z * Z) :=
  match ops with
  | [] => (s, live)
  | OpReset :: rest => run sz rest (reset s) []
  | OpAlloc n :: rest =>
      match allocate sz n s with
      | Some (p, s') => run sz rest s' ((p, n * sz) :: live)
      | None => run sz rest s live
      end
  end.
