(** Models src/parallel/CommPattern.{h,cpp}: displacements, all-to-all exchange, gather. *)
Require Import List Arith Lia Bool.
Require Import Verif.Base.
Import ListNotations.
Local Open Scope opt_scope.

(** src/parallel/CommPattern.cpp:9-16 [make_displs], loop body for p = [p], [p+1], ...
    ([todo] iterations left).  [None]: out-of-bounds access. *)
Fixpoint displs_loop (todo p : nat) (counts : list nat) (perm : nat -> nat) (displs : list nat)
  : option (list nat) :=
  match todo with
  | O => Some displs
  | S t =>
      do d <- nth_error displs (perm p);
      do c <- nth_error counts (perm p);
      do displs' <- upd displs (perm (p + 1)) (d + c);
      displs_loop t (p + 1) counts perm displs'
  end.

(** src/parallel/CommPattern.cpp:9-16 [make_displs].  displs.resize(n) is modelled as a fresh
    array of zeros; an empty [counts] is undefined behaviour (displs[perm(0)] = 0).  int
    overflow is not modelled (counts are natural numbers). *)
Definition make_displs (counts : list nat) (perm : nat -> nat) : option (list nat) :=
  do displs <- upd (repeat 0 (length counts)) (perm 0) 0;
  displs_loop (length counts - 1) 0 counts perm displs.

(** src/parallel/CommPattern.h:63-68, data members of AllToAllV. *)
Record AllToAllV := { sendcounts : list nat; recvcounts : list nat;
                      sdispls : list nat; rdispls : list nat }.

(** src/parallel/CommPattern.cpp:18-28, constructor, on rank [q] of [procs] ranks.
    MPI_Alltoall gives rank q the q-th entry of every rank's sendcounts.
    [all] is the send-count matrix: [all p] is rank p's sendcounts. *)
Definition mk_alltoallv (procs : nat) (all : nat -> list nat) (q : nat) : option AllToAllV :=
  let rc := map (fun p => nth q (all p) 0) (seq 0 procs) in
  do sd <- make_displs (all q) (fun p => p);
  do rd <- make_displs rc (fun p => p);
  Some {| sendcounts := all q; recvcounts := rc; sdispls := sd; rdispls := rd |}.

(** src/parallel/CommPattern.cpp:40-43 [swap]. *)
Definition swap_pattern (x : AllToAllV) : AllToAllV :=
  {| sendcounts := recvcounts x; recvcounts := sendcounts x;
     sdispls := rdispls x; rdispls := sdispls x |}.

(** src/parallel/CommPattern.cpp:45-48 [setRankPermutation]. *)
Definition setRankPermutation (x : AllToAllV) (perm : list nat) : option AllToAllV :=
  do sd <- make_displs (sendcounts x) (fun p => nth p perm 0);
  do rd <- make_displs (recvcounts x) (fun p => nth p perm 0);
  Some {| sendcounts := sendcounts x; recvcounts := recvcounts x; sdispls := sd; rdispls := rd |}.

(** src/parallel/CommPattern.h:33-34. *)
Definition recvRange (x : AllToAllV) (p : nat) : nat * nat :=
  let d := nth p (rdispls x) 0 in (d, d + nth p (recvcounts x) 0).
Definition sendRange (x : AllToAllV) (p : nat) : nat * nat :=
  let d := nth p (sdispls x) 0 in (d, d + nth p (sendcounts x) 0).

(** Reading and writing a contiguous block of a buffer; [None]: out of bounds. *)
Definition read_block {A} (buf : list A) (off n : nat) : option (list A) :=
  if off + n <=? length buf then Some (firstn n (skipn off buf)) else None.
Definition write_block {A} (buf : list A) (off : nat) (data : list A) : option (list A) :=
  if off + length data <=? length buf
  then Some (firstn off buf ++ data ++ skipn (off + length data) buf) else None.

(** MPI_Alltoallv as seen by rank [q] (MPI standard 3.1, section 5.8): for every p, the block
    rank p has for q is stored in q's buffer at q's displacement for p.  [None]: mismatching
    counts or a block outside a buffer.  The order in which blocks arrive is not specified;
    [order] is the order of arrival. *)
Fixpoint deliver {A} (pat : nat -> AllToAllV) (send : nat -> list A) (q : nat)
    (order : list nat) (buf : list A) : option (list A) :=
  match order with
  | [] => Some buf
  | p :: rest =>
      if nth q (sendcounts (pat p)) 0 =? nth p (recvcounts (pat q)) 0 then
        do blk <- read_block (send p) (nth q (sdispls (pat p)) 0) (nth q (sendcounts (pat p)) 0);
        do buf' <- write_block buf (nth p (rdispls (pat q)) 0) blk;
        deliver pat send q rest buf'
      else None
  end.

(** src/parallel/CommPattern.h:37-44 [exchange] on rank [q]; the receive buffer is value
    initialised ([dflt]) with accumulate(recvcounts) entries. *)
Definition exchange {A} (dflt : A) (pat : nat -> AllToAllV) (send : nat -> list A)
    (order : list nat) (q : nat) : option (list A) :=
  deliver pat send q order (repeat dflt (list_sum (recvcounts (pat q)))).

(** src/parallel/CommPattern.cpp:50-63 and CommPattern.h:71-99, GatherV and its exchange at
    the root; [cnt p] is rank p's sendcount_, [send p] its data.  MPI_Gatherv stores rank p's
    block at displs[p]. *)
Fixpoint gather_deliver {A} (displs : list nat) (cnt : nat -> nat) (send : nat -> list A)
    (order : list nat) (buf : list A) : option (list A) :=
  match order with
  | [] => Some buf
  | p :: rest =>
      do blk <- read_block (send p) 0 (cnt p);
      do buf' <- write_block buf (nth p displs 0) blk;
      gather_deliver displs cnt send rest buf'
  end.
Definition gatherv {A} (dflt : A) (procs : nat) (cnt : nat -> nat) (send : nat -> list A)
    (order : list nat) : option (list A) :=
  let recvcounts := map cnt (seq 0 procs) in
  do displs <- make_displs recvcounts (fun p => p);
  gather_deliver displs cnt send order (repeat dflt (list_sum recvcounts)).
