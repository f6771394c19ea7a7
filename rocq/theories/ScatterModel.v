(** Models src/parallel/ScatterPlan.{h,cpp}, Scatter.h, SimpleScatter.h, SparseBlockVector.h and
    LocalGhostCompositeView.h: exchange of shared blocks between ranks by non-blocking messages.
    A block of block_size numbers is one value of type A. *)
Require Import List Arith Bool.
Require Import Verif.Base Verif.CommModel Verif.LocalMeshModel.
Import ListNotations.
Local Open Scope opt_scope.

(** std::unordered_map<int, std::vector<std::size_t>> as the sequence of its (key, value) pairs in
    iteration order.  The iteration order is unspecified in C++; wherever it matters an arbitrary
    permutation of the pairs is used. *)
Definition umap := list (nat * list nat).
(** m[k].push_back(v). *)
Fixpoint umap_push (m : umap) (k v : nat) : umap :=
  match m with
  | [] => [(k, [v])]
  | (k', vs) :: t => if k' =? k then (k', vs ++ [v]) :: t else (k', vs) :: umap_push t k v
  end.
Fixpoint umap_get (m : umap) (k : nat) : list nat :=
  match m with [] => [] | (k', vs) :: t => if k' =? k then vs else umap_get t k end.

(** src/parallel/ScatterPlan.h:29-41: send_map and recv_map; loop over the faces from number [f]
    on.  [faces] pairs owner and shared ranks of each face. *)
Fixpoint plan_loop (rank f : nat) (faces : list (nat * list nat)) (sm rm : umap) : umap * umap :=
  match faces with
  | [] => (sm, rm)
  | (owner, shared) :: t =>
      if owner =? rank then plan_loop rank (f + 1) t (fold_left (fun m r => umap_push m r f) shared sm) rm
      else plan_loop rank (f + 1) t sm (umap_push rm owner f)
  end.
Definition plan_maps (rank : nat) (faces : list (nat * list nat)) : umap * umap := plan_loop rank 0 faces [] [].

(** src/parallel/ScatterPlan.cpp:7-21 [make_indices], 26-36 [make_blocks]: blocks are (offset,
    count, source_or_dest). *)
Definition make_indices (m : umap) : list nat := concat (map snd m).
Fixpoint make_blocks (offset : nat) (m : umap) : list (nat * nat * nat) :=
  match m with [] => [] | (k, v) :: t => (offset, length v, k) :: make_blocks (offset + length v) t end.
(** src/parallel/ScatterPlan.h:64-67, the members. *)
Record plan := { send_indices : list nat; recv_indices : list nat;
                 send_blocks : list (nat * nat * nat); recv_blocks : list (nat * nat * nat) }.
(** src/parallel/ScatterPlan.cpp:5-41 [setup]. *)
Definition setup (sm rm : umap) : plan :=
  {| send_indices := make_indices sm; recv_indices := make_indices rm;
     send_blocks := make_blocks 0 sm; recv_blocks := make_blocks 0 rm |}.

(** One rank: the vector x, the memory of y (SparseBlockVector, one slot per recv index), the send
    buffer, and the requests that are not complete: receives and sends, each with its block. *)
Record proc (A : Type) := { p_x : list A; p_y : list A; p_buf : list A;
                            p_recv : list (nat * nat * nat); p_send : list (nat * nat * nat) }.
Arguments p_x {A}. Arguments p_y {A}. Arguments p_buf {A}. Arguments p_recv {A}. Arguments p_send {A}.

(** All ranks and the messages in transit: [chan s p q] holds what p has sent to q and q has not
    received, oldest first.  MPI guarantees that messages with equal source, destination, tag and
    communicator do not overtake each other (MPI 3.1, 3.5). *)
Record state (A : Type) := { procs_of : nat -> proc A; chan : nat -> nat -> list (list A) }.
Arguments procs_of {A}. Arguments chan {A}.

Definition set_fun {B} (f : nat -> B) (i : nat) (v : B) : nat -> B := fun j => if j =? i then v else f j.

(** for i: memcpy(&sendBuf[i], x(send_indices[i])); [None]: out of bounds. *)
Fixpoint pack {A} (x : list A) (idx : list nat) : option (list A) :=
  match idx with [] => Some [] | i :: t => do v <- nth_error x i; do r <- pack x t; Some (v :: r) end.

Definition block_key (b : nat * nat * nat) : nat := snd b.
Definition block_off (b : nat * nat * nat) : nat := fst (fst b).
Definition block_cnt (b : nat * nat * nat) : nat := snd (fst b).
Definition find_block (k : nat) (bs : list (nat * nat * nat)) := find (fun b => block_key b =? k) bs.
Definition remove_block (k : nat) (bs : list (nat * nat * nat)) := filter (fun b => negb (block_key b =? k)) bs.

(** What can happen, in any order:
    EWrite: the application changes x.  EBegin: Scatter::begin_scatter (Scatter.h:34-72) into a y
    with arbitrary contents; Irecv for every recv block, copy of x into the send buffer, Isend for
    every send block.  EInject: a send completes, its data, read from the send buffer, is in transit.
    EMatch: a message in transit is received into the memory of the posted receive. *)
Inductive event (A : Type) :=
| EWrite (p : nat) (x : list A)
| EBegin (p : nat) (y : list A)
| EInject (p q : nat)
| EMatch (p q : nat).
Arguments EWrite {A}. Arguments EBegin {A}. Arguments EInject {A}. Arguments EMatch {A}.

(** Scatter.h:78, MPI_Waitall returns: no request is left. *)
Definition idle {A} (c : proc A) : bool :=
  match p_recv c, p_send c with [], [] => true | _, _ => false end.

(** [None]: the event is not possible in this state, undefined behaviour or an MPI error.
    begin_scatter on a rank with requests in flight would overwrite them, hence is not allowed. *)
Definition step {A} (pl : nat -> plan) (e : event A) (s : state A) : option (state A) :=
  match e with
  | EWrite p x =>
      let c := procs_of s p in
      if length x =? length (p_x c) then
        Some {| procs_of := set_fun (procs_of s) p {| p_x := x; p_y := p_y c; p_buf := p_buf c;
                  p_recv := p_recv c; p_send := p_send c |}; chan := chan s |}
      else None
  | EBegin p y =>
      let c := procs_of s p in
      if idle c && (length y =? length (recv_indices (pl p))) then
        do b <- pack (p_x c) (send_indices (pl p));
        Some {| procs_of := set_fun (procs_of s) p {| p_x := p_x c; p_y := y; p_buf := b;
                  p_recv := recv_blocks (pl p); p_send := send_blocks (pl p) |}; chan := chan s |}
      else None
  | EInject p q =>
      let c := procs_of s p in
      do b <- find_block q (p_send c);
      do d <- read_block (p_buf c) (block_off b) (block_cnt b);
      Some {| procs_of := set_fun (procs_of s) p {| p_x := p_x c; p_y := p_y c; p_buf := p_buf c;
                p_recv := p_recv c; p_send := remove_block q (p_send c) |};
              chan := set_fun (chan s) p (set_fun (chan s p) q (chan s p q ++ [d])) |}
  | EMatch p q =>
      let c := procs_of s q in
      do b <- find_block p (p_recv c);
      match chan s p q with
      | [] => None
      | d :: rest =>
          if length d =? block_cnt b then
            do y <- write_block (p_y c) (block_off b) d;
            Some {| procs_of := set_fun (procs_of s) q {| p_x := p_x c; p_y := y; p_buf := p_buf c;
                      p_recv := remove_block p (p_recv c); p_send := p_send c |};
                    chan := set_fun (chan s) p (set_fun (chan s p) q rest) |}
          else None
      end
  end.
Fixpoint run {A} (pl : nat -> plan) (es : list (event A)) (s : state A) : option (state A) :=
  match es with [] => Some s | e :: t => do s' <- step pl e s; run pl t s' end.

(** Start: no requests, nothing in transit. *)
Definition fresh {A} (x : list A) : proc A :=
  {| p_x := x; p_y := []; p_buf := []; p_recv := []; p_send := [] |}.
Definition start {A} (x : nat -> list A) : state A :=
  {| procs_of := fun p => fresh (x p); chan := fun _ _ => [] |}.

(** src/parallel/SparseBlockVector.h:21-34: global_to_local_ as filled by the constructor
    ([None]: the entry SIZE_MAX); resize to max + 1, then the loop from [local]. *)
Fixpoint g2l_fill (local : nat) (l2g : list nat) (m : list (option nat)) : option (list (option nat)) :=
  match l2g with [] => Some m | i :: t => do m' <- upd m i (Some local); g2l_fill (local + 1) t m' end.
Definition sparse_index (l2g : list nat) : option (list (option nat)) :=
  match l2g with
  | [] => Some []
  | _ => g2l_fill 0 l2g (repeat None (list_max l2g + 1))
  end.
(** SparseBlockVector.h:39-42 [has_block], 44-52 [get_block]. *)
Definition sparse_has (m : list (option nat)) (idx : nat) : bool :=
  match nth_error m idx with Some (Some _) => true | _ => false end.
Definition sparse_get {A} (m : list (option nat)) (mem : list A) (idx : nat) : option A :=
  match nth_error m idx with Some (Some l) => nth_error mem l | _ => None end.
(** src/parallel/LocalGhostCompositeView.h:42-55; [x] is the local vector. *)
Definition view_has {A} (x : list A) (m : list (option nat)) (idx : nat) : bool :=
  if idx <? length x then true else sparse_has m idx.
Definition view_get {A} (x : list A) (m : list (option nat)) (mem : list A) (idx : nat) : option A :=
  if idx <? length x then nth_error x idx else sparse_get m mem idx.

(** src/parallel/SimpleScatter.h:45-49: the receive buffer is copied to data[recv_indices[i]]. *)
Fixpoint unpack {A} (data buf : list A) (idx : list nat) : option (list A) :=
  match idx, buf with
  | [], _ => Some data
  | i :: t, v :: b => do d <- upd data i v; unpack d b t
  | _ :: _, [] => None
  end.
