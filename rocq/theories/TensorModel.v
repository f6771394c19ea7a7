(** Models src/tensor/Tensor.h, src/tensor/Reshape.h and the tensor part of src/util/Algorithm.h.
    A tensor is a view (offset, shape, stride) into a buffer (a list); pointers are offsets. *)
Require Import List Arith Lia Bool.
Require Import Verif.Base Verif.MultiIndexModel Verif.AlgorithmModel.
Import ListNotations.
Local Open Scope opt_scope.

(** src/tensor/Tensor.h:107-112 [computeStride]; [st] is the stride of the current dimension. *)
Fixpoint strides_from (st : nat) (shape : list nat) : list nat :=
  match shape with [] => [] | s :: ss => st :: strides_from (st * s) ss end.
Definition computeStride (shape : list nat) : list nat := strides_from 1 shape.

(** src/tensor/Tensor.h:114-131 [address]. *)
Fixpoint address (stride entry : list nat) : nat :=
  match stride, entry with s :: ss, e :: es => e * s + address ss es | _, _ => 0 end.

(** src/tensor/Tensor.h, members data_ (offset into the buffer), shape, stride_. *)
Record view := { v_off : nat; v_shape : list nat; v_stride : list nat; v_packed : bool }.

(** src/tensor/Tensor.h:28-31 constructor of packed tensors. *)
Definition packed (off : nat) (shape : list nat) : view :=
  {| v_off := off; v_shape := shape; v_stride := computeStride shape; v_packed := true |}.

(** src/tensor/Tensor.h:49 [size]. *)
Definition v_size (v : view) : nat := last (v_shape v) 0 * last (v_stride v) 0.

(** src/tensor/Tensor.h:51-61 operator(). *)
Definition v_addr (v : view) (entry : list nat) : nat := v_off v + address (v_stride v) entry.
Definition v_get {A} (buf : list A) (v : view) (entry : list nat) : option A :=
  nth_error buf (v_addr v entry).

(** src/tensor/Tensor.h:133-160 [extractNumbers], [extractSubtensor].  An argument is a slice or
    an index; slices are replaced by 0 for the address. *)
Inductive arg := Slice | Idx (i : nat).
Definition arg_index (a : arg) : nat := match a with Slice => 0 | Idx i => i end.
Definition is_slice (a : arg) : bool := match a with Slice => true | Idx _ => false end.
Fixpoint extract (args : list arg) (l : list nat) : list nat :=
  match args, l with
  | a :: t, x :: xs => if is_slice a then x :: extract t xs else extract t xs
  | _, _ => []
  end.
(** The slices are a prefix of the arguments: filtered_sequence = 0,1,...,m-1. *)
Fixpoint slices_prefix (args : list arg) : bool :=
  match args with
  | Slice :: t => slices_prefix t
  | t => forallb (fun a => negb (is_slice a)) t
  end.
Definition subtensor (v : view) (args : list arg) : view :=
  let addr := v_off v + address (v_stride v) (map arg_index args) in
  if v_packed v && slices_prefix args
  then packed addr (extract args (v_shape v))
  else {| v_off := addr; v_shape := extract args (v_shape v);
          v_stride := extract args (v_stride v); v_packed := false |}.

(** src/tensor/Reshape.h:11-18. *)
Definition reshape (v : view) (shape : list nat) : view := packed (v_off v) shape.

(** src/tensor/Tensor.h:88-92, the innermost loop of copy_values; [None]: out of bounds. *)
Fixpoint copy_row {A} (todo : nat) (src : list A) (s sst : nat) (tgt : list A) (t tst : nat)
  : option (list A) :=
  match todo with
  | O => Some tgt
  | S n => do x <- nth_error src s; do tgt' <- upd tgt t x;
           copy_row n src (s + sst) sst tgt' (t + tst) tst
  end.

(** src/tensor/Tensor.h:98-103: entry[0] = 0 and increment with carry of the other entries, here
    on entries 1, ..., D-1 and their extents. *)
Fixpoint cv_incr (i shape : list nat) : list nat :=
  match i, shape with
  | a :: t, s :: ss =>
      if (a + 1 =? s) && negb (length t =? 0) then 0 :: cv_incr t ss else (a + 1) :: t
  | _, _ => i
  end.

(** src/tensor/Tensor.h:82-104 [copy_values], the while loop.  Source and target are different
    buffers.  [None]: out of bounds or more than [fuel] iterations. *)
Fixpoint copy_loop {A} (fuel : nat) (entry : list nat) (src : list A) (sv : view)
    (tgt : list A) (tv : view) : option (list A) :=
  if last entry 0 =? last (v_shape tv) 0 then Some tgt
  else match fuel with
  | O => None
  | S f =>
      do tgt' <- copy_row (hd 0 (v_shape tv)) src (v_addr sv entry) (hd 0 (v_stride sv))
                                         tgt (v_addr tv entry) (hd 0 (v_stride tv));
      if length entry =? 1 then Some tgt'
      else copy_loop f (0 :: cv_incr (tl entry) (tl (v_shape tv))) src sv tgt' tv
  end.
Definition copy_values {A} (fuel : nat) (src : list A) (sv : view) (tgt : list A) (tv : view) :=
  copy_loop fuel (repeat 0 (length (v_shape tv))) src sv tgt tv.

(** src/util/Algorithm.h:45-50 [remove_mode]. *)
Definition remove_mode (a : list nat) (mode : nat) : list nat := firstn mode a ++ skipn (mode + 1) a.

(** src/util/Algorithm.h:25-40 [SwapTensor], operator(): the loop over the entries of the reduced
    shape. *)
Fixpoint swap_entries {A} (entries : list (list nat)) (off mode_stride : nat) (rstride : list nat)
    (i j : nat) (buf : list A) : option (list A) :=
  match entries with
  | [] => Some buf
  | e :: es =>
      let idx := off + address rstride e in
      do buf' <- swap_array (idx + i * mode_stride) (idx + j * mode_stride) buf;
      swap_entries es off mode_stride rstride i j buf'
  end.
Definition swap_tensor {A} (v : view) (mode i j : nat) (buf : list A) : option (list A) :=
  let rshape := remove_mode (v_shape v) mode in
  do es <- mi_loop (fold_right Nat.mul 1 rshape) (mi_begin rshape) (mi_end rshape) rshape;
  swap_entries es (v_off v) (nth mode (v_stride v) 0) (remove_mode (v_stride v) mode) i j buf.

(** src/util/Algorithm.h:111-115, apply_permutation on a mode of a tensor. *)
Definition apply_permutation_tensor {A} (v : view) (idx : list nat) (mode : nat) (buf : list A)
  : option (list A) := apply_permutation (swap_tensor v mode) idx buf.
