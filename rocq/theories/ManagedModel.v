(** Models src/tensor/Managed.h: tensors that own their storage.  An address is a natural number; allocation is assumed to
    succeed and never returns an address in use; entries are indexed by their position in storage (the map from
    indices to positions is C12's subject). *)
Require Import ZArith Reals Arith List.
Require Import Verif.Base.
Import ListNotations.

(** src/tensor/Managed.h:52-53: the number of bytes asked for, in std::size_t; [bytes] is sizeof(real_t). *)
Definition u64 (x : Z) : Z := (x mod 2 ^ 64)%Z.
Definition storage_bytes (bytes num_reals alignment : Z) : Z :=
  let size := u64 (bytes * num_reals) in u64 (u64 (1 + u64 (size - 1) / alignment) * alignment)%Z.

(** A block of memory and the heap. *)
Record block := { b_size : nat; b_data : nat -> R }.
(** src/tensor/Managed.h:58 and src/tensor/Tensor.h (data_ and the shape, here the size). *)
Record object := { o_size : nat; o_data : option nat; o_managed : option nat }.
Record state := { objs : nat -> option object; heap : nat -> option block; next : nat }.
Definition initial : state := {| objs := fun _ => None; heap := fun _ => None; next := 0 |}.
Definition set {A : Type} (m : nat -> option A) (k : nat) (x : option A) : nat -> option A :=
  fun i => if (i =? k)%nat then x else m i.

(** src/tensor/Managed.h:46-48 [Deleter] and unique_ptr's destructor; None: an address that is not allocated is freed. *)
Definition release (h : nat -> option block) (p : option nat) : option (nat -> option block) :=
  match p with
  | None => Some h
  | Some a => match h a with Some _ => Some (set h a None) | None => None end
  end.

Inductive action :=
| Default (v : nat) | New (v n : nat) (garbage : nat -> R) | MoveNew (v w : nat) | MoveAssign (v w : nat)
| Write (v i : nat) (x : R) | Read (v i : nat) | Destroy (v : nat).

(** One statement of a program; None: undefined behaviour, or a variable that is not there (or there already).
    Default: src/tensor/Managed.h:20.  New: 21-29 and 38-42.  MoveNew: 35, defaulted: Tensor's members are copied (its destructor is declared), unique_ptr is
    moved.  MoveAssign: 36, likewise; unique_ptr frees what it held (not when assigned to itself).  Destroy: 43.  Read, Write:
    Tensor::operator() through data_. *)
Definition act (s : state) (a : action) : option (state * list R) :=
  match a with
  | Default v => match objs s v with Some _ => None | None =>
      Some ({| objs := set (objs s) v (Some {| o_size := 0; o_data := None; o_managed := None |}); heap := heap s; next := next s |}, []) end
  | New v n g => match objs s v with Some _ => None | None =>
      Some ({| objs := set (objs s) v (Some {| o_size := n; o_data := Some (next s); o_managed := Some (next s) |});
               heap := set (heap s) (next s) (Some {| b_size := n; b_data := g |}); next := S (next s) |}, []) end
  | MoveNew v w => match objs s v, objs s w with
      | None, Some o => Some ({| objs := set (set (objs s) v (Some o)) w (Some {| o_size := o_size o; o_data := o_data o; o_managed := None |});
                                 heap := heap s; next := next s |}, [])
      | _, _ => None end
  | MoveAssign v w => match objs s v, objs s w with
      | Some o, Some o' => if (v =? w)%nat then Some (s, []) else
          match release (heap s) (o_managed o) with
          | Some h => Some ({| objs := set (set (objs s) v (Some o')) w (Some {| o_size := o_size o'; o_data := o_data o'; o_managed := None |});
                               heap := h; next := next s |}, [])
          | None => None end
      | _, _ => None end
  | Write v i x => match objs s v with Some {| o_data := Some p |} =>
        match heap s p with
        | Some b => if (i <? b_size b)%nat then
            Some ({| objs := objs s; heap := set (heap s) p (Some {| b_size := b_size b; b_data := fun j => if (j =? i)%nat then x else b_data b j |});
                     next := next s |}, []) else None
        | None => None end
      | _ => None end
  | Read v i => match objs s v with Some {| o_data := Some p |} =>
        match heap s p with Some b => if (i <? b_size b)%nat then Some (s, [b_data b i]) else None | None => None end
      | _ => None end
  | Destroy v => match objs s v with
      | Some o => match release (heap s) (o_managed o) with
          | Some h => Some ({| objs := set (objs s) v None; heap := h; next := next s |}, [])
          | None => None end
      | None => None end
  end.
Fixpoint act_all (s : state) (l : list action) : option (state * list R) :=
  match l with
  | [] => Some (s, [])
  | a :: t => match act s a with
      | Some (s', r) => match act_all s' t with Some (s'', r') => Some (s'', r ++ r') | None => None end
      | None => None end
  end.
