(** Models app/common/PetscVector and app/common/vecnest_util.c: block vectors over processes and how nested ones are saved.
    PETSc's calls are modelled by what its manual says of them; PetscInt is unbounded. *)
Require Import Reals Arith List.
Require Import Verif.Base.
Import ListNotations.
Local Open Scope nat_scope.

(** Sum of the first [r] numbers; MPI_Scan gives process r the sum up to and including its own. *)
Fixpoint psum (n : nat -> nat) (r : nat) : nat := match r with 0 => 0 | S r' => psum n r' + n r' end.
(** app/common/PetscVector.cpp:20-29: offset and l2g of process [r]; [n p] is numLocalElems of process p. *)
Definition offset (n : nat -> nat) (r : nat) : nat := psum n (S r) - n r.
Definition l2g (n : nat -> nat) (r el : nat) : nat := offset n r + el.
(** The first row PETSc gives process [r]: VecSetSizes with app/common/PetscVector.cpp:13 localRows on each process. *)
Definition first_row (n : nat -> nat) (bs r : nat) : nat := psum (fun p => n p * bs) r.

(** app/common/PetscVector.h:26-41 [add_block] and [insert_block] of process [r]: VecSetValuesBlockedLocal with one block; [x] are the
    entries of all processes.  None: a local block that the mapping does not have. *)
Inductive mode := ADD_VALUES | INSERT_VALUES.
Definition set_block (n : nat -> nat) (bs : nat) (m : mode) (r ib : nat) (values : nat -> R) (x : nat -> R) : option (nat -> R) :=
  if ib <? n r then
    let g := l2g n r ib in
    Some (fun j => if j / bs =? g then match m with ADD_VALUES => (x j + values (j mod bs))%R | INSERT_VALUES => values (j mod bs) end else x j)
  else None.
(** app/common/PetscVector.h:48-56 [begin_access] (and 61-69): the columns, and entry (k, i) of the matrix of process [r]. *)
Definition access_columns (n : nat -> nat) (bs r : nat) : nat := n r * bs / bs.
Definition begin_access (n : nat -> nat) (bs r : nat) (x : nat -> R) (k i : nat) : R := x (first_row n bs r + (k + bs * i)).
(** add_block by any process, one after the other: process, block, values. *)
Fixpoint add_blocks (n : nat -> nat) (bs : nat) (l : list (nat * nat * (nat -> R))) (x : nat -> R) : option (nat -> R) :=
  match l with
  | [] => Some x
  | (r, ib, v) :: t => match set_block n bs ADD_VALUES r ib v x with Some x' => add_blocks n bs t x' | None => None end
  end.

(** A vector: the entries of each process.  A binary file: the records of PETSc's format, a size and then entries. *)
Definition vec := list (list R).
Inductive word := Size (n : nat) | Entry (x : R).
(** PETSc's VecView and VecLoad of a vector that is not nested. *)
Definition VecView (v : vec) (file : list word) : list word := file ++ Size (length (concat v)) :: map Entry (concat v).
Fixpoint read_entries (n : nat) (file : list word) : option (list R * list word) :=
  match n, file with
  | 0, _ => Some ([], file)
  | S n', Entry x :: t => match read_entries n' t with Some (l, rest) => Some (x :: l, rest) | None => None end
  | S _, _ => None
  end.
Fixpoint distribute (sizes : list nat) (l : list R) : vec :=
  match sizes with [] => [] | s :: t => firstn s l :: distribute t (skipn s l) end.
Definition VecLoad (sizes : list nat) (file : list word) : option (vec * list word) :=
  match file with
  | Size n :: t => if n =? list_sum sizes then match read_entries n t with Some (l, rest) => Some (distribute sizes l, rest) | None => None end else None
  | _ => None
  end.
(** app/common/vecnest_util.c:6-70 and 72-91; the text written to an ASCII viewer is not modelled.  None: an error. *)
Inductive viewer := Ascii | Binary | Other.
Definition VecView_Nest (w : viewer) (x : list vec) (file : list word) : list word :=
  match w with Binary => fold_left (fun f v => VecView v f) x file | _ => file end.
Fixpoint load_parts (parts : list (list nat)) (file : list word) : option (list vec * list word) :=
  match parts with
  | [] => Some ([], file)
  | s :: t => match VecLoad s file with
      | Some (v, rest) => match load_parts t rest with Some (vs, rest') => Some (v :: vs, rest') | None => None end
      | None => None end
  end.
Definition VecLoad_Nest (w : viewer) (parts : list (list nat)) (file : list word) : option (list vec * list word) :=
  match w with Binary => load_parts parts file | _ => None end.
