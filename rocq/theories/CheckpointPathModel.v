(** Model of how app/common/ts_util.c creates the directories of checkpoints and names them.  Paths are
    texts; a file system says what is found under a list of names.  Names "." are skipped as the kernel
    does, ".." and symbolic links are not modelled. *)
Require Import List Ascii Arith Bool String DecimalString Decimal.
Require Import Verif.Base.
Import ListNotations.
Local Open Scope list_scope.
Local Open Scope opt_scope.

Notation text := (list ascii).
Definition slash : ascii := "/"%char.

(** * The file system *)
Inductive node := Dir | File.
Definition fsys := list text -> option node.
Inductive errno := ENONE | ENOENT | EEXIST | EACCES | EBADF | EDQUOT | EFAULT | EINVAL | ELOOP | EMLINK | ENOMEM | ENOSPC | ENOTDIR | EPERM | EROFS | EOTHER.
(** The parts between the slashes; those that are empty or "." name nothing. *)
Fixpoint split (s : text) : list text :=
  match s with
  | [] => [[]]
  | c :: r => if Ascii.eqb c slash then [] :: split r else match split r with h :: t => (c :: h) :: t | [] => [[c]] end
  end.
Definition names_something (s : text) : bool :=
  match s with [] => false | [c] => negb (Ascii.eqb c ".") | _ => true end.
Definition comps (s : text) : list text := filter names_something (split s).
(** What a path means when [cwd] is the working directory. *)
Definition resolve (cwd : list text) (s : text) : list text :=
  match s with c :: _ => if Ascii.eqb c slash then comps s else cwd ++ comps s | [] => cwd ++ comps s end.
(** mkdir(2) ([Some e]: fails with error e).  [deny] says why a directory that could be created is not. *)
Fixpoint parents (l : list text) : list (list text) := match l with [] => [] | x :: r => [] :: map (cons x) (parents r) end.
Definition parent_error (fs : fsys) (l : list (list text)) : option errno :=
  fold_left (fun e p => match e with Some _ => e | None => match fs p with Some Dir => None | Some File => Some ENOTDIR | None => Some ENOENT end end) l None.
Definition text_dec (a b : text) : {a = b} + {a <> b} := list_eq_dec ascii_dec a b.
Definition path_dec (a b : list text) : {a = b} + {a <> b} := list_eq_dec text_dec a b.
Definition mkdir (deny : list text -> option errno) (cwd : list text) (fs : fsys) (s : text) : fsys * option errno :=
  match s with
  | [] => (fs, Some ENOENT)
  | _ => let p := resolve cwd s in
      match parent_error fs (parents p) with
      | Some e => (fs, Some e)
      | None => match fs p with
                | Some _ => (fs, Some EEXIST)
                | None => match deny p with Some e => (fs, Some e) | None => (fun q => if path_dec q p then Some Dir else fs q, None) end
                end
      end
  end.

Section Create.
Variable path_max : nat.                         (* PATH_MAX *)
Variable deny : list text -> option errno.
Variable cwd : list text.
(** A call of mkdir with the file system and errno; a call that succeeds leaves errno as it was. *)
Definition mkdir_call (s : text) (st : fsys * errno) : fsys * errno * bool :=
  let r := mkdir deny cwd (fst st) s in
  match snd r with Some e => (fst r, e, false) | None => (fst r, snd st, true) end.
(** ts_util.c:25-82: the loop over the characters of tmp; [done] is what lies before p. *)
Fixpoint mkdir_loop (done rest : text) (st : fsys * errno) : fsys * errno :=
  match rest with
  | [] => st
  | c :: r => mkdir_loop (done ++ [c]) r (if Ascii.eqb c slash then fst (mkdir_call done st) else st)
  end.
(** ts_util.c:20-24: snprintf into tmp, a slash at the end removed; [None]: tmp[-1] is read. *)
Definition copy_path (dir : text) : option text :=
  let tmp := firstn (path_max - 1) dir in
  match tmp with [] => None | _ => Some (if Ascii.eqb (last tmp slash) slash then removelast tmp else tmp) end.
(** ts_util.c:14-136 [recursive_mkdir].  The messages are left out. *)
Definition recursive_mkdir (dir : text) (st : fsys * errno) : option (fsys * errno * bool) :=
  do tmp <- copy_path dir;
  Some (mkdir_call tmp (match tmp with [] => st | c :: r => mkdir_loop [c] r st end)).
(** ts_util.c:152-190: the errors that end the program. *)
Definition fatal (e : errno) : bool :=
  match e with
  | EACCES | EBADF | EDQUOT | EFAULT | EINVAL | ELOOP | EMLINK | ENOMEM | ENOSPC | ENOTDIR | EPERM | EROFS => true
  | ENONE | ENOENT | EEXIST | EOTHER => false
  end.
(** ts_util.c:138-193 [MPICreateDirectory] on all ranks: file system and errno of rank 0 afterwards, and
    for each rank whether it calls MPI_Abort. *)
Definition MPICreateDirectory (dir : text) (st : fsys * errno) : option (fsys * errno * (nat -> bool)) :=
  do r <- recursive_mkdir dir st;
  let '(fs, e, _) := r in
  let error_number := fun rank : nat => e in       (* MPI_Bcast from rank 0 *)
  Some (fs, e, fun rank => fatal (error_number rank)).
End Create.

(** * Names of checkpoints *)
Definition chars (s : string) : text := list_ascii_of_string s.
(** %d of a number that is not negative. *)
Definition decimal (n : nat) : text := chars (NilZero.string_of_uint (Nat.to_uint n)).
Inductive storage_mode := NoStorage | UnlimitedStorage | LimitedStorage.
(** ts_util.c:679: basenames[mode]. *)
Definition basename (m : storage_mode) : text := match m with NoStorage => chars "none" | UnlimitedStorage => chars "step" | LimitedStorage => chars "chkpnt" end.
(** ts_util.c:677-705: cp->path_step; [size] is PETSC_MAX_PATH_LEN, PetscSNPrintf writes size - 2 characters at most. *)
Definition path_step (size : nat) (prefix : text) (m : storage_mode) (fileindex : nat) : text :=
  let name := basename m ++ decimal fileindex in
  firstn (size - 2) (match prefix with
    | [] => name
    | _ => if Ascii.eqb (last prefix "000"%char) slash then prefix ++ name else prefix ++ [slash] ++ name
    end).
(** ts_util.c:771, :780, :789, :805: a file of the checkpoint. *)
Definition file_in (size : nat) (dir : text) (name : string) : text := firstn (size - 2) (dir ++ [slash] ++ chars name).
(** ts_util.c:817: the file that names the last checkpoint. *)
Definition pointer_path (size : nat) (prefix : text) : text := file_in size prefix "last_checkpoint.txt".
(** ts_util.c:920-975 [ts_checkpoint_configure], the part about directories. *)
Definition configure_directory path_max deny cwd (prefix : text) (m : storage_mode) (st : fsys * errno) : option (fsys * errno * (nat -> bool)) :=
  match m, prefix with
  | NoStorage, _ | _, [] => Some (fst st, snd st, fun _ => false)
  | _, _ => MPICreateDirectory path_max deny cwd prefix st
  end.
