(** Models app/common/ts_util.c (checkpoints of the time stepper).  Numbers, vectors and what PETSc objects write
    of themselves are parameters; the time stepper is TSRK, for which view writes nothing to a binary viewer and
    load reads the TSAdapt object (comment in ts_util.c:511-518), and which uses no SNES. *)
Require Import List Arith Bool ZArith Reals.
Require Import Verif.Base.
Import ListNotations.
Local Open Scope opt_scope.

Section State.
  Context {Real Vec Opq : Type}.
  (** Members of TSAdapt written in ts_util.c:213-238. *)
  Record adapt := mkA { always_accept : bool; safety : Real; reject_safety : Real; clip0 : Real; clip1 : Real; dt_min : Real; dt_max : Real;
    ignore_max : Real; glee_use_local : bool; scale_solve_failed : Real; match0 : Real; match1 : Real; delay : Z; justdecreased : Z }.
  (** The saved parts of a TS: members written in ts_util.c:285-298, TSAdaptView, DMView, VecView, DMTSView, and the
      stages rk->YdotRHS. *)
  Record ts := mkT { type_name : nat; steps : Z; ptime : Real; time_step : Real; ptime_prev : Real; ptime_prev_rollback : Real; solvetime : Real;
    adapt_obj : option Opq; dm : Opq; vec_sol : Vec; dmts : Opq; members : adapt; stages : list Vec }.
  (** What one PetscViewerBinaryWrite of a value (or one ...View) appends to a file. *)
  Inductive item := Int (z : Z) | Dbl (x : Real) | Bool (b : bool) | Name (n : nat) | Obj (o : Opq) | Vector (v : Vec).

  (** TS_FILE_CLASSID. *)
  Definition TS_FILE_CLASSID : Z := 1211225%Z.
  (** ts_util.c:195-240 [_TSAdaptMembersView]. *)
  Definition adapt_members_view (a : adapt) : list item :=
    [Bool (always_accept a); Dbl (safety a); Dbl (reject_safety a); Dbl (clip0 a); Dbl (clip1 a); Dbl (dt_min a); Dbl (dt_max a);
     Dbl (ignore_max a); Bool (glee_use_local a); Dbl (scale_solve_failed a); Dbl (match0 a); Dbl (match1 a); Int (delay a); Int (justdecreased a)].
  (** ts_util.c:242-345 [_TSView]; [adapt_none] is what a TSAdapt of type none writes (:306-311). *)
  Definition ts_view (adapt_none : Opq) (s : ts) : list item :=
    [Int TS_FILE_CLASSID; Name (type_name s); Int (steps s); Dbl (ptime s); Dbl (time_step s); Dbl (ptime_prev s);
     Dbl (ptime_prev_rollback s); Dbl (solvetime s)]
    ++ [Obj (match adapt_obj s with Some o => o | None => adapt_none end)]
    ++ [Obj (dm s); Vector (vec_sol s); Obj (dmts s)] ++ adapt_members_view (members s).
  (** ts_util.c:394-469 [_TSImplView_RK]; type 0 is TSRK. *)
  Definition ts_impl_view (s : ts) : list item :=
    [Int TS_FILE_CLASSID; Name (type_name s)] ++ (if type_name s =? 0 then map Vector (stages s) else []).

  (** PetscViewerBinaryRead; [None]: end of file or data of another kind. *)
  Definition rd_int (l : list item) := match l with Int z :: t => Some (z, t) | _ => None end.
  Definition rd_dbl (l : list item) := match l with Dbl x :: t => Some (x, t) | _ => None end.
  Definition rd_bool (l : list item) := match l with Bool x :: t => Some (x, t) | _ => None end.
  Definition rd_name (l : list item) := match l with Name x :: t => Some (x, t) | _ => None end.
  Definition rd_obj (l : list item) := match l with Obj x :: t => Some (x, t) | _ => None end.
  Definition rd_vec (l : list item) := match l with Vector x :: t => Some (x, t) | _ => None end.

  (** ts_util.c:471-512 [_TSAdaptMembersLoad]. *)
  Definition adapt_members_load (l : list item) : option adapt :=
    do r <- rd_bool l; let (x0, l) := r in do r <- rd_dbl l; let (x1, l) := r in do r <- rd_dbl l; let (x2, l) := r in
    do r <- rd_dbl l; let (x3, l) := r in do r <- rd_dbl l; let (x4, l) := r in do r <- rd_dbl l; let (x5, l) := r in
    do r <- rd_dbl l; let (x6, l) := r in do r <- rd_dbl l; let (x7, l) := r in do r <- rd_bool l; let (x8, l) := r in
    do r <- rd_dbl l; let (x9, l) := r in do r <- rd_dbl l; let (x10, l) := r in do r <- rd_dbl l; let (x11, l) := r in
    do r <- rd_int l; let (x12, l) := r in do r <- rd_int l; let (x13, l) := r in
    Some (mkA x0 x1 x2 x3 x4 x5 x6 x7 x8 x9 x10 x11 x12 x13).
  (** ts_util.c:514-603 [_TSLoad] into the time stepper [t].  [ops_load]: the type has a load function, which reads the TSAdapt object. *)
  Definition ts_load (ops_load : nat -> bool) (t : ts) (l : list item) : option ts :=
    do r <- rd_int l; let (classid, l) := r in
    if negb (classid =? TS_FILE_CLASSID)%Z then None else
    do r <- rd_name l; let (ty, l) := r in do r <- rd_int l; let (st, l) := r in
    do r <- rd_dbl l; let (x1, l) := r in do r <- rd_dbl l; let (x2, l) := r in do r <- rd_dbl l; let (x3, l) := r in
    do r <- rd_dbl l; let (x4, l) := r in do r <- rd_dbl l; let (x5, l) := r in
    (* ops->load *)
    do r <- (if ops_load ty then do r <- rd_obj l; let (o, l) := r in Some (Some o, l) else Some (adapt_obj t, l)); let (ad, l) := r in
    do r <- (match ad with None => do r <- rd_obj l; let (o, l) := r in Some (Some o, l) | Some _ => Some (ad, l) end); let (ad, l) := r in
    do r <- (if ops_load ty then Some (ad, l) else do r <- rd_obj l; let (o, l) := r in Some (Some o, l)); let (ad, l) := r in
    do r <- rd_obj l; let (dm', l) := r in do r <- rd_vec l; let (sol, l) := r in do r <- rd_obj l; let (dmts', l) := r in
    do m <- adapt_members_load l;
    Some (mkT ty st x1 x2 x3 x4 x5 ad dm' sol dmts' m (stages t)).
  Fixpoint rd_vecs (n : nat) (l : list item) : option (list Vec) :=
    match n with 0 => Some [] | S m => do r <- rd_vec l; let (v, l) := r in do t <- rd_vecs m l; Some (v :: t) end.
  (** ts_util.c:605-652 [_TSImplLoad_RK]: the number of stages is that of [t]. *)
  Definition ts_impl_load (t : ts) (l : list item) : option ts :=
    do r <- rd_int l; let (classid, l) := r in
    if negb (classid =? TS_FILE_CLASSID)%Z then None else
    do r <- rd_name l; let (ty, l) := r in
    do vs <- (if type_name t =? 0 then rd_vecs (length (stages t)) l else Some (stages t));
    Some (mkT (type_name t) (steps t) (ptime t) (time_step t) (ptime_prev t) (ptime_prev_rollback t) (solvetime t) (adapt_obj t) (dm t)
            (vec_sol t) (dmts t) (members t) vs).
  (** ts_util.c:851-888 [ts_checkpoint_load]. *)
  Definition set_sol (t : ts) (v : Vec) : ts :=
    mkT (type_name t) (steps t) (ptime t) (time_step t) (ptime_prev t) (ptime_prev_rollback t) (solvetime t) (adapt_obj t) (dm t)
      v (dmts t) (members t) (stages t).

  (** * Files *)
  (** Files of a checkpoint directory (the directory is given by its number) and last_checkpoint.txt. *)
  Inductive file := TsBin (slot : nat) | TsImpl (slot : nat) | StateVec (slot : nat) | Info (slot : nat) | Last.
  Definition file_dec (a b : file) : {a = b} + {a <> b}.
  Proof. decide equality; apply Nat.eq_dec. Defined.
  (** Text files: lines; a line naming a directory, or another line. *)
  Inductive chunk := Bin (i : item) | DirLine (slot : nat) | OtherLine.
  Definition fs := file -> option (list chunk).
  (** Operations on files in the order in which they happen; a crash happens between two of them. *)
  Inductive op := Trunc (f : file) | Append (f : file) (c : chunk).
  Definition step_op (d : fs) (o : op) : fs :=
    match o with
    | Trunc f => fun g => if file_dec g f then Some [] else d g
    | Append f c => fun g => if file_dec g f then option_map (fun l => l ++ [c]) (d f) else d g
    end.
  Definition exec (ops : list op) (d : fs) : fs := fold_left step_op ops d.
  (** Opening with FILE_MODE_WRITE truncates; then the items are appended. *)
  Definition write_file (f : file) (cs : list chunk) : list op := Trunc f :: map (Append f) cs.
  (** ts_util.c:753-830 [ts_checkpoint_write] into directory [slot]: first the data, then the pointer. *)
  Definition data_ops (adapt_none : Opq) (slot : nat) (s : ts) : list op :=
    write_file (TsBin slot) (map Bin (ts_view adapt_none s)) ++ write_file (TsImpl slot) (map Bin (ts_impl_view s))
    ++ write_file (StateVec slot) [Bin (Vector (vec_sol s))] ++ write_file (Info slot) [OtherLine; OtherLine].
  Definition pointer_ops (slot : nat) : list op := write_file Last (DirLine slot :: repeat OtherLine 8).
  Definition write_ops (adapt_none : Opq) (slot : nat) (s : ts) : list op := data_ops adapt_none slot s ++ pointer_ops slot.

  Fixpoint bins (l : list chunk) : option (list item) :=
    match l with [] => Some [] | Bin i :: t => do r <- bins t; Some (i :: r) | _ => None end.
  Definition checkpoint_load (ops_load : nat -> bool) (t : ts) (d : fs) (slot : nat) : option ts :=
    do f1 <- d (TsBin slot); do l1 <- bins f1; do t1 <- ts_load ops_load t l1;
    do f2 <- d (TsImpl slot); do l2 <- bins f2; do t2 <- ts_impl_load t1 l2;
    do f3 <- d (StateVec slot); do l3 <- bins f3; do r <- rd_vec l3; let (v, _) := r in Some (set_sol t2 v).
  (** app/common/PetscTimeSolver.h:71-85: the directory named in the first line of last_checkpoint.txt. *)
  Definition pointer (d : fs) : option nat := match d Last with Some (DirLine s :: _) => Some s | _ => None end.
End State.
Arguments ts : clear implicits.
Arguments fs : clear implicits.
Arguments op : clear implicits.
Arguments item : clear implicits.
Arguments adapt : clear implicits.

(** * When to write *)
(** ts_util.c:654-675. *)
Inductive storage := Unlimited | Limited (size : nat).
Record cp := mkCP { freq_step : Z; freq_cpu : R; freq_phys : R; n : nat; cputime_last : R; time_last : R; mode : storage }.
Definition Rge_b (x y : R) : bool := if Rge_dec x y then true else false.
(** ts_util.c:707-751 [ts_checkpoint_test] on one rank, before the last broadcast; [None]: remainder by zero. *)
Definition checkpoint_test (c : cp) (cputime : R) (step : Z) (time : R) : option (cp * bool) :=
  let t1 := Rge_b (cputime - cputime_last c) (freq_cpu c * 60) in
  if (freq_step c =? 0)%Z then None else
  let t2 := (Z.rem step (freq_step c) =? 0)%Z in
  let t3 := Rge_b (time - time_last c) (freq_phys c) in
  Some (mkCP (freq_step c) (freq_cpu c) (freq_phys c) (n c) (if t1 then cputime else cputime_last c) (if t3 then time else time_last c) (mode c),
        t1 || t2 || t3).
(** ts_util.c:677-691: number of the directory. *)
Definition slot_of (c : cp) (step : Z) : nat :=
  match mode c with Unlimited => Z.to_nat step | Limited size => n c mod size end.
(** ts_util.c:832 [cp->n++]. *)
Definition next (c : cp) : cp := mkCP (freq_step c) (freq_cpu c) (freq_phys c) (n c + 1) (cputime_last c) (time_last c) (mode c).
(** ts_util.c:890-918 [ts_checkpoint] for a sequence of calls, on every rank.  The clock of rank 0 and its
    decision are broadcast; the file operations are collective, with the directory as computed by every rank.
    The checkpoints written: (directory, call number). *)
Notation call := (R * Z * R)%type.
Fixpoint checkpoints (procs : nat) (cs : nat -> cp) (calls : list call) : option (list (option nat) * (nat -> cp)) :=
  match calls with
  | [] => Some ([], cs)
  | (cpu, step, time) :: t =>
      do r <- checkpoint_test (cs 0) cpu step time;
      let generate := snd r in
      let cs' := fun q => match checkpoint_test (cs q) cpu step time with Some (c', _) => if generate then next c' else c' | None => cs q end in
      do u <- checkpoints procs cs' t;
      Some ((if generate then Some (slot_of (cs 0) step) else None) :: fst u, snd u)
  end.
