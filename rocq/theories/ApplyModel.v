(** Models DGOperator::apply_ (src/form/DGOperator.h:363-396): matrix-free application with the
    exchange of ghost blocks running while interior elements are processed. *)
Require Import List Arith Bool.
Require Import Verif.Base Verif.TopoModel Verif.ScatterModel.
Import ListNotations.
Local Open Scope opt_scope.

(** The local operator's apply (or wave_rhs): element number, neighbour slots, own block, the
    neighbours' blocks, and the block of y before the call. *)
Definition local_op (A : Type) := nat -> list side_info -> A -> list A -> A -> A.

(** src/form/DGOperator.h:370-380, the lambda lop_apply on rank memory [c]; [idx] is the index of the
    ghost blocks (SparseBlockVector).  [None]: a block or slot does not exist. *)
Definition apply_one {A} (k : nat) (op : local_op A) (t : list side_info) (idx : list (option nat)) (c : proc A)
  (e : nat) (y : list A) : option (list A) :=
  do y0 <- nth_error y e;
  do x0 <- view_get (p_x c) idx (p_y c) e;
  do sl <- map_opt (fun d => nth_error t (e * (k + 1) + d)) (seq 0 (k + 1));
  do xn <- map_opt (fun s => view_get (p_x c) idx (p_y c) (si_lid s)) sl;
  upd y e (op e sl x0 xn y0).

(** A loop over elements on rank q.  Between two elements any network events and any activity of
    other ranks may happen (test_scatter, :385, is such an event): each entry of [w] is the events
    before the element and the element. *)
Fixpoint apply_phase {A} (k : nat) (op : local_op A) (t : list side_info) (idx : list (option nat))
  (pl : nat -> plan) (q : nat) (w : list (list (event A) * nat)) (s : state A) (y : list A) : option (state A * list A) :=
  match w with
  | [] => Some (s, y)
  | (evs, e) :: r =>
      do s' <- run pl evs s;
      do y' <- apply_one k op t idx (procs_of s' q) e y;
      apply_phase k op t idx pl q r s' y'
  end.

(** src/form/DGOperator.h:382-393: begin_scatter into the ghost memory, whose contents [g] are those
    of the previous exchange; the interior elements; wait_scatter; the others. *)
Definition apply_run {A} (k : nat) (op : local_op A) (t : list side_info) (idx : list (option nat))
  (pl : nat -> plan) (q : nat) (g : list A) (w1 : list (list (event A) * nat)) (evs : list (event A))
  (w2 : list (list (event A) * nat)) (s : state A) (y : list A) : option (state A * list A) :=
  do s1 <- step pl (EBegin q g) s;
  do r1 <- apply_phase k op t idx pl q w1 s1 y;
  do s2 <- run pl evs (fst r1);
  if idle (procs_of s2 q) then apply_phase k op t idx pl q w2 s2 (snd r1) else None.
