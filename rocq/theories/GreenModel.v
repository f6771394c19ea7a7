(** Models app/form/SeasQDDiscreteGreenOperator.{h,cpp}: the discrete Green's function, its assembly column by column,
    its checkpoints and their reuse on another number of processes.  Arithmetic is exact.  Distributed vectors and
    matrices are the global ones; process r owns a contiguous part (PETSc). *)
Require Import List Arith Bool Reals.
Require Import Verif.Base Verif.VecModel.
Import ListNotations.

(** A matrix is the list of its columns. *)
Definition matrix := list (list R).
Definition entry (A : matrix) (i j : nat) : R := nth i (nth j A []) 0%R.
Definition sumR (l : list R) : R := fold_right Rplus 0%R l.
(** MatMatMult and MatMult. *)
Definition mat_mult (m k n : nat) (A B : matrix) : matrix :=
  map (fun j => map (fun i => sumR (map (fun l => (entry A i l * entry B l j)%R) (seq 0 k))) (seq 0 m)) (seq 0 n).
Definition mat_vec (m n : nat) (A : matrix) (x : list R) : list R :=
  map (fun i => sumR (map (fun l => (entry A i l * nth l x 0)%R) (seq 0 n))) (seq 0 m).

Definition label := list nat.
Definition label_eq_dec : forall a b : label, {a = b} + {a <> b} := list_eq_dec Nat.eq_dec.

(** A file: [Torn] stands for any incomplete content. *)
Inductive file (A : Type) := Torn | Whole (a : A).
Arguments Torn {A}. Arguments Whole {A}.
(** The three names used for one checkpoint file. *)
Record slot (A : Type) := { main : option (file A); tmp : option (file A); bu : option (file A) }.
Arguments main {A}. Arguments tmp {A}. Arguments bu {A}.

(** Writing "name.tmp" and cpp:174-199 [back_up_file]: the successive contents of the directory.  The file system does
    not fail. *)
Definition write_file {A} (x : A) (s : slot A) : list (slot A) :=
  let s1 := {| main := main s; tmp := Some Torn; bu := bu s |} in
  let s2 := {| main := main s; tmp := Some (Whole x); bu := bu s |} in
  match main s with
  | None => [s1; s2; {| main := Some (Whole x); tmp := None; bu := bu s |}]
  | Some f =>
      (match bu s with
       | None => [s1; s2]
       | Some _ => [s1; s2; {| main := Some f; tmp := Some (Whole x); bu := None |}]
       end) ++
      [{| main := None; tmp := Some (Whole x); bu := Some f |}; {| main := Some (Whole x); tmp := None; bu := Some f |}]
  end.

(** gf_mat.bin, gf_facet_labels.bin and gf_vec.bin. *)
Record disk := { op_file : slot (nat * nat * matrix); facet_file : slot (list label); vec_file : option (file (list R)) }.
Definition empty_slot {A} : slot A := {| main := None; tmp := None; bu := None |}.
Definition empty_disk : disk := {| op_file := empty_slot; facet_file := empty_slot; vec_file := None |}.

Section Green.
  (** Block sizes (AbstractFrictionOperator.h:21, AbstractAdapterOperator.h:21). *)
  Variables sbs mbs : nat.
  (** Numbers of fault elements of the processes, and the vertices of the fault facets in global order, for a number of
      processes. *)
  Variable numel : nat -> list nat.
  Variable facets : nat -> list label.
  (** SeasQDOperator::solve and update_traction (SeasQDOperator.cpp:57-74) on the given number of processes; the boundary
      data is absent before set_boundary. *)
  Variable traction : nat -> option R -> list R -> list R.

  Section Procs.
    Variable p : nat.
    Definition num_elements : nat := list_sum (numel p).
    (** cpp:15-30. *)
    Definition n_local (r : nat) : nat := nth r (numel p) 0 * sbs.
    Definition m_local (r : nat) : nat := nth r (numel p) 0 * mbs.
    Definition mb_offset (r : nat) : nat := list_sum (firstn (r + 1) (numel p)) - nth r (numel p) 0.
    Definition nb_offset (r : nat) : nat :=
      list_sum (map n_local (seq 0 (r + 1))) - n_local r.
    Definition M : nat := list_sum (map m_local (seq 0 (length (numel p)))).
    Definition N : nat := list_sum (map n_local (seq 0 (length (numel p)))).

    (** cpp:526-532: VecSetValue with the global number i, by every process that takes it for its own. *)
    Definition set_nth (i : nat) (x : R) (l : list R) : list R := firstn i l ++ x :: skipn (i + 1) l.
    Definition unit_slip (i : nat) : list R :=
      fold_left (fun S r => if (nb_offset r <=? i) && (i <? nb_offset r + m_local r) then set_nth i 1%R S else S)
        (seq 0 (length (numel p))) (repeat 0%R N).
    (** cpp:541-550: MatSetValuesBlocked. *)
    Definition set_block (g_m i : nat) (block : list R) (G : matrix) : matrix :=
      map (fun j => let c := nth j G [] in
                    if j =? i then firstn (g_m * mbs) c ++ block ++ skipn (g_m * mbs + mbs) c else c) (seq 0 (length G)).
    Definition traction_block (t : list R) (r faultNo : nat) : list R := firstn mbs (skipn ((mb_offset r + faultNo) * mbs) t).
    (** cpp:520-551: one pass of the loop. *)
    Definition add_column (G : matrix) (i : nat) : matrix :=
      let t := traction p None (unit_slip i) in
      fold_left (fun G r =>
        fold_left (fun G faultNo => set_block (mb_offset r + faultNo) i (traction_block t r faultNo) G)
          (seq 0 (nth r (numel p) 0)) G) (seq 0 (length (numel p))) G.
    (** cpp:160: MatCreateDense. *)
    Definition create_matrix : matrix := repeat (repeat 0%R M) N.

    (** cpp:201-238 and :240-279: the directory after every step. *)
    Definition write_operator (current_gf : nat) (G : matrix) (d : disk) : list disk :=
      let ops := map (fun s => {| op_file := s; facet_file := facet_file d; vec_file := vec_file d |}) (write_file (p, current_gf, G) (op_file d)) in
      let d' := last ops d in
      ops ++ map (fun s => {| op_file := op_file d'; facet_file := s; vec_file := vec_file d |}) (write_file (facets p) (facet_file d)).

    (** cpp:493-578; [sched i]: enough time has passed for a checkpoint after Green's function i. *)
    Fixpoint assemble_loop (sched : nat -> bool) (is_ : list nat) (G : matrix) (d : disk) : list disk * matrix * disk :=
      match is_ with
      | [] => ([], G, d)
      | i :: is' =>
          let G' := add_column G i in
          let ds := if sched i then write_operator (i + 1) G' d else [] in
          let '(tr, G'', d'') := assemble_loop sched is' G' (last ds d) in
          (ds ++ tr, G'', d'')
      end.

    (** cpp:303-363: position of every facet in the saved list; the last one counts.  [None]: exception. *)
    Fixpoint last_position (f : label) (l : list label) (k : nat) : option nat :=
      match l with
      | [] => None
      | x :: t => match last_position f t (k + 1) with
                  | Some i => Some i
                  | None => if label_eq_dec f x then Some k else None
                  end
      end.
    Fixpoint permutation_index (saved fs : list label) : option (list nat) :=
      match fs with
      | [] => Some []
      | f :: t => match last_position f saved 0, permutation_index saved t with
                  | Some i, Some is_ => Some (i :: is_)
                  | _, _ => None
                  end
      end.
    (** cpp:365-430.  Process r contributes its facets, from the number mb_offset on. *)
    Definition perm_entries (bs : nat) (swap : bool) (perm : list nat) : list (nat * nat) :=
      flat_map (fun r => flat_map (fun bndNo =>
        let from := mb_offset r + bndNo in
        let to := nth (mb_offset r + bndNo) perm 0 in
        map (fun d => if swap then (bs * to + d, bs * from + d) else (bs * from + d, bs * to + d)) (seq 0 bs))
        (seq 0 (nth r (numel p) 0))) (seq 0 (length (numel p))).
    Definition pair_eq_dec : forall a b : nat * nat, {a = b} + {a <> b} :=
      fun a b => ltac:(decide equality; apply Nat.eq_dec).
    Definition perm_matrix (bs : nat) (swap : bool) (perm : list nat) (n : nat) : matrix :=
      map (fun j => map (fun i => if in_dec pair_eq_dec (i, j) (perm_entries bs swap perm) then 1%R else 0%R) (seq 0 n)) (seq 0 n).

    (** cpp:432-491: the number of columns, the operator and the index set if the layout has changed. *)
    Definition load_operator (d : disk) : option (nat * matrix * option (list nat)) :=
      match main (op_file d) with
      | Some (Whole (commsize, current_gf, G)) =>
          if p =? commsize then Some (current_gf, G, None)
          else match main (facet_file d) with
               | Some (Whole saved) =>
                   match permutation_index saved (facets p) with
                   | Some perm =>
                       let Rperm := perm_matrix (M / num_elements) false perm M in
                       let Cperm := perm_matrix (N / num_elements) true perm N in
                       Some (current_gf, mat_mult M M N Rperm (mat_mult M N N G Cperm), Some perm)
                   | None => None
                   end
               | _ => None
               end
      | _ => None
      end.

    (** cpp:580-607: the successive contents of the directory and, unless an exception is thrown, the operator. *)
    Definition get_operator (sched : nat -> bool) (d : disk) : list disk * option (matrix * disk * option (list nat)) :=
      match (match main (op_file d) with None => Some (0, create_matrix, None) | Some _ => load_operator d end) with
      | None => ([], None)
      | Some (n_gfloaded, G0, perm) =>
          let '(tr, G, d') := assemble_loop sched (seq n_gfloaded (N - n_gfloaded)) G0 d in
          let ds := if n_gfloaded =? N then [] else write_operator N G d' in
          (tr ++ ds, Some (G, last ds d', perm))
      end.

    (** cpp:129-150. *)
    Definition boundary_traction : list R := traction p (Some 1%R) (repeat 0%R N).
    (** cpp:609-662: gf_vec.bin is written under its name. *)
    Definition get_boundary (perm : option (list nat)) (d : disk) : list disk * option (list R) :=
      match vec_file d with
      | Some Torn => ([], None)
      | Some (Whole v) =>
          ([], Some (match perm with
                     | None => v
                     | Some is_ => mat_vec M M (perm_matrix (M / num_elements) false is_ M) v
                     end))
      | None =>
          let with_vec x := {| op_file := op_file d; facet_file := facet_file d; vec_file := x |} in
          ([with_vec (Some Torn); with_vec (Some (Whole boundary_traction))], Some boundary_traction)
      end.

    (** The constructor and set_boundary (cpp:32-93) with checkpoints. *)
    Definition run (sched : nat -> bool) (d : disk) : list disk * option (matrix * list R) :=
      let '(tr, r) := get_operator sched d in
      match r with
      | None => (tr, None)
      | Some (G, d', perm) => let '(tr', b) := get_boundary perm d' in (tr ++ tr', option_map (pair G) b)
      end.
    (** Without checkpoints. *)
    Definition run_plain : matrix * list R := (fold_left add_column (seq 0 N) create_matrix, boundary_traction).

    (** cpp:115-127: [slips]: the blocks of the state of all fault elements, of which the first sbs values are copied. *)
    Definition update_traction (G : matrix) (t_boundary : list R) (time : R) (state : list (list R)) : list R :=
      let S := flat_map (firstn sbs) state in
      vadd (mat_vec M N G S) (vscale time t_boundary).
  End Procs.
End Green.
