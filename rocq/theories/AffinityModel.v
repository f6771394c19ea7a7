(** Models src/parallel/Affinity.h and Affinity.cpp, and app/common/Banner.cpp:25-35 and :72-93: the masks
    of CPUs that tandem and static print when they start (C92). *)
Require Import Ascii List Arith NArith Bool.
Import ListNotations.
Local Open Scope nat_scope.

(** cpu_set_t of <sched.h>: CPU_ISSET(c, s) is [s c]; CPU_SETSIZE is 1024, numbers from there on are not used. *)
Definition cpu_set := nat -> bool.
Definition CPU_ZERO : cpu_set := fun _ => false.
Definition CPU_SET (c : nat) (s : cpu_set) : cpu_set := fun c' => (c' =? c) || s c'.
Definition CPU_OR (s t : cpu_set) : cpu_set := fun c => s c || t c.
(** Affinity.h:24 my_set: CPU_SETSIZE / 64 unsigned numbers of 64 bits; Affinity.h:26 bits_per_unit. *)
Definition units : nat := 16.
Definition bits_per_unit : nat := 64.
Definition my_set := list N.

(** [1 << k] in Affinity.cpp:47 and :56 is an int (32 bits), converted to std::uint64_t. It is 2^k below 31;
    for 31 it is -2^31, which the conversion extends by its sign; from 32 on the behaviour is undefined, and
    stands here for any number of 64 bits. *)
Definition shift_of_int (shl : nat -> N) : Prop :=
  (forall k, k < 31 -> shl k = (2 ^ N.of_nat k)%N) /\ shl 31 = (2 ^ 64 - 2 ^ 31)%N /\ (forall k, (shl k < 2 ^ 64)%N).

(** a[i] = x, for an index that exists. *)
Fixpoint store {A} (a : list A) (i : nat) (x : A) : list A :=
  match a, i with
  | [], _ => []
  | _ :: r, O => x :: r
  | y :: r, S i => y :: store r i x
  end.

(** Affinity.cpp:29-41 worker_mask: the masks that sched_getaffinity returns to the threads; the critical
    section makes the order of the threads the only freedom, and the order is that of the list. *)
Definition worker_mask (threads : list cpu_set) : cpu_set := fold_left CPU_OR threads CPU_ZERO.

(** Affinity.cpp:43-51. *)
Definition cpu_set_to_my_set (shl : nat -> N) (set : cpu_set) : my_set :=
  fold_left (fun result cpu => if set cpu
      then store result (cpu / bits_per_unit) (N.lor (nth (cpu / bits_per_unit) result 0%N) (shl (cpu mod bits_per_unit)))
      else result)
    (seq 0 (bits_per_unit * units)) (repeat 0%N units).
(** Affinity.cpp:52-61. *)
Definition my_set_to_cpu_set (shl : nat -> N) (set : my_set) : cpu_set :=
  fold_left (fun result cpu => if negb (N.eqb (N.land (nth (cpu / bits_per_unit) set 0%N) (shl (cpu mod bits_per_unit))) 0)
      then CPU_SET cpu result else result)
    (seq 0 (bits_per_unit * units)) CPU_ZERO.
(** Affinity.cpp:63-73: MPI_Allreduce with MPI_BOR over the ranks of the node; each rank is the list of the
    masks of its threads. *)
Definition worker_mask_on_node (shl : nat -> N) (ranks : list (list cpu_set)) : cpu_set :=
  let rank_masks := map (fun threads => cpu_set_to_my_set shl (worker_mask threads)) ranks in
  my_set_to_cpu_set shl (fold_left (fun a b => map (fun x => N.lor (fst x) (snd x)) (combine a b)) rank_masks (repeat 0%N units)).

(** mask[pos] = c, None out of range. *)
Definition write (mask : list ascii) (pos : nat) (c : ascii) : option (list ascii) :=
  if pos <? length mask then Some (store mask pos c) else None.
(** '0' + d. *)
Definition digit (d : nat) : ascii := ascii_of_nat (48 + d).
(** Affinity.cpp:18-25, the body of the loop. *)
Definition to_string_step (np : nat) (set : cpu_set) (cpu : nat) (st : list ascii * nat) : option (list ascii * nat) :=
  let '(mask, pos) := st in
  match (if (cpu mod 10 =? 0) && negb (cpu =? 0) && negb (cpu =? np - 1)
         then match write mask pos "|"%char with Some m => Some (m, S pos) | None => None end
         else Some (mask, pos)) with
  | None => None
  | Some (mask, pos) =>
      match (if set cpu then write mask pos (digit (cpu mod 10)) else Some mask) with
      | None => None
      | Some mask => Some (mask, S pos)
      end
  end.
Fixpoint to_string_loop (np : nat) (set : cpu_set) (cpus : list nat) (st : list ascii * nat) : option (list ascii * nat) :=
  match cpus with
  | [] => Some st
  | cpu :: r => match to_string_step np set cpu st with Some st => to_string_loop np set r st | None => None end
  end.
(** Affinity.cpp:13-27 to_string, with [np] for get_nprocs(). *)
Definition to_string (np : nat) (set : cpu_set) : option (list ascii) :=
  match to_string_loop np set (seq 0 np) (repeat "-"%char (np + (np - 1) / 10), 0) with
  | Some (mask, _) => Some mask
  | None => None
  end.

(** std::string_view::substr: throws beyond the end; a length of npos is None. *)
Definition substr (s : list ascii) (pos : nat) (count : option nat) : option (list ascii) :=
  if pos <=? length s then Some (match count with Some n => firstn n (skipn pos s) | None => skipn pos s end) else None.
(** Banner.cpp:25-35 print_centered: the line that is printed. *)
Definition print_centered (logo_width : nat) (str : list ascii) (len : option nat) : list ascii :=
  let len := match len with Some n => n | None => length str end in
  if len <? logo_width then repeat " "%char ((logo_width - len) / 2) ++ str else str.
Fixpoint print_lines (logo_width : nat) (mask : list ascii) (line_width : nat) (len : option nat) (is : list nat) : option (list (list ascii)) :=
  match is with
  | [] => Some []
  | i :: r => match substr mask (i * line_width) len, print_lines logo_width mask line_width len r with
              | Some s, Some l => Some (print_centered logo_width s len :: l)
              | _, _ => None
              end
  end.
(** Banner.cpp:72-93 print_affinity: the lines of the mask of the rank and those of the mask of the node,
    without the two titles. With one line, line_width becomes npos; it is multiplied by i = 0 only. *)
Definition print_affinity (logo_width : nat) (mask node_mask : list ascii) : option (list (list ascii) * list (list ascii)) :=
  let line_width := logo_width - logo_width mod 11 in
  let num_lines := 1 + (length mask - 1) / line_width in
  let len := if num_lines =? 1 then None else Some line_width in
  match print_lines logo_width mask line_width len (seq 0 num_lines), print_lines logo_width node_mask line_width len (seq 0 num_lines) with
  | Some a, Some b => Some (a, b)
  | _, _ => None
  end.
