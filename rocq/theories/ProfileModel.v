(** Models src/util/Stopwatch.h, src/parallel/Profile.h, Profile.cpp, Summary.cpp and src/util/TablePrinter: the table of
    times that a run prints.  double is modelled by the real numbers; a text is a list of characters; how
    a number becomes text is not modelled. *)
Require Import ZArith Reals Ascii List Arith.
Require Import Verif.Base.
Import ListNotations.
Local Open Scope R_scope.

(** * Stopwatch *)
(** The system's timespec. *)
Record timespec := { tv_sec : Z; tv_nsec : Z }.
(** src/util/Stopwatch.h:34-35. *)
Record watch := { w_start : timespec; w_time : Z }.
(** src/util/Stopwatch.h:10-12 [reset], [start]; [now] is what the clock says. *)
Definition w_reset (w : watch) : watch := {| w_start := w_start w; w_time := 0 |}.
Definition start (now : timespec) (w : watch) : watch := {| w_start := now; w_time := w_time w |}.
(** src/util/Stopwatch.h:37-41. *)
Definition difftime (e s : timespec) : Z := (1000000000 * (tv_sec e - tv_sec s) + tv_nsec e - tv_nsec s)%Z.
Definition seconds (t : Z) : R := / 1000000000 * IZR t.
(** src/util/Stopwatch.h:20-31 [pause], [stop]. *)
Definition pause (now : timespec) (w : watch) : watch * R :=
  let t := (w_time w + difftime now (w_start w))%Z in ({| w_start := w_start w; w_time := t |}, seconds t).
Definition stop (now : timespec) (w : watch) : watch * R := let (w', t) := pause now w in (w_reset w', t).

(** * Profile *)
(** src/parallel/Profile.h:37-40: entry i of watches_, times_ and flops_; names apart. *)
Record region := { r_watch : watch; r_time : R; r_flops : Z }.
(** src/parallel/Profile.cpp:10-16 [add]; [s0]: start_ is not initialised. *)
Definition new_region (s0 : timespec) : region := {| r_watch := {| w_start := s0; w_time := 0 |}; r_time := 0; r_flops := 0 |}.
(** src/parallel/Profile.cpp:18-22 [get]: the number of regions if there is none of the name. *)
Fixpoint get (eqb : list ascii -> list ascii -> bool) (name : list ascii) (names : list (list ascii)) : nat :=
  match names with [] => 0 | n :: t => if eqb n name then 0 else S (get eqb name t) end.
Definition update (l : list region) (i : nat) (f : region -> region) : option (list region) :=
  match nth_error l i with Some r => Some (firstn i l ++ f r :: skipn (S i) l) | None => None end.
(** src/parallel/Profile.h:23-28 [begin], [end]; None: no such region (undefined). *)
Inductive event := Begin (i : nat) (now : timespec) | End (i : nat) (now : timespec) (flops : Z).
Definition do_event (l : list region) (e : event) : option (list region) :=
  match e with
  | Begin i now => update l i (fun r => {| r_watch := start now (r_watch r); r_time := r_time r; r_flops := r_flops r |})
  | End i now fl => update l i (fun r => let (w, t) := stop now (r_watch r) in
      {| r_watch := w; r_time := r_time r + t; r_flops := (r_flops r + fl) mod 2 ^ 64 |})
  end.
Fixpoint do_events (l : list region) (es : list event) : option (list region) :=
  match es with [] => Some l | e :: t => match do_event l e with Some l' => do_events l' t | None => None end end.

(** * Summary *)
Record summary := { s_min : R; s_median : R; s_mean : R; s_max : R }.
(** src/parallel/Summary.cpp:16-26, on rank 0: [values] are the gathered values after std::sort. *)
Definition of_sorted (values : list R) : summary :=
  let N := length values in {|
  s_min := nth 0 values 0;
  s_median := if (N mod 2 =? 1)%nat then nth (N / 2) values 0 else 1 / 2 * (nth (N / 2 - 1) values 0 + nth (N / 2) values 0);
  s_mean := fold_left Rplus values 0 / INR N;
  s_max := last values 0 |}.
(** src/parallel/Summary.cpp:9-30; [sort] is std::sort. *)
Definition Summary (sort : list R -> list R) (values : list R) : summary := of_sorted (sort values).
(** src/parallel/Profile.cpp:45-61: the numbers in the rows, last that of the total; [times p] are the times_ of rank p. *)
Definition printed_rows (sort : list R -> list R) (procs num : nat) (times : nat -> nat -> R) : list summary :=
  map (fun r => Summary sort (map (fun p => times p r) (seq 0 procs))) (seq 0 num) ++
  [Summary sort (map (fun p => fold_left (fun s r => s + times p r) (seq 0 num) 0) (seq 0 procs))].

(** * TablePrinter *)
Definition text := list ascii.
(** std::setw: texts are padded on the left. *)
Definition setw (fill : ascii) (w : nat) (t : text) : text := repeat fill (w - length t) ++ t.
(** src/util/TablePrinter.cpp:10-24; [number c] is the column number as text.  Returns widths_ and the line. *)
Fixpoint header_named (number : nat -> text) (col : nat) (widths : list nat) (names : list text) : list nat * text * list text :=
  match widths with
  | [] => ([], [], names)
  | w :: ws =>
      let (cell, rest) := match names with n :: ns => ((Nat.max w (1 + length n), n), ns) | [] => ((Nat.max 4 w, number col), []) end in
      let '(ws', line, more) := header_named number (col + 1) ws rest in
      (fst cell :: ws', setw " " (fst cell) (snd cell) ++ line, more)
  end.
Fixpoint header_more (back : nat) (names : list text) : list nat * text :=
  match names with
  | [] => ([], [])
  | n :: ns => let w := Nat.max back (1 + length n) in let '(ws, line) := header_more w ns in (w :: ws, setw " " w n ++ line)
  end.
(** src/util/TablePrinter.cpp:5-28 and separator, 35-40: widths_, the header line and the line below it.  widths_.back() of no
    widths is undefined: None. *)
Definition separator (widths : list nat) : text := setw "-" (fold_left Nat.add widths 0%nat) [].
Definition TablePrinter (number : nat -> text) (widths : list nat) (names : list text) : option (list nat * list text) :=
  let '(ws, line, more) := header_named number 0 widths names in
  match more, rev ws with
  | [], _ => Some (ws, [line; separator ws])
  | _ :: _, [] => None
  | _ :: _, b :: _ => let '(ws2, line2) := header_more b more in Some (ws ++ ws2, [line ++ line2; separator (ws ++ ws2)])
  end.
(** src/util/TablePrinter.h:35-43: one item; the state is col_, the line begun and the lines ended. *)
Definition put (widths : list nat) (s : nat * text * list text) (item : text) : nat * text * list text :=
  let '(col, line, lines) := s in
  let width := if (col <? length widths)%nat then nth col widths 0%nat else 0%nat in
  let line := line ++ setw " " width item in
  if (length widths <=? col + 1)%nat then (0%nat, [], lines ++ [line]) else ((col + 1)%nat, line, lines).
