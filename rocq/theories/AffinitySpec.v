(** What the printed masks of CPUs mean (C92); see AffinityModel for the code. *)
Require Import Ascii List Arith Bool.
Import ListNotations.

(** The character for CPU [c]: its last digit if the set has it, a dash otherwise. *)
Definition cell (has : nat -> bool) (c : nat) : ascii := if has c then ascii_of_nat (48 + c mod 10) else "-"%char.
(** Groups of ten, separated by bars: every eleventh character is a bar, the others are those of the CPUs. *)
Record shows (np : nat) (has : nat -> bool) (str : list ascii) : Prop := {
  sh_length : length str = np + (np - 1) / 10;
  sh_cpu : forall c, c < np -> nth_error str (c + c / 10) = Some (cell has c);
  sh_bar : forall p, 11 * p + 10 < length str -> nth_error str (11 * p + 10) = Some "|"%char
}.
(** The lines, one after the other and each indented alike, hold the text. *)
Definition lines_of (width : nat) (text : list ascii) (lines : list (list ascii)) : Prop :=
  exists indent parts, lines = map (fun part => repeat " "%char indent ++ part) parts /\ concat parts = text /\
    Forall (fun part => length part <= width) parts.
