(** What the table of times should show. *)
Require Import ZArith Reals Ascii List Arith Permutation Sorted.
Require Import Verif.Base Verif.ProfileModel.
Import ListNotations.
Local Open Scope R_scope.

(** The clock in nanoseconds. *)
Definition ns (t : timespec) : Z := (1000000000 * tv_sec t + tv_nsec t)%Z.
(** The nanoseconds a program spent in region [i]; [opened]: when it entered it, if it is in it. *)
Fixpoint spent (i : nat) (opened : option timespec) (es : list event) : Z :=
  match es with
  | [] => 0
  | Begin j now :: r => if (j =? i)%nat then spent i (Some now) r else spent i opened r
  | End j now _ :: r =>
      if (j =? i)%nat then ((match opened with Some s => ns now - ns s | None => 0 end) + spent i None r)%Z else spent i opened r
  end.
(** The operations it reported there. *)
Fixpoint reported (i : nat) (es : list event) : Z :=
  match es with
  | [] => 0
  | Begin _ _ :: r => reported i r
  | End j _ fl :: r => if (j =? i)%nat then (fl + reported i r)%Z else reported i r
  end.
(** Nothing is left that was not entered. *)
Fixpoint paired (i : nat) (opened : bool) (es : list event) : Prop :=
  match es with
  | [] => True
  | Begin j _ :: r => if (j =? i)%nat then paired i true r else paired i opened r
  | End j _ _ :: r => if (j =? i)%nat then opened = true /\ paired i false r else paired i opened r
  end.
Definition event_region (e : event) : nat := match e with Begin i _ => i | End i _ _ => i end.

(** A sorting algorithm. *)
Definition sorts (sort : list R -> list R) : Prop := forall l, Permutation l (sort l) /\ StronglySorted Rle (sort l).
(** How many values fulfil a condition. *)
Definition ltb (x y : R) : bool := if Rlt_dec x y then true else false.
Definition leb (x y : R) : bool := if Rle_dec x y then true else false.
Definition count (p : R -> bool) (l : list R) : nat := length (filter p l).
(** [x] is the value of rank [k], counted from 0, in the order of size. *)
Definition kth (l : list R) (k : nat) (x : R) : Prop :=
  In x l /\ (count (fun v => ltb v x) l <= k < count (fun v => leb v x) l)%nat.
Definition is_median (l : list R) (m : R) : Prop :=
  (forall h, length l = (2 * h + 1)%nat -> kth l h m) /\
  (forall h, length l = (2 * h + 2)%nat -> exists a b, kth l h a /\ kth l (h + 1) b /\ m = (a + b) / 2).
Fixpoint total (l : list R) : R := match l with [] => 0 | v :: t => v + total t end.
Record is_summary (l : list R) (s : summary) : Prop := {
  is_min : In (s_min s) l /\ forall v, In v l -> s_min s <= v;
  is_med : is_median l (s_median s);
  is_mean : s_mean s * INR (length l) = total l;
  is_max : In (s_max s) l /\ forall v, In v l -> v <= s_max s }.

(** A line shows the items, each at the right end of its column. *)
Fixpoint shows (widths : list nat) (line : text) (items : list text) : Prop :=
  match widths, items with
  | [], [] => line = []
  | w :: ws, i :: r => exists blanks rest, line = blanks ++ i ++ rest /\ length (blanks ++ i) = w /\
                       Forall (fun c => c = " "%char) blanks /\ shows ws rest r
  | _, _ => False
  end.
(** The label of a column. *)
Definition label (number : nat -> text) (names : list text) (c : nat) : text :=
  match nth_error names c with Some n => n | None => number c end.
