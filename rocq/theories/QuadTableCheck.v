(** A check of a table's rules in fixed-point arithmetic with eighteen digits (C85).  Part of the proof, not of
    the modelled code. *)
Require Import List Arith Bool ZArith Uint63.
Require Import Verif.QuadTableModel.
Import ListNotations.
Local Open Scope uint63_scope.

Definition S18 : int := 1000000000000000000.
Definition head (gs : list int) : int := match gs with [] => 0 | g :: _ => g end.
(** (a + d) / b in units of 10^-18, provided that it is in [0,1]. *)
Definition scaled (a b : int) (d : decimal) : option int := match d with Dec neg w gs =>
  if forallb (fun g => g <? S18) gs && (w <=? 2) && (a <=? 1) && (1 <=? b) && (b <=? 8) then
    let r := if neg then if (a =? 1) && ((w =? 0) || ((w =? 1) && forallb (fun g => g =? 0) gs)) then Some ((S18 - (w * S18 + head gs)) / b) else None
             else if a + w <? b then Some (((a + w) * S18 + head gs) / b) else None in
    match r with Some x => if x <=? S18 then Some x else None | None => None end
  else None end.
(** Product of two numbers in units of 10^-18. *)
Definition mulf (a b : int) : int := let (h, l) := mulc a b in fst (diveucl_21 h l S18).
Fixpoint mulv (v c : list int) : list int := match v, c with a :: v, b :: c => mulf a b :: mulv v c | _, _ => [] end.
Fixpoint dot (s : int) (w v : list int) : option int := match w, v with
  | a :: w, b :: v => if s <=? S18 then dot (s + mulf a b) w v else None
  | _, _ => Some s end.
(** Sum of weights times values against the integral, up to 500 units. *)
Definition near (w v : list int) (E : int) : bool := match dot 0 w v with
  | Some s => (s <=? E + 500) && (E <=? s + 500) && (E <=? S18)
  | None => false end.
Section Loop.
Variables (c : list int) (next : nat -> list int -> int -> int -> bool).
(** All powers of one coordinate: v the values so far, E their integral, t the degree so far plus the
    dimension, k the next exponent. *)
Fixpoint loop (n : nat) (k t : int) (v : list int) (E : int) : bool :=
  next n v E t && match n with O => true | S n => if E <=? S18 / k then loop n (k + 1) (t + 1) (mulv v c) (E * k / (t + 1)) else false end.
End Loop.
Fixpoint sweep (w : list int) (cs : list (list int)) : nat -> list int -> int -> int -> bool := match cs with
  | [] => fun _ v E _ => near w v E
  | c :: cs => fun n v E t => loop c (sweep w cs) n 1 t v E end.
Fixpoint map_o {A B} (f : A -> option B) (l : list A) : option (list B) := match l with [] => Some [] | x :: l =>
  match f x, map_o f l with Some y, Some m => Some (y :: m) | _, _ => None end end.
Definition at_coord {A} (a b : int) (f : int -> int -> decimal -> option A) (p : list decimal) (d : nat) : option A := match nth_error p d with Some x => f a b x | None => None end.
Definition column (a b : int) (d : nat) (ps : list (list decimal)) : option (list int) := map_o (fun p => at_coord a b scaled p d) ps.
(** The coordinates of a point add up to at most one. *)
Definition negative (d : decimal) : bool := match d with Dec neg _ _ => neg end.
Definition below (D : nat) (a b : int) (p : list decimal) : bool :=
  ((D =? 2)%nat && (a =? 1) && (b =? 2) && forallb negative p) ||
  match map_o (at_coord a b scaled p) (seq 0 D) with Some l => fold_right (fun x s => x + s) 3 l <=? S18 | None => false end.
Definition check_rule (D : nat) (a b wb : int) (k : nat) (r : raw_rule) : bool :=
  (length (fst r) =? length (snd r))%nat && (length (snd r) <=? 500)%nat && (k <=? 20)%nat &&
  forallb (fun p => (length p =? D)%nat && below D a b p) (fst r) &&
  match map_o (fun d => column a b d (fst r)) (seq 0 D), map_o (scaled 0 wb) (snd r) with
  | Some cs, Some w => forallb (fun x => 2 <=? x) w && (match dot 0 w (map (fun _ => S18) w) with Some s => s + 1000 <=? S18 | None => false end) &&
      sweep w cs k (map (fun _ => S18) w) (S18 / match D with 2%nat => 2 | _ => 6 end) (match D with 2%nat => 2 | _ => 3 end)
  | _, _ => false end.
