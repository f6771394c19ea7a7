(** The tables of quadrature rules of src/quadrules, number by number.  A literal of the source is read as
    the decimal it is (no rounding to double). *)
Require Import List Arith Bool ZArith Reals Uint63.
Require Import Verif.QuadratureModel.
Import ListNotations.
Local Open Scope R_scope.

(** A decimal: sign, whole part, and the digits after the point in groups of eighteen, the last group filled
    up with zeros. *)
Inductive decimal := Dec (neg : bool) (whole : int) (groups : list int).
Notation pos0 := (Dec false 0%uint63).
Notation neg0 := (Dec true 0%uint63).
Definition ten18 : R := 10 ^ 18.
Fixpoint groups_value (l : list int) : R := match l with [] => 0 | g :: l => (IZR (to_Z g) + groups_value l) / ten18 end.
Definition decimal_value (d : decimal) : R := match d with Dec neg whole groups =>
  (if neg then -1 else 1) * (IZR (to_Z whole) + groups_value groups) end.
(** One entry of a table: std::pair of the vector of points and the vector of weights
    (TabulatedRules.h:16-18); the table is a std::map from orders to such pairs. *)
Definition raw_rule := (list (list decimal) * list decimal)%type.
Definition raw_table := list (nat * raw_rule).
(** The point and the weight of the same index; there is no coordinate beyond the dimension in the code, here it
    is zero. *)
Definition as_rule (r : raw_rule) : list ((nat -> R) * R) :=
  combine (map (fun p d => nth d (map decimal_value p) 0) (fst r)) (map decimal_value (snd r)).
Definition as_table (t : raw_table) : table := map (fun kr => (fst kr, as_rule (snd kr))) t.
