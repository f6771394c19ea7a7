(** Models the vector product of src/geometry/Vector.h; the other functions are in VecModel. *)
Require Import List Reals Arith.
Import ListNotations.
Local Open Scope R_scope.

(** Vector.h:64-71; x[i] for an array of three numbers is [nth i x 0]. *)
Definition cross (lhs rhs : list R) : list R :=
  map (fun d => nth ((d + 1) mod 3) lhs 0 * nth ((d + 2) mod 3) rhs 0 - nth ((d + 2) mod 3) lhs 0 * nth ((d + 1) mod 3) rhs 0)
    (seq 0 3).
