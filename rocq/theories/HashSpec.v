(** Specification of small typing errors in a name. *)
Require Import Ascii List.
Import ListNotations.

(** [t] is [s] with one character replaced by another one, left out or added, or with two different neighbours
    exchanged. *)
Inductive typo : list ascii -> list ascii -> Prop :=
| replaced p a b q : a <> b -> typo (p ++ a :: q) (p ++ b :: q)
| left_out p a q : typo (p ++ a :: q) (p ++ q)
| added p a q : typo (p ++ q) (p ++ a :: q)
| exchanged p a b q : a <> b -> typo (p ++ a :: b :: q) (p ++ b :: a :: q).
