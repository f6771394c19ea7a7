(** Specification of the operations on small vectors: coordinates, length and angle of points of R^n. *)
Require Import List Reals.
Import ListNotations.
Local Open Scope R_scope.

Definition coord (v : list R) (i : nat) : R := nth i v 0.
(** The sum of the products of the coordinates. *)
Definition inner (v w : list R) : R := fold_right Rplus 0 (map (fun p => fst p * snd p) (combine v w)).
(** w is v stretched by s. *)
Definition stretched (s : R) (v w : list R) : Prop := length w = length v /\ forall i, coord w i = s * coord v i.
(** The determinant of three vectors of R^3, by Sarrus' rule. *)
Definition det3 (a b c : list R) : R :=
  coord a 0 * coord b 1 * coord c 2 + coord a 1 * coord b 2 * coord c 0 + coord a 2 * coord b 0 * coord c 1
  - coord a 2 * coord b 1 * coord c 0 - coord a 1 * coord b 0 * coord c 2 - coord a 0 * coord b 2 * coord c 1.
