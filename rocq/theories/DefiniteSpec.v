(** Specification: elements held by a boundary with prescribed values (C81). *)
Require Import List Arith Reals.
Require Import Verif.Base Verif.LinAlg Verif.LocalMeshModel Verif.TopoModel Verif.AssembleModel Verif.AssembleSpec Verif.MatFree Verif.PoissonModel Verif.SipSpec.
Import ListNotations.

(** An element is anchored if it has a boundary facet where values are prescribed (not a natural
    boundary), or shares a facet with an anchored element. *)
Inductive anchored (elems facets : list (list nat)) (bc : list nat -> nat) : nat -> Prop :=
| anchored_boundary f g : In f facets -> elements_of elems f = [g] -> bc f <> BC_Natural -> anchored elems facets bc g
| anchored_neighbour f g h : In f facets -> In g (elements_of elems f) -> In h (elements_of elems f) ->
    anchored elems facets bc g -> anchored elems facets bc h.

Local Open Scope R_scope.
(** No combination of the functions is zero but the trivial one. *)
Definition linearly_independent (N : nat) (phi : nat -> (nat -> R) -> R) : Prop :=
  forall u : nat -> R, (forall x, rsum N (fun l => u l * phi l x) = 0) -> forall l, (l < N)%nat -> u l = 0.
(** U has a coefficient other than zero in one of [ne] elements. *)
Definition nonzero (ne N : nat) (U : nat -> nat -> R) : Prop := exists g l, (g < ne)%nat /\ (l < N)%nat /\ U g l <> 0.
(** U solves A U = b: the same pairing with all V. *)
Definition solves (N : nat) (A : list (nat * nat * (nat -> nat -> R))) (b : list (nat * (nat -> R))) (U : nat -> nat -> R) : Prop :=
  forall V, pairing N A V U = vpairing N b V.
