(** Models DGOperator::assemble and DGOperator::rhs (src/form/DGOperator.h:121-237): which blocks a
    rank adds to the distributed matrix and vector. *)
Require Import List Arith Bool.
Require Import Verif.Base Verif.TopoModel.
Import ListNotations.
Local Open Scope opt_scope.

(** The local operator's assembly functions on one rank (LocalOperator concept,
    src/form/DGOperator.h:40-75).  [None]: returned false, nothing is to be added.  B is a dense block.
    A function the operator does not have (is_detected_v false) is one that always returns [None]. *)
Record mat_lop (B : Type) := {
  a_volume : nat -> option B;
  a_skeleton : nat -> facet_info -> option (B * B * B * B);
  a_boundary : nat -> facet_info -> option B;
  a_post : nat -> option B }.
Arguments a_volume {B}. Arguments a_skeleton {B}. Arguments a_boundary {B}. Arguments a_post {B}.

Definition if_some {A C} (o : option A) (f : A -> list C) : list C := match o with Some a => f a | None => [] end.

(** src/form/DGOperator.h:145-176: one pass of the facet loop. *)
Definition assemble_facet {B} (L : mat_lop B) (fct : nat) (x : facet_info) : list (nat * nat * B) :=
  let ib0 := fi_up0 x in
  let ib1 := fi_up1 x in
  if negb (fi_up0 x =? fi_up1 x) then
    if_some (a_skeleton L fct x) (fun '(A00, A01, A10, A11) =>
      (if fi_inside0 x then [(ib0, ib0, A00); (ib0, ib1, A01)] else []) ++
      (if fi_inside1 x then [(ib1, ib0, A10); (ib1, ib1, A11)] else []))
  else if fi_inside0 x then if_some (a_boundary L fct x) (fun A00 => [(ib0, ib0, A00)]) else [].

(** src/form/DGOperator.h:121-187 [assemble]: the calls matrix.add_block(row, column, block) in
    order, with local block numbers.  Simplification: scratch memory is not modelled. *)
Definition assemble {B} (m : topo_mesh) (fi : list facet_info) (L : mat_lop B) : list (nat * nat * B) :=
  flat_map (fun e => if_some (a_volume L e) (fun A00 => [(e, e, A00)])) (seq 0 (tm_num_local m)) ++
  flat_map (fun i => if_some (nth_error fi i) (assemble_facet L i)) (seq 0 (tm_num_local_facets m)) ++
  flat_map (fun e => if_some (a_post L e) (fun A00 => [(e, e, A00)])) (seq 0 (tm_num_local m)).

(** app/common/PetscDGMatrix.cpp:27-37: local block numbers are translated by the elements'
    contiguous global numbers (MatSetValuesBlockedLocal with ISLocalToGlobalMapping). *)
Definition to_global {B} (m : topo_mesh) (c : nat * nat * B) : option (nat * nat * B) :=
  let '(i, j, b) := c in
  do gi <- nth_error (tm_l2cg m) i; do gj <- nth_error (tm_l2cg m) j; Some (gi, gj, b).

(** The right-hand side functions; each adds to the blocks it is given. *)
Record vec_lop (B : Type) := {
  r_volume : nat -> option B;
  r_skeleton : nat -> facet_info -> option (B * B);
  r_boundary : nat -> facet_info -> option B;
  r_post : nat -> option B }.
Arguments r_volume {B}. Arguments r_skeleton {B}. Arguments r_boundary {B}. Arguments r_post {B}.

(** src/form/DGOperator.h:212-231: the block of an element that is not local is scratch memory, what
    is added there is dropped. *)
Definition rhs_facet {B} (L : vec_lop B) (fct : nat) (x : facet_info) : list (nat * B) :=
  if negb (fi_up0 x =? fi_up1 x) then
    if_some (r_skeleton L fct x) (fun '(B0, B1) =>
      (if fi_inside0 x then [(fi_up0 x, B0)] else []) ++ (if fi_inside1 x then [(fi_up1 x, B1)] else []))
  else if fi_inside0 x then if_some (r_boundary L fct x) (fun B0 => [(fi_up0 x, B0)]) else [].
(** src/form/DGOperator.h:189-237 [rhs]: what is added to which local block, in order. *)
Definition rhs {B} (m : topo_mesh) (fi : list facet_info) (L : vec_lop B) : list (nat * B) :=
  flat_map (fun e => if_some (r_volume L e) (fun b => [(e, b)])) (seq 0 (tm_num_local m)) ++
  flat_map (fun i => if_some (nth_error fi i) (rhs_facet L i)) (seq 0 (tm_num_local_facets m)) ++
  flat_map (fun e => if_some (r_post L e) (fun b => [(e, b)])) (seq 0 (tm_num_local m)).
(** Row of the distributed vector. *)
Definition to_global_row {B} (m : topo_mesh) (c : nat * B) : option (nat * B) :=
  do gi <- nth_error (tm_l2cg m) (fst c); Some (gi, snd c).
