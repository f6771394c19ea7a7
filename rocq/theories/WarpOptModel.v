(** Models app/warp-blend-opt.cpp and LebesgueFunction of src/basis/Nodal.cpp: the program that estimates and
    minimises the Lebesgue constant of the warp and blend nodes.  double is modelled by the real numbers. *)
Require Import List Arith Reals.
Require Import Verif.Base Verif.LinAlg Verif.BasisModel Verif.RefElementModel.
Import ListNotations.
Local Open Scope R_scope.

(** * GoldenSectionSearch, app/warp-blend-opt.cpp:20-38 *)
(** app/warp-blend-opt.cpp:22. *)
Definition invGR : R := 2 / (sqrt 5 + 1).
(** The variables x, fx and h; [gs_calls] are the arguments with which f has been called, latest first. *)
Record search := { gs_x0 : R; gs_x1 : R; gs_x2 : R; gs_x3 : R; gs_h : R; gs_f0 : R; gs_f1 : R; gs_calls : list R }.
(** app/warp-blend-opt.cpp:23-25. *)
Definition search_begin (f : R -> R) (a b : R) : search :=
  let h := b - a in let x1 := b - h * invGR in let x2 := a + h * invGR in
  {| gs_x0 := a; gs_x1 := x1; gs_x2 := x2; gs_x3 := b; gs_h := h; gs_f0 := f x1; gs_f1 := f x2; gs_calls := [x2; x1] |}.
(** app/warp-blend-opt.cpp:27-35, the body of the loop. *)
Definition search_step (f : R -> R) (s : search) : search :=
  if Rle_dec (gs_f0 s) (gs_f1 s) then
    let h := gs_x2 s - gs_x0 s in let y := gs_x2 s - h * invGR in
    {| gs_x0 := gs_x0 s; gs_x1 := y; gs_x2 := gs_x1 s; gs_x3 := gs_x2 s; gs_h := h; gs_f0 := f y; gs_f1 := gs_f0 s; gs_calls := y :: gs_calls s |}
  else
    let h := gs_x3 s - gs_x1 s in let y := gs_x1 s + h * invGR in
    {| gs_x0 := gs_x1 s; gs_x1 := gs_x2 s; gs_x2 := y; gs_x3 := gs_x3 s; gs_h := h; gs_f0 := gs_f1 s; gs_f1 := f y; gs_calls := y :: gs_calls s |}.
(** app/warp-blend-opt.cpp:26,37; None: more than [fuel] rounds. *)
Fixpoint search_loop (fuel : nat) (f : R -> R) (tol : R) (s : search) : option (R * list R) :=
  if Rlt_dec tol (Rabs (gs_h s)) then match fuel with O => None | S n => search_loop n f tol (search_step f s) end
  else Some (1 / 2 * (gs_x0 s + gs_x3 s), gs_calls s).
Definition GoldenSectionSearch (fuel : nat) (f : R -> R) (a b tol : R) : option (R * list R) := search_loop fuel f tol (search_begin f a b).

(** * Random points; x, y and z are the numbers that the generator returns *)
(** app/warp-blend-opt.cpp:43-51. *)
Definition sample2 (c : R * R) : R * R :=
  let '(x, y) := c in if Rlt_dec 1 (x + y) then (1 - y, 1 - x) else (x, y).
(** app/warp-blend-opt.cpp:53-70. *)
Definition sample3 (c : R * R * R) : R * R * R :=
  let '(x, y, z) := c in
  let '(x, y) := if Rlt_dec 1 (x + y) then (1 - x, 1 - y) else (x, y) in
  if Rlt_dec 1 (x + y + z) then
    if Rlt_dec 1 (y + z) then (x, 1 - z, 1 - y - x) else (1 - y - z, y, x + y + z - 1)
  else (x, y, z).

(** * Lebesgue function *)
(** src/basis/Nodal.cpp:46-52, the constructor; [inverse n A] is Eigen's inverse.  [mi] is what a loop over
    AllIntegerSums<D>(degree) runs through. *)
Definition vInvT (inverse : nat -> (nat -> nat -> R) -> nat -> nat -> R) (D : nat) (mi : list (list nat)) (nodes : list (nat -> R)) : nat -> nat -> R :=
  inverse (length nodes) (fun r c => Vandermonde D mi nodes c r).
(** src/basis/Nodal.cpp:54-62. *)
Definition LebesgueFunction inverse (D : nat) (mi : list (list nat)) (nodes : list (nat -> R)) (xi : nat -> R) : R :=
  let phi j := DubinerP D (nth j mi []) xi in
  rsum (length nodes) (fun i => Rabs (rsum (length nodes) (fun j => vInvT inverse D mi nodes i j * phi j))).
(** app/warp-blend-opt.cpp:88-102 [estimateLebesgueConstant].  [chunks]: the positions that each thread works on; a
    thread begins with the neutral element [lowest] of the reduction. *)
Definition estimateLebesgueConstant (lowest : R) (lb : (nat -> R) -> R) (chunks : list (list (nat -> R))) : R :=
  fold_left Rmax (map (fun c => fold_left (fun L p => Rmax L (lb p)) c lowest) chunks) 0.
