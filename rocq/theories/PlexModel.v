(** Models src/geometry/Affine.h and src/geometry/SimplexDistance.h with exact real arithmetic.  A
    point is a function giving its coordinates; only those below the dimension matter.  The LU and QR
    solvers of Eigen are a parameter. *)
Require Import Arith Reals List.
From Verif Require Import Base CombinatoricsModel LinAlg.
Import ListNotations.
Local Open Scope opt_scope.
Local Open Scope R_scope.

Definition pt := nat -> R.
(** Vector.h:9-38. *)
Definition padd (a b : pt) : pt := fun d => a d + b d.
Definition psub (a b : pt) : pt := fun d => a d - b d.
Definition pscale (s : R) (a : pt) : pt := fun d => s * a d.
(** Vector.h:42-49. *)
Definition pdot (D : nat) (a b : pt) : R := rsum D (fun d => a d * b d).

(** Affine.h:16-32 RefPlexToGeneralPlex: (1 - sum xi) verts[0], then x = x + xi[d] * verts[d + 1]. *)
Definition ref_to_general (D : nat) (verts : nat -> pt) (xi : pt) : pt :=
  fold_left (fun x d => padd x (pscale (xi d) (verts (S d)))) (seq 0 D)
    (pscale (1 - rsum D xi) (verts 0%nat)).

Section Solver.
Variable solve : nat -> (nat -> nat -> R) -> (nat -> R) -> nat -> R.

(** Affine.h:34-55 GeneralPlexToRefPlex. *)
Definition edge_matrix (verts : nat -> pt) (i j : nat) : R := verts (S j) i - verts 0%nat i.
Definition general_to_ref (D : nat) (verts : nat -> pt) (x : pt) : pt :=
  solve D (edge_matrix verts) (psub x (verts 0%nat)).

Section Distance.
Variables D V : nat.
Variable vertices : nat -> pt.
(** std::numeric_limits<double>::max(). *)
Variable huge : R.

(** SimplexDistance.h:66-72. *)
Definition dot_products (i j : nat) : R := pdot D (vertices i) (vertices j).
(** SimplexDistance.h:29-40, the matrix of BarycentricSolver for the vertices is[0..DD]. *)
Definition bary_matrix (is : list nat) (i j : nat) : R :=
  if (i <? length is - 1)%nat
  then dot_products (nth (i + 1) is 0%nat) (nth j is 0%nat) - dot_products (nth 0 is 0%nat) (nth j is 0%nat)
  else 1.
(** SimplexDistance.h:42-51 BarycentricSolver::solve. *)
Definition bary_rhs (is : list nat) (dot_rhs : nat -> R) (i : nat) : R :=
  if (i <? length is - 1)%nat then dot_rhs (nth (i + 1) is 0%nat) - dot_rhs (nth 0 is 0%nat) else 1.
Definition bary_solve (is : list nat) (dot_rhs : nat -> R) : nat -> R :=
  solve (length is) (bary_matrix is) (bary_rhs is dot_rhs).

(** SimplexDistance.h:17-21. *)
Record result := { dist : R; xi : pt; bary : nat -> R }.

Fixpoint all_nonneg (n : nat) (f : nat -> R) : bool :=
  match n with
  | O => true
  | S m => if Rle_dec 0 (f m) then all_nonneg m f else false
  end.
(** SimplexDistance.h:117-120: bary.fill(0.0); bary[is[i]] = lambda[i], in turn. *)
Definition scatter (is : list nat) (lambda : nat -> R) : nat -> R :=
  fold_left (fun f i => fun j => if Nat.eqb j (nth i is 0%nat) then lambda i else f j)
    (seq 0 (length is)) (fun _ => 0).
(** SimplexDistance.h:106-109: x = x + lambda[j] * vertices_[is[j]]. *)
Definition combine (is : list nat) (lambda : nat -> R) : pt :=
  fold_left (fun x j => padd x (pscale (lambda j) (vertices (nth j is 0%nat))))
    (seq 0 (length is)) (fun _ => 0).
(** SimplexDistance.h:103-124: one solver. *)
Definition try_face (point : pt) (dot_rhs : nat -> R) (r : result) (is : list nat) : result :=
  let lambda := bary_solve is dot_rhs in
  if all_nonneg (length is) lambda then
    let x := combine is lambda in
    let diff := psub x point in
    let dist2 := pdot D diff diff in
    if Rlt_dec dist2 (dist r) then {| dist := dist2; xi := x; bary := scatter is lambda |} else r
  else r.

(** SimplexDistance.h:86-95 init_solvers: the faces with DD + 1 vertices; the number of steps of the
    loop is bounded for the sake of Coq only. *)
Definition faces (DD : nat) : option (list (list nat)) :=
  choose_all (V ^ (DD + 1)) V (choose_begin (DD + 1)).
(** SimplexDistance.h:97-133 closest2<DD_head, DD_tail...>. *)
Fixpoint closest2 (point : pt) (dot_rhs : nat -> R) (dims : list nat) : option result :=
  match dims with
  | [] => Some {| dist := huge; xi := fun _ => 0; bary := fun _ => 0 |}
  | DD :: tail =>
      do fs <- faces DD;
      let r := fold_left (try_face point dot_rhs) fs
                 {| dist := huge; xi := fun _ => 0; bary := fun _ => 0 |} in
      match tail with
      | [] => Some r
      | _ => do other <- closest2 point dot_rhs tail;
             Some (if Rlt_dec (dist other) (dist r) then other else r)
      end
  end.
(** SimplexDistance.h:75-83 closest, with PlexDs = 0, ..., V - 1 (:156-160). *)
Definition closest (point : pt) : option result :=
  do c2 <- closest2 point (fun i => pdot D point (vertices i)) (seq 0 V);
  Some {| dist := sqrt (dist c2); xi := xi c2; bary := bary c2 |}.
End Distance.
End Solver.
