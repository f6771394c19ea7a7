(** Models the nodes of nodal elements: src/basis/Nodal.cpp (LegendreGaussLobattoPoints), src/basis/GaussLegendre.cpp and
    src/basis/WarpAndBlend.{h,cpp}.  double is modelled by the real numbers; what Newton's iteration finds in GaussJacobi
    is given by [root] (as in QuadratureModel.v), Eigen's QR decomposition by [solve] and
    std::numeric_limits<double>::epsilon() by [eps].  Matrices with one row per node are modelled row by row, since every
    operation on them acts on each row alone. *)
Require Import List Arith Reals.
Require Import Verif.Base Verif.LinAlg Verif.CombinatoricsModel Verif.SimplexModel Verif.TopoModel Verif.FaultModel Verif.GeometryModel Verif.PlexModel Verif.BasisModel Verif.QuadratureModel.
Import ListNotations.
Local Open Scope R_scope.
Local Open Scope opt_scope.

Section Nodes.
Variable solve : nat -> (nat -> nat -> R) -> (nat -> R) -> nat -> R.
Variable root : nat -> nat -> nat -> nat -> R.
Variable eps : R.

(** src/basis/Nodal.cpp:18-29 [LegendreGaussLobattoPoints]; None when assert(n >= 2) fails. *)
Definition LegendreGaussLobattoPoints (n a b : nat) : option (list R) :=
  if (n <? 2)%nat then None
  else let gj := GaussJacobi (root (n - 2)%nat (a + 1)%nat (b + 1)%nat) (n - 2) (a + 1) (b + 1) in
    let gjPoints := map (ir_x gj) (seq 0 (ir_n gj)) in
    Some ([-1] ++ rev gjPoints ++ [1]).

(** The vertices -1 and 1 (WarpAndBlend.cpp:60, GaussLegendre.cpp:18). *)
Definition interval_verts (v : nat) : nat -> R := fun _ => match v with 0%nat => -1 | _ => 1 end.
(** src/basis/GaussLegendre.cpp:10-24. *)
Definition gauss_legendre_nodes (degree : nat) : list (nat -> R) :=
  let numNodes := (degree + 1)%nat in
  let gj := GaussJacobi (root numNodes 0%nat 0%nat) numNodes 0 0 in
  map (fun i => general_to_ref solve 1 interval_verts (fun _ => ir_x gj i)) (seq 0 numNodes).
(** src/basis/WarpAndBlend.cpp:46-66. *)
Definition warp_and_blend_1 (degree : nat) : option (list (nat -> R)) :=
  let numNodes := (degree + 1)%nat in
  do result <- (if (0 <? degree)%nat then LegendreGaussLobattoPoints numNodes 0 0 else Some [0]);
  Some (map (fun x => general_to_ref solve 1 interval_verts (fun _ => x)) result).

(** src/basis/WarpAndBlend.h:58-67 [equilateralTriangle], [equilateralTetrahedron]. *)
Definition coords (x y z : R) : nat -> R := fun i => match i with 0%nat => x | 1%nat => y | _ => z end.
Definition equilateralTriangle (v : nat) : nat -> R :=
  match v with
  | 0%nat => coords (-1) (-1 / sqrt 3) 0
  | 1%nat => coords 1 (-1 / sqrt 3) 0
  | _ => coords 0 (2 / sqrt 3) 0
  end.
Definition equilateralTetrahedron (v : nat) : nat -> R :=
  match v with
  | 0%nat => coords (-1) (-1 / sqrt 3) (-1 / sqrt 6)
  | 1%nat => coords 1 (-1 / sqrt 3) (-1 / sqrt 6)
  | 2%nat => coords 0 (2 / sqrt 3) (-1 / sqrt 6)
  | _ => coords 0 0 (3 / sqrt 6)
  end.

(** src/basis/WarpAndBlend.cpp:186-202 [Warpfactor]: eqPoints and the entries of vandermondeT. *)
Definition eqPoint (N i : nat) : R := INR (2 * i) / INR N - 1.
Definition vandermondeT (N j i : nat) : R := JacobiP j 0 0 (eqPoint N i).
(** :204-221 [operator()] for one entry r; [glPoints] as in :198-201. *)
Definition warpfactor (N : nat) (glPoints : list R) (r : R) : R :=
  let L := solve (N + 1) (vandermondeT N) (fun i => JacobiP i 0 0 r) in
  let warp := rsum (N + 1) (fun i => L i * (nth i glPoints 0 - eqPoint N i)) in
  if Rlt_dec (Rabs r) (1 - eps) then warp / (1 - r * r) else warp.

(** src/basis/WarpAndBlend.cpp:223-250 [warpAndBlendTriangle] for the row [L]. *)
Definition warpAndBlendTriangle (degree : nat) (alpha : R) (L : nat -> R) : option (nat -> R) :=
  do glPoints <- LegendreGaussLobattoPoints (degree + 1) 0 0;
  do facets <- f2v 2;
  Some (fold_left (fun result facet =>
    let f0 := nth 0 facet 0%nat in let f1 := nth 1 facet 0%nat in let mv := missing_vertex 2 facet in
    let warp := warpfactor degree glPoints (L f1 - L f0) in
    let blend := 4 * (L f0 * L f1) * (1 + alpha * alpha * (L mv * L mv)) in
    let tangent := normalized 2 (vdiff (equilateralTriangle f1) (equilateralTriangle f0)) in
    fun d => result d + warp * blend * tangent d) facets (fun _ => 0)).

(** :77-82, :117-123: the row of L for the multi-index i. *)
Definition node_row (D degree : nat) (i : list nat) (c : nat) : R :=
  match c with
  | 0%nat => 1 - rsum D (fun d => INR (nth d i 0%nat) / INR degree)
  | S d => INR (nth d i 0%nat) / INR degree
  end.
(** :68-101; [mi] are the multi-indices of AllIntegerSums<2>(degree). *)
Definition warp_and_blend_2 (alpha : R) (degree : nat) (mi : list (list nat)) : option (list (nat -> R)) :=
  if (0 <? degree)%nat then
    map_opt (fun i =>
      let L := node_row 2 degree i in
      do warp <- warpAndBlendTriangle degree alpha L;
      Some (general_to_ref solve 2 equilateralTriangle (fun d => rsum 3 (fun c => L c * equilateralTriangle c d) + warp d))) mi
  else Some [general_to_ref solve 2 equilateralTriangle (fun _ => 0)].

(** :134-171, one facet: what becomes of the row [result] of resultMap. *)
Definition blend_facet (degree : nat) (alpha : R) (L : nat -> R) (result : nat -> R) (facet : list nat) : option (nat -> R) :=
  let v c := equilateralTetrahedron (nth c facet 0%nat) in
  let t0 := normalized 3 (vdiff (v 1%nat) (v 0%nat)) in
  let t1 := normalized 3 (fun d => v 2%nat d - 1 / 2 * (v 1%nat d + v 0%nat d)) in
  let Lface c := L (nth c facet 0%nat) in
  do w <- warpAndBlendTriangle degree alpha Lface;
  let warp d := w 0%nat * t0 d + w 1%nat * t1 d in
  let mv := missing_vertex 3 facet in
  let blend := Lface 0%nat * Lface 1%nat * Lface 2%nat in
  let denom := (Lface 0%nat + 1 / 2 * L mv) * (Lface 1%nat + 1 / 2 * L mv) * (Lface 2%nat + 1 / 2 * L mv) in
  let factor := 1 + alpha * alpha * (L mv * L mv) in
  let '(blend, mask) := if Rlt_dec (Rabs denom) eps then (1, 0) else (factor * blend / denom, 1) in
  Some (fun d => mask * result d + blend * warp d).
(** :103-184; [mi] are the multi-indices of AllIntegerSums<3>(degree). *)
Definition warp_and_blend_3 (alpha : R) (degree : nat) (mi : list (list nat)) : option (list (nat -> R)) :=
  if (0 <? degree)%nat then
    map_opt (fun i =>
      let L := node_row 3 degree i in
      do facets <- f2v 3;
      do shift <- fold_left (fun r facet => do result <- r; blend_facet degree alpha L result facet) facets (Some (fun _ => 0));
      Some (general_to_ref solve 3 equilateralTetrahedron (fun d => shift d + rsum 4 (fun c => L c * equilateralTetrahedron c d)))) mi
  else Some [general_to_ref solve 3 equilateralTetrahedron (fun _ => 0)].
End Nodes.

(** src/basis/WarpAndBlend.cpp:24-44 [warpAndBlendAlpha], with the tables as parameters. *)
Definition warpAndBlendAlpha (alphaOpt2 alphaOpt3 : list R) (D degree : nat) : R :=
  let tabAlpha t := if (degree <=? length t)%nat then nth (degree - 1) t 0 else 5 / 3 in
  if (D =? 2)%nat then tabAlpha alphaOpt2 else tabAlpha alphaOpt3.
