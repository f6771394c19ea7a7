(** Models the geometry of elements and facets: src/geometry/Curvilinear.{h,cpp}, src/geometry/Affine.h
    and src/form/DGCurvilinearCommon.cpp.  Arithmetic is exact; a vector is a function of the component,
    a matrix of row and column.  D is 2 or 3 where determinants and cross products occur.  Elements with
    nodes from the mesh file (Curvilinear.cpp:59-74, 87-105) are not modelled. *)
Require Import List Arith Bool Reals.
Require Import Verif.Base Verif.LinAlg Verif.SimplexModel Verif.FaultModel.
Import ListNotations.
Local Open Scope R_scope.

(** src/mesh/Simplex.h:56-64 [referenceSimplexVertices]. *)
Definition ref_vertex (v : nat) : vec := fun d => if (v =? S d)%nat then 1 else 0.
(** src/geometry/Vector.h:17-24. *)
Definition vdiff (a b : vec) : vec := fun i => a i - b i.
(** src/geometry/Affine.h:19-26 [RefPlexToGeneralPlex]. *)
Definition affine_map (D : nat) (verts : nat -> vec) (xi : vec) : vec := fun i =>
  (1 - rsum D xi) * verts 0%nat i + rsum D (fun d => xi d * verts (S d) i).
(** Curvilinear.cpp:80-85: the vertices of an element, [plex] its sorted global vertex numbers and [X]
    the coordinates (vertex data by local number there). *)
Definition geo_verts (X : nat -> vec) (plex : list nat) : nat -> vec := fun v => X (nth v plex 0%nat).
(** Curvilinear.cpp:106-112: the nodes of an element; [node] are the reference nodes. *)
Definition geo_nodes (D : nat) (transform : vec -> vec) (verts : nat -> vec) (node : nat -> vec) : nat -> vec :=
  fun j => transform (affine_map D verts (node j)).

(** Curvilinear.cpp:126-127 [f2v]. *)
Definition f2v (D : nat) : option (list (list nat)) := downward D (referenceSimplex D).
(** Curvilinear.cpp:354-368 [facetParam]. *)
Definition facet_param (D : nat) (f : list nat) (chi : vec) : vec := fun i =>
  (1 - rsum (D - 1) chi) * ref_vertex (nth 0 f 0%nat) i + rsum (D - 1) (fun d => chi d * ref_vertex (nth (S d) f 0%nat) i).
(** Curvilinear.cpp:129-159: the normals of the reference element, not normalized. *)
Definition missing_vertex (D : nat) (f : list nat) : nat :=
  nth 0 (filter (fun v => negb (existsb (Nat.eqb v) f)) (referenceSimplex D)) 0%nat.
Definition ref_normal (D : nat) (f : list nat) : vec :=
  let v j := ref_vertex (nth j f 0%nat) in
  let normal := match D with
    | 2 => let e := vdiff (v 1%nat) (v 0%nat) in fun i => match i with 0 => -1 * e 1%nat | _ => e 0%nat end
    | _ => cross (vdiff (v 1%nat) (v 0%nat)) (vdiff (v 2%nat) (v 0%nat))
    end in
  let edge := vdiff (ref_vertex (missing_vertex D f)) (v 0%nat) in
  if Rlt_dec 0 (vdot D normal edge) then (fun i => -1 * normal i) else normal.

(** Curvilinear.cpp:174-187 [map] at one point; [nb] basis functions with values [phi] there. *)
Definition geo_map (nb : nat) (pos : nat -> vec) (phi : nat -> R) : vec := fun i => rsum nb (fun j => pos j i * phi j).
(** Curvilinear.cpp:194-214 [jacobian] at one point; [dphi j e]: derivatives. *)
Definition geo_jacobian (nb : nat) (pos : nat -> vec) (dphi : nat -> nat -> R) : nat -> nat -> R :=
  fun i e => rsum nb (fun j => pos j i * dphi j e).
(** Eigen's determinant() and inverse() of 2x2 and 3x3 matrices: cofactors. *)
Definition geo_det (D : nat) (A : nat -> nat -> R) : R :=
  match D with
  | 2 => A 0%nat 0%nat * A 1%nat 1%nat - A 0%nat 1%nat * A 1%nat 0%nat
  | _ => A 0%nat 0%nat * (A 1%nat 1%nat * A 2%nat 2%nat - A 1%nat 2%nat * A 2%nat 1%nat)
       - A 0%nat 1%nat * (A 1%nat 0%nat * A 2%nat 2%nat - A 1%nat 2%nat * A 2%nat 0%nat)
       + A 0%nat 2%nat * (A 1%nat 0%nat * A 2%nat 1%nat - A 1%nat 1%nat * A 2%nat 0%nat)
  end.
Definition geo_cofactor (D : nat) (A : nat -> nat -> R) (i j : nat) : R :=
  match D with
  | 2 => match i, j with
         | 0, 0 => A 1%nat 1%nat | 0, _ => - A 1%nat 0%nat
         | _, 0 => - A 0%nat 1%nat | _, _ => A 0%nat 0%nat
         end
  | _ => let s a := ((a + 1) mod 3)%nat in let t a := ((a + 2) mod 3)%nat in
         A (s i) (s j) * A (t i) (t j) - A (s i) (t j) * A (t i) (s j)
  end.
Definition geo_inverse (D : nat) (A : nat -> nat -> R) : nat -> nat -> R := fun i j => geo_cofactor D A j i / geo_det D A.
(** Curvilinear.cpp:255-267 [normal] at one point. *)
Definition geo_normal (D : nat) (detJ : R) (jInv : nat -> nat -> R) (N : vec) : vec :=
  fun i => Rabs detJ * rsum D (fun j => jInv j i * N j).

(** What DGCurvilinearCommon keeps for a quadrature point of a facet (DGCurvilinearCommon.h). *)
Record facet_point := { fq_normal : vec; fq_unit : vec; fq_length : R; fq_jInv0 : nat -> nat -> R; fq_jInv1 : nat -> nat -> R; fq_coords : vec }.
(** DGCurvilinearCommon.cpp:62-101 [prepare_bndskl] at one point: [J0], [J1] the Jacobians of the two
    elements there, [x0] the point as the first element maps it, [f] the first element's local facet. *)
Definition prepare_bndskl (D : nat) (f : list nat) (J0 J1 : nat -> nat -> R) (x0 : vec) : facet_point :=
  let n := geo_normal D (geo_det D J0) (geo_inverse D J0) (ref_normal D f) in
  {| fq_normal := n; fq_unit := normalized D n; fq_length := vnorm D n;
     fq_jInv0 := geo_inverse D J0; fq_jInv1 := geo_inverse D J1; fq_coords := x0 |}.
(** :90-94, area_; :55-59, volume_. *)
Definition geo_area (nq : nat) (w : nat -> R) (length : nat -> R) : R := rsum nq (fun q => w q * length q).
Definition geo_volume (nQ : nat) (W : nat -> R) (absDetJ : nat -> R) : R := rsum nQ (fun q => W q * absDetJ q).
