(** Models what happens on a fault facet: app/localoperator/AdapterBase.cpp [prepare],
    PoissonAdapter.cpp, ElasticityAdapter.cpp, their kernels (app/kernels/*_adapter.py),
    Curvilinear::facetBasis and DGCurvilinearCommon::make_facet_functional.  Arithmetic is exact; a
    vector is a function of the component, a field on the facet a function of the quadrature point. *)
Require Import List Arith Bool Reals.
Require Import Verif.Base Verif.LinAlg.
Import ListNotations.
Local Open Scope R_scope.

Definition vec := nat -> R.
(** src/geometry/Vector.h:40-57 [dot], [norm]. *)
Definition vdot (dim : nat) (a b : vec) : R := rsum dim (fun i => a i * b i).
Definition vnorm (dim : nat) (a : vec) : R := sqrt (vdot dim a a).
Definition vneg (a : vec) : vec := fun i => -1 * a i.
(** Eigen's normalized(): the zero vector is returned as it is. *)
Definition normalized (dim : nat) (a : vec) : vec := if Rlt_dec 0 (vdot dim a a) then (fun i => a i / vnorm dim a) else a.
(** Eigen's cross(). *)
Definition cross (a b : vec) : vec := fun i =>
  match i with
  | 0 => a 1%nat * b 2%nat - a 2%nat * b 1%nat
  | 1 => a 2%nat * b 0%nat - a 0%nat * b 2%nat
  | _ => a 0%nat * b 1%nat - a 1%nat * b 0%nat
  end.
(** src/util/Math.h:9 [sgn]. *)
Definition sgn (x : R) : R := if Rlt_dec 0 x then 1 else if Rlt_dec x 0 then -1 else 0.
(** 10000.0 * std::numeric_limits<double>::epsilon() (AdapterBase.cpp:68, Curvilinear.cpp:286). *)
Definition tol : R := 10000 / 2 ^ 52.

(** src/geometry/Curvilinear.cpp:281-316 [facetBasis] at one point: component j of basis vector p.
    The columns are the normal, then in two dimensions d, in three dimensions d and s.  [None]: throws.
    D is 2 or 3 (CMake, DomainDimension); other values have no basis here. *)
Definition facet_basis (dim : nat) (up normal : vec) : option (nat -> nat -> R) :=
  let n := normalized dim normal in
  match dim with
  | 2 => let s := sgn (up 0%nat * n 1%nat - up 1%nat * n 0%nat) in
         if Rlt_dec (Rabs s) tol then None
         else Some (fun j p => match p with 0 => n j | _ => match j with 0 => - s * n 1%nat | _ => s * n 0%nat end end)
  | 3 => let s := normalized 3 (cross up n) in
         if Rlt_dec (vnorm 3 s) tol then None
         else let d := normalized 3 (cross s n) in
              Some (fun j p => match p with 0 => n j | 1 => d j | _ => s j end)
  | _ => None
  end.

(** What AdapterBase keeps for one quadrature point of a fault facet (AdapterBase.h:58-75). *)
Record fault_point := { fp_flipped : bool; fp_normal : vec; fp_nl : R; fp_basis : nat -> nat -> R }.
(** AdapterBase.cpp:62-86, one point; [n] is the normal of element up[0] (:61). [None]: throws. *)
Definition prepare_point (dim : nat) (up ref n : vec) : option fault_point :=
  let d := vdot dim ref n in
  if Rlt_dec (Rabs d) tol then None else
  let flipped := if Rlt_dec d 0 then true else false in
  let normal := if flipped then vneg n else n in
  match facet_basis dim up normal with
  | None => None
  | Some b => Some {| fp_flipped := flipped; fp_normal := normal; fp_nl := vnorm dim n;
                      fp_basis := if flipped then (fun j p => b j p * -1) else b |}
  end.
(** AdapterBase.cpp:62-86, all points. *)
Fixpoint prepare_points (dim : nat) (up ref : vec) (ns : list vec) : option (list fault_point) :=
  match ns with
  | [] => Some []
  | n :: t => match prepare_point dim up ref n with
              | None => None
              | Some p => match prepare_points dim up ref t with None => None | Some l => Some (p :: l) end
              end
  end.

(** A space on the facet: number of basis functions, basis at the points (e_q, l q), weights. *)
Record fault_space := { fs_nbf : nat; fs_e : nat -> nat -> R; fs_w : nat -> R }.
Section Adapter.
Variable S : fault_space.
(** EigenMap(m).inverse() (AdapterBase.cpp:96): what Eigen returns for a matrix. *)
Variable inverse : (nat -> nat -> R) -> nat -> nat -> R.
Variable dim : nat.
Local Notation e := (fs_e S). Local Notation nbf := (fs_nbf S). Local Notation w := (fs_w S).
Definition dummy_point : fault_point := {| fp_flipped := false; fp_normal := fun _ => 0; fp_nl := 0; fp_basis := fun _ _ => 0 |}.
Definition at_q (F : list fault_point) (q : nat) : fault_point := nth q F dummy_point.
(** AdapterBase.cpp:87-96. *)
Definition fault_mass (F : list fault_point) (i j : nat) : R :=
  rsum (length F) (fun q => w q * fp_nl (at_q F q) * e i q * e j q).
Definition fault_minv (F : list fault_point) : nat -> nat -> R := inverse (fault_mass F).

(** PoissonAdapter.cpp:36-55 and evaluate_slip (poisson_adapter.py:13). *)
Definition poisson_slip (F : list fault_point) (state : nat -> R) (q : nat) : R :=
  let s := rsum nbf (fun p => e p q * state p) in
  if fp_flipped (at_q F q) then - s else s.
(** PoissonAdapter.cpp:21-34 and evaluate_traction (poisson_adapter.py:18-19): the part of the block
    behind the first nbf entries, which are zero. *)
Definition poisson_traction (F : list fault_point) (grad_u : nat -> nat -> R) (p : nat) : R :=
  rsum nbf (fun r => rsum (length F) (fun q => rsum dim (fun k =>
    fault_minv F r p * e r q * w q * grad_u k q * fp_normal (at_q F q) k))).

(** ElasticityAdapter.cpp:36-49 and evaluate_slip (elasticity_adapter.py:14-23); the state holds slip
    component n of basis function l at l + nbf n. *)
Definition copy_slip (n o : nat) : R := if (o =? n + 1)%nat then 1 else 0.
Definition elasticity_slip (F : list fault_point) (state : nat -> R) (p q : nat) : R :=
  rsum nbf (fun l => rsum dim (fun o => rsum (dim - 1) (fun n =>
    e l q * fp_basis (at_q F q) p o * state (l + nbf * n)%nat * copy_slip n o))).
(** ElasticityAdapter.cpp:19-34 and evaluate_traction (elasticity_adapter.py:27-28): entry (k, p). *)
Definition elasticity_traction (F : list fault_point) (traction_q : nat -> nat -> R) (k p : nat) : R :=
  rsum nbf (fun l => rsum (length F) (fun q => rsum dim (fun o =>
    fault_minv F l k * e l q * w q * fp_nl (at_q F q) * traction_q o q * fp_basis (at_q F q) o p))).
End Adapter.

(** src/form/DGCurvilinearCommon.h:105-125 [make_facet_functional] at one point: [n] the normal kept
    for the facet, [fx] the value of the function given by the user, component p. *)
Definition facet_functional (dim : nat) (ref n : vec) (is_boundary : bool) (fx : vec) : vec :=
  if negb is_boundary then (if Rlt_dec (vdot dim ref n) 0 then vneg fx else fx) else fx.
