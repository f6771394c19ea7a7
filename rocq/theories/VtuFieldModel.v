(** Models src/io/VTUAdapter.h and VTUPiece::addPointData, addJacobianData (src/io/VTUWriter.cpp), on top of
    FiniteElementFunction and Curvilinear (ErrorModel.v) and of the arrays of a piece (VtuModel.v). *)
Require Import List Arith Reals.
Require Import Verif.Base Verif.LinAlg Verif.MultiIndexModel Verif.TensorModel Verif.SimplexModel Verif.TopoModel Verif.FaultModel Verif.GeometryModel Verif.QuadratureModel
  Verif.RefElementModel Verif.ErrorModel Verif.VtuModel.
Import ListNotations.
Local Open Scope R_scope.
Local Open Scope opt_scope.

(** The first k numbers of a memory. *)
Definition stored (m : mem) (k : nat) : list R := map m (seq 0 k).

(** VTUAdapter.h:47-49 [CurvilinearVTUAdapter::map]; [from] is where the range of elements begins. *)
Definition volume_map (cl : curvilinear) (from elNo : nat) (E : view) (me : mem) (result : view) (mr : mem) : mem :=
  cl_map (cv_nb cl) (cv_pos cl (elNo + from)%nat) E me result mr.
(** VTUAdapter.h:57-62 [CurvilinearVTUAdapter::jacobianInv]; the beginning of the range is not added.
    [mJ]: scratch memory. *)
Definition volume_jacobianInv (D : nat) (cl : curvilinear) (from elNo : nat) (Dxi : view) (mD : mem) (result : view) (mJ mr : mem) : mem * mem :=
  let J := packed 0 (v_shape result) in
  let mJ := cl_jacobian D (cv_nb cl) (cv_pos cl elNo) Dxi mD J mJ in
  (mJ, cl_jacobianInv D J mJ result mr).

(** VTUAdapter.h:74-89 [CurvilinearBoundaryVTUAdapter]: element and local number of every facet (None: an
    assertion fails). *)
Definition boundary_bnds (upward downward : nat -> list nat) (fctNos : list nat) : option (list (nat * nat)) :=
  map_opt (fun fctNo => do elNo <- nth_error (upward fctNo) 0; do f <- find_index fctNo (downward elNo); Some (elNo, f)) fctNos.
(** VTUAdapter.h:93-102 [setRefNodes]: the matrices E_. *)
Definition boundary_E (D : nat) (cl : curvilinear) (m0 : mem) (points : list (nat -> R)) : option (list (view * mem)) :=
  do f2vs <- f2v D; map_opt (fun f => re_basis (cv_re cl) m0 (facetParams D f points) [0; 1]%nat) f2vs.
(** VTUAdapter.h:103-107 [map]. *)
Definition boundary_map (cl : curvilinear) (bnds : list (nat * nat)) (Es : list (view * mem)) (no : nat) (result : view) (mr : mem) : option mem :=
  do bnd <- nth_error bnds no; do E <- nth_error Es (snd bnd); Some (cl_map (cv_nb cl) (cv_pos cl (fst bnd)) (fst E) (snd E) result mr).

(** VTUWriter.cpp:119-126: what adapter.map stores for every element, with the adapter for the volume and the
    adapter for facets. *)
Definition volume_points (D : nat) (cl : curvilinear) (from numElements : nat) (m0 : mem) (points : list (nat -> R)) : option (list (list R)) :=
  let n := length points in
  do (E, me) <- re_basis (cv_re cl) m0 points [0; 1]%nat;
  Some (map (fun elNo => stored (volume_map cl from elNo E me (packed 0 [D; n]) m0) (n * D)) (seq 0 numElements)).
Definition boundary_points (D : nat) (cl : curvilinear) (upward downward : nat -> list nat) (fctNos : list nat) (m0 : mem) (points : list (nat -> R)) : option (list (list R)) :=
  let n := length points in
  do bnds <- boundary_bnds upward downward fctNos;
  do Es <- boundary_E D cl m0 points;
  map_opt (fun no => do m <- boundary_map cl bnds Es no (packed 0 [D; n]) m0; Some (stored m (n * D))) (seq 0 (length bnds)).

(** The part of an array that is gathered: k numbers from address a. *)
Definition part (m : mem) (a k : nat) : list R := map (fun j => m (a + j)%nat) (seq 0 k).
(** VTUWriter.cpp:170-193 [addPointData] on one rank: for every quantity p the numbers it contributes to the
    array name(p). *)
Definition addPointData (F : fe_function) (m0 : mem) (points : list (nat -> R)) : option (list (list R)) :=
  let n := length points in
  let data := packed 0 [n; ff_ne F; ff_Q F] in
  let result := packed 0 [n; ff_Q F] in
  do (E, me) <- evaluationMatrix F m0 points;
  let '(_, md) := fold_left (fun (st : mem * mem) elNo =>
    let mr := ff_map F elNo E me result (fst st) in
    let md := fold_left (fun m p => fold_left (fun m i => write m (v_addr data [i; elNo; p]) (mr (v_addr result [i; p]))) (seq 0 n) m) (seq 0 (ff_Q F)) (snd st) in
    (mr, md)) (seq 0 (ff_ne F)) (m0, m0) in
  Some (map (fun p => part md (v_addr data [0; 0; p]%nat) (n * ff_ne F)) (seq 0 (ff_Q F))).
(** VTUWriter.cpp:195-236 [addJacobianData] with the adapter for the volume, on one rank: for every d and p the
    numbers it contributes to the array with name "d" name(p) "_d" d, in the order in which they are written. *)
Definition addJacobianData (D : nat) (cl : curvilinear) (from : nat) (F : fe_function) (m0 : mem) (points : list (nat -> R)) : option (list ((nat * nat) * list R)) :=
  let n := length points in
  let data := packed 0 [n; ff_ne F; D * ff_Q F]%nat in
  let jInvAtP := packed 0 [D; D; n] in
  let result := packed 0 [n; ff_Q F; D] in
  do (aDxi, mA) <- re_gradient (cv_re cl) m0 points [0; 1; 2]%nat;
  do (Dxi, me) <- gradientEvaluationTensor F m0 points;
  let '(_, md) := fold_left (fun (st : (mem * mem * mem) * mem) elNo =>
    let '((mJ, mj, mr), md) := st in
    let '(mJ, mj) := volume_jacobianInv D cl from elNo aDxi mA jInvAtP mJ mj in
    let mr := ff_gradient F elNo Dxi me jInvAtP mj result mr in
    let md := fold_left (fun m d => fold_left (fun m p => fold_left (fun m i =>
      write m (v_addr data [i; elNo; d + p * D]%nat) (mr (v_addr result [i; p; d]))) (seq 0 n) m) (seq 0 (ff_Q F)) m) (seq 0 D) md in
    ((mJ, mj, mr), md)) (seq 0 (ff_ne F)) ((m0, m0, m0), m0) in
  Some (flat_map (fun d => map (fun p => ((p, d), part md (v_addr data [0; 0; d + p * D]%nat) (n * ff_ne F))) (seq 0 (ff_Q F))) (seq 0 D)).
