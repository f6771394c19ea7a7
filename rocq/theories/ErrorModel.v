(** Models src/form/FiniteElementFunction.{h,cpp} and src/form/Error.{h,cpp}, with Curvilinear::map, jacobian,
    jacobianInv, absDetJ on tensors (src/geometry/Curvilinear.cpp).  double is modelled by the real numbers.  Every
    Managed tensor has a memory of its own, with arbitrary content at first. *)
Require Import List Arith Reals.
Require Import Verif.Base Verif.LinAlg Verif.MultiIndexModel Verif.TensorModel Verif.SimplexModel Verif.TopoModel Verif.FaultModel Verif.GeometryModel Verif.QuadratureModel Verif.RefElementModel.
Import ListNotations.
Local Open Scope R_scope.
Local Open Scope opt_scope.

(** The interface RefElement (src/form/RefElement.h:20-48), as far as it is used here. *)
Record ref_element := {
  re_basis : mem -> list (nat -> R) -> list nat -> option (view * mem);
  re_gradient : mem -> list (nat -> R) -> list nat -> option (view * mem) }.
Definition nodal_re (S : nodal_element) : ref_element :=
  {| re_basis := nodal_evaluateBasisAt S; re_gradient := nodal_evaluateGradientAt S |}.
Definition modal_re (D degree : nat) (mi : list (list nat)) : ref_element :=
  {| re_basis := fun m0 => modal_evaluateBasisAt m0 D degree mi; re_gradient := fun m0 => modal_evaluateGradientAt m0 D degree mi |}.

(** src/form/FiniteElementFunction.h:19-58. *)
Record fe_function := { ff_re : ref_element; ff_nb : nat; ff_Q : nat; ff_ne : nat; ff_mem : mem }.
(** data_ *)
Definition ff_data (F : fe_function) : view := packed 0 [ff_nb F; ff_Q F; ff_ne F].
(** FiniteElementFunction.cpp:12-16 [evaluationMatrix], :18-22 [gradientEvaluationTensor]. *)
Definition evaluationMatrix (F : fe_function) (m0 : mem) (points : list (nat -> R)) := re_basis (ff_re F) m0 points [1; 0]%nat.
Definition gradientEvaluationTensor (F : fe_function) (m0 : mem) (points : list (nat -> R)) := re_gradient (ff_re F) m0 points [2; 0; 1]%nat.
(** :29-39 [map]: the memory of the result. *)
Definition ff_map (F : fe_function) (eleNo : nat) (E : view) (me : mem) (result : view) (mr : mem) : mem :=
  let mat := subtensor (ff_data F) [Slice; Slice; Idx eleNo] in
  assign mr result (fun q p => rsum (ff_nb F) (fun k => emap me E q k * emap (ff_mem F) mat k p)).
(** :47-74 [gradient]; Eigen evaluates a product completely before it assigns it, so the second loop may work in place. *)
Definition ff_gradient (F : fe_function) (eleNo : nat) (E : view) (me : mem) (jInvAtP : view) (mj : mem) (result : view) (mr : mem) : mem :=
  let D := nth 2 (v_shape E) 0%nat in
  let mat := subtensor (ff_data F) [Slice; Slice; Idx eleNo] in
  let m1 := fold_left (fun m j =>
    let d_j := subtensor E [Slice; Slice; Idx j] in
    let result_j := subtensor result [Slice; Slice; Idx j] in
    assign m result_j (fun q p => rsum (ff_nb F) (fun k => emap me d_j q k * emap (ff_mem F) mat k p))) (seq 0 D) mr in
  fold_left (fun m q =>
    let jInvAtP_q := subtensor jInvAtP [Slice; Slice; Idx q] in
    let result_q := subtensor result [Idx q; Slice; Slice] in
    assign m result_q (fun p j => rsum (nth 0 (v_shape jInvAtP_q) 0%nat) (fun a => emap m result_q p a * emap mj jInvAtP_q a j)))
    (seq 0 (nth 0 (v_shape result) 0%nat)) m1.

(** src/geometry/Curvilinear.cpp:174-187 [map]; [pos j] is node j of the element, [nb] the number of nodes. *)
Definition cl_map (nb : nat) (pos : nat -> nat -> R) (E : view) (me : mem) (result : view) (mr : mem) : mem :=
  assign mr result (fun i q => rsum nb (fun j => pos j i * emap me E j q)).
(** :194-214 [jacobian]. *)
Definition cl_jacobian (D nb : nat) (pos : nat -> nat -> R) (gradE : view) (mg : mem) (result : view) (mr : mem) : mem :=
  let np := nth 2 (v_shape gradE) 0%nat in
  let gradEMat := reshape gradE [nb; D * np]%nat in
  let resultMat := reshape result [D; D * np]%nat in
  assign mr resultMat (fun i c => rsum nb (fun j => pos j i * emap mg gradEMat j c)).
(** :216-225 [jacobianInv]. *)
Definition cl_jacobianInv (D : nat) (jac : view) (mJ : mem) (result : view) (mr : mem) : mem :=
  fold_left (fun m i =>
    let jAtP := subtensor jac [Slice; Slice; Idx i] in
    let resAtP := subtensor result [Slice; Slice; Idx i] in
    assign m resAtP (geo_inverse D (emap mJ jAtP))) (seq 0 (nth 2 (v_shape result) 0%nat)) mr.
(** :232-239 [detJ] and :241-248 [absDetJ]; the vector with the results as a function. *)
Definition cl_detJ (D : nat) (jac : view) (mJ : mem) (q : nat) : R := geo_det D (emap mJ (subtensor jac [Slice; Slice; Idx q])).
Definition cl_absDetJ (D : nat) (jac : view) (mJ : mem) (q : nat) : R := Rabs (cl_detJ D jac mJ q).
(** :255-267 [normal], the matrix with the results as a function of row and column. *)
Definition cl_normal (D : nat) (f : list nat) (detJ : nat -> R) (jInv : view) (mi : mem) (d q : nat) : R :=
  geo_normal D (detJ q) (emap mi (subtensor jInv [Slice; Slice; Idx q])) (ref_normal D f) d.

(** src/form/Error.h:44-52 [LambdaSolution::operator()]: [func] applied to every column of the matrix of coordinates. *)
Definition solution_at (func : (nat -> R) -> nat -> R) (coords : view) (mc : mem) (q i : nat) : R := func (fun d => emap mc coords d q) i.

(** What Error needs of Curvilinear: nodes of elements and the reference element of the geometry (nodal). *)
Record curvilinear := { cv_re : ref_element; cv_nb : nat; cv_pos : nat -> nat -> nat -> R }.
(** A sum as loops add it up. *)
Definition accumulate {T} (l : list T) (f : T -> R) (s : R) : R := fold_left (fun s t => s + f t) l s.

(** src/form/Error.cpp:12-44 [L2], on one rank, before MPI_Reduce.  [rule] are points and weights of
    simplexQuadratureRule<D>(MinQuadratureOrder). *)
Definition L2_rank (D : nat) (rule : list ((nat -> R) * R)) (cl : curvilinear) (F : fe_function) (reference : (nat -> R) -> nat -> R) (m0 : mem) : option R :=
  let points := map fst rule in let n := length rule in let w q := nth q (map snd rule) 0 in
  do (E, me) <- evaluationMatrix F m0 points;
  do (geoE, mgE) <- re_basis (cv_re cl) m0 points [0; 1]%nat;
  do (geoD_xi, mgD) <- re_gradient (cv_re cl) m0 points [0; 1; 2]%nat;
  let numAtQp := packed 0 [n; ff_Q F] in
  let J := packed 0 [D; D; n] in
  let coords := packed 0 [D; n] in
  Some (snd (fold_left (fun (st : (mem * mem * mem) * R) elNo =>
    let '((mJ, mc, mn), error) := st in
    let mJ := cl_jacobian D (cv_nb cl) (cv_pos cl elNo) geoD_xi mgD J mJ in
    let absDetJ := cl_absDetJ D J mJ in
    let mc := cl_map (cv_nb cl) (cv_pos cl elNo) geoE mgE coords mc in
    let ref := solution_at reference coords mc in
    let mn := ff_map F elNo E me numAtQp mn in
    let localError := fold_left (fun s j => accumulate (seq 0 n) (fun q =>
      let e := ref q j - emap mn numAtQp q j in w q * absDetJ q * e * e) s) (seq 0 (ff_Q F)) 0 in
    ((mJ, mc, mn), error + localError)) (seq 0 (ff_ne F)) ((m0, m0, m0), 0))).

(** src/form/Error.cpp:120-157 [H1_semi], on one rank. *)
Definition H1_semi_rank (D : nat) (rule : list ((nat -> R) * R)) (cl : curvilinear) (F : fe_function) (reference : (nat -> R) -> nat -> R) (m0 : mem) : option R :=
  let points := map fst rule in let n := length rule in let w q := nth q (map snd rule) 0 in
  let Q := ff_Q F in
  do (E, me) <- gradientEvaluationTensor F m0 points;
  do (geoE, mgE) <- re_basis (cv_re cl) m0 points [0; 1]%nat;
  do (geoD_xi, mgD) <- re_gradient (cv_re cl) m0 points [0; 1; 2]%nat;
  let gradAtQp := packed 0 [n; Q; D] in
  let J := packed 0 [D; D; n] in
  let Jinv := packed 0 [D; D; n] in
  let coords := packed 0 [D; n] in
  Some (snd (fold_left (fun (st : (mem * mem * mem * mem) * R) elNo =>
    let '((mJ, mi, mc, mn), error) := st in
    let mJ := cl_jacobian D (cv_nb cl) (cv_pos cl elNo) geoD_xi mgD J mJ in
    let mi := cl_jacobianInv D J mJ Jinv mi in
    let absDetJ := cl_absDetJ D J mJ in
    let mc := cl_map (cv_nb cl) (cv_pos cl elNo) geoE mgE coords mc in
    let ref := solution_at reference coords mc in
    let mn := ff_gradient F elNo E me Jinv mi gradAtQp mn in
    let localError := fold_left (fun s i => fold_left (fun s j => accumulate (seq 0 n) (fun q =>
      let e := ref q (i * Q + j)%nat - mn (v_addr gradAtQp [q; i; j]) in w q * absDetJ q * e * e) s) (seq 0 D) s) (seq 0 Q) 0 in
    ((mJ, mi, mc, mn), error + localError)) (seq 0 (ff_ne F)) ((m0, m0, m0, m0), 0))).

(** src/form/Error.cpp:52-112 [L2] on facets, on one rank.  [upward fctNo] are the elements of a facet, [downward elNo] the
    facets of an element; None when a facet has no element or the element does not have the facet (assertions), or
    fctNos is too short. *)
Fixpoint find_index (x : nat) (l : list nat) : option nat :=
  match l with [] => None | y :: l => if (y =? x)%nat then Some 0%nat else do i <- find_index x l; Some (S i) end.
Definition facetParams (D : nat) (f : list nat) (points : list (nat -> R)) : list (nat -> R) := map (facet_param D f) points.
Definition L2_facets_rank (D : nat) (rule : list ((nat -> R) * R)) (upward downward : nat -> list nat) (fctNos : list nat)
    (cl : curvilinear) (F : fe_function) (reference : (nat -> R) -> nat -> R) (m0 : mem) : option R :=
  let points := map fst rule in let n := length rule in let w q := nth q (map snd rule) 0 in
  do (E, me) <- evaluationMatrix F m0 points;
  do f2vs <- f2v D;
  do geo <- map_opt (fun f =>
    do g <- re_basis (cv_re cl) m0 (facetParams D f points) [0; 1]%nat;
    do d <- re_gradient (cv_re cl) m0 (facetParams D f points) [0; 1; 2]%nat;
    Some (g, d)) f2vs;
  let numAtQp := packed 0 [n; ff_Q F] in
  let J := packed 0 [D; D; n] in
  let Jinv := packed 0 [D; D; n] in
  let coords := packed 0 [D; n] in
  do st <- fold_left (fun (st : option ((mem * mem * mem * mem) * R)) bndNo =>
    do (ms, error) <- st;
    let '(mJ, mi, mc, mn) := ms in
    do fctNo <- nth_error fctNos bndNo;
    do elNo <- nth_error (upward fctNo) 0;
    do localFaceNo <- find_index fctNo (downward elNo);
    do f <- nth_error f2vs localFaceNo;
    do gd <- nth_error geo localFaceNo;
    let '((geoE, mgE), (geoD_xi, mgD)) := gd in
    let mJ := cl_jacobian D (cv_nb cl) (cv_pos cl elNo) geoD_xi mgD J mJ in
    let mi := cl_jacobianInv D J mJ Jinv mi in
    let detJ := cl_detJ D J mJ in
    let normal := cl_normal D f detJ Jinv mi in
    let mc := cl_map (cv_nb cl) (cv_pos cl elNo) geoE mgE coords mc in
    let ref := solution_at reference coords mc in
    let mn := ff_map F bndNo E me numAtQp mn in
    let localError := fold_left (fun s q =>
      let nl := sqrt (accumulate (seq 0 D) (fun d => normal d q * normal d q) 0) in
      accumulate (seq 0 (ff_Q F)) (fun j => let e := ref q j - emap mn numAtQp q j in w q * nl * e * e) s) (seq 0 n) 0 in
    Some ((mJ, mi, mc, mn), error + localError)) (seq 0 (ff_ne F)) (Some ((m0, m0, m0, m0), 0));
  Some (snd st).

(** MPI_Reduce with MPI_SUM, and the square root, on the target rank: src/form/Error.cpp:46-49, 114-117, 159-162. *)
Definition reduce_error (procs : nat) (error : nat -> R) : R := sqrt (rsum procs error).
