(** Model of the constructors of the Poisson and elasticity operators: the matrices of the reference
    element. *)
Require Import List Arith Reals.
Require Import Verif.Base Verif.LinAlg Verif.TopoModel Verif.TensorModel Verif.GeometryModel Verif.QuadratureModel Verif.RefElementModel Verif.PoissonModel.
Import ListNotations.
Local Open Scope R_scope.
Local Open Scope opt_scope.

Definition read (t : view * mem) (index : list nat) : R := snd t (v_addr (fst t) index).
Definition no_tensor : view * mem := (packed 0 [], fun _ => 0).
(** app/config.h.in:8-11 [MinQuadOrder]; [set] is MIN_QUADRATURE_ORDER of the build. *)
Definition MinQuadOrder (degree set : nat) : nat := if (set =? 0)%nat then (2 * degree + 1)%nat else set.

(** app/localoperator/Poisson.cpp:34-60 and Elasticity.cpp:37-66, with the rules volRule and fctRule of
    src/form/DGCurvilinearCommon.cpp:13-18.  [basis] and [gradient] are evaluateBasisAt and
    evaluateGradientAt of space_, [material] is evaluateBasisAt of materialSpace_, [Minv] is
    space_.inverseMassMatrix().  The transposed, permuted and negated copies are left out; what [B]
    holds beside the reference element is kept. *)
Definition operator_reference (D nb : nat) (basis gradient material : list vec -> list nat -> option (view * mem))
  (Minv : option (nat -> nat -> R)) (volRule fctRule : list (vec * R)) (B : pdata) : option pdata :=
  let points := map fst volRule in
  do fs <- f2v D;
  let facetParam f := map (facet_param D f) (map fst fctRule) in
  do Mi <- Minv;
  do E_Q <- basis points [0; 1]%nat;
  do Dxi_Q <- gradient points [0; 1; 2]%nat;
  do E_q <- map_opt (fun f => basis (facetParam f) [0; 1]%nat) fs;
  do Dxi_q <- map_opt (fun f => gradient (facetParam f) [0; 1; 2]%nat) fs;
  do matE_q_T <- map_opt (fun f => material (facetParam f) [1; 0]%nat) fs;
  do matE_Q_T <- material points [1; 0]%nat;
  Some {| p_dim := D; p_N := nb; p_Nq := length volRule; p_nq := length fctRule; p_method := p_method B;
    p_W := fun q => nth q (map snd volRule) 0; p_w := fun q => nth q (map snd fctRule) 0;
    p_EQ := fun l q => read E_Q [l; q]; p_DxiQ := fun l e q => read Dxi_Q [l; e; q]; p_matEQ := fun q t => read matE_Q_T [q; t];
    p_E := fun f l q => read (nth f E_q no_tensor) [l; q]; p_Dxi := fun f l e q => read (nth f Dxi_q no_tensor) [l; e; q];
    p_matE := fun f q t => read (nth f matE_q_T no_tensor) [q; t]; p_MinvRef := Mi;
    p_J := p_J B; p_GQ := p_GQ B; p_K := p_K B; p_n := p_n B; p_nu := p_nu B; p_nl := p_nl B; p_G0 := p_G0 B; p_G1 := p_G1 B;
    p_pen := p_pen B; p_force := p_force B; p_dir := p_dir B; p_slip := p_slip B |}.

Section Constructors.
Variables (root : nat -> nat -> nat -> nat -> R) (wv2 js wv3 : table) (inverse : nat -> (nat -> nat -> R) -> nat -> nat -> R).
Definition volRule (D order : nat) : list (vec * R) := sr_points (simplexQuadratureRule root wv2 js wv3 D order).
Definition fctRule (D order : nat) : list (vec * R) := sr_points (simplexQuadratureRule root wv2 js wv3 (D - 1) order).
(** app/localoperator/Poisson.cpp:26-60, Poisson.h:130-131: the space is modal, the material nodal.
    [mi] are the multi-indices, [nodes] the nodes of the material; [m0] is what allocated memory holds. *)
Definition Poisson_constructor (m0 : mem) (D degree set : nat) (mi : list (list nat)) (nodes : list vec) (B : pdata) : option pdata :=
  let order := MinQuadOrder degree set in let S := NodalRefElement inverse D degree mi nodes in
  operator_reference D (length mi) (modal_evaluateBasisAt m0 D degree mi) (modal_evaluateGradientAt m0 D degree mi) (nodal_evaluateBasisAt S m0)
    (modal_inverseMassMatrix m0 root wv2 js wv3 D degree mi) (volRule D order) (fctRule D order) B.
(** app/localoperator/Elasticity.cpp:27-66, Elasticity.h:149-150: both spaces are nodal. *)
Definition Elasticity_constructor (m0 : mem) (D degree set : nat) (mi : list (list nat)) (nodes : list vec) (B : pdata) : option pdata :=
  let order := MinQuadOrder degree set in let S := NodalRefElement inverse D degree mi nodes in
  operator_reference D (length nodes) (nodal_evaluateBasisAt S m0) (nodal_evaluateGradientAt S m0) (nodal_evaluateBasisAt S m0)
    (nodal_inverseMassMatrix S m0 root wv2 js wv3) (volRule D order) (fctRule D order) B.
End Constructors.
