(** Models src/form/RefElement.h, src/form/RefElement.cpp and Vandermonde of src/basis/Nodal.cpp: the modal and the
    nodal basis of the reference simplex.  double is modelled by the real numbers.  A tensor is a view
    (TensorModel) of a memory; memory is a function from addresses to values, not initialised at first.  The
    alignment of the memory is not modelled.  [mi] is the list of values a loop over AllIntegerSums<D>(degree) runs
    through (CombinatoricsModel.sums_loop). *)
Require Import List Arith Reals.
Require Import Verif.Base Verif.LinAlg Verif.MultiIndexModel Verif.TensorModel Verif.CombinatoricsModel Verif.BasisModel Verif.QuadratureModel.
Import ListNotations.
Local Open Scope R_scope.
Local Open Scope opt_scope.

Notation vec := (nat -> R).
Definition mem := nat -> R.
Definition write (m : mem) (a : nat) (x : R) : mem := fun b => if (b =? a)%nat then x else m b.
Definition writes (m : mem) (l : list (nat * R)) : mem := fold_left (fun m e => write m (fst e) (snd e)) l m.
(** The entry with the permuted index; permute does not fail after it has succeeded for the shape. *)
Definition permuted (perm index : list nat) : list nat := match permute perm index with Some i => i | None => [] end.
Definition point (points : list vec) (p : nat) : vec := nth p points (fun _ => 0).

(** src/tensor/EigenMap.h: a view of two dimensions as matrix, for reading, and the assignment of a matrix X, whose
    entries Eigen computes before it writes any of them. *)
Definition emap (m : mem) (v : view) (r c : nat) : R := m (v_addr v [r; c]).
Definition assign (m : mem) (v : view) (X : nat -> nat -> R) : mem :=
  writes m (flat_map (fun r => map (fun c => (v_addr v [r; c], X r c)) (seq 0 (nth 1 (v_shape v) 0%nat)))
              (seq 0 (nth 0 (v_shape v) 0%nat))).

(** src/form/RefElement.cpp:48-63, ModalRefElement::evaluateBasisAt. *)
Definition modal_evaluateBasisAt (m0 : mem) (D degree : nat) (mi : list (list nat)) (points : list vec) (perm : list nat)
  : option (view * mem) :=
  do nbf <- binom (degree + D) D;
  do shape <- permute perm [nbf; length points];
  let E := packed 0 shape in
  Some (E, writes m0 (flat_map (fun p => map (fun bf =>
             (v_addr E (permuted perm [bf; p]), DubinerP D (nth bf mi []) (point points p)))
             (seq 0 (length mi))) (seq 0 (length points)))).

(** src/form/RefElement.cpp:65-83, ModalRefElement::evaluateGradientAt. *)
Definition modal_evaluateGradientAt (m0 : mem) (D degree : nat) (mi : list (list nat)) (points : list vec) (perm : list nat)
  : option (view * mem) :=
  do nbf <- binom (degree + D) D;
  do shape <- permute perm [nbf; D; length points];
  let E := packed 0 shape in
  Some (E, writes m0 (flat_map (fun p => flat_map (fun bf => map (fun d =>
             (v_addr E (permuted perm [bf; d; p]), gradDubinerP D (nth bf mi []) (point points p) d))
             (seq 0 D)) (seq 0 (length mi))) (seq 0 (length points)))).

(** src/form/RefElement.cpp:20-38, ModalRefElement::massMatrix; root and the tables are those of
    QuadratureModel. *)
Definition modal_massMatrix (m0 : mem) root wv2 js3 wv3 (D degree : nat) (mi : list (list nat)) : option (nat -> nat -> R) :=
  let rule := sr_points (simplexQuadratureRule root wv2 js3 wv3 D (2 * degree)) in
  do (E, m) <- modal_evaluateBasisAt m0 D degree mi (map fst rule) [0; 1]%nat;
  Some (fun i j => if (i =? j)%nat
    then fold_left (fun s q => s + nth q (map snd rule) 0 * emap m E i q * emap m E j q) (seq 0 (length rule)) 0
    else 0).
(** src/form/RefElement.cpp:40-46, ModalRefElement::inverseMassMatrix. *)
Definition modal_inverseMassMatrix m0 root wv2 js3 wv3 D degree mi : option (nat -> nat -> R) :=
  do M <- modal_massMatrix m0 root wv2 js3 wv3 D degree mi;
  Some (fun i j => if (i =? j)%nat then 1 / M i j else M i j).

(** src/basis/Nodal.cpp:30-44 [Vandermonde]. *)
Definition Vandermonde (D : nat) (mi : list (list nat)) (points : list vec) (i bf : nat) : R :=
  DubinerP D (nth bf mi []) (point points i).

(** src/form/RefElement.cpp:85-92, NodalRefElement; [inverse n A] is Eigen's inverse of the n by n matrix A. *)
Record nodal_element := { ne_dim : nat; ne_degree : nat; ne_mi : list (list nat); ne_nodes : list vec;
  ne_V : nat -> nat -> R; ne_Vinv : nat -> nat -> R }.
Definition NodalRefElement (inverse : nat -> (nat -> nat -> R) -> nat -> nat -> R) (D degree : nat) (mi : list (list nat))
  (nodes : list vec) : nodal_element :=
  let V := Vandermonde D mi nodes in
  {| ne_dim := D; ne_degree := degree; ne_mi := mi; ne_nodes := nodes; ne_V := V; ne_Vinv := inverse (length nodes) V |}.
Section Nodal.
  Variable S : nodal_element.
  Local Notation D := (ne_dim S).
  Local Notation degree := (ne_degree S).
  Local Notation mi := (ne_mi S).
  Local Notation n := (length (ne_nodes S)).
  Local Notation Vinv := (ne_Vinv S).

  (** src/form/RefElement.cpp:94-103, massMatrix. *)
  Definition nodal_massMatrix m0 root wv2 js3 wv3 : option (nat -> nat -> R) :=
    do M <- modal_massMatrix m0 root wv2 js3 wv3 D degree mi;
    Some (fun i j => rsum n (fun l => rsum n (fun k => Vinv k i * M k l) * Vinv l j)).
  (** src/form/RefElement.cpp:105-114, inverseMassMatrix. *)
  Definition nodal_inverseMassMatrix m0 root wv2 js3 wv3 : option (nat -> nat -> R) :=
    do Minv <- modal_inverseMassMatrix m0 root wv2 js3 wv3 D degree mi;
    Some (fun i j => rsum n (fun l => rsum n (fun k => ne_V S i k * Minv k l) * ne_V S j l)).

  (** src/form/RefElement.cpp:116-131, evaluateBasisAt; None for the assertion. *)
  Definition nodal_evaluateBasisAt (m0 : mem) (points : list vec) (perm : list nat) : option (view * mem) :=
    do (E, m) <- modal_evaluateBasisAt m0 D degree mi points perm;
    if ((nth 0 perm 0 =? 0) && (nth 1 perm 0 =? 1))%nat%bool then
      Some (E, assign m E (fun i p => rsum n (fun j => Vinv j i * emap m E j p)))
    else if ((nth 0 perm 0 =? 1) && (nth 1 perm 0 =? 0))%nat%bool then
      Some (E, assign m E (fun p i => rsum n (fun j => emap m E p j * Vinv j i)))
    else None.

  (** src/form/RefElement.cpp:162-165, the loop of the third case, over the last index. *)
  Definition slice_loop (E : view) (m : mem) (k : nat) : mem :=
    fold_left (fun m i =>
      let mat := subtensor E [Slice; Slice; Idx i] in
      assign m mat (fun r c => rsum n (fun j => emap m mat r j * Vinv j c))) (seq 0 k) m.
  (** src/form/RefElement.cpp:133-169, evaluateGradientAt. *)
  Definition nodal_evaluateGradientAt (m0 : mem) (points : list vec) (perm : list nat) : option (view * mem) :=
    do (gradE, m) <- modal_evaluateGradientAt m0 D degree mi points perm;
    if (nth 0 perm 0 =? 0)%nat then
      let mat := reshape gradE [n; D * length points]%nat in
      Some (gradE, assign m mat (fun i c => rsum n (fun j => Vinv j i * emap m mat j c)))
    else if (nth 2 perm 0 =? 0)%nat then
      let mat := reshape gradE [D * length points; n]%nat in
      Some (gradE, assign m mat (fun r i => rsum n (fun j => emap m mat r j * Vinv j i)))
    else Some (gradE, slice_loop gradE m (nth 2 (v_shape gradE) 0%nat)).
End Nodal.
