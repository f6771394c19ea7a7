(** Models the p-multigrid hierarchy: app/localoperator/NodalInterpolation.cpp, ModalInterpolation.h,
    src/form/InterpolationOperator.h, app/common/PetscInterplMatrix.cpp and the loop of PetscLinearSolver::setup_mg.
    double is modelled by the real numbers.  A PETSc matrix is modelled by its entries. *)
Require Import List Arith Bool Reals.
Require Import Verif.Base Verif.LinAlg Verif.TensorModel Verif.RefElementModel Verif.TopoModel Verif.AssembleModel.
Import ListNotations.
Local Open Scope R_scope.
Local Open Scope opt_scope.

(** app/localoperator/NodalInterpolation.cpp:9-37 [assemble].  tmp = V_to.leftCols(N2) * VInv_from; tmp is in memory
    of its own.  The assertions on degree and shape are taken to hold. *)
Definition nodal_assemble (S_to S_from : nodal_element) (numQuantities : nat) (I : view) (m : mem) : mem :=
  let N1 := length (ne_nodes S_to) in
  let N2 := length (ne_nodes S_from) in
  let tmp k l := rsum N2 (fun j => ne_V S_to k j * ne_Vinv S_from j l) in
  let m := assign m I (fun _ _ => 0) in
  writes m (flat_map (fun l => flat_map (fun p => map (fun k =>
      (v_addr I [k + p * N1; l + p * N2]%nat, tmp k l)) (seq 0 N1)) (seq 0 numQuantities)) (seq 0 N2)).

(** app/localoperator/ModalInterpolation.h:32-46 [assemble]; N1 and N2 are the numbers of basis functions. *)
Definition modal_assemble (N1 N2 numQuantities : nat) (I : view) (m : mem) : mem :=
  let m := assign m I (fun _ _ => 0) in
  writes m (flat_map (fun l => map (fun p =>
      (v_addr I [l + p * N1; l + p * N2]%nat, 1)) (seq 0 numQuantities)) (seq 0 N2)).

(** src/form/InterpolationOperator.h:28-48 [assemble]: the calls matrix.add_block(elNo, elNo, I) with the values of the
    block in the order of memory.  None for the exception.  The buffer is allocated at the same address for every
    element and not cleared; [m0] is its content before. *)
Definition interpolation_assemble (lop : view -> mem -> mem) (bs_lp1 bs_l : nat) (to_degree from_degree numLocalElements : nat) (m0 : mem)
  : option (list (nat * nat * list R)) :=
  if (to_degree <=? from_degree)%nat then None
  else
    let I := packed 0 [bs_lp1; bs_l] in
    Some (snd (fold_left (fun (st : mem * list (nat * nat * list R)) elNo =>
      let m := lop I (fst st) in
      (m, snd st ++ [(elNo, elNo, map m (seq 0 (bs_lp1 * bs_l)))])) (seq 0 numLocalElements) (m0, []))).

(** A PETSc matrix to which blocks have been added, with global block numbers: MatSetValuesBlockedLocal adds the values,
    column by column (app/common/PetscInterplMatrix.cpp:7-43, app/common/PetscMatrix.h).  Rows and columns have different
    block sizes. *)
Definition matrix := nat -> nat -> R.
Definition petsc_matrix (rowBs colBs : nat) (blocks : list (nat * nat * list R)) : matrix := fun i j =>
  fold_right (fun (b : nat * nat * list R) s => let '(gi, gj, v) := b in
    (if ((i / rowBs =? gi) && (j / colBs =? gj))%nat%bool then nth (i mod rowBs + rowBs * (j mod colBs))%nat v 0 else 0) + s) 0 blocks.

(** MatMatMult and MatTranspose; n is the number of columns of the left factor. *)
Definition matMatMult (n : nat) (A B : matrix) : matrix := fun i j => rsum n (fun k => A i k * B k j).
Definition matTranspose (A : matrix) : matrix := fun i j => A j i.

(** app/common/PetscLinearSolver.cpp:79-112, the loop over the levels from the second finest to the coarsest: the
    operators A_l of the levels, the finest first.  [interp to from] is the assembled interpolation matrix, size d the
    number of rows of the matrix for degree d. *)
Definition setup_mg (size : nat -> nat) (interp : nat -> nat -> option matrix) (level_degree : list nat) (P : matrix)
  : option (list matrix) :=
  let nlevels := length level_degree in
  do st <- fold_left (fun st l =>
    do (A_lp1, out) <- st;
    do to_degree <- nth_error level_degree (l + 1)%nat;
    do from_degree <- nth_error level_degree l;
    do Im <- interp to_degree from_degree;
    let AP := matMatMult (size to_degree) A_lp1 Im in
    let A_l := matMatMult (size to_degree) (matTranspose Im) AP in
    Some (A_l, out ++ [A_l])) (rev (seq 0 (nlevels - 1))) (Some (P, []));
  Some (snd st).
