(** Models app/pc/reig_aux.c (randomized eigenvalue computation) and app/pc/eigdeflate.c (deflation preconditioner).
    PetscScalar is modelled by the real numbers.  A dense matrix of [n] columns is a family [X : nat -> nat -> R] with
    [X j i] the entry in column j and row i; the operator A and the solver behind a KSP are matrices (both are linear;
    KSPSolve is modelled as converged).  Wrappers that place a column into a Vec and take it out again
    (_MatDenseCreateEmptyColumnVec, _MatDenseSetColumnVec, _MatDenseResetColumnVec, reig_aux.c:129-212) are the access to
    column j.  Error codes of PETSc other than those raised in these files are not modelled. *)
Require Import List Arith Reals.
Require Import Verif.LinAlg.
Import ListNotations.
Local Open Scope R_scope.

(** VecDot, VecNorm with NORM_2. *)
Definition VecDot (N : nat) (u v : nat -> R) : R := rsum N (fun i => u i * v i).
Definition VecNorm (N : nat) (v : nat -> R) : R := sqrt (rsum N (fun i => v i * v i)).
Definition set_column {A : Type} (X : nat -> A) (k : nat) (v : A) : nat -> A := fun j => if Nat.eqb j k then v else X j.

(** reig_aux.c:17-23: the inner loop for k, ..., k+cnt-1; q is column j, which the loop does not write. *)
Fixpoint mgs_inner (N : nat) (q : nat -> R) (k cnt : nat) (X : nat -> nat -> R) : nat -> nat -> R :=
  match cnt with
  | O => X
  | S cnt' =>
    let v := X k in
    let dot := VecDot N q v in
    mgs_inner N q (S k) cnt' (set_column X k (fun i => v i + - dot * q i))
  end.
(** reig_aux.c:11-24: the outer loop for j, ..., j+cnt-1 of n columns. *)
Fixpoint mgs_loop (N n j cnt : nat) (X : nat -> nat -> R) : nat -> nat -> R :=
  match cnt with
  | O => X
  | S cnt' =>
    let nrm := VecNorm N (X j) in
    let q := fun i => 1 / nrm * X j i in
    mgs_loop N n (S j) cnt' (mgs_inner N q (S j) (n - S j) (set_column X j q))
  end.
(** reig_aux.c:4-26 [VecOrthonormalize_ModifiedGramSchmidt], :28-34 [VecOrthonormalize], :36-90 [MatDenseOrthonormalize]
    (the columns start at multiples of the number of local rows; the vectors live on PETSC_COMM_WORLD). *)
Definition MatDenseOrthonormalize (N n : nat) (X : nat -> nat -> R) : nat -> nat -> R := mgs_loop N n 0 n X.

(** reig_aux.c:613-661 [MatMatMult_MatDense_InPlace] and :667-732 [KSPMatMult_MatDense_InPlace] without guess: every column
    of X is replaced by its image. *)
Fixpoint MatMult_InPlace (N : nat) (Op : nat -> nat -> R) (j cnt : nat) (X : nat -> nat -> R) : nat -> nat -> R :=
  match cnt with
  | O => X
  | S cnt' => let Yj := mat_vec N Op (X j) in MatMult_InPlace N Op (S j) cnt' (set_column X j Yj)
  end.
(** reig_aux.c:739-840 [MatPtAP_MatDense] and :847-949 [MatPtInvAP_MatDense]: entry (i, j) of the result. *)
Definition MatPtOpP (N : nat) (Op : nat -> nat -> R) (P : nat -> nat -> R) : nat -> nat -> R :=
  fun i j => let APj := mat_vec N Op (P j) in rsum N (fun l => P i l * APj l).
(** reig_aux.c:955-991 [MatDenseSymmetrizeSEQ]; A i j is _A[i + j * m]. *)
Definition set_entry (A : nat -> nat -> R) (i j : nat) (v : R) : nat -> nat -> R :=
  fun a b => if (Nat.eqb a i && Nat.eqb b j)%bool then v else A a b.
Fixpoint symmetrize_row (i j cnt : nat) (A : nat -> nat -> R) : nat -> nat -> R :=
  match cnt with
  | O => A
  | S cnt' =>
    let At := / 2 * (A i j + A j i) in
    symmetrize_row i (S j) cnt' (set_entry (set_entry A i j At) j i At)
  end.
Fixpoint symmetrize_loop (m i cnt : nat) (A : nat -> nat -> R) : nat -> nat -> R :=
  match cnt with
  | O => A
  | S cnt' => symmetrize_loop m (S i) cnt' (symmetrize_row i i (m - i) A)
  end.
Definition MatDenseSymmetrizeSEQ (m : nat) (A : nat -> nat -> R) : nat -> nat -> R := symmetrize_loop m 0 m A.

(** reig_aux.c:1312-1326 and :1345-1385: swap entries (columns) i and n-1-i for i, ..., i+cnt-1. *)
Fixpoint swap_loop {A : Type} (n i cnt : nat) (w : nat -> A) : nat -> A :=
  match cnt with
  | O => w
  | S cnt' =>
    let last := (n - 1 - i)%nat in
    let tmp := w last in
    swap_loop n (S i) cnt' (set_column (set_column w last (w i)) i tmp)
  end.

Section RandEigs.
Variable N : nat.
(** reig_aux.c:993-1043 [lapackeigs], that is, dsyev: eigenvalues and, in the columns, eigenvectors. *)
Variable eigh : nat -> (nat -> nat -> R) -> (nat -> R) * (nat -> nat -> R).

(** reig_aux.c:1086-1107 and :1256-1277: the search space, from the random matrix X0 (MatSetRandom) of n columns. *)
Definition search_space (Op : nat -> nat -> R) (n power_its : nat) (X0 : nat -> nat -> R) : nat -> nat -> R :=
  let X := MatMult_InPlace N Op 0 n X0 in
  if Nat.eqb power_its 0 then MatDenseOrthonormalize N n X
  else
    let X := MatDenseOrthonormalize N n (MatMult_InPlace N Op 0 n X) in
    Nat.iter (power_its - 1) (fun X => MatDenseOrthonormalize N n (MatMult_InPlace N Op 0 n X)) X.
(** reig_aux.c:1109-1120 and :1279-1290: the projected matrix; every rank gets a copy of it (MatCreateRedundantMatrix). *)
Definition projected (Op : nat -> nat -> R) (n : nat) (X : nat -> nat -> R) : nat -> nat -> R :=
  MatDenseSymmetrizeSEQ n (MatPtOpP N Op X).
(** reig_aux.c:349-393 [MatMultRedundant_MatDenseVecSeq] for one column: Q times the coefficients (n of them). *)
Definition combine (n : nat) (Q : nat -> nat -> R) (c : nat -> R) : nat -> R := fun i => rsum n (fun l => Q l i * c l).

(** reig_aux.c:1046-1211 [RandEigsMax_3_InPlace], with the check of [RandEigsMax] (:1456-1482); M = N. *)
Definition RandEigsMax (A : nat -> nat -> R) (k o power_its : nat) (X0 : nat -> nat -> R) : option ((nat -> R) * (nat -> nat -> R)) :=
  if (N <? k + o)%nat then None
  else
    let X := search_space A (k + o) power_its X0 in
    let '(w, Z) := eigh (k + o) (projected A (k + o) X) in
    Some (fun i => w (i + o)%nat, fun j => combine (k + o) X (fun l => Z l (j + o)%nat)).
(** reig_aux.c:1213-1454 [RandEigsMin_3_InPlace], with the check of [RandEigsMin] (:1484-1513); Sol is the solver.
    The entries below k are copied into the result; the others are not read by a caller. *)
Definition RandEigsMin (Sol : nat -> nat -> R) (k o power_its : nat) (X0 : nat -> nat -> R) : option ((nat -> R) * (nat -> nat -> R)) :=
  if (N <? k + o)%nat then None
  else
    let X := search_space Sol (k + o) power_its X0 in
    let '(w, Z) := eigh (k + o) (projected Sol (k + o) X) in
    let w := fun i => 1 / w i in
    let w := swap_loop (k + o) 0 ((k + o) / 2) w in
    let Zc := swap_loop (k + o) 0 ((k + o) / 2) (fun j i => Z i j) in
    Some (w, fun j => combine (k + o) X (Zc j)).
End RandEigs.

(** What PCSetUp_eigdeflate leaves in the context. *)
Record eigdeflate := { ed_nev : nat; ed_eigs : nat -> R; ed_Q : nat -> nat -> R; ed_e_min : R; ed_e_max : R; ed_alpha : R }.
(** eigdeflate.c:79-145 [PCSetUp_eigdeflate]; X0 and Y0 are the random matrices of the two computations. *)
Definition PCSetUp_eigdeflate (N : nat) (eigh : nat -> (nat -> nat -> R) -> (nat -> R) * (nat -> nat -> R)) (A Sol : nat -> nat -> R)
  (nev oversample power_its : nat) (factor : R) (X0 Y0 : nat -> nat -> R) : option eigdeflate :=
  match RandEigsMin N eigh Sol nev oversample power_its X0 with
  | None => None
  | Some (eigs, Q) =>
    let e_min := eigs 0%nat in
    match RandEigsMax N eigh A 1 5 power_its Y0 with
    | None => None
    | Some (eigs_max, _) =>
      let e_max := eigs_max (1 - 1)%nat in
      Some {| ed_nev := nev; ed_eigs := eigs; ed_Q := Q; ed_e_min := e_min; ed_e_max := e_max;
              ed_alpha := 2 * factor / (e_min + e_max) |}
    end
  end.

(** eigdeflate.c:55-64: the sum over the ranks of the products with their rows; the ranks own ms = [m_0; m_1; ...]
    consecutive rows, the first one starting at row [start]. *)
Fixpoint allreduce_product (ms : list nat) (start : nat) (Qj r : nat -> R) : R :=
  match ms with
  | [] => 0
  | m :: ms' => rsum m (fun i => Qj (start + i)%nat * r (start + i)%nat) + allreduce_product ms' (start + m) Qj r
  end.
(** reig_aux.c:349-393 [MatMultRedundant_MatDenseVecSeq]: every rank overwrites its rows of y. *)
Fixpoint multiply_redundant (ms : list nat) (start k : nat) (Q : nat -> nat -> R) (rc y : nat -> R) : nat -> R :=
  match ms with
  | [] => y
  | m :: ms' =>
    multiply_redundant ms' (start + m) k Q rc
      (fun i => if ((start <=? i) && (i <? start + m))%nat%bool then rsum k (fun j => Q j i * rc j) else y i)
  end.
(** eigdeflate.c:22-77 [PCApply_eigdeflate]; [smooth t b x] are t iterations of the smoother for A u = b from x. *)
Definition PCApply_eigdeflate (N : nat) (ms : list nat) (A : nat -> nat -> R) (smooth : nat -> (nat -> R) -> (nat -> R) -> nat -> R)
  (npre npost : nat) (ed : eigdeflate) (x : nat -> R) : nat -> R :=
  let y := fun _ => 0 in
  let '(y, r) :=
    if (0 <? npre)%nat then
      let y := smooth npre x y in
      (y, fun i => x i + -1 * mat_vec N A y i)
    else (y, x) in
  let rc := fun j => allreduce_product ms 0 (ed_Q ed j) r in
  let rc := fun j => rc j / ed_eigs ed j in
  let y := multiply_redundant ms 0 (ed_nev ed) (ed_Q ed) rc y in
  if (0 <? npost)%nat then smooth npost x y else y.

(** ** Life cycle: which of the vectors r and rc and the matrix Q exist *)
Record ed_objects := { have_Q : bool; have_r : bool; have_rc : bool }.
(** eigdeflate.c:227-266 [PCCreate_eigdeflate]. *)
Definition ed_create : ed_objects := {| have_Q := false; have_r := false; have_rc := false |}.
(** eigdeflate.c:99-128: Q is created; r and rc are created if neither exists. *)
Definition ed_setup (s : ed_objects) : ed_objects :=
  if (negb (have_rc s) && negb (have_r s))%bool then {| have_Q := true; have_r := true; have_rc := true |}
  else {| have_Q := true; have_r := have_r s; have_rc := have_rc s |}.
(** eigdeflate.c:147-156 [PCReset_eigdeflate]. *)
Definition ed_reset (s : ed_objects) : ed_objects := {| have_Q := false; have_r := false; have_rc := have_rc s |}.
(** eigdeflate.c:22-77: whether an application finds the objects it uses. *)
Definition ed_apply (npre : nat) (s : ed_objects) : bool :=
  (have_Q s && have_rc s && (if (0 <? npre)%nat then have_r s else true))%bool.
