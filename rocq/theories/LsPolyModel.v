(** Models app/pc/lspoly.c, the least squares polynomial smoother (a PETSc KSP).  PetscReal is modelled by the real numbers
    (no rounding, no NaN: KSPCheckNorm never fires), vectors by functions from indices below [N], the operator and the
    preconditioner by matrices (both are linear). *)
Require Import List Arith ZArith Reals.
Require Import Verif.LinAlg.
Import ListNotations.
Local Open Scope R_scope.

(** lspoly.c:16-21 [ResidualP]. *)
Record ResidualP := { rp_alpha : R; rp_beta : R; rp_emax : R; rp_P0n_1 : R; rp_P0n : R; rp_n : Z }.
(** lspoly.c:23-30 [ResidualP_Init]. *)
Definition ResidualP_Init (alpha beta emax : R) : ResidualP :=
  {| rp_alpha := alpha; rp_beta := beta + 1; rp_emax := emax; rp_P0n_1 := 1; rp_P0n := 1; rp_n := -1 |}.
(** lspoly.c:37-74 [ResidualP_Next]: the new state, and psi, phi, xi. *)
Definition ResidualP_Next (rp : ResidualP) : ResidualP * (R * R * R) :=
  let a := rp_alpha rp in
  let b := rp_beta rp in
  let nz := (rp_n rp + 1)%Z in
  let n := IZR nz in
  let n2ab := 2 * n + a + b in
  let tmp := 2 * (n + 1) * (n + a + b + 1) in
  let psi0 := if Req_EM_T (Rabs a) (Rabs b) then 0 else (n2ab + 1) * (a * a - b * b) / (tmp * n2ab) in
  let phi0 := (n2ab + 1) * (n2ab + 2) / tmp in
  let xi0 := if (0 <? nz)%Z then 2 * (n + a) * (n + b) * (n2ab + 2) / (tmp * n2ab) else 0 in
  let psi0 := psi0 - phi0 in
  let phi0 := 2 * phi0 / rp_emax rp in
  let tmp := psi0 - xi0 * rp_P0n_1 rp / rp_P0n rp in
  let psi := psi0 / tmp in
  let phi := phi0 / tmp in
  let tmp := psi0 * rp_P0n rp / rp_P0n_1 rp - xi0 in
  let xi := xi0 / tmp in
  let P0n1 := psi0 * rp_P0n rp - xi0 * rp_P0n_1 rp in
  ({| rp_alpha := a; rp_beta := b; rp_emax := rp_emax rp; rp_P0n_1 := rp_P0n rp; rp_P0n := P0n1; rp_n := nz |},
   (psi, phi, xi)).

(** lspoly.c:92-107 [KSPLSPolyComputeExtremeEigenvalues_Private]; [re] are the real parts KSPComputeEigenvalues returns,
    [min_real] is PETSC_MIN_REAL. *)
Definition extreme_eigenvalue (min_real : R) (re : list R) : R := fold_left Rmax re min_real.

(** KSPNormType; KSP_NORM_NATURAL is treated as unpreconditioned. *)
Inductive normtype := NORM_NONE | NORM_PRECONDITIONED | NORM_UNPRECONDITIONED | NORM_NATURAL.
Definition has_norm (nt : normtype) : bool := match nt with NORM_NONE => false | _ => true end.
Definition norm2 (N : nat) (v : nat -> R) : R := sqrt (rsum N (fun i => v i * v i)).

(** The members of KSP_LSPoly (lspoly.c:7-13) and of KSP that [KSPSolve_LSPoly] reads; [c_converged] is the convergence
    test (iteration, norm), 0 for KSP_CONVERGED_ITERATING. *)
Record lspoly_config := { c_alpha : R; c_beta : R; c_emax : R; c_estbias : R; c_max_it : nat; c_normtype : normtype;
                          c_converged : nat -> R -> Z; c_diagonalscale : bool }.
(** What it leaves in the KSP: x, delta, the number of iterations, the residual norm and the reason. *)
Record ksp_state := { ks_x : nat -> R; ks_delta : nat -> R; ks_rp : ResidualP; ks_its : nat; ks_rnorm : R; ks_reason : Z }.
Definition KSP_DIVERGED_ITS : Z := (-3)%Z.
Definition KSP_CONVERGED_ITS : Z := 4%Z.

Section LSPoly.
Variable N : nat.
Variables Amat Bmat : nat -> nat -> R.  (* the operator, and the application of the preconditioner *)
Variable cfg : lspoly_config.
Variable b : nat -> R.

(** lspoly.c:232-234: r = b - Ax.  The branch at :230 is taken for a null pointer x only, that is, never. *)
Definition compute_residual (x : nat -> R) : nat -> R := fun i => b i + -1 * mat_vec N Amat x i.
(** lspoly.c:242-253 and :279-292. *)
Definition residual_norm (r r_pre : nat -> R) : R :=
  match c_normtype cfg with
  | NORM_PRECONDITIONED => norm2 N r_pre
  | NORM_UNPRECONDITIONED | NORM_NATURAL => norm2 N r
  | NORM_NONE => 0
  end.
(** lspoly.c:223-268, the loop: [fuel] iterations are left, [i] is the loop variable. *)
Fixpoint lspoly_loop (fuel i : nat) (st : ksp_state) : ksp_state :=
  match fuel with
  | O => st
  | S fuel' =>
    let its := S (ks_its st) in
    let r := compute_residual (ks_x st) in
    let r_pre := mat_vec N Bmat r in
    let rnorm := if has_norm (c_normtype cfg) then residual_norm r r_pre else ks_rnorm st in
    let reason := if has_norm (c_normtype cfg) then c_converged cfg i rnorm else ks_reason st in
    if (reason =? 0)%Z then
      let '(rp, (psi, phi, xi)) := ResidualP_Next (ks_rp st) in
      let delta := fun i => - phi * r_pre i + xi * ks_delta st i in
      let x := fun i => ks_x st i + 1 * delta i in
      lspoly_loop fuel' (S i) {| ks_x := x; ks_delta := delta; ks_rp := rp; ks_its := its; ks_rnorm := rnorm; ks_reason := reason |}
    else {| ks_x := ks_x st; ks_delta := ks_delta st; ks_rp := ks_rp st; ks_its := its; ks_rnorm := rnorm; ks_reason := reason |}
  end.
(** lspoly.c:191-317 [KSPSolve_LSPoly] with the initial guess x; ksp->reason is KSP_CONVERGED_ITERATING on entry (set by
    KSPSolve), ksp->rnorm is [rnorm0].  None: the error for a preconditioner with diagonal scaling. *)
Definition KSPSolve_LSPoly (rnorm0 : R) (x : nat -> R) : option ksp_state :=
  if c_diagonalscale cfg then None
  else
    let st := lspoly_loop (c_max_it cfg) 0
      {| ks_x := x; ks_delta := fun _ => 0; ks_rp := ResidualP_Init (c_alpha cfg) (c_beta cfg) (c_estbias cfg * c_emax cfg);
         ks_its := 0; ks_rnorm := rnorm0; ks_reason := 0 |} in
    Some (if (ks_reason st =? 0)%Z then
      let r := compute_residual (ks_x st) in
      let r_pre := mat_vec N Bmat r in
      let rnorm := if has_norm (c_normtype cfg) then residual_norm r r_pre else ks_rnorm st in
      let reason :=
        if (c_max_it cfg <=? ks_its st)%nat then
          if has_norm (c_normtype cfg) then
            let reason := c_converged cfg (c_max_it cfg) rnorm in
            if (reason =? 0)%Z then KSP_DIVERGED_ITS else reason
          else KSP_CONVERGED_ITS
        else ks_reason st in
      {| ks_x := ks_x st; ks_delta := ks_delta st; ks_rp := ks_rp st; ks_its := ks_its st; ks_rnorm := rnorm; ks_reason := reason |}
    else st).
End LSPoly.
