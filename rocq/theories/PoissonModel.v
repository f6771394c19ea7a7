(** Models the Poisson local operator: app/localoperator/Poisson.{h,cpp} and its kernels
    app/kernels/poisson.py.  Arithmetic is exact.  A block vector is a function of the basis function
    number, a block matrix of two; arrays are functions of their indices.  Tensors that the code keeps
    in several layouts (E_q, E_q_T, negative_E_q_T; Dxi_q, Dxi_q_120) are one function here
    (Poisson.cpp:35-52). *)
Require Import List Arith Bool Reals.
Require Import Verif.Base Verif.LinAlg Verif.TopoModel Verif.AssembleModel Verif.ApplyModel.
Import ListNotations.
Local Open Scope R_scope.

(** src/form/BC.h:6: None, Natural, Fault, Dirichlet. *)
Definition BC_None : nat := 0. Definition BC_Natural : nat := 1. Definition BC_Fault : nat := 3. Definition BC_Dirichlet : nat := 5.
(** src/form/DGCurvilinearCommon.h:25 [DGMethod]. *)
Inductive dg_method := IP | BR2.

(** What the operator holds after preparation (Poisson.h:127-182, DGCurvilinearCommon.h). *)
Record pdata := {
  p_dim : nat;   (* dimension of the domain *)
  p_N : nat;     (* basis functions per element *)
  p_Nq : nat;    (* quadrature points of an element *)
  p_nq : nat;    (* quadrature points of a facet *)
  p_method : dg_method;
  (* reference element *)
  p_W : nat -> R;                       (* volume weights, q *)
  p_w : nat -> R;                       (* facet weights, q *)
  p_EQ : nat -> nat -> R;               (* E_Q, k q *)
  p_DxiQ : nat -> nat -> nat -> R;      (* Dxi_Q, k e q *)
  p_matEQ : nat -> nat -> R;            (* matE_Q_T, q m *)
  p_E : nat -> nat -> nat -> R;         (* E_q[f], f k q *)
  p_Dxi : nat -> nat -> nat -> nat -> R;(* Dxi_q[f], f k e q *)
  p_matE : nat -> nat -> nat -> R;      (* matE_q_T[f], f q m *)
  p_MinvRef : nat -> nat -> R;          (* Minv_ *)
  (* elements *)
  p_J : nat -> nat -> R;                (* AbsDetJ, el q *)
  p_GQ : nat -> nat -> nat -> nat -> R; (* JInv, el e i q *)
  p_K : nat -> nat -> R;                (* material K, el m *)
  (* facets *)
  p_n : nat -> nat -> nat -> R;         (* Normal, fct i q *)
  p_nu : nat -> nat -> nat -> R;        (* UnitNormal, fct i q *)
  p_nl : nat -> nat -> R;               (* NormalLength, fct q *)
  p_G0 : nat -> nat -> nat -> nat -> R; (* JInv0, fct e i q *)
  p_G1 : nat -> nat -> nat -> nat -> R; (* JInv1, fct e i q *)
  p_pen : nat -> R;                     (* penalty_ *)
  (* data: force (el q), Dirichlet values and slip (fct, on the boundary?, q) *)
  p_force : nat -> nat -> R;
  p_dir : nat -> bool -> nat -> R;
  p_slip : nat -> bool -> nat -> R }.

(** Poisson.h:185. *)
Definition epsilon : R := -1.

Section Operator.
Variable P : pdata.
Local Notation N := (p_N P). Local Notation dim := (p_dim P). Local Notation nq := (p_nq P). Local Notation Nq := (p_Nq P).
Local Notation w := (p_w P).

(** Poisson.h:113-118; NumFacets is dim + 1. *)
Definition penalty (fct : nat) : R := match p_method P with BR2 => INR (dim + 1) | IP => p_pen P fct end.

(** kernels/poisson.py:22-24 massMatrix and MinvWA; Poisson.cpp:69-85. *)
Definition inverse_mass (el k l : nat) : R :=
  rsum N (fun r => rsum N (fun s => rsum Nq (fun q =>
    p_MinvRef P k r * p_W P q * (1 / p_J P el q) * p_EQ P r q * p_EQ P s q * p_MinvRef P s l))).

(** The kernel K_Dx_q (poisson.py:52) on one side of a facet: material of element [el], inverse
    Jacobian [G], the element's local facet [f]. *)
Definition K_Dx (el : nat) (G : nat -> nat -> nat -> R) (f k i q : nat) : R :=
  rsum N (fun m => rsum dim (fun e => p_K P el m * p_matE P f q m * G e i q * p_Dxi P f k e q)).
(** Poisson.cpp:87-101 [compute_K_Dx_q]. *)
Definition compute_K_Dx (fct : nat) (x : facet_info) (side : nat) : nat -> nat -> nat -> R :=
  match side with
  | O => K_Dx (fi_up0 x) (p_G0 P fct) (fi_local0 x)
  | _ => K_Dx (fi_up1 x) (p_G1 P fct) (fi_local1 x)
  end.
(** The kernel K_q, Poisson.cpp:103-113 [compute_K_q]. *)
Definition compute_K_q (x : facet_info) (side q : nat) : R :=
  match side with
  | O => rsum N (fun m => p_K P (fi_up0 x) m * p_matE P (fi_local0 x) q m)
  | _ => rsum N (fun m => p_K P (fi_up1 x) m * p_matE P (fi_local1 x) q m)
  end.
Definition E_side (x : facet_info) (side : nat) : nat -> nat -> R :=
  p_E P (match side with O => fi_local0 x | _ => fi_local1 x end).
Definition up_side (x : facet_info) (side : nat) : nat := match side with O => fi_up0 x | _ => fi_up1 x end.

(** * Assembly *)
(** Poisson.cpp:225-249 with the kernels Dx_Q and assembleVolume. *)
Definition Dx_Q (el k i q : nat) : R := rsum dim (fun e => p_GQ P el e i q * p_DxiQ P k e q).
Definition assemble_volume (el : nat) : nat -> nat -> R := fun k l =>
  rsum Nq (fun q => rsum N (fun m => rsum dim (fun i =>
    p_J P el q * p_W P q * p_K P el m * p_matEQ P q m * Dx_Q el k i q * Dx_Q el l i q))).

(** lift_ip *)
Definition lift_ip (fct : nat) (E : nat -> nat -> R) (l q : nat) : R := E l q * p_nl P fct q.
(** lift_skeleton: Lift[s] and L_q[y]. *)
Definition Lift (c : R) (fct : nat) (x : facet_info) (s y l i u : nat) : R :=
  rsum N (fun t => rsum nq (fun q =>
    c * inverse_mass (up_side x s) u t * E_side x s t q * E_side x y l q * p_n P fct i q * w q)).
Definition lift_skeleton (fct : nat) (x : facet_info) (y l q : nat) : R :=
  rsum dim (fun i => (1 / 2) * p_n P fct i q *
    (rsum N (fun u => compute_K_q x 0 q * E_side x 0 u q * Lift (1 / 2) fct x 0 y l i u) +
     rsum N (fun u => compute_K_q x 1 q * E_side x 1 u q * Lift (1 / 2) fct x 1 y l i u))).
(** lift_boundary *)
Definition lift_boundary (fct : nat) (x : facet_info) (l q : nat) : R :=
  rsum dim (fun i => rsum N (fun u => p_n P fct i q * compute_K_q x 0 q * E_side x 0 u q * Lift 1 fct x 0 0 l i u)).

(** assembleSurface (poisson.py:70-73), block (a, b). *)
Definition surface (fct : nat) (c0 c1 c2 : R) (KDa KDb : nat -> nat -> nat -> R) (Ea Eb Lb : nat -> nat -> R) : nat -> nat -> R := fun k l =>
  rsum nq (fun q => rsum dim (fun i => c0 * w q * KDa k i q * p_n P fct i q * Eb l q)) +
  rsum nq (fun q => rsum dim (fun i => c1 * w q * KDb l i q * p_n P fct i q * Ea k q)) +
  rsum nq (fun q => c2 * w q * Ea k q * Lb l q).

(** Poisson.cpp:251-329. *)
Definition assemble_skeleton (fct : nat) (x : facet_info) :=
  let L y := match p_method P with BR2 => lift_skeleton fct x y | IP => lift_ip fct (E_side x y) end in
  let c00 := - (1 / 2) in let c01 := - c00 in
  let c10 := epsilon * (1 / 2) in let c11 := - c10 in
  let c20 := penalty fct in let c21 := - c20 in
  let KD := compute_K_Dx fct x in let E := E_side x in
  (surface fct c00 c10 c20 (KD 0%nat) (KD 0%nat) (E 0%nat) (E 0%nat) (L 0%nat),
   surface fct c01 c10 c21 (KD 0%nat) (KD 1%nat) (E 0%nat) (E 1%nat) (L 1%nat),
   surface fct c00 c11 c21 (KD 1%nat) (KD 0%nat) (E 1%nat) (E 0%nat) (L 0%nat),
   surface fct c01 c11 c20 (KD 1%nat) (KD 1%nat) (E 1%nat) (E 1%nat) (L 1%nat)).

(** Poisson.cpp:331-385. *)
Definition assemble_boundary (fct : nat) (x : facet_info) : option (nat -> nat -> R) :=
  if fi_bc x =? BC_Natural then None else
  let L := match p_method P with BR2 => lift_boundary fct x | IP => lift_ip fct (E_side x 0) end in
  let KD := compute_K_Dx fct x 0 in
  Some (surface fct (- 1) epsilon (penalty fct) KD KD (E_side x 0) (E_side x 0) L).

(** The operator as DGOperator::assemble calls it. *)
Definition poisson_mat : mat_lop (nat -> nat -> R) := {|
  a_volume := fun el => Some (assemble_volume el);
  a_skeleton := fun fct x => Some (assemble_skeleton fct x);
  a_boundary := assemble_boundary;
  a_post := fun _ => None |}.

(** * Right-hand side *)
(** Poisson.cpp:387-404 and the kernel rhsVolume. *)
Definition rhs_volume (el : nat) : nat -> R := fun k =>
  rsum Nq (fun q => p_J P el q * p_W P q * p_EQ P k q * p_force P el q).
(** Poisson.cpp:406-417 [bc_skeleton]; [None]: returns false. *)
Definition bc_skeleton (fct bc : nat) : option (nat -> R) :=
  if bc =? BC_Fault then Some (p_slip P fct false)
  else if bc =? BC_Dirichlet then Some (p_dir P fct false) else None.
(** Poisson.cpp:418-432 [bc_boundary]. *)
Definition bc_boundary (fct bc : nat) : option (nat -> R) :=
  if bc =? BC_Fault then Some (fun q => p_slip P fct true q * (1 / 2))
  else if bc =? BC_Dirichlet then Some (p_dir P fct true) else None.
(** rhs_lift_ip, rhs_lift_skeleton, rhs_lift_boundary (poisson.py:85-99). *)
Definition rhs_lift_ip (fct : nat) (f : nat -> R) (q : nat) : R := p_nl P fct q * f q.
Definition f_lifted (c : R) (fct : nat) (x : facet_info) (f : nat -> R) (s l i : nat) : R :=
  rsum N (fun t => rsum nq (fun q => c * inverse_mass (up_side x s) l t * E_side x s t q * f q * w q * p_n P fct i q)).
Definition rhs_lift_skeleton (fct : nat) (x : facet_info) (f : nat -> R) (q : nat) : R :=
  rsum dim (fun i => (1 / 2) * p_n P fct i q *
    (rsum N (fun l => compute_K_q x 0 q * E_side x 0 l q * f_lifted (1 / 2) fct x f 0 l i) +
     rsum N (fun l => compute_K_q x 1 q * E_side x 1 l q * f_lifted (1 / 2) fct x f 1 l i))).
Definition rhs_lift_boundary (fct : nat) (x : facet_info) (f : nat -> R) (q : nat) : R :=
  rsum dim (fun i => rsum N (fun l => p_n P fct i q * compute_K_q x 0 q * E_side x 0 l q * f_lifted 1 fct x f 0 l i)).
(** rhsFacet (poisson.py:101-103): what is added to b. *)
Definition rhs_facet_kernel (fct : nat) (c1 c2 : R) (KD : nat -> nat -> nat -> R) (E : nat -> nat -> R) (f fl : nat -> R) : nat -> R := fun k =>
  rsum nq (fun q => rsum dim (fun i => c1 * w q * KD k i q * p_n P fct i q * f q)) +
  rsum nq (fun q => c2 * w q * E k q * fl q).
(** Poisson.cpp:434-498. *)
Definition rhs_skeleton (fct : nat) (x : facet_info) : option ((nat -> R) * (nat -> R)) :=
  match bc_skeleton fct (fi_bc x) with
  | None => None
  | Some f =>
      let fl := match p_method P with BR2 => rhs_lift_skeleton fct x f | IP => rhs_lift_ip fct f end in
      let c10 := (1 / 2) * epsilon in
      let c20 := penalty fct in
      Some (rhs_facet_kernel fct c10 c20 (compute_K_Dx fct x 0) (E_side x 0) f fl,
            rhs_facet_kernel fct c10 (c20 * - 1) (compute_K_Dx fct x 1) (E_side x 1) f fl)
  end.
(** Poisson.cpp:500-549. *)
Definition rhs_boundary (fct : nat) (x : facet_info) : option (nat -> R) :=
  match bc_boundary fct (fi_bc x) with
  | None => None
  | Some f =>
      let fl := match p_method P with BR2 => rhs_lift_boundary fct x f | IP => rhs_lift_ip fct f end in
      Some (rhs_facet_kernel fct epsilon (penalty fct) (compute_K_Dx fct x 0) (E_side x 0) f fl)
  end.
(** The operator as DGOperator::rhs calls it. *)
Definition poisson_vec : vec_lop (nat -> R) := {|
  r_volume := fun el => Some (rhs_volume el);
  r_skeleton := rhs_skeleton; r_boundary := rhs_boundary; r_post := fun _ => None |}.

(** * Matrix-free application *)
(** The kernel K_G_q (poisson.py:121), Poisson.cpp:167-193: KJInv0 and KJInv1 of facet [fct], whose
    record is [x]. *)
Definition K_G (fct : nat) (x : facet_info) (side e i q : nat) : R :=
  match side with
  | O => rsum N (fun m => p_K P (fi_up0 x) m * p_matE P (fi_local0 x) q m * p_G0 P fct e i q)
  | _ => rsum N (fun m => p_K P (fi_up1 x) m * p_matE P (fi_local1 x) q m * p_G1 P fct e i q)
  end.
(** The kernel J_W_K_Q (poisson.py:120), Poisson.cpp:195-207. *)
Definition J_W_K (el q : nat) : R := rsum N (fun m => p_J P el q * p_W P q * p_K P el m * p_matEQ P q m).
(** apply_volume (poisson.py:133-136). *)
Definition apply_volume (el : nat) (U : nat -> R) : nat -> R := fun k =>
  rsum Nq (fun q => rsum dim (fun r => rsum N (fun l => J_W_K el q * Dx_Q el k r q * Dx_Q el l r q * U l))).
(** flux_u_skeleton, flux_u_boundary (poisson.py:123-125). *)
Definition flux_u_skeleton (E0 E1 : nat -> nat -> R) (U Uext : nat -> R) (q : nat) : R :=
  (1 / 2) * (rsum N (fun l => - E0 l q * U l) + rsum N (fun l => E1 l q * Uext l)).
Definition flux_u_boundary (E0 : nat -> nat -> R) (U : nat -> R) (q : nat) : R := rsum N (fun l => - E0 l q * U l).
(** flux_sigma_skeleton, flux_sigma_boundary (poisson.py:126-132). *)
Definition flux_sigma_skeleton (c00 : R) (KG0 KG1 : nat -> nat -> nat -> R) (f0 f1 : nat) (nu : nat -> nat -> R) (U Uext : nat -> R) (p q : nat) : R :=
  (1 / 2) * (rsum dim (fun e => rsum N (fun l => KG0 e p q * p_Dxi P f0 l e q * U l)) +
         rsum dim (fun e => rsum N (fun l => KG1 e p q * p_Dxi P f1 l e q * Uext l))) +
  c00 * (rsum N (fun l => p_E P f0 l q * U l) + rsum N (fun l => - p_E P f1 l q * Uext l)) * nu p q.
Definition flux_sigma_boundary (c00 : R) (KG0 : nat -> nat -> nat -> R) (f0 : nat) (nu : nat -> nat -> R) (U : nat -> R) (p q : nat) : R :=
  rsum dim (fun e => rsum N (fun l => KG0 e p q * p_Dxi P f0 l e q * U l)) +
  rsum N (fun l => c00 * p_E P f0 l q * U l * nu p q).
(** apply_facet (poisson.py:137-140): what is added to U_new. *)
Definition apply_facet (n : nat -> nat -> R) (KG0 : nat -> nat -> nat -> R) (f : nat) (u_hat : nat -> R) (sigma_hat : nat -> nat -> R) : nat -> R := fun k =>
  rsum nq (fun q => rsum dim (fun r => w q * n r q *
    (rsum dim (fun e => u_hat q * KG0 e r q * p_Dxi P f k e q) - p_E P f k q * sigma_hat r q))).

(** Poisson.cpp:566-642: one pass of the loop over the element's facets; [fi] are the facet records
    the preparation was done with.  Result: what is added to y_0.  [None]: the facet has no record. *)
Definition apply_side (fi : list facet_info) (el f : nat) (s : side_info) (x0 xn : nat -> R) : option (nat -> R) :=
  let is_skeleton := negb (el =? si_lid s) in
  let fault_or_dirichlet := (si_bc s =? BC_Fault) || (si_bc s =? BC_Dirichlet) in
  let fct := si_fct s in
  match nth_error fi fct with
  | None => None
  | Some x =>
      let flip := is_skeleton && (si_side s =? 1) in
      let KG0 := if flip then K_G fct x 1 else K_G fct x 0 in
      let KG1 := if flip then K_G fct x 0 else K_G fct x 1 in
      let n := if flip then (fun i q => - p_n P fct i q) else p_n P fct in
      let nu := if flip then (fun i q => - p_nu P fct i q) else p_nu P fct in
      if (si_bc s =? BC_None) || (is_skeleton && fault_or_dirichlet) then
        Some (apply_facet n KG0 f (flux_u_skeleton (p_E P f) (p_E P (si_local s)) x0 xn)
                (flux_sigma_skeleton (- penalty fct) KG0 KG1 f (si_local s) nu x0 xn))
      else if fault_or_dirichlet then
        Some (apply_facet n KG0 f (flux_u_boundary (p_E P f) x0) (flux_sigma_boundary (- penalty fct) KG0 f nu x0))
      else Some (fun _ => 0)
  end.
Fixpoint apply_sides (fi : list facet_info) (el f : nat) (sl : list side_info) (x0 : nat -> R) (xn : list (nat -> R)) (y : nat -> R) : option (nat -> R) :=
  match sl, xn with
  | s :: st, u :: ut =>
      match apply_side fi el f s x0 u with
      | None => None
      | Some d => apply_sides fi el (f + 1) st x0 ut (fun k => y k + d k)
      end
  | [], _ => Some y
  | _ :: _, [] => None
  end.
(** Poisson.cpp:551-644 [apply]; the previous contents of y_0 are overwritten by apply_volume. *)
Definition poisson_apply (fi : list facet_info) (el : nat) (sl : list side_info) (x0 : nat -> R) (xn : list (nat -> R)) : option (nat -> R) :=
  apply_sides fi el 0 sl x0 xn (apply_volume el x0).
(** As DGOperator::apply_ calls it.  Reading a facet that has no record is left out (the result is
    then arbitrary); [poisson_apply_defined] shows that it does not happen. *)
Definition poisson_op (fi : list facet_info) : local_op (nat -> R) := fun el sl x0 xn y0 =>
  match poisson_apply fi el sl x0 xn with Some y => y | None => y0 end.

(** * Traction *)
(** grad_u (poisson.py:146-148) and Poisson.cpp:678-701.  If bc_skeleton returns false, f_q is
    uninitialised: [None]. *)
Definition traction_skeleton (fct : nat) (x : facet_info) (u0 u1 : nat -> R) : option (nat -> nat -> R) :=
  match bc_skeleton fct (fi_bc x) with
  | None => None
  | Some f => Some (fun p q =>
      (1 / 2) * (rsum N (fun l => compute_K_Dx fct x 0 l p q * u0 l) + rsum N (fun l => compute_K_Dx fct x 1 l p q * u1 l)) +
      - penalty fct * (rsum N (fun l => E_side x 0 l q * u0 l) - rsum N (fun l => E_side x 1 l q * u1 l) - f q) * p_nu P fct p q)
  end.
(** grad_u_bnd (poisson.py:150-152) and Poisson.cpp:703-722. *)
Definition traction_boundary (fct : nat) (x : facet_info) (u0 : nat -> R) : option (nat -> nat -> R) :=
  match bc_boundary fct (fi_bc x) with
  | None => None
  | Some f => Some (fun p q =>
      rsum N (fun l => compute_K_Dx fct x 0 l p q * u0 l) +
      - penalty fct * (rsum N (fun l => E_side x 0 l q * u0 l) - f q) * p_nu P fct p q)
  end.
End Operator.
