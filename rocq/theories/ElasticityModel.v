(** Models the local operator of linear elasticity: app/localoperator/Elasticity.{h,cpp} and its
    kernels app/kernels/elasticity.py.  Arithmetic is exact.  A block vector is flat: component p of
    basis function k is entry k + N p (tensor U of shape (Nbf, dim), column major, without padding);
    a block matrix has two such indices.  Tensors kept in several layouts (E_q, E_q_T, negative_E_q;
    Dxi_q, Dxi_q_120; g, G_q_T) are one function here (Elasticity.cpp:30-64, :177-187). *)
Require Import List Arith Bool Reals.
Require Import Verif.Base Verif.LinAlg Verif.TopoModel Verif.AssembleModel Verif.ApplyModel Verif.PoissonModel Verif.PenaltyModel.
Import ListNotations.
Local Open Scope R_scope.

(** What the operator holds after preparation (Elasticity.h:146-243).  Reference element, geometry,
    penalty and method are those of DGCurvilinearCommon as for Poisson; the scalar coefficient, force
    and boundary data of [e_geo] are not used. *)
Record edata := {
  e_geo : pdata;
  e_lam : nat -> nat -> R;     (* material: lam, el m *)
  e_mu : nat -> nat -> R;      (* mu *)
  e_rhoInv : nat -> nat -> R;  (* rhoInv *)
  e_Minv : nat -> nat -> nat -> R;  (* compute_inverse_mass_matrix, el k l *)
  e_force : option (nat -> nat -> nat -> R);         (* fun_force, el p q *)
  e_dir : option (nat -> bool -> nat -> nat -> R);   (* fun_dirichlet, fct boundary p q *)
  e_slip : option (nat -> bool -> nat -> nat -> R)   (* fun_slip *) }.

(** The tensor delta (elasticity.py:30). *)
Definition delta (i j : nat) : R := if i =? j then 1 else 0.

Section Operator.
Variable E : edata.
Local Notation P := (e_geo E).
Local Notation N := (p_N P). Local Notation dim := (p_dim P). Local Notation nq := (p_nq P). Local Notation Nq := (p_Nq P).
Local Notation w := (p_w P).

(** Flat index and its parts. *)
Definition ix (k p : nat) : nat := (k + N * p)%nat.
Definition bf (K : nat) : nat := (K mod N)%nat.
Definition cp (K : nat) : nat := (K / N)%nat.
(** Elasticity.h:43 [block_size]. *)
Definition block_size : nat := (N * dim)%nat.

(** massMatrix (elasticity.py:34), Elasticity.cpp:66-73; FullPivLU inverts it (:75-84): see [e_Minv]. *)
Definition mass_matrix (el k l : nat) : R := rsum Nq (fun q => p_EQ P k q * p_W P q * p_J P el q * p_EQ P l q).

(** precomputeVolume (elasticity.py:44-48), Elasticity.cpp:227-253. *)
Definition lam_W_J (el q : nat) : R := rsum N (fun t => p_matEQ P q t * e_lam E el t) * p_W P q * p_J P el q.
Definition mu_W_J (el q : nat) : R := rsum N (fun t => p_matEQ P q t * e_mu E el t) * p_W P q * p_J P el q.
Definition negative_rhoInv_W_Jinv (el q : nat) : R := rsum N (fun t => - p_matEQ P q t * e_rhoInv E el t) * p_W P q * (1 / p_J P el q).

(** precomputeSurface (elasticity.py:85-88), Elasticity.cpp:189-225. *)
Definition local_side (x : facet_info) (side : nat) : nat := match side with O => fi_local0 x | _ => fi_local1 x end.
Definition lam_q (x : facet_info) (side q : nat) : R := rsum N (fun t => p_matE P (local_side x side) q t * e_lam E (up_side x side) t).
Definition mu_q (x : facet_info) (side q : nat) : R := rsum N (fun t => p_matE P (local_side x side) q t * e_mu E (up_side x side) t).
(** JInv0 and JInv1. *)
Definition G_side (fct side : nat) : nat -> nat -> nat -> R := match side with O => p_G0 P fct | _ => p_G1 P fct end.
(** The kernel Dx_q (elasticity.py:103-104). *)
Definition Dx_q (G : nat -> nat -> nat -> R) (f k i q : nat) : R := rsum dim (fun e => G e i q * p_Dxi P f k e q).
Definition Dx_side (fct : nat) (x : facet_info) (side : nat) : nat -> nat -> nat -> R := Dx_q (G_side fct side) (local_side x side).

(** * Assembly *)
(** assembleVolume (elasticity.py:55-56), Elasticity.cpp:317-340. *)
Definition assemble_volume (el : nat) : nat -> nat -> R := fun K L =>
  let k := bf K in let p := cp K in let l := bf L in let u := cp L in
  rsum Nq (fun q => lam_W_J el q * Dx_Q P el l u q * Dx_Q P el k p q +
    mu_W_J el q * rsum dim (fun j => Dx_Q P el k j q * (Dx_Q P el l j q * delta p u + Dx_Q P el l p q * delta j u))).

(** assembleTractionOp (elasticity.py:138-140). *)
Definition traction_op (n : nat -> nat -> R) (lam mu : nat -> R) (Dx : nat -> nat -> nat -> R) (k p u q : nat) : R :=
  lam q * Dx k p q * n u q + mu q * (rsum dim (fun j => n j q * Dx k j q) * delta p u + Dx k u q * n p q).
Definition traction_op_side (fct : nat) (x : facet_info) (side : nat) : nat -> nat -> nat -> nat -> R :=
  traction_op (p_n P fct) (lam_q x side) (mu_q x side) (Dx_side fct x side).
(** test_normal (elasticity.py:119-121). *)
Definition test_normal (fct : nat) (x : facet_info) (side u s i q : nat) : R :=
  lam_q x side q * delta u s * p_n P fct i q + mu_q x side q * (delta i u * p_n P fct s q + delta i s * p_n P fct u q).
(** lift_ip, lift_skeleton, lift_boundary (elasticity.py:123-136). *)
Definition lift_ip (fct : nat) (Eb : nat -> nat -> R) (l p u q : nat) : R := Eb l q * delta p u * p_nl P fct q.
Definition Lift (c : R) (fct : nat) (x : facet_info) (s y l i m : nat) : R :=
  rsum N (fun o => rsum nq (fun q => c * e_Minv E (up_side x s) m o * w q * E_side P x s o q * E_side P x y l q * p_n P fct i q)).
Definition lift_skeleton (fct : nat) (x : facet_info) (y l i u q : nat) : R :=
  (1 / 2) * (rsum dim (fun s => rsum N (fun m => test_normal fct x 0 u s i q * E_side P x 0 m q * Lift (1 / 2) fct x 0 y l s m)) +
             rsum dim (fun s => rsum N (fun m => test_normal fct x 1 u s i q * E_side P x 1 m q * Lift (1 / 2) fct x 1 y l s m))).
Definition lift_boundary (fct : nat) (x : facet_info) (l i u q : nat) : R :=
  rsum dim (fun s => rsum N (fun m => test_normal fct x 0 u s i q * E_side P x 0 m q * Lift 1 fct x 0 0 l s m)).

(** assembleSurface (elasticity.py:142-146), block (x, y). *)
Definition surface (c0 c1 c2 : R) (Ea Eb : nat -> nat -> R) (Ta Tb Lb : nat -> nat -> nat -> nat -> R) : nat -> nat -> R := fun K L =>
  let k := bf K in let p := cp K in let l := bf L in let u := cp L in
  rsum nq (fun q => c0 * Ea k q * w q * Tb l u p q) +
  rsum nq (fun q => c1 * Eb l q * w q * Ta k p u q) +
  rsum nq (fun q => c2 * w q * Ea k q * Lb l p u q).

(** Elasticity.cpp:342-447. *)
Definition assemble_skeleton (fct : nat) (x : facet_info) :=
  let L y := match p_method P with BR2 => lift_skeleton fct x y | IP => lift_ip fct (E_side P x y) end in
  let c00 := - (1 / 2) in let c01 := - c00 in
  let c10 := epsilon * (1 / 2) in let c11 := - c10 in
  let c20 := penalty P fct in let c21 := - c20 in
  let T := traction_op_side fct x in let B := E_side P x in
  (surface c00 c10 c20 (B 0%nat) (B 0%nat) (T 0%nat) (T 0%nat) (L 0%nat),
   surface c00 c11 c21 (B 0%nat) (B 1%nat) (T 0%nat) (T 1%nat) (L 1%nat),
   surface c01 c10 c21 (B 1%nat) (B 0%nat) (T 1%nat) (T 0%nat) (L 0%nat),
   surface c01 c11 c20 (B 1%nat) (B 1%nat) (T 1%nat) (T 1%nat) (L 1%nat)).

(** Elasticity.cpp:449-519. *)
Definition assemble_boundary (fct : nat) (x : facet_info) : option (nat -> nat -> R) :=
  if fi_bc x =? BC_Natural then None else
  let L := match p_method P with BR2 => lift_boundary fct x | IP => lift_ip fct (E_side P x 0) end in
  let T := traction_op_side fct x 0 in
  Some (surface (- 1) epsilon (penalty P fct) (E_side P x 0) (E_side P x 0) T T L).

(** The operator as DGOperator::assemble calls it. *)
Definition elasticity_mat : mat_lop (nat -> nat -> R) := {|
  a_volume := fun el => Some (assemble_volume el);
  a_skeleton := fun fct x => Some (assemble_skeleton fct x);
  a_boundary := assemble_boundary;
  a_post := fun _ => None |}.

(** * Right-hand side *)
(** rhsVolume (elasticity.py:173), Elasticity.cpp:521-543; [None]: no force is set. *)
Definition rhs_volume (el : nat) : option (nat -> R) :=
  match e_force E with
  | None => None
  | Some F => Some (fun K => rsum Nq (fun q => p_J P el q * p_W P q * p_EQ P (bf K) q * F el (cp K) q))
  end.
(** Elasticity.cpp:545-556; [None]: returns false and f_q is not written. *)
Definition bc_skeleton (fct bc : nat) : option (nat -> nat -> R) :=
  match (if bc =? BC_Fault then e_slip E else None), (if bc =? BC_Dirichlet then e_dir E else None) with
  | Some s, _ => Some (s fct false)
  | None, Some d => Some (d fct false)
  | None, None => None
  end.
(** Elasticity.cpp:557-574. *)
Definition bc_boundary (fct bc : nat) : option (nat -> nat -> R) :=
  match (if bc =? BC_Fault then e_slip E else None), (if bc =? BC_Dirichlet then e_dir E else None) with
  | Some s, _ => Some (fun p q => s fct true p q * (1 / 2))
  | None, Some d => Some (d fct true)
  | None, None => None
  end.
(** tractionTest (elasticity.py:94-96) with the facet's normal. *)
Definition traction_test (n : nat -> nat -> R) (lam mu : nat -> R) (Dx : nat -> nat -> nat -> R) (ut : nat -> nat -> R) (k p q : nat) : R :=
  rsum dim (fun i => lam q * Dx k p q * ut i q * n i q) +
  mu q * (rsum dim (fun j => Dx k j q * ut p q * n j q) + rsum dim (fun i => Dx k i q * ut i q * n p q)).
(** rhs_lift_ip, rhs_lift_skeleton, rhs_lift_boundary (elasticity.py:157-169). *)
Definition rhs_lift_ip (fct : nat) (f : nat -> nat -> R) (i q : nat) : R := f i q * p_nl P fct q.
Definition f_lifted (c : R) (fct : nat) (x : facet_info) (f : nat -> nat -> R) (side u m s : nat) : R :=
  rsum N (fun o => rsum nq (fun q => c * e_Minv E (up_side x side) m o * w q * E_side P x side o q * f u q * p_n P fct s q)).
Definition rhs_lift_skeleton (fct : nat) (x : facet_info) (f : nat -> nat -> R) (i q : nat) : R :=
  (1 / 2) * (rsum dim (fun u => rsum dim (fun s => rsum N (fun m => test_normal fct x 0 u s i q * E_side P x 0 m q * f_lifted (1 / 2) fct x f 0 u m s))) +
             rsum dim (fun u => rsum dim (fun s => rsum N (fun m => test_normal fct x 1 u s i q * E_side P x 1 m q * f_lifted (1 / 2) fct x f 1 u m s)))).
Definition rhs_lift_boundary (fct : nat) (x : facet_info) (f : nat -> nat -> R) (i q : nat) : R :=
  rsum dim (fun u => rsum dim (fun s => rsum N (fun m => test_normal fct x 0 u s i q * E_side P x 0 m q * f_lifted 1 fct x f 0 u m s))).
(** rhsFacet (elasticity.py:175-179): what is added to b. *)
Definition rhs_facet_kernel (fct : nat) (c1 c2 : R) (lam mu : nat -> R) (Dx : nat -> nat -> nat -> R) (Eb : nat -> nat -> R) (f fl : nat -> nat -> R) : nat -> R := fun K =>
  rsum nq (fun q => c1 * traction_test (p_n P fct) lam mu Dx f (bf K) (cp K) q * w q) +
  rsum nq (fun q => c2 * w q * Eb (bf K) q * fl (cp K) q).
(** Elasticity.cpp:575-643. *)
Definition rhs_skeleton (fct : nat) (x : facet_info) : option ((nat -> R) * (nat -> R)) :=
  match bc_skeleton fct (fi_bc x) with
  | None => None
  | Some f =>
      let fl := match p_method P with BR2 => rhs_lift_skeleton fct x f | IP => rhs_lift_ip fct f end in
      let c10 := (1 / 2) * epsilon in
      let c20 := penalty P fct in
      Some (rhs_facet_kernel fct c10 c20 (lam_q x 0) (mu_q x 0) (Dx_side fct x 0) (E_side P x 0) f fl,
            rhs_facet_kernel fct c10 (c20 * - 1) (lam_q x 1) (mu_q x 1) (Dx_side fct x 1) (E_side P x 1) f fl)
  end.
(** Elasticity.cpp:645-697. *)
Definition rhs_boundary (fct : nat) (x : facet_info) : option (nat -> R) :=
  match bc_boundary fct (fi_bc x) with
  | None => None
  | Some f =>
      let fl := match p_method P with BR2 => rhs_lift_boundary fct x f | IP => rhs_lift_ip fct f end in
      Some (rhs_facet_kernel fct epsilon (penalty P fct) (lam_q x 0) (mu_q x 0) (Dx_side fct x 0) (E_side P x 0) f fl)
  end.
Definition elasticity_vec : vec_lop (nat -> R) := {|
  r_volume := rhs_volume; r_skeleton := rhs_skeleton; r_boundary := rhs_boundary; r_post := fun _ => None |}.

(** * Matrix-free application *)
(** apply_volume (elasticity.py:224-229): Ju_Q has its two last indices exchanged with respect to
    Ju_q below. *)
Definition Ju_Q (el : nat) (U : nat -> R) (q s r : nat) : R :=
  rsum dim (fun e => rsum N (fun l => p_GQ P el e s q * p_DxiQ P l e q * U (ix l r))).
Definition apply_volume (el : nat) (U : nat -> R) : nat -> R := fun K =>
  let k := bf K in let u := cp K in
  rsum Nq (fun q => rsum dim (fun e => rsum dim (fun j => p_DxiQ P k e q * p_GQ P el e j q *
    (lam_W_J el q * delta u j * rsum dim (fun r => rsum dim (fun s => delta r s * Ju_Q el U q r s)) +
     mu_W_J el q * (Ju_Q el U q u j + Ju_Q el U q j u))))).
(** flux_u_skeleton, flux_u_boundary, flux_u_add_bc (elasticity.py:201-205). *)
Definition flux_u_skeleton (E0 E1 : nat -> nat -> R) (U Uext : nat -> R) (i q : nat) : R :=
  (1 / 2) * (rsum N (fun l => - E0 l q * U (ix l i)) + rsum N (fun l => E1 l q * Uext (ix l i))).
Definition flux_u_boundary (E0 : nat -> nat -> R) (U : nat -> R) (i q : nat) : R := rsum N (fun l => - E0 l q * U (ix l i)).
Definition flux_u_add_bc (c : R) (f uh : nat -> nat -> R) (i q : nat) : R := uh i q + c * f i q.
(** constitutive_q and flux_sigma_skeleton, flux_sigma_boundary, flux_sigma_add_bc (elasticity.py:207-222). *)
Definition Ju_q (G : nat -> nat -> nat -> R) (f : nat) (U : nat -> R) (q r s : nat) : R :=
  rsum dim (fun e => rsum N (fun l => G e s q * p_Dxi P f l e q * U (ix l r))).
Definition constitutive_q (lam mu : nat -> R) (Ju : nat -> nat -> nat -> R) (i j q : nat) : R :=
  lam q * delta i j * rsum dim (fun r => rsum dim (fun s => delta r s * Ju q r s)) + mu q * (Ju q i j + Ju q j i).
Definition flux_sigma_skeleton (c0 : R) (lam0 lam1 mu0 mu1 : nat -> R) (G0 G1 : nat -> nat -> nat -> R) (f0 f1 : nat) (nu : nat -> nat -> R) (U Uext : nat -> R) (i j q : nat) : R :=
  (1 / 2) * (constitutive_q lam0 mu0 (Ju_q G0 f0 U) i j q + constitutive_q lam1 mu1 (Ju_q G1 f1 Uext) i j q) +
  c0 * (rsum N (fun l => p_E P f0 l q * U (ix l i)) + rsum N (fun l => - p_E P f1 l q * Uext (ix l i))) * nu j q.
Definition flux_sigma_boundary (c0 : R) (lam0 mu0 : nat -> R) (G0 : nat -> nat -> nat -> R) (f0 : nat) (nu : nat -> nat -> R) (U : nat -> R) (i j q : nat) : R :=
  constitutive_q lam0 mu0 (Ju_q G0 f0 U) i j q + rsum N (fun l => c0 * p_E P f0 l q * U (ix l i)) * nu j q.
Definition flux_sigma_add_bc (c : R) (f nu : nat -> nat -> R) (sh : nat -> nat -> nat -> R) (i j q : nat) : R := sh i j q + c * f i q * nu j q.
(** apply_facet (elasticity.py:230-234): what is added to Unew. *)
Definition apply_facet (n : nat -> nat -> R) (lam mu : nat -> R) (G : nat -> nat -> nat -> R) (f : nat) (uh : nat -> nat -> R) (sh : nat -> nat -> nat -> R) : nat -> R := fun K =>
  let k := bf K in let u := cp K in
  rsum nq (fun q => rsum dim (fun j => rsum dim (fun e => w q * G e j q * p_Dxi P f k e q *
    (lam q * delta u j * rsum dim (fun r => uh r q * n r q) + mu q * (uh u q * n j q + uh j q * n u q))))) +
  rsum nq (fun q => rsum dim (fun j => w q * - p_E P f k q * n j q * sh u j q)).

(** Elasticity.cpp:724-855: one pass of the loop over the element's facets; [fi] are the facet records
    the preparation was done with, [rhs] the template argument.  [None]: the facet has no record. *)
Definition apply_side (rhs : bool) (fi : list facet_info) (el f : nat) (s : side_info) (x0 xn : nat -> R) : option (nat -> R) :=
  let is_skeleton := negb (el =? si_lid s) in
  let fault_or_dirichlet := (si_bc s =? BC_Fault) || (si_bc s =? BC_Dirichlet) in
  let fct := si_fct s in
  match nth_error fi fct with
  | None => None
  | Some x =>
      let flip := is_skeleton && (si_side s =? 1) in
      let a := if flip then 1%nat else 0%nat in
      let b := if flip then 0%nat else 1%nat in
      let n := if flip then (fun i q => - p_n P fct i q) else p_n P fct in
      let nu := if flip then (fun i q => - p_nu P fct i q) else p_nu P fct in
      if (si_bc s =? BC_None) || (is_skeleton && fault_or_dirichlet) then
        let uh := flux_u_skeleton (p_E P f) (p_E P (si_local s)) x0 xn in
        let sh := flux_sigma_skeleton (- penalty P fct) (lam_q x a) (lam_q x b) (mu_q x a) (mu_q x b) (G_side fct a) (G_side fct b) f (si_local s) nu x0 xn in
        match (if rhs then bc_skeleton fct (si_bc s) else None) with
        | Some g =>
            let sign := if si_side s =? 1 then -1 else 1 in
            Some (apply_facet n (lam_q x a) (mu_q x a) (G_side fct a) f (flux_u_add_bc (1 / 2 * sign) g uh)
                    (flux_sigma_add_bc (sign * penalty P fct) g nu sh))
        | None => Some (apply_facet n (lam_q x a) (mu_q x a) (G_side fct a) f uh sh)
        end
      else if fault_or_dirichlet then
        let uh := flux_u_boundary (p_E P f) x0 in
        let sh := flux_sigma_boundary (- penalty P fct) (lam_q x a) (mu_q x a) (G_side fct a) f nu x0 in
        match (if rhs then bc_boundary fct (si_bc s) else None) with
        | Some g =>
            Some (apply_facet n (lam_q x a) (mu_q x a) (G_side fct a) f (flux_u_add_bc 1 g uh) (flux_sigma_add_bc (penalty P fct) g nu sh))
        | None => Some (apply_facet n (lam_q x a) (mu_q x a) (G_side fct a) f uh sh)
        end
      else Some (fun _ => 0)
  end.
Fixpoint apply_sides (rhs : bool) (fi : list facet_info) (el f : nat) (sl : list side_info) (x0 : nat -> R) (xn : list (nat -> R)) (y : nat -> R) : option (nat -> R) :=
  match sl, xn with
  | s :: st, u :: ut =>
      match apply_side rhs fi el f s x0 u with
      | None => None
      | Some d => apply_sides rhs fi el (f + 1) st x0 ut (fun k => y k + d k)
      end
  | [], _ => Some y
  | _ :: _, [] => None
  end.
(** Elasticity.cpp:699-856 [apply_]; y_0 is overwritten by apply_volume. *)
Definition apply_rhs (rhs : bool) (fi : list facet_info) (el : nat) (sl : list side_info) (x0 : nat -> R) (xn : list (nat -> R)) : option (nat -> R) :=
  apply_sides rhs fi el 0 sl x0 xn (apply_volume el x0).
(** Elasticity.cpp:858-863 [apply]. *)
Definition elasticity_apply := apply_rhs false.
(** As DGOperator::apply_ calls it (see [poisson_op]). *)
Definition elasticity_op (fi : list facet_info) : local_op (nat -> R) := fun el sl x0 xn y0 =>
  match elasticity_apply fi el sl x0 xn with Some y => y | None => y0 end.

(** apply_inverse_mass (elasticity.py:236-237). *)
Definition apply_inverse_mass (Jinv : nat -> R) (U : nat -> R) : nat -> R := fun K =>
  let k := bf K in let p := cp K in
  rsum N (fun r => rsum Nq (fun q => rsum N (fun s => rsum N (fun l =>
    p_MinvRef P k r * Jinv q * p_EQ P r q * p_EQ P s q * p_MinvRef P s l * U (ix l p))))).
(** Elasticity.cpp:865-880 [wave_rhs]. *)
Definition wave_rhs (fi : list facet_info) (el : nat) (sl : list side_info) (x0 : nat -> R) (xn : list (nat -> R)) : option (nat -> R) :=
  match apply_rhs true fi el sl x0 xn with
  | None => None
  | Some r => Some (apply_inverse_mass (negative_rhoInv_W_Jinv el) r)
  end.
(** project_u_rhs (elasticity.py:239) and Elasticity.cpp:882-911 [project]; [x] are the values of the
    function at the quadrature points of the element (p, q). *)
Definition project (el : nat) (x : nat -> nat -> R) : nat -> R :=
  let U K := rsum Nq (fun q => p_EQ P (bf K) q * p_W P q * p_J P el q * x (cp K) q) in
  apply_inverse_mass (fun q => p_W P q / p_J P el q) U.

(** * Traction *)
(** traction (elasticity.py:90-92). *)
Definition traction (n : nat -> nat -> R) (lam mu : nat -> R) (Dx : nat -> nat -> nat -> R) (U : nat -> R) (p q : nat) : R :=
  rsum N (fun l => rsum dim (fun s => lam q * Dx l s q * U (ix l s) * n p q)) +
  mu q * (rsum N (fun l => rsum dim (fun j => Dx l j q * U (ix l p) * n j q)) + rsum N (fun l => rsum dim (fun j => Dx l p q * U (ix l j) * n j q))).
(** compute_traction (elasticity.py:243-245), Elasticity.cpp:949-988.  If bc_skeleton returns false,
    f_q is uninitialised: [None]. *)
Definition traction_skeleton (fct : nat) (x : facet_info) (u0 u1 : nat -> R) : option (nat -> nat -> R) :=
  match bc_skeleton fct (fi_bc x) with
  | None => None
  | Some f => Some (fun p q =>
      (1 / 2) * (traction (p_nu P fct) (lam_q x 0) (mu_q x 0) (Dx_side fct x 0) u0 p q + traction (p_nu P fct) (lam_q x 1) (mu_q x 1) (Dx_side fct x 1) u1 p q) +
      - penalty P fct * (rsum N (fun l => E_side P x 0 l q * u0 (ix l p)) - rsum N (fun l => E_side P x 1 l q * u1 (ix l p)) - f p q))
  end.
(** compute_traction_bnd (elasticity.py:247-249), Elasticity.cpp:990-1018. *)
Definition traction_boundary (fct : nat) (x : facet_info) (u0 : nat -> R) : option (nat -> nat -> R) :=
  match bc_boundary fct (fi_bc x) with
  | None => None
  | Some f => Some (fun p q =>
      traction (p_nu P fct) (lam_q x 0) (mu_q x 0) (Dx_side fct x 0) u0 p q +
      - penalty P fct * (rsum N (fun l => E_side P x 0 l q * u0 (ix l p)) - f p q))
  end.

(** * Bounds *)
(** Elasticity.cpp:255-267 [stiffness_tensor_bounds], for N > 0. *)
Definition stiffness_c0 (el : nat) : R := min_element N (fun i => 2 * e_mu E el i).
Definition stiffness_c1 (el : nat) : R := max_element N (fun i => INR dim * e_lam E el i + 2 * e_mu E el i).
(** Elasticity.cpp:269-277 [inverse_density_upper_bound]. *)
Definition inverse_density_upper_bound (el : nat) : R := max_element N (e_rhoInv E el).
Variable degree : nat.  (* PolynomialDegree *)
(** Elasticity.cpp:279-292 [prepare_penalty]. *)
Definition penalty_side (fct el : nat) : R :=
  INR (dim + 1) * trace_constant dim (degree - 1) * (area P fct / volume P el) * (stiffness_c1 el * stiffness_c1 el / stiffness_c0 el).
Definition prepare_penalty (fct : nat) (x : facet_info) : R :=
  if negb (fi_up0 x =? fi_up1 x) then (penalty_side fct (fi_up0 x) + penalty_side fct (fi_up1 x)) / 4
  else penalty_side fct (fi_up0 x).
(** Elasticity.cpp:294-315 [prepare_cfl]; [grad_constant] is InverseInequality::grad_constant. *)
Definition cfl_bound (grad_constant : R) (el : nat) (sl : list side_info) : R :=
  let facets := fold_left (fun a s => (fst a + (if negb (el =? si_lid s) then 2 else 1) * p_pen P (si_fct s) * trace_constant dim degree * area P (si_fct s) / volume P el,
                                       snd a + area P (si_fct s))) sl (0, 0) in
  let h_1 := snd facets / volume P el in
  (fst facets + stiffness_c1 el * inverse_density_upper_bound el * grad_constant * h_1 * h_1) * 2.
Definition cfl_dt (grad_constant : R) (el : nat) (sl : list side_info) : R := 1 / sqrt (cfl_bound grad_constant el sl).
End Operator.
