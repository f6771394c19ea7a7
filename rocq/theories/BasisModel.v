(** Models src/basis/Functions.cpp and src/basis/Functions.h: Jacobi polynomials and the Dubiner basis
    of the reference interval, triangle and tetrahedron, with gradients.  double is modelled by the real
    numbers (no rounding), unsigned by nat (the products a * a and 2 * i[0] + 1 do not wrap). *)
Require Import List Arith Reals.
Import ListNotations.
Local Open Scope R_scope.

(** src/basis/Functions.cpp:14-21, the loop of [JacobiP]: k iterations to go, m the loop variable;
    Pm_1 and Pm are the variables of that name before the iteration. *)
Fixpoint jacobi_loop (k m a b : nat) (x Pm_1 Pm : R) : R :=
  match k with
  | O => Pm
  | S k' =>
    let a2_b2 := INR (a * a) - INR (b * b) in
    let c0 := 2 * INR m + INR a + INR b in
    jacobi_loop k' (S m) a b x Pm
      (((c0 - 1) * (a2_b2 + c0 * (c0 - 2) * x) * Pm
        - 2 * (INR m + INR a - 1) * (INR m + INR b - 1) * c0 * Pm_1)
       / (2 * INR m * (INR m + INR a + INR b) * (c0 - 2)))
  end.
(** src/basis/Functions.cpp:6-23 [JacobiP]. *)
Definition JacobiP (n a b : nat) (x : R) : R :=
  match n with
  | O => 1
  | S k => jacobi_loop k 2 a b x 1
             (1 / 2 * INR a - 1 / 2 * INR b + (1 + 1 / 2 * INR (a + b)) * x)
  end.
(** src/basis/Functions.cpp:25-27 [JacobiPDerivative]. *)
Definition JacobiPDerivative (n a b : nat) (x : R) : R :=
  match n with
  | O => 0
  | S k => 1 / 2 * (INR n + INR a + INR b + 1) * JacobiP k (a + 1) (b + 1) x
  end.

(** src/basis/Functions.cpp:29-37 [SingularityFreeJacobiPFactors]: c[0] .. c[4]. *)
Record sfj_factors := { c_1 : R; c_2 : R; c_3 : R; c_4 : R; c_5 : R }.
Definition SingularityFreeJacobiPFactors (m a b : nat) : sfj_factors :=
  let c_0 := 2 * INR m + INR a + INR b in
  {| c_1 := c_0 - 1;
     c_2 := INR (a * a) - INR (b * b);
     c_3 := c_0 * (c_0 - 2);
     c_4 := 2 * (INR m + INR a - 1) * (INR m + INR b - 1) * c_0;
     c_5 := 2 * INR m * (INR m + INR a + INR b) * (c_0 - 2) |}.
(** src/basis/Functions.cpp:39-42 [SingularityFreeJacobiPRecursion]. *)
Definition SingularityFreeJacobiPRecursion (x y : R) (c : sfj_factors) (Pm_1 Pm_2 : R) : R :=
  (c_1 c * (c_2 c * y + c_3 c * x) * Pm_1 - c_4 c * y * y * Pm_2) / c_5 c.
(** src/basis/Functions.cpp:51-56, the loop of [SingularityFreeJacobiP]. *)
Fixpoint sfj_loop (k m a b : nat) (x y Pm_1 Pm : R) : R :=
  match k with
  | O => Pm
  | S k' => sfj_loop k' (S m) a b x y Pm
              (SingularityFreeJacobiPRecursion x y (SingularityFreeJacobiPFactors m a b) Pm Pm_1)
  end.
(** src/basis/Functions.cpp:44-58 [SingularityFreeJacobiP]. *)
Definition SingularityFreeJacobiP (n a b : nat) (x y : R) : R :=
  match n with
  | O => 1
  | S k => sfj_loop k 2 a b x y 1
             ((1 / 2 * INR a - 1 / 2 * INR b) * y + (1 + 1 / 2 * INR (a + b)) * x)
  end.

(** Value, d/dx and d/dy. *)
Record jet := { j_v : R; j_x : R; j_y : R }.
(** src/basis/Functions.cpp:70-84, the loop of [SingularityFreeJacobiPAndDerivatives]; P1 holds the
    variables Pm_1, ddxPm_1, ddyPm_1 and P the variables Pm, ddxPm, ddyPm before the iteration. *)
Fixpoint sfjd_loop (k m a b : nat) (x y : R) (P1 P : jet) : jet :=
  match k with
  | O => P
  | S k' =>
    let c := SingularityFreeJacobiPFactors m a b in
    sfjd_loop k' (S m) a b x y P
      {| j_v := SingularityFreeJacobiPRecursion x y c (j_v P) (j_v P1);
         j_x := (c_1 c * (c_3 c * j_v P + (c_2 c * y + c_3 c * x) * j_x P) - c_4 c * y * y * j_x P1) / c_5 c;
         j_y := (c_1 c * (c_2 c * j_v P + (c_2 c * y + c_3 c * x) * j_y P)
                 - c_4 c * (2 * y * j_v P1 + y * y * j_y P1)) / c_5 c |}
  end.
(** src/basis/Functions.cpp:60-86 [SingularityFreeJacobiPAndDerivatives]. *)
Definition SingularityFreeJacobiPAndDerivatives (n a b : nat) (x y : R) : jet :=
  match n with
  | O => {| j_v := 1; j_x := 0; j_y := 0 |}
  | S k => sfjd_loop k 2 a b x y {| j_v := 1; j_x := 0; j_y := 0 |}
             {| j_v := SingularityFreeJacobiP 1 a b x y;
                j_x := 1 + 1 / 2 * INR (a + b);
                j_y := 1 / 2 * (INR a - INR b) |}
  end.

(** src/basis/Functions.cpp:88-97 [TriDubinerP]. *)
Definition TriDubinerP (i : list nat) (xi : nat -> R) : R :=
  let r_num := 2 * xi 0%nat - 1 + xi 1%nat in
  let s := 2 * xi 1%nat - 1 in
  let theta := 1 - xi 1%nat in
  let ti := SingularityFreeJacobiP (nth 0 i 0%nat) 0 0 r_num theta in
  let tij := SingularityFreeJacobiP (nth 1 i 0%nat) (2 * nth 0 i 0%nat + 1) 0 s 1 in
  ti * tij.

(** src/basis/Functions.cpp:99-113 [gradTriDubinerP]; component d of the gradient. *)
Definition gradTriDubinerP (i : list nat) (xi : nat -> R) (d : nat) : R :=
  let r_num := 2 * xi 0%nat - 1 + xi 1%nat in
  let s := 2 * xi 1%nat - 1 in
  let theta := 1 - xi 1%nat in
  let ti := SingularityFreeJacobiPAndDerivatives (nth 0 i 0%nat) 0 0 r_num theta in
  let tij := SingularityFreeJacobiPAndDerivatives (nth 1 i 0%nat) (2 * nth 0 i 0%nat + 1) 0 s 1 in
  let ddalpha dr_num dtheta dt :=
    (j_x ti * dr_num + j_y ti * dtheta) * j_v tij + j_v ti * j_x tij * dt in
  match d with O => ddalpha 2 0 0 | _ => ddalpha 1 (-1) 2 end.

(** src/basis/Functions.cpp:115-127 [TetraDubinerP]. *)
Definition TetraDubinerP (i : list nat) (xi : nat -> R) : R :=
  let r_num := 2 * xi 0%nat - 1 + xi 1%nat + xi 2%nat in
  let s_num := 2 * xi 1%nat - 1 + xi 2%nat in
  let t := 2 * xi 2%nat - 1 in
  let sigmatheta := 1 - xi 1%nat - xi 2%nat in
  let theta := 1 - xi 2%nat in
  let ti := SingularityFreeJacobiP (nth 0 i 0%nat) 0 0 r_num sigmatheta in
  let tij := SingularityFreeJacobiP (nth 1 i 0%nat) (2 * nth 0 i 0%nat + 1) 0 s_num theta in
  let tijk := SingularityFreeJacobiP (nth 2 i 0%nat) (2 * nth 0 i 0%nat + 2 * nth 1 i 0%nat + 2) 0 t 1 in
  ti * tij * tijk.

(** src/basis/Functions.cpp:129-149 [gradTetraDubinerP]; component d of the gradient. *)
Definition gradTetraDubinerP (i : list nat) (xi : nat -> R) (d : nat) : R :=
  let r_num := 2 * xi 0%nat - 1 + xi 1%nat + xi 2%nat in
  let s_num := 2 * xi 1%nat - 1 + xi 2%nat in
  let t := 2 * xi 2%nat - 1 in
  let sigmatheta := 1 - xi 1%nat - xi 2%nat in
  let theta := 1 - xi 2%nat in
  let ti := SingularityFreeJacobiPAndDerivatives (nth 0 i 0%nat) 0 0 r_num sigmatheta in
  let tij := SingularityFreeJacobiPAndDerivatives (nth 1 i 0%nat) (2 * nth 0 i 0%nat + 1) 0 s_num theta in
  let tijk := SingularityFreeJacobiPAndDerivatives (nth 2 i 0%nat)
                (2 * nth 0 i 0%nat + 2 * nth 1 i 0%nat + 2) 0 t 1 in
  let ddalpha dr_num dsigmatheta ds_num dtheta dt :=
    (j_x ti * dr_num + j_y ti * dsigmatheta) * j_v tij * j_v tijk
    + j_v ti * (j_x tij * ds_num + j_y tij * dtheta) * j_v tijk
    + j_v ti * j_v tij * (j_x tijk * dt) in
  match d with
  | 0%nat => ddalpha 2 0 0 0 0
  | 1%nat => ddalpha 1 (-1) 2 0 0
  | _ => ddalpha 1 (-1) 1 (-1) 2
  end.

(** src/basis/Functions.h:140-151 [DubinerP], for D = 1, 2, 3. *)
Definition DubinerP (D : nat) (i : list nat) (xi : nat -> R) : R :=
  match D with
  | 1%nat => JacobiP (nth 0 i 0%nat) 0 0 (2 * xi 0%nat - 1)
  | 2%nat => TriDubinerP i xi
  | _ => TetraDubinerP i xi
  end.
(** src/basis/Functions.h:156-168 [gradDubinerP]. *)
Definition gradDubinerP (D : nat) (i : list nat) (xi : nat -> R) (d : nat) : R :=
  match D with
  | 1%nat => JacobiPDerivative (nth 0 i 0%nat) 0 0 (2 * xi 0%nat - 1)
  | 2%nat => gradTriDubinerP i xi d
  | _ => gradTetraDubinerP i xi d
  end.
