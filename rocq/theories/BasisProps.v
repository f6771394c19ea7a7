(** C65: the basis functions are the Dubiner polynomials and the gradients are their gradients. *)
Require Import List Arith Lia Reals Lra.
Require Import Verif.LinAlg Verif.BasisModel Verif.BasisSpec Verif.JacobiProofs.
Import ListNotations.
Local Open Scope R_scope.

(** C65a: for every degree, parameters and point, JacobiP is the Jacobi polynomial and
    JacobiPDerivative its derivative. *)
Theorem jacobi_polynomial_and_derivative : forall n a b x,
  JacobiP n a b x = jacobi n a b x
  /\ derivable_pt_lim (JacobiP n a b) x (JacobiPDerivative n a b x).
Proof.
  intros n a b x. split; [now rewrite JacobiP_hjac, hjac_jacobi |].
  apply (derivable_pt_lim_ext_eq (jacobi n a b) _ x
    (match n with O => 0 | S k => 1 / 2 * (INR n + INR a + INR b + 1) * jacobi k (a + 1) (b + 1) x end)).
  - intros t. now rewrite JacobiP_hjac, hjac_jacobi.
  - destruct n as [| k]; [reflexivity |]. unfold JacobiPDerivative. now rewrite JacobiP_hjac, hjac_jacobi.
  - apply jacobi_deriv.
Qed.
Print Assumptions jacobi_polynomial_and_derivative.

(** C65b: the singularity-free evaluation is y^n P_n(x / y) where y is not zero, and the continuous
    extension of it, the leading term, at y = 0.  Value and both partial derivatives returned by the
    other function are those of it, at every point. *)
Theorem singularity_free_jacobi : forall n a b x y,
  (y <> 0 -> SingularityFreeJacobiP n a b x y = y ^ n * jacobi n a b (x / y))
  /\ SingularityFreeJacobiP n a b x 0 = jacobi_coeff n a b n * (x / 2) ^ n
  /\ let r := SingularityFreeJacobiPAndDerivatives n a b x y in
     j_v r = SingularityFreeJacobiP n a b x y
     /\ derivable_pt_lim (fun t => SingularityFreeJacobiP n a b t y) x (j_x r)
     /\ derivable_pt_lim (fun t => SingularityFreeJacobiP n a b x t) y (j_y r).
Proof.
  intros n a b x y. split; [| split].
  - intros Hy. rewrite sfj_hjac. now apply hjac_scaled.
  - rewrite sfj_hjac. unfold hjac. rewrite (rsum_single (S n) n).
    + rewrite Nat.sub_diag, Rminus_0_r. cbn [pow]. ring.
    + lia.
    + intros i Hi Hne. rewrite (pow_i (n - i)) by lia. ring.
  - cbv zeta. destruct (sfjd_ok id (fct_cte y) 1 0 x (derivable_pt_lim_id x) (derivable_pt_lim_const y x) n a b) as [E1 D1].
    destruct (sfjd_ok (fct_cte x) id 0 1 y (derivable_pt_lim_const x y) (derivable_pt_lim_id y) n a b) as [_ D2].
    change (id x) with x in *. change (id y) with y in *. unfold fct_cte in *. cbv zeta in *. split; [exact E1 |]. split.
    + eapply derivable_pt_lim_ext_eq; [| | exact D1]; [reflexivity | ring].
    + eapply derivable_pt_lim_ext_eq; [| | exact D2]; [reflexivity | ring].
Qed.
Print Assumptions singularity_free_jacobi.

(** C65c: the basis functions are the Dubiner polynomials. *)
Theorem dubiner_basis : forall i xi,
  DubinerP 1 i xi = dubiner_interval i xi
  /\ (xi 1%nat <> 1 -> DubinerP 2 i xi = dubiner_triangle i xi)
  /\ (xi 1%nat + xi 2%nat <> 1 -> xi 2%nat <> 1 -> DubinerP 3 i xi = dubiner_tetrahedron i xi).
Proof.
  intros i xi. split; [| split].
  - unfold DubinerP, dubiner_interval. now rewrite JacobiP_hjac, hjac_jacobi.
  - intros N. unfold DubinerP, TriDubinerP, dubiner_triangle. rewrite !sfj_hjac, hjac_jacobi, hjac_scaled by lra.
    replace (2 * xi 0%nat - 1 + xi 1%nat) with (2 * xi 0%nat - (1 - xi 1%nat)) by ring. ring.
  - intros N1 N2. unfold DubinerP, TetraDubinerP, dubiner_tetrahedron. rewrite !sfj_hjac, hjac_jacobi.
    rewrite hjac_scaled by lra. rewrite (hjac_scaled _ _ _ _ (1 - xi 2%nat)) by lra.
    replace (2 * xi 0%nat - 1 + xi 1%nat + xi 2%nat) with (2 * xi 0%nat - (1 - xi 1%nat - xi 2%nat)) by ring.
    replace (2 * xi 1%nat - 1 + xi 2%nat) with (2 * xi 1%nat - (1 - xi 2%nat)) by ring. ring.
Qed.
Print Assumptions dubiner_basis.

(** Derivative of c0 + c1 t. *)
Lemma affine_deriv : forall c0 c1 (f : R -> R) x, (forall t, f t = c0 + c1 * t) -> derivable_pt_lim f x c1.
Proof.
  intros c0 c1 f x E. apply (derivable_pt_lim_ext_eq (fun t => c0 + c1 * t) _ x (0 + c1 * 1)); [intros; now rewrite E | ring |].
  apply (derivable_pt_lim_plus (fct_cte c0) (fun t => c1 * t)); [apply derivable_pt_lim_const |].
  apply (derivable_pt_lim_scal id). apply derivable_pt_lim_id.
Qed.

(** C65d: on the triangle and the tetrahedron the gradient is the gradient of the basis function, at
    every point, the collapsed vertex and edge included. *)
Theorem dubiner_gradient : forall D i xi d, (D = 2 \/ D = 3)%nat -> (d < D)%nat ->
  partial_derivative (DubinerP D i) d xi (gradDubinerP D i xi d).
Proof.
  intros D i xi d HD Hd. unfold partial_derivative, DubinerP, gradDubinerP.
  destruct HD as [-> | ->].
  - unfold TriDubinerP, gradTriDubinerP. set (p := nth 0 i 0%nat). set (q := nth 1 i 0%nat).
    set (w := with_coord xi d).
    set (X1 := fun t => 2 * w t 0%nat - 1 + w t 1%nat). set (Y1 := fun t => 1 - w t 1%nat).
    set (X2 := fun t => 2 * w t 1%nat - 1). set (Y2 := fun _ : R => 1).
    set (dr := if (d =? 0)%nat then 2 else 1). set (dth := if (d =? 0)%nat then 0 else -1). set (dt := if (d =? 0)%nat then 0 else 2).
    assert (HX1 : derivable_pt_lim X1 (xi d) dr /\ derivable_pt_lim Y1 (xi d) dth /\ derivable_pt_lim X2 (xi d) dt /\ derivable_pt_lim Y2 (xi d) 0).
    { unfold X1, Y1, X2, Y2, w, dr, dth, dt, with_coord. assert (d = 0 \/ d = 1)%nat as [-> | ->] by lia; cbn [Nat.eqb].
      - repeat split; [apply (affine_deriv (- 1 + xi 1%nat)) | apply (affine_deriv (1 - xi 1%nat)) | apply (affine_deriv (2 * xi 1%nat - 1)) | apply (affine_deriv 1)]; intros; ring.
      - repeat split; [apply (affine_deriv (2 * xi 0%nat - 1)) | apply (affine_deriv 1) | apply (affine_deriv (- 1)) | apply (affine_deriv 1)]; intros; ring. }
    destruct HX1 as (A1 & A2 & A3 & A4).
    destruct (sfjd_ok X1 Y1 dr dth (xi d) A1 A2 p 0 0) as [V1 D1].
    destruct (sfjd_ok X2 Y2 dt 0 (xi d) A3 A4 q (2 * p + 1) 0) as [V2 D2]. cbv zeta in *.
    assert (Ew : forall e, w (xi d) e = xi e).
    { intros e. unfold w, with_coord. destruct (Nat.eqb_spec e d); congruence. }
    assert (EX1 : X1 (xi d) = 2 * xi 0%nat - 1 + xi 1%nat) by (unfold X1; now rewrite !Ew).
    assert (EY1 : Y1 (xi d) = 1 - xi 1%nat) by (unfold Y1; now rewrite !Ew).
    assert (EX2 : X2 (xi d) = 2 * xi 1%nat - 1) by (unfold X2; now rewrite !Ew).
    assert (EY2 : Y2 (xi d) = 1) by reflexivity.
    pose proof (derivable_pt_lim_mult _ _ _ _ _ D1 D2) as DD. cbv beta in DD.
    rewrite EX1, EY1, EX2, EY2 in *. rewrite <- V1, <- V2 in DD.
    eapply derivable_pt_lim_ext_eq; [| | exact DD]; [reflexivity |].
    unfold dr, dth, dt. assert (d = 0 \/ d = 1)%nat as [-> | ->] by lia; cbn [Nat.eqb]; ring.
  - unfold TetraDubinerP, gradTetraDubinerP. set (p := nth 0 i 0%nat). set (q := nth 1 i 0%nat). set (l := nth 2 i 0%nat).
    set (w := with_coord xi d).
    set (X1 := fun t => 2 * w t 0%nat - 1 + w t 1%nat + w t 2%nat). set (Y1 := fun t => 1 - w t 1%nat - w t 2%nat).
    set (X2 := fun t => 2 * w t 1%nat - 1 + w t 2%nat). set (Y2 := fun t => 1 - w t 2%nat).
    set (X3 := fun t => 2 * w t 2%nat - 1). set (Y3 := fun _ : R => 1).
    set (dr := if (d =? 0)%nat then 2 else 1). set (dst := if (d =? 0)%nat then 0 else -1).
    set (ds := if (d =? 0)%nat then 0 else if (d =? 1)%nat then 2 else 1). set (dth := if (d =? 2)%nat then -1 else 0).
    set (dt := if (d =? 2)%nat then 2 else 0).
    assert (HX1 : derivable_pt_lim X1 (xi d) dr /\ derivable_pt_lim Y1 (xi d) dst /\ derivable_pt_lim X2 (xi d) ds
                  /\ derivable_pt_lim Y2 (xi d) dth /\ derivable_pt_lim X3 (xi d) dt /\ derivable_pt_lim Y3 (xi d) 0).
    { unfold X1, Y1, X2, Y2, X3, Y3, w, dr, dst, ds, dth, dt, with_coord.
      assert (d = 0 \/ d = 1 \/ d = 2)%nat as [-> | [-> | ->]] by lia; cbn [Nat.eqb].
      - repeat split; [apply (affine_deriv (- 1 + xi 1%nat + xi 2%nat)) | apply (affine_deriv (1 - xi 1%nat - xi 2%nat))
          | apply (affine_deriv (2 * xi 1%nat - 1 + xi 2%nat)) | apply (affine_deriv (1 - xi 2%nat)) | apply (affine_deriv (2 * xi 2%nat - 1)) | apply (affine_deriv 1)]; intros; ring.
      - repeat split; [apply (affine_deriv (2 * xi 0%nat - 1 + xi 2%nat)) | apply (affine_deriv (1 - xi 2%nat))
          | apply (affine_deriv (- 1 + xi 2%nat)) | apply (affine_deriv (1 - xi 2%nat)) | apply (affine_deriv (2 * xi 2%nat - 1)) | apply (affine_deriv 1)]; intros; ring.
      - repeat split; [apply (affine_deriv (2 * xi 0%nat - 1 + xi 1%nat)) | apply (affine_deriv (1 - xi 1%nat))
          | apply (affine_deriv (2 * xi 1%nat - 1)) | apply (affine_deriv 1) | apply (affine_deriv (- 1)) | apply (affine_deriv 1)]; intros; ring. }
    destruct HX1 as (A1 & A2 & A3 & A4 & A5 & A6).
    destruct (sfjd_ok X1 Y1 dr dst (xi d) A1 A2 p 0 0) as [V1 D1].
    destruct (sfjd_ok X2 Y2 ds dth (xi d) A3 A4 q (2 * p + 1) 0) as [V2 D2].
    destruct (sfjd_ok X3 Y3 dt 0 (xi d) A5 A6 l (2 * p + 2 * q + 2) 0) as [V3 D3]. cbv zeta in *.
    assert (Ew : forall e, w (xi d) e = xi e).
    { intros e. unfold w, with_coord. destruct (Nat.eqb_spec e d); congruence. }
    assert (EX1 : X1 (xi d) = 2 * xi 0%nat - 1 + xi 1%nat + xi 2%nat) by (unfold X1; now rewrite !Ew).
    assert (EY1 : Y1 (xi d) = 1 - xi 1%nat - xi 2%nat) by (unfold Y1; now rewrite !Ew).
    assert (EX2 : X2 (xi d) = 2 * xi 1%nat - 1 + xi 2%nat) by (unfold X2; now rewrite !Ew).
    assert (EY2 : Y2 (xi d) = 1 - xi 2%nat) by (unfold Y2; now rewrite !Ew).
    assert (EX3 : X3 (xi d) = 2 * xi 2%nat - 1) by (unfold X3; now rewrite !Ew).
    assert (EY3 : Y3 (xi d) = 1) by reflexivity.
    pose proof (derivable_pt_lim_mult _ _ _ _ _ (derivable_pt_lim_mult _ _ _ _ _ D1 D2) D3) as DD. cbv beta in DD.
    unfold mult_fct in DD.
    rewrite EX1, EY1, EX2, EY2, EX3, EY3 in *. rewrite <- V1, <- V2, <- V3 in DD.
    eapply derivable_pt_lim_ext_eq; [| | exact DD]; [reflexivity |].
    unfold dr, dst, ds, dth, dt. assert (d = 0 \/ d = 1 \/ d = 2)%nat as [-> | [-> | ->]] by lia; cbn [Nat.eqb]; ring.
Qed.
Print Assumptions dubiner_gradient.

(** C65e: on the interval, the gradient returned is half the derivative of the basis function. *)
Theorem dubiner_gradient_interval : forall i xi,
  partial_derivative (DubinerP 1 i) 0 xi (2 * gradDubinerP 1 i xi 0).
Proof.
  intros i xi. unfold partial_derivative, DubinerP, gradDubinerP, with_coord. cbn [Nat.eqb]. set (n := nth 0 i 0%nat).
  rewrite Rmult_comm.
  apply (derivable_pt_lim_comp (fun t => 2 * t - 1) (JacobiP n 0 0)).
  - apply (affine_deriv (- 1)). intros; ring.
  - apply (proj2 (jacobi_polynomial_and_derivative n 0 0 (2 * xi 0%nat - 1))).
Qed.
Theorem dubiner_gradient_interval_refuted : exists i xi,
  ~ partial_derivative (DubinerP 1 i) 0 xi (gradDubinerP 1 i xi 0).
Proof.
  exists [1%nat], (fun _ => 0). intros H.
  pose proof (uniqueness_limite _ _ _ _ H (dubiner_gradient_interval [1%nat] (fun _ => 0))) as E.
  unfold gradDubinerP, JacobiPDerivative, JacobiP in E. simpl in E. lra.
Qed.
Print Assumptions dubiner_gradient_interval_refuted.

(** The first basis function is the constant one. *)
Theorem dubiner_constant : forall D xi, (D = 1 \/ D = 2 \/ D = 3)%nat -> DubinerP D (repeat 0%nat D) xi = 1.
Proof.
  intros D xi [-> | [-> | ->]]; unfold DubinerP, TriDubinerP, TetraDubinerP; cbn [repeat nth];
    unfold JacobiP, SingularityFreeJacobiP; ring.
Qed.
