Require Import List Arith Lia Reals Lra.
Require Import Verif.LinAlg Verif.BasisModel Verif.BasisSpec Verif.JacobiProofs Verif.IntegralSpec Verif.IntegralProofs
  Verif.OrthogonalProofs Verif.QuadratureModel Verif.QuadratureSpec.
Import ListNotations.
Local Open Scope R_scope.

(** ** Beta integrals *)
Lemma beta_integral : forall q p c,
  is_integral (fun y => y ^ q * (c - y) ^ p) 0 c (c ^ (p + q + 1) * (factR p * factR q / factR (p + q + 1))).
Proof.
  induction q as [| q IH]; intros p c.
  - apply (is_integral_ext (fun y => (c - y) ^ p) _ 0 c (/ INR (S p) * c ^ S p)).
    + intros x _. cbn [pow]. ring.
    + replace (p + 0 + 1)%nat with (S p) by lia. rewrite factR_S. change (factR 0) with 1.
      field. split; [apply factR_neq | apply not_0_INR; lia].
    + exists (fun y => - / INR (S p) * (c + -1 * y) ^ S p). split.
      * intros x _. assert (N : INR (S p) <> 0) by (apply not_0_INR; lia).
        apply (derivable_pt_lim_ext_eq (fun y => - / INR (S p) * (c + -1 * y) ^ S p) _ x
          (- / INR (S p) * (INR (S p) * (c + -1 * x) ^ pred (S p) * -1))); [reflexivity | |].
        -- cbn [pred]. replace (c + -1 * x) with (c - x) by ring. field. exact N.
        -- apply (derivable_pt_lim_scal (fun y => (c + -1 * y) ^ S p)). apply pow_affine_deriv.
      * replace (c + -1 * c) with 0 by ring. replace (c + -1 * 0) with c by ring. rewrite (pow_i (S p)) by lia. ring.
  - assert (N : INR (S p) <> 0) by (apply not_0_INR; lia).
    apply (is_integral_ext (fun y => (y ^ S q * (c - y) ^ p + - (INR (S q) / INR (S p)) * (y ^ q * (c - y) ^ S p))
        + INR (S q) / INR (S p) * (y ^ q * (c - y) ^ S p)) _ 0 c
      (0 + INR (S q) / INR (S p) * (c ^ (S p + q + 1) * (factR (S p) * factR q / factR (S p + q + 1))))).
    + intros x _. ring.
    + replace (S p + q + 1)%nat with (p + S q + 1)%nat by lia. rewrite !factR_S. field. split; [apply factR_neq | exact N].
    + apply is_integral_plus; [| apply is_integral_scale, IH].
      exists (fun y => - / INR (S p) * (y ^ S q * (c + -1 * y) ^ S p)). split.
      * intros x _. apply (derivable_pt_lim_ext_eq (fun y => - / INR (S p) * (y ^ S q * (c + -1 * y) ^ S p)) _ x
          (- / INR (S p) * (INR (S q) * x ^ pred (S q) * (c + -1 * x) ^ S p + x ^ S q * (INR (S p) * (c + -1 * x) ^ pred (S p) * -1)))).
        -- reflexivity.
        -- cbn [pred]. replace (c + -1 * x) with (c - x) by ring. field. exact N.
        -- apply (derivable_pt_lim_scal (fun y => y ^ S q * (c + -1 * y) ^ S p)).
           apply (derivable_pt_lim_mult (fun y => y ^ S q) (fun y => (c + -1 * y) ^ S p)); [apply derivable_pt_lim_pow | apply pow_affine_deriv].
      * replace (c + -1 * c) with 0 by ring. rewrite (pow_i (S p)), (pow_i (S q)) by lia. ring.
Qed.

(** The integral of the weight function. *)
Lemma weight_integral : forall a b, is_integral (wt a b) (-1) 1 (hh a b 0).
Proof.
  intros a b. pose proof (beta_integral b a 1) as Hb.
  assert (E : is_integral (fun y => y ^ b * (1 - y) ^ a) (1 / 2 + 1 / 2 * -1) (1 / 2 + 1 / 2 * 1)
                (1 ^ (a + b + 1) * (factR a * factR b / factR (a + b + 1)))).
  { replace (1 / 2 + 1 / 2 * -1) with 0 by field. replace (1 / 2 + 1 / 2 * 1) with 1 by field. exact Hb. }
  apply is_integral_affine in E; [| lra]. apply (is_integral_scale _ _ _ _ (2 ^ (a + b))) in E.
  eapply is_integral_ext; [| | exact E].
  - intros x _. cbv beta. unfold wt. rewrite pow_add.
    replace (1 - (1 / 2 + 1 / 2 * x)) with (1 / 2 * (1 - x)) by field.
    replace (1 / 2 + 1 / 2 * x) with (1 / 2 * (1 + x)) by field. rewrite !Rpow_mult_distr.
    replace (2 ^ a * 2 ^ b * ((1 / 2) ^ b * (1 + x) ^ b * ((1 / 2) ^ a * (1 - x) ^ a)))
      with ((2 ^ a * (1 / 2) ^ a) * (2 ^ b * (1 / 2) ^ b) * ((1 - x) ^ a * (1 + x) ^ b)) by ring.
    rewrite <- !Rpow_mult_distr. replace (2 * (1 / 2)) with 1 by field. rewrite !pow1. ring.
  - unfold hh. rewrite pow1. cbn [Nat.add]. change (factR 0) with 1. replace (a + b + 1)%nat with (S (a + b)) by lia.
    rewrite factR_S. simpl (INR 0). rewrite S_INR, plus_INR. cbn [pow].
    pose proof (pos_INR a). pose proof (pos_INR b). field. split; [apply factR_neq | lra].
Qed.

(** ** The weights *)
Lemma rangeProduct_fact : forall k m, INR (rangeProduct (m + 1) (m + k)) * factR m = factR (m + k).
Proof.
  assert (G : forall k m p, INR (range_loop k (m + 1) p) * factR m = INR p * factR (m + k)).
  { induction k as [| k IH]; intros m p; cbn [range_loop]; [now rewrite Nat.add_0_r |].
    specialize (IH (m + 1)%nat (p * (m + 1))%nat). replace (m + 1 + 1)%nat with (S (m + 1)) in IH by lia.
    replace (m + 1 + k)%nat with (m + S k)%nat in IH by lia. rewrite mult_INR in IH.
    replace (factR (m + 1)) with (INR (m + 1) * factR m) in IH
      by (replace (m + 1)%nat with (S m) by lia; now rewrite factR_S).
    assert (N : INR (m + 1) <> 0) by (apply not_0_INR; lia).
    apply (Rmult_eq_reg_l (INR (m + 1))); [| exact N].
    replace (INR (m + 1) * (INR (range_loop k (S (m + 1)) (p * (m + 1))) * factR m))
      with (INR (range_loop k (S (m + 1)) (p * (m + 1))) * (INR (m + 1) * factR m)) by ring. rewrite IH. ring. }
  intros k m. unfold rangeProduct. replace (m + k + 1 - (m + 1))%nat with k by lia. rewrite G. simpl (INR 1). ring.
Qed.
Lemma weightFactor_norm : forall n a b, weightFactor n a b = - (hh a b n / al a b n).
Proof.
  intros n a b. unfold weightFactor, hh, al.
  pose proof (rangeProduct_fact b n) as R1. pose proof (rangeProduct_fact b (n + a)) as R2.
  assert (E1 : INR (rangeProduct (n + 1) (n + b)) = factR (n + b) / factR n) by (rewrite <- R1; field; apply factR_neq).
  assert (E2 : INR (rangeProduct (n + a + 1) (n + a + b)) = factR (n + a + b) / factR (n + a)) by (rewrite <- R2; field; apply factR_neq).
  rewrite E1, E2, pow_INR. replace (a + b + 1)%nat with (S (a + b)) by lia. cbn [pow]. rewrite plus_INR. simpl (INR 2). simpl (INR 1).
  replace (1 + 1) with 2 by ring.
  pose proof (pos_INR a). pose proof (pos_INR b). pose proof (pos_INR n).
  field. repeat split; try apply factR_neq; lra.
Qed.

Section Gauss.
Variables n a b : nat.
Variable x : nat -> R.
Hypothesis Hn : (0 < n)%nat.
Hypothesis Hx : jacobi_roots n a b x.
Local Notation P k := (jacobi k a b).
Let w (i : nat) : R := ir_w (GaussJacobi x n a b) i.

Lemma kernel_pos : forall m t, (0 < m)%nat -> 0 < kernel a b m t t.
Proof.
  intros [| m] t Hm; [lia |]. unfold kernel. rewrite rsum_head. apply Rplus_lt_le_0_compat.
  - rewrite <- hjac_jacobi, hjac_0, Rmult_1_l. apply Rdiv_lt_0_compat; [lra | apply hh_pos].
  - apply rsum_nonneg. intros i Hi. apply Rmult_le_pos; [apply Rle_0_sqr | left; apply Rinv_0_lt_compat, hh_pos].
Qed.

Lemma weight_kernel : forall i, (i < n)%nat -> w i * kernel a b n (x i) (x i) = 1.
Proof.
  intros i Hi. destruct Hx as [Hr _]. specialize (Hr i Hi).
  pose proof (kernel_pos n (x i) Hn) as KP.
  assert (En : n = S (n - 1)) by lia. set (m := (n - 1)%nat) in *.
  pose proof (christoffel_darboux_diag a b m (x i)) as CD. rewrite <- En, Hr in CD.
  pose proof (three_term a b n (x i)) as T. rewrite Hr in T. fold m in T.
  pose proof (norm_step a b m) as NS. rewrite <- En in NS.
  pose proof (al_pos a b n). pose proof (al_pos a b m). pose proof (hh_pos a b n). pose proof (hh_pos a b m).
  set (K := kernel a b n (x i) (x i)) in *.
  assert (Ew : w i = - (hh a b n / al a b n) / (P (S n) (x i) * P1 a b n (x i))).
  { unfold w, GaussJacobi. cbn [ir_w]. rewrite weightFactor_norm. f_equal. f_equal.
    - now rewrite JacobiP_hjac, hjac_jacobi, Nat.add_1_r.
    - unfold JacobiPDerivative, P1. destruct n as [| k]; [reflexivity |]. now rewrite JacobiP_hjac, hjac_jacobi. }
  assert (Hprod : P1 a b n (x i) * P m (x i) <> 0).
  { intros C. assert (K = 0); [| lra]. rewrite CD. replace (P1 a b n (x i) * P m (x i) - P1 a b m (x i) * 0) with (P1 a b n (x i) * P m (x i)) by ring.
    rewrite C. ring. }
  assert (NP1 : P1 a b n (x i) <> 0) by (intros C; apply Hprod; rewrite C; ring).
  assert (NP2 : P m (x i) <> 0) by (intros C; apply Hprod; rewrite C; ring).
  assert (Hg : ga a b n <> 0).
  { intros C. rewrite C in NS. assert (0 < al a b m * hh a b n) by (apply Rmult_lt_0_compat; assumption). lra. }
  assert (EP : P (S n) (x i) = - ga a b n * P m (x i) / al a b n).
  { apply (Rmult_eq_reg_l (al a b n)); [| lra]. field_simplify; [lra | lra]. }
  rewrite Ew, CD, EP.
  replace (hh a b n) with (ga a b n * hh a b m / al a b m) by (rewrite NS; field; lra).
  field. repeat split; try assumption; lra.
Qed.

Lemma discrete_orthogonal : forall k l, (k < n)%nat -> (l < n)%nat ->
  rsum n (fun i => w i * (P k (x i) * P l (x i))) = hh a b k * delta k l.
Proof.
  intros k l Hk Hl.
  pose proof (inverse_commutes n (fun i k => w i * P k (x i)) (fun k j => P k (x j) / hh a b k)) as C.
  assert (HI : forall i j, (i < n)%nat -> (j < n)%nat ->
            rsum n (fun k => w i * P k (x i) * (P k (x j) / hh a b k)) = delta i j).
  { intros i j Hi Hj.
    rewrite (rsum_ext n _ (fun k => w i * (P k (x i) * P k (x j) / hh a b k))) by (intros; unfold Rdiv; ring).
    rewrite rsum_scale. fold (kernel a b n (x i) (x j)). unfold delta. destruct (Nat.eqb_spec i j) as [<- | Hne].
    - now apply weight_kernel.
    - assert (En : n = S (n - 1)) by lia. pose proof (christoffel_darboux a b (n - 1) (x i) (x j)) as CD.
      rewrite <- En in CD. destruct Hx as [Hr Hd]. rewrite (Hr i Hi), (Hr j Hj) in CD.
      assert (x i - x j <> 0) by (intros E; apply Hne, Hd; try assumption; lra).
      assert (kernel a b n (x i) (x j) = 0); [| nra].
      apply (Rmult_eq_reg_l (x i - x j)); [| assumption]. rewrite CD. ring. }
  specialize (C HI k l Hk Hl). cbv beta in C. pose proof (hh_pos a b k).
  rewrite (rsum_ext n _ (fun i => hh a b k * (P k (x i) / hh a b k * (w i * P l (x i))))) by (intros; field; lra).
  rewrite rsum_scale, C. reflexivity.
Qed.

Lemma gauss_exact_poly : forall f, polynomial1 (2 * n - 1) f ->
  is_integral (fun t => wt a b t * f t) (-1) 1 (rsum n (fun i => w i * f (x i))).
Proof.
  intros f Hf. assert (En : n = S (n - 1)) by lia. set (m := (n - 1)%nat) in *.
  replace (2 * n - 1)%nat with (S m + m)%nat in Hf by lia.
  destruct (jacobi_divide a b m m f Hf) as (q & r & Hq & Hr & E). rewrite <- En in E.
  destruct (jacobi_span a b m q Hq) as (cq & Eq). destruct (jacobi_span a b m r Hr) as (cr & Er). rewrite <- En in Eq, Er.
  apply (is_integral_ext (fun t => rsum n (fun k => cq k * (wt a b t * (P n t * P k t))) + rsum n (fun k => cr k * (wt a b t * (P k t * P 0 t)))) _ (-1) 1
    (rsum n (fun k => cq k * 0) + rsum n (fun k => cr k * (hh a b 0 * delta k 0)))).
  - intros t _. rewrite E, Eq, Er. rewrite !Rmult_plus_distr_l, <- !rsum_scale. f_equal; apply rsum_ext; intros k Hk.
    + ring.
    + assert (P 0 t = 1) as -> by (rewrite <- hjac_jacobi; apply hjac_0). ring.
  - rewrite (rsum_zero n (fun k => cq k * 0)) by (intros; ring).
    rewrite (rsum_ext n (fun i => w i * f (x i)) (fun i => rsum n (fun k => cr k * (w i * (P k (x i) * P 0 (x i)))))).
    + rewrite rsum_swap, Rplus_0_l. apply rsum_ext. intros k Hk. rewrite rsum_scale, discrete_orthogonal by lia.
      unfold delta. destruct (Nat.eqb_spec k 0) as [-> | _]; ring.
    + intros i Hi. destruct Hx as [Hr0 _]. rewrite E, (Hr0 i Hi), Er, Rmult_0_l, Rplus_0_l, <- rsum_scale. apply rsum_ext. intros k Hk.
      assert (P 0 (x i) = 1) as -> by (rewrite <- hjac_jacobi; apply hjac_0). ring.
  - apply is_integral_plus; apply is_integral_rsum; intros k Hk; apply is_integral_scale.
    + apply jacobi_orthogonal. lia.
    + unfold delta. destruct (Nat.eqb_spec k 0) as [-> | Hne].
      * eapply is_integral_ext; [| | apply (weight_integral a b)].
        -- intros t _. assert (P 0 t = 1) as -> by (rewrite <- hjac_jacobi; apply hjac_0). ring.
        -- ring.
      * rewrite Rmult_0_r. apply jacobi_orthogonal. exact Hne.
Qed.
End Gauss.
