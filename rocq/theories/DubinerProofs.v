(** The Dubiner basis: degree, orthogonality over the reference simplex, and span. *)
Require Import List Arith Lia Reals Lra.
Require Import Verif.LinAlg Verif.BasisModel Verif.BasisSpec Verif.JacobiProofs Verif.IntegralSpec Verif.IntegralProofs
  Verif.OrthogonalProofs Verif.QuadratureModel Verif.QuadratureSpec Verif.QuadratureProofs Verif.QuadratureProps
  Verif.RootsProofs Verif.RootsProps.
Import ListNotations.
Local Open Scope R_scope.

(** ** Degree *)
Lemma poly_scale : forall D d c f, polynomial D d f -> polynomial D d (fun xi => c * f xi).
Proof. intros D d c f H. exact (poly_mult D 0 d (fun _ => c) f (poly_const D c 0) H). Qed.
Lemma poly_rsum : forall D d n (f : nat -> (nat -> R) -> R), (forall k, (k < n)%nat -> polynomial D d (f k)) ->
  polynomial D d (fun xi => rsum n (fun k => f k xi)).
Proof.
  induction n as [| n IH]; intros f H; cbn [rsum]; [apply poly_const |].
  apply (poly_plus D d (fun xi => rsum n (fun k => f k xi)) (f n)); [apply IH; auto with arith | apply H; lia].
Qed.
Lemma poly_pow : forall D k f, polynomial D 1 f -> polynomial D k (fun xi => f xi ^ k).
Proof.
  induction k as [| k IH]; intros f H; cbn [pow]; [apply poly_const |].
  exact (poly_mult D 1 k f (fun xi => f xi ^ k) H (IH f H)).
Qed.
Lemma poly_hjac : forall D n a b X Y, polynomial D 1 X -> polynomial D 1 Y -> polynomial D n (fun xi => hjac n a b (X xi) (Y xi)).
Proof.
  intros D n a b X Y HX HY. unfold hjac. apply (poly_rsum D n (S n) (fun k xi => jacobi_coeff n a b k * ((X xi - Y xi) / 2) ^ k * Y xi ^ (n - k))).
  intros k Hk. replace n with (k + (n - k))%nat at 1 by lia.
  apply (poly_mult D k (n - k) (fun xi => jacobi_coeff n a b k * ((X xi - Y xi) / 2) ^ k) (fun xi => Y xi ^ (n - k))); [| now apply poly_pow].
  apply poly_scale. apply (poly_pow D k (fun xi => (X xi - Y xi) / 2)).
  apply (poly_eq D 1 (fun xi => 1 / 2 * X xi + (- (1 / 2)) * Y xi)); [intros; field |].
  apply (poly_plus D 1 (fun xi => 1 / 2 * X xi) (fun xi => - (1 / 2) * Y xi)); now apply poly_scale.
Qed.
Lemma poly_affine3 : forall D c0 c1 c2 c3, ((0 < D)%nat \/ c1 = 0) -> ((1 < D)%nat \/ c2 = 0) -> ((2 < D)%nat \/ c3 = 0) ->
  polynomial D 1 (fun xi => c0 + c1 * xi 0%nat + c2 * xi 1%nat + c3 * xi 2%nat).
Proof.
  intros D c0 c1 c2 c3 A1 A2 A3.
  assert (T : forall c e, ((e < D)%nat \/ c = 0) -> polynomial D 1 (fun xi => c * xi e)).
  { intros c e [H | ->]; [apply poly_scale; now apply poly_coord |].
    apply (poly_eq D 1 (fun _ => 0)); [intros; ring | apply poly_const]. }
  apply (poly_plus D 1 (fun xi => c0 + c1 * xi 0%nat + c2 * xi 1%nat) (fun xi => c3 * xi 2%nat)); [| now apply T].
  apply (poly_plus D 1 (fun xi => c0 + c1 * xi 0%nat) (fun xi => c2 * xi 1%nat)); [| now apply T].
  apply (poly_plus D 1 (fun _ => c0) (fun xi => c1 * xi 0%nat)); [apply poly_const | now apply T].
Qed.
Lemma poly_aff : forall D f c0 c1 c2 c3, (forall xi, c0 + c1 * xi 0%nat + c2 * xi 1%nat + c3 * xi 2%nat = f xi) ->
  ((0 < D)%nat \/ c1 = 0) -> ((1 < D)%nat \/ c2 = 0) -> ((2 < D)%nat \/ c3 = 0) -> polynomial D 1 f.
Proof. intros D f c0 c1 c2 c3 E A1 A2 A3. eapply poly_eq; [exact E | now apply poly_affine3]. Qed.

(** DubinerP in terms of the homogenised Jacobi polynomials. *)
Definition dub (D : nat) (i : list nat) (xi : nat -> R) : R :=
  let p := nth 0 i 0%nat in let q := nth 1 i 0%nat in let l := nth 2 i 0%nat in
  match D with
  | 1%nat => hjac p 0 0 (2 * xi 0%nat - 1) 1
  | 2%nat => hjac p 0 0 (2 * xi 0%nat - (1 - xi 1%nat)) (1 - xi 1%nat) * hjac q (2 * p + 1) 0 (2 * xi 1%nat - 1) 1
  | _ => hjac p 0 0 (2 * xi 0%nat - (1 - xi 1%nat - xi 2%nat)) (1 - xi 1%nat - xi 2%nat)
         * (hjac q (2 * p + 1) 0 (2 * xi 1%nat - (1 - xi 2%nat)) (1 - xi 2%nat) * hjac l (2 * p + 2 * q + 2) 0 (2 * xi 2%nat - 1) 1)
  end.
Lemma DubinerP_dub : forall D i xi, DubinerP D i xi = dub D i xi.
Proof.
  assert (T3 : forall i xi, TetraDubinerP i xi = dub 3 i xi).
  { intros i xi. unfold TetraDubinerP, dub. rewrite !sfj_hjac.
    replace (2 * xi 0%nat - 1 + xi 1%nat + xi 2%nat) with (2 * xi 0%nat - (1 - xi 1%nat - xi 2%nat)) by ring.
    replace (2 * xi 1%nat - 1 + xi 2%nat) with (2 * xi 1%nat - (1 - xi 2%nat)) by ring. ring. }
  intros D i xi. destruct D as [| [| [| D]]].
  - exact (T3 i xi).
  - cbn [DubinerP dub]. apply JacobiP_hjac.
  - cbn [DubinerP dub]. unfold TriDubinerP. rewrite !sfj_hjac.
    replace (2 * xi 0%nat - 1 + xi 1%nat) with (2 * xi 0%nat - (1 - xi 1%nat)) by ring. reflexivity.
  - exact (T3 i xi).
Qed.
Lemma dubiner_poly : forall D i, (D = 1 \/ D = 2 \/ D = 3)%nat -> length i = D -> polynomial D (list_sum i) (DubinerP D i).
Proof.
  intros D i HD Hi. apply (poly_eq D _ (dub D i)); [intros; symmetry; apply DubinerP_dub |].
  destruct HD as [-> | [-> | ->]].
  - destruct i as [| p [| ? ?]]; try discriminate. unfold dub. cbn [nth list_sum fold_right]. rewrite Nat.add_0_r.
    apply poly_hjac; [apply (poly_aff 1 _ (-1) 2 0 0) | apply (poly_aff 1 _ 1 0 0 0)]; intros; first [ring | lia | now left | now right].
  - destruct i as [| p [| q [| ? ?]]]; try discriminate. unfold dub. cbn [nth list_sum fold_right]. rewrite Nat.add_0_r.
    apply (poly_mult 2 p q (fun xi => hjac p 0 0 (2 * xi 0%nat - (1 - xi 1%nat)) (1 - xi 1%nat)) (fun xi => hjac q (2 * p + 1) 0 (2 * xi 1%nat - 1) 1));
      apply poly_hjac; [apply (poly_aff 2 _ (-1) 2 1 0) | apply (poly_aff 2 _ 1 0 (-1) 0) | apply (poly_aff 2 _ (-1) 0 2 0) | apply (poly_aff 2 _ 1 0 0 0)];
      intros; first [ring | left; lia | right; reflexivity].
  - destruct i as [| p [| q [| l [| ? ?]]]]; try discriminate. unfold dub. cbn [nth list_sum fold_right]. rewrite Nat.add_0_r.
    apply (poly_mult 3 p (q + l) (fun xi => hjac p 0 0 (2 * xi 0%nat - (1 - xi 1%nat - xi 2%nat)) (1 - xi 1%nat - xi 2%nat))
      (fun xi => hjac q (2 * p + 1) 0 (2 * xi 1%nat - (1 - xi 2%nat)) (1 - xi 2%nat) * hjac l (2 * p + 2 * q + 2) 0 (2 * xi 2%nat - 1) 1));
    [| apply (poly_mult 3 q l (fun xi => hjac q (2 * p + 1) 0 (2 * xi 1%nat - (1 - xi 2%nat)) (1 - xi 2%nat)) (fun xi => hjac l (2 * p + 2 * q + 2) 0 (2 * xi 2%nat - 1) 1))];
      apply poly_hjac;
      [apply (poly_aff 3 _ (-1) 2 1 1) | apply (poly_aff 3 _ 1 0 (-1) (-1)) | apply (poly_aff 3 _ (-1) 0 2 1)
       | apply (poly_aff 3 _ 1 0 0 (-1)) | apply (poly_aff 3 _ (-1) 0 0 2) | apply (poly_aff 3 _ 1 0 0 0)];
      intros; first [ring | left; lia | right; reflexivity].
Qed.

(** ** Orthogonality *)
Lemma jacobi_norm : forall a b n m, is_integral (fun x => wt a b x * (jacobi n a b x * jacobi m a b x)) (-1) 1 (if (n =? m)%nat then hh a b n else 0).
Proof.
  intros a b n m. destruct (Nat.eqb_spec n m) as [<- | Hne]; [| now apply jacobi_orthogonal].
  destruct (roots_exist a b (S n)) as (x & Hx & _).
  pose proof (gauss_jacobi_exact (S n) a b x (fun t => jacobi n a b t * jacobi n a b t) ltac:(lia) Hx) as G. cbv zeta in G.
  eapply is_integral_ext; [| | apply G].
  - intros t _. reflexivity.
  - rewrite (rsum_ext (S n) _ (fun i => ir_w (GaussJacobi x (S n) a b) i * (jacobi n a b (x i) * jacobi n a b (x i)))) by reflexivity.
    rewrite (discrete_orthogonal (S n) a b x ltac:(lia) Hx n n ltac:(lia) ltac:(lia)). unfold delta. rewrite Nat.eqb_refl. ring.
  - apply (p1_le (n + n)); [lia |]. apply p1_mult; apply jacobi_poly.
Qed.
(** The integral over one collapsed coordinate, from 0 to c. *)
Lemma collapsed_integral : forall n m a c, 0 <= c ->
  is_integral (fun x => (c - x) ^ a * (hjac n a 0 (2 * x - c) c * hjac m a 0 (2 * x - c) c)) 0 c
    ((if (n =? m)%nat then hh a 0 n / 2 ^ (a + 1) else 0) * c ^ (n + m + a + 1)).
Proof.
  intros n m a c Hc. destruct (Req_dec c 0) as [-> | Hne].
  - eapply is_integral_ext; [reflexivity | | apply is_integral_point]. rewrite (pow_i (n + m + a + 1)) by lia. ring.
  - assert (Hp : 0 < 2 / c) by (apply Rdiv_lt_0_compat; lra).
    pose proof (jacobi_norm a 0 n m) as J.
    apply (is_integral_ext _ _ _ _ _ _ (fun x _ => eq_refl) eq_refl) in J.
    assert (J' : is_integral (fun x => wt a 0 x * (jacobi n a 0 x * jacobi m a 0 x)) (-1 + 2 / c * 0) (-1 + 2 / c * c) (if (n =? m)%nat then hh a 0 n else 0)).
    { replace (-1 + 2 / c * 0) with (-1) by ring. replace (-1 + 2 / c * c) with 1 by (field; exact Hne). exact J. }
    apply is_integral_affine in J'; [| exact Hp]. apply (is_integral_scale _ _ _ _ (c ^ (n + m + a) / 2 ^ a)) in J'.
    assert (P2 : 2 ^ a <> 0) by (apply pow_nonzero; lra).
    eapply is_integral_ext; [| | exact J'].
    + intros x _. cbv beta. unfold wt. cbn [pow]. rewrite !hjac_scaled by exact Hne.
      replace ((2 * x - c) / c) with (-1 + 2 / c * x) by (field; exact Hne).
      replace (c - x) with (c * (1 - (-1 + 2 / c * x)) * / 2) by (field; exact Hne). rewrite !Rpow_mult_distr, !pow_add.
      rewrite pow_inv by lra. field. exact P2.
    + rewrite !pow_add. cbn [pow]. destruct (n =? m)%nat; field; repeat split; try exact P2; lra.
Qed.
(** The squared norms. *)
Definition level (a n : nat) : R := hh a 0 n / 2 ^ (a + 1).
Definition dub_norm (D : nat) (i : list nat) : R :=
  let p := nth 0 i 0%nat in let q := nth 1 i 0%nat in let l := nth 2 i 0%nat in
  match D with
  | 1%nat => level 0 p
  | 2%nat => level 0 p * level (2 * p + 1) q
  | _ => level 0 p * level (2 * p + 1) q * level (2 * p + 2 * q + 2) l
  end.
Lemma level_pos : forall a n, 0 < level a n.
Proof. intros. unfold level. apply Rdiv_lt_0_compat; [apply hh_pos | apply pow_lt; lra]. Qed.
Lemma dub_norm_pos : forall D i, 0 < dub_norm D i.
Proof. intros D i. destruct D as [| [| [| D]]]; cbn [dub_norm]; repeat first [apply level_pos | apply Rmult_lt_0_compat]. Qed.

Definition list_eqb (i j : list nat) : bool := if list_eq_dec Nat.eq_dec i j then true else false.
Lemma ite_scale : forall (b : bool) x y c, x = y -> (if b then x else 0) * c = (if b then y * c else 0).
Proof. intros [] x y c ->; ring. Qed.
Lemma dub_integral : forall D i j, (D = 1 \/ D = 2 \/ D = 3)%nat -> length i = D -> length j = D ->
  is_simplex_integral D (fun xi => dub D i xi * dub D j xi) (if list_eqb i j then dub_norm D i else 0).
Proof.
  intros D i j HD Hi Hj. destruct HD as [-> | [-> | ->]].
  - destruct i as [| p [| ? ?]]; try discriminate. destruct j as [| p' [| ? ?]]; try discriminate.
    cbn [is_simplex_integral dub nth pt]. pose proof (collapsed_integral p p' 0 1 ltac:(lra)) as C.
    eapply is_integral_ext; [| | exact C].
    + intros x _. cbn [pow]. ring.
    + rewrite pow1, Rmult_1_r. unfold dub_norm, level, list_eqb. cbn [nth].
      destruct (Nat.eqb_spec p p') as [-> | Hne]; destruct (list_eq_dec Nat.eq_dec _ _) as [E | E]; try congruence; reflexivity.
  - destruct i as [| p [| q [| ? ?]]]; try discriminate. destruct j as [| p' [| q' [| ? ?]]]; try discriminate.
    cbn [is_simplex_integral dub nth pt].
    set (k0 := if (p =? p')%nat then level 0 p else 0).
    exists (fun y => k0 * (1 - y) ^ (p + p' + 0 + 1) * (hjac q (2 * p + 1) 0 (2 * y - 1) 1 * hjac q' (2 * p' + 1) 0 (2 * y - 1) 1)). split.
    + intros y Hy. pose proof (collapsed_integral p p' 0 (1 - y) ltac:(lra)) as C.
      apply (is_integral_scale _ _ _ _ (hjac q (2 * p + 1) 0 (2 * y - 1) 1 * hjac q' (2 * p' + 1) 0 (2 * y - 1) 1)) in C.
      eapply is_integral_ext; [| | exact C]; [intros x _; cbn [pow]; ring |]. fold (level 0 p). fold k0. ring.
    + unfold k0, list_eqb. destruct (Nat.eqb_spec p p') as [<- | Hne].
      * pose proof (collapsed_integral q q' (2 * p + 1) 1 ltac:(lra)) as C. apply (is_integral_scale _ _ _ _ (level 0 p)) in C.
        eapply is_integral_ext; [| | exact C].
        -- intros y _. replace (p + p + 0 + 1)%nat with (2 * p + 1)%nat by lia. ring.
        -- rewrite pow1, Rmult_1_r. unfold dub_norm, level. cbn [nth].
           destruct (Nat.eqb_spec q q') as [<- | Hne]; destruct (list_eq_dec Nat.eq_dec _ _) as [E | E]; try congruence; ring.
      * destruct (list_eq_dec Nat.eq_dec _ _) as [E | E]; [congruence |].
        eapply is_integral_ext; [| | apply (is_integral_const 0)]; [intros; cbv beta; ring | ring].
  - destruct i as [| p [| q [| l [| ? ?]]]]; try discriminate. destruct j as [| p' [| q' [| l' [| ? ?]]]]; try discriminate.
    cbn [is_simplex_integral dub nth pt].
    set (k0 := if (p =? p')%nat then level 0 p else 0).
    set (k1 := if (p =? p')%nat then (if (q =? q')%nat then level 0 p * level (2 * p + 1) q else 0) else 0).
    set (U := fun y z => hjac q (2 * p + 1) 0 (2 * y - (1 - z)) (1 - z) * hjac q' (2 * p' + 1) 0 (2 * y - (1 - z)) (1 - z)).
    set (V := fun z => hjac l (2 * p + 2 * q + 2) 0 (2 * z - 1) 1 * hjac l' (2 * p' + 2 * q' + 2) 0 (2 * z - 1) 1).
    exists (fun y z => k0 * (1 - y - z) ^ (p + p' + 0 + 1) * (U y z * V z)),
           (fun z => k1 * (1 - z) ^ (q + q' + (2 * p + 1) + 1) * V z). split; [| split].
    + intros z y Hz Hy. pose proof (collapsed_integral p p' 0 (1 - y - z) ltac:(lra)) as C.
      apply (is_integral_scale _ _ _ _ (U y z * V z)) in C.
      eapply is_integral_ext; [| | exact C]; [intros x _; unfold U, V; cbn [pow]; ring |]. fold (level 0 p). fold k0. ring.
    + intros z Hz. unfold k0, k1. destruct (Nat.eqb_spec p p') as [<- | Hne].
      * pose proof (collapsed_integral q q' (2 * p + 1) (1 - z) ltac:(lra)) as C. apply (is_integral_scale _ _ _ _ (level 0 p * V z)) in C.
        eapply is_integral_ext; [| | exact C].
        -- intros y _. unfold U. replace (p + p + 0 + 1)%nat with (2 * p + 1)%nat by lia. replace (1 - y - z) with (1 - z - y) by ring. ring.
        -- destruct (q =? q')%nat; unfold level; ring.
      * eapply is_integral_ext; [| | apply (is_integral_const 0)]; [intros; cbv beta; ring | ring].
    + unfold k1, list_eqb. destruct (Nat.eqb_spec p p') as [<- | Hne]; [destruct (Nat.eqb_spec q q') as [<- | Hne] |].
      * pose proof (collapsed_integral l l' (2 * p + 2 * q + 2) 1 ltac:(lra)) as C. apply (is_integral_scale _ _ _ _ (level 0 p * level (2 * p + 1) q)) in C.
        eapply is_integral_ext; [| | exact C].
        -- intros z _. unfold V. replace (q + q + (2 * p + 1) + 1)%nat with (2 * p + 2 * q + 2)%nat by lia. ring.
        -- rewrite pow1, Rmult_1_r. unfold dub_norm, level. cbn [nth].
           destruct (Nat.eqb_spec l l') as [<- | Hne]; destruct (list_eq_dec Nat.eq_dec _ _) as [E | E]; try congruence; ring.
      * destruct (list_eq_dec Nat.eq_dec _ _) as [E | E]; [congruence |].
        eapply is_integral_ext; [| | apply (is_integral_const 0)]; [intros; cbv beta; ring | ring].
      * destruct (list_eq_dec Nat.eq_dec _ _) as [E | E]; [congruence |].
        eapply is_integral_ext; [| | apply (is_integral_const 0)]; [intros; cbv beta; ring | ring].
Qed.
Lemma dubiner_integral : forall D i j, (D = 1 \/ D = 2 \/ D = 3)%nat -> length i = D -> length j = D ->
  is_simplex_integral D (fun xi => DubinerP D i xi * DubinerP D j xi) (if list_eqb i j then dub_norm D i else 0).
Proof.
  intros D i j HD Hi Hj. eapply simplex_ext; [| reflexivity | apply (dub_integral D i j HD Hi Hj)].
  intros. now rewrite !DubinerP_dub.
Qed.
