(** Property theorems: fault basis (C54), slip and traction do not depend on the side (C27). *)
Require Import List Arith Lia Bool Reals Lra.
Require Import Verif.Base Verif.LinAlg Verif.TopoModel Verif.AssembleModel Verif.PoissonModel Verif.FaultModel.
Import ListNotations.
Local Open Scope R_scope.

(** * The basis *)
Lemma vdot_nonneg dim a : 0 <= vdot dim a a.
Proof. unfold vdot. apply rsum_nonneg. intros. apply Rle_0_sqr. Qed.
Lemma vdot_comm dim a b : vdot dim a b = vdot dim b a.
Proof. unfold vdot. apply rsum_ext. intros. ring. Qed.
Lemma vnorm_sq dim a : vnorm dim a * vnorm dim a = vdot dim a a.
Proof. unfold vnorm. apply sqrt_sqrt. apply vdot_nonneg. Qed.
Lemma vnorm_pos dim a : 0 < vdot dim a a -> 0 < vnorm dim a.
Proof. intro H. unfold vnorm. apply sqrt_lt_R0. auto. Qed.
Lemma normalized_unit dim a : 0 < vdot dim a a -> vdot dim (normalized dim a) (normalized dim a) = 1.
Proof.
  intro H. unfold normalized. destruct (Rlt_dec 0 (vdot dim a a)); [|lra]. pose proof (vnorm_pos dim a H) as N. pose proof (vnorm_sq dim a) as Sq.
  unfold vdot at 1. rewrite (rsum_ext dim _ (fun i => / (vnorm dim a * vnorm dim a) * (a i * a i))) by (intros; field; lra).
  rewrite rsum_scale. fold (vdot dim a a). rewrite Sq. field. lra.
Qed.
Lemma normalized_dot dim a b : 0 < vdot dim a a -> vdot dim b (normalized dim a) = vdot dim b a / vnorm dim a.
Proof.
  intro H. unfold normalized. destruct (Rlt_dec 0 (vdot dim a a)); [|lra]. pose proof (vnorm_pos dim a H).
  unfold vdot at 1. rewrite (rsum_ext dim _ (fun i => / vnorm dim a * (b i * a i))) by (intros; field; lra).
  rewrite rsum_scale. fold (vdot dim b a). field. lra.
Qed.
Lemma vdot2 a b : vdot 2 a b = a 0%nat * b 0%nat + a 1%nat * b 1%nat.
Proof. unfold vdot. cbn. ring. Qed.
Lemma vdot3 a b : vdot 3 a b = a 0%nat * b 0%nat + a 1%nat * b 1%nat + a 2%nat * b 2%nat.
Proof. unfold vdot. cbn. ring. Qed.
Lemma tol_small : 0 < tol < 1.
Proof. unfold tol. split; [apply Rmult_lt_0_compat; [lra|apply Rinv_0_lt_compat, pow_lt; lra]|].
  apply (Rmult_lt_reg_r (2 ^ 52)); [apply pow_lt; lra|]. unfold Rdiv. rewrite Rmult_assoc, Rinv_l by (apply pow_nonzero; lra). cbn [pow]. lra. Qed.

(** Two vectors are parallel: one is a multiple of the nonzero vector n. *)
Definition parallel (dim : nat) (a n : vec) : Prop := exists t, forall i, (i < dim)%nat -> a i = t * n i.
Definition nonzero (dim : nat) (n : vec) : Prop := exists i, (i < dim)%nat /\ n i <> 0.
Definition column (b : nat -> nat -> R) (p : nat) : vec := fun j => b j p.
(** What a fault basis for normal n and up vector has to be: orthonormal, first the direction of n,
    then the direction of steepest descent in the plane of the fault, then in three dimensions a
    horizontal direction that completes them to a right-handed system. *)
Record fault_basis_ok (dim : nat) (up n : vec) (b : nat -> nat -> R) : Prop := {
  fb_orth : forall p r, (p < dim)%nat -> (r < dim)%nat -> vdot dim (column b p) (column b r) = if (p =? r)%nat then 1 else 0;
  fb_normal : exists c, 0 < c /\ forall j, (j < dim)%nat -> n j = c * b j 0%nat;
  fb_down : vdot dim up (column b 1) < 0;
  fb_steepest : forall t, vdot dim t n = 0 -> vdot dim t t = 1 -> vdot dim up (column b 1) <= vdot dim up t;
  fb_strike : dim = 3%nat -> vdot 3 up (column b 2) = 0 /\ forall j, (j < 3)%nat -> cross (column b 0) (column b 1) j = b j 2%nat }.

Lemma nonzero_pos dim n : nonzero dim n -> 0 < vdot dim n n.
Proof.
  intros (i & Hi & Z). destruct (Rle_lt_or_eq_dec _ _ (vdot_nonneg dim n)) as [H|H]; auto. exfalso. symmetry in H.
  unfold vdot in H. apply Z. pose proof (rsum_nonneg_zero dim _ (fun i _ => Rle_0_sqr (n i)) H i Hi) as E. unfold Rsqr in E. nra.
Qed.
Lemma unit2 n : nonzero 2 n -> let u := normalized 2 n in u 0%nat * u 0%nat + u 1%nat * u 1%nat = 1.
Proof. intros H u. pose proof (normalized_unit 2 n (nonzero_pos _ _ H)) as E. rewrite vdot2 in E. auto. Qed.
Lemma unit3 n : 0 < vdot 3 n n -> let u := normalized 3 n in u 0%nat * u 0%nat + u 1%nat * u 1%nat + u 2%nat * u 2%nat = 1.
Proof. intros H u. pose proof (normalized_unit 3 n H) as E. rewrite vdot3 in E. auto. Qed.
Lemma normalized_scale dim n : 0 < vdot dim n n -> forall j, n j = vnorm dim n * normalized dim n j.
Proof. intros H j. unfold normalized. destruct (Rlt_dec _ _); [|lra]. field. pose proof (vnorm_pos dim n H). lra. Qed.
Lemma sgn_cases x : (0 < x /\ sgn x = 1) \/ (x < 0 /\ sgn x = -1) \/ (x = 0 /\ sgn x = 0).
Proof. unfold sgn. destruct (Rlt_dec 0 x); [left; auto|]. destruct (Rlt_dec x 0); [right; left; auto|]. right; right; split; auto. lra. Qed.

(** C54: if facetBasis returns, the result is such a basis. *)
Theorem fault_basis_correct : forall dim up n b, nonzero dim n -> facet_basis dim up n = Some b -> fault_basis_ok dim up n b.
Proof.
  intros dim up n b NZ. unfold facet_basis. destruct dim as [|[|[|[|dim]]]]; try discriminate.
  - set (u := normalized 2 n). set (x := up 0%nat * u 1%nat - up 1%nat * u 0%nat). pose proof (unit2 n NZ) as U. cbv zeta in U. fold u in U.
    destruct (Rlt_dec (Rabs (sgn x)) tol) as [|HT]; [discriminate|]. intros [= <-].
    pose proof tol_small as T. assert (Sx : (0 < x /\ sgn x = 1) \/ (x < 0 /\ sgn x = -1)).
    { destruct (sgn_cases x) as [?|[?|[? E]]]; auto. rewrite E, Rabs_R0 in HT. lra. }
    pose proof (normalized_scale 2 n (nonzero_pos _ _ NZ)) as Sc. fold u in Sc. pose proof (vnorm_pos 2 n (nonzero_pos _ _ NZ)) as Np.
    constructor.
    + intros p r Hp Hr. rewrite vdot2. unfold column. destruct p as [|[|p]]; [| |lia]; (destruct r as [|[|r]]; [| |lia]); cbn [Nat.eqb];
        destruct Sx as [[_ Es]|[_ Es]]; rewrite ?Es; lra.
    + exists (vnorm 2 n). split; auto.
    + rewrite vdot2. unfold column. destruct Sx as [[H ->]|[H ->]]; unfold x in H; lra.
    + intros t Tn Tt. rewrite !vdot2 in *. unfold column. rewrite (Sc 0%nat), (Sc 1%nat) in Tn.
      assert (Z : t 0%nat * u 0%nat + t 1%nat * u 1%nat = 0).
      { apply (Rmult_eq_reg_l (vnorm 2 n)); lra. }
      assert (C : (t 0%nat = - u 1%nat /\ t 1%nat = u 0%nat) \/ (t 0%nat = u 1%nat /\ t 1%nat = - u 0%nat)).
      { set (c := t 1%nat * u 0%nat - t 0%nat * u 1%nat).
        assert (A0 : t 0%nat * (u 0%nat * u 0%nat + u 1%nat * u 1%nat) + c * u 1%nat = u 0%nat * (t 0%nat * u 0%nat + t 1%nat * u 1%nat)) by (unfold c; ring).
        assert (A1 : t 1%nat * (u 0%nat * u 0%nat + u 1%nat * u 1%nat) - c * u 0%nat = u 1%nat * (t 0%nat * u 0%nat + t 1%nat * u 1%nat)) by (unfold c; ring).
        rewrite U, Z in A0, A1. assert (H : t 0%nat = - c * u 1%nat) by lra. assert (H0 : t 1%nat = c * u 0%nat) by lra. clearbody c.
        assert (c * c = 1). { rewrite H, H0 in Tt. replace (- c * u 1%nat * (- c * u 1%nat) + c * u 0%nat * (c * u 0%nat)) with (c * c * (u 0%nat * u 0%nat + u 1%nat * u 1%nat)) in Tt by ring. rewrite U in Tt. lra. }
        assert (c = 1 \/ c = -1) as [E | E]. { assert ((c - 1) * (c + 1) = 0) by lra. apply Rmult_integral in H2. lra. }
        - left. rewrite H, H0, E. split; ring.
        - right. rewrite H, H0, E. split; ring. }
      destruct C as [[-> ->]|[-> ->]], Sx as [[H ->]|[H ->]]; unfold x in H; lra.
    + discriminate.
  - set (u := normalized 3 n). set (c := cross up u). pose proof (unit3 n (nonzero_pos _ _ NZ)) as U. cbv zeta in U. fold u in U.
    destruct (Rlt_dec (vnorm 3 (normalized 3 c)) tol) as [|HT]; [discriminate|]. intros [= <-].
    pose proof tol_small as T. assert (Cp : 0 < vdot 3 c c).
    { destruct (Rle_lt_or_eq_dec _ _ (vdot_nonneg 3 c)) as [H|H]; auto. exfalso. apply HT. unfold normalized. destruct (Rlt_dec _ _); [lra|].
      unfold vnorm. rewrite <- H, sqrt_0. lra. }
    pose proof (unit3 c Cp) as Su. cbv zeta in Su. set (s := normalized 3 c) in *. set (L := vnorm 3 c). pose proof (vnorm_pos 3 c Cp) as Lp. fold L in Lp.
    pose proof (normalized_scale 3 c Cp) as Sc. fold s L in Sc.
    assert (Sn : s 0%nat * u 0%nat + s 1%nat * u 1%nat + s 2%nat * u 2%nat = 0).
    { apply (Rmult_eq_reg_l L); [|lra]. rewrite !Rmult_plus_distr_l, <- !Rmult_assoc, <- !Sc. unfold c, cross. ring. }
    assert (Sup : s 0%nat * up 0%nat + s 1%nat * up 1%nat + s 2%nat * up 2%nat = 0).
    { apply (Rmult_eq_reg_l L); [|lra]. rewrite !Rmult_plus_distr_l, <- !Rmult_assoc, <- !Sc. unfold c, cross. ring. }
    assert (Dd : vdot 3 (cross s u) (cross s u) = 1).
    { rewrite vdot3. unfold cross.
      replace (_ + _) with ((s 0%nat * s 0%nat + s 1%nat * s 1%nat + s 2%nat * s 2%nat) * (u 0%nat * u 0%nat + u 1%nat * u 1%nat + u 2%nat * u 2%nat)
        - (s 0%nat * u 0%nat + s 1%nat * u 1%nat + s 2%nat * u 2%nat) * (s 0%nat * u 0%nat + s 1%nat * u 1%nat + s 2%nat * u 2%nat)) by ring.
      rewrite Su, U, Sn. ring. }
    assert (D : forall j, normalized 3 (cross s u) j = cross s u j).
    { intro j. rewrite (normalized_scale 3 (cross s u)) by lra. unfold vnorm. rewrite Dd, sqrt_1. ring. }
    pose proof (normalized_scale 3 n (nonzero_pos _ _ NZ)) as Scn. fold u in Scn. pose proof (vnorm_pos 3 n (nonzero_pos _ _ NZ)) as Np.
    assert (UD : up 0%nat * cross s u 0%nat + up 1%nat * cross s u 1%nat + up 2%nat * cross s u 2%nat = - L).
    { replace (_ + _) with (- (s 0%nat * c 0%nat + s 1%nat * c 1%nat + s 2%nat * c 2%nat)) by (unfold c, cross; ring).
      rewrite !Sc. replace (- _) with (- L * (s 0%nat * s 0%nat + s 1%nat * s 1%nat + s 2%nat * s 2%nat)) by ring. rewrite Su. ring. }
    constructor.
    + intros p r Hp Hr. rewrite vdot3. unfold column. destruct p as [|[|[|p]]]; [| | |lia]; (destruct r as [|[|[|r]]]; [| | |lia]); cbn [Nat.eqb]; rewrite ?D;
        try (rewrite <- U; ring); try (rewrite <- Su; ring); try (rewrite <- Sn; ring); try (rewrite vdot3 in Dd; exact Dd); unfold cross; ring.
    + exists (vnorm 3 n). split; auto.
    + rewrite vdot3. unfold column. rewrite !D. lra.
    + intros t Tn Tt. rewrite !vdot3 in *. unfold column. rewrite !D. rewrite UD. rewrite !Scn in Tn.
      assert (Z : t 0%nat * u 0%nat + t 1%nat * u 1%nat + t 2%nat * u 2%nat = 0) by (apply (Rmult_eq_reg_l (vnorm 3 n)); lra).
      set (v := cross t u).
      assert (E1 : up 0%nat * t 0%nat + up 1%nat * t 1%nat + up 2%nat * t 2%nat = L * (s 0%nat * v 0%nat + s 1%nat * v 1%nat + s 2%nat * v 2%nat)).
      { rewrite !Rmult_plus_distr_l, <- !Rmult_assoc, <- !Sc. unfold c, v, cross.
        replace (_ + _) with ((up 0%nat * t 0%nat + up 1%nat * t 1%nat + up 2%nat * t 2%nat) * 1) by ring. rewrite <- U.
        match goal with |- ?a = ?b => replace b with (a - (up 0%nat * u 0%nat + up 1%nat * u 1%nat + up 2%nat * u 2%nat) * (t 0%nat * u 0%nat + t 1%nat * u 1%nat + t 2%nat * u 2%nat)) by ring end.
        rewrite Z. ring. }
      assert (V1 : v 0%nat * v 0%nat + v 1%nat * v 1%nat + v 2%nat * v 2%nat = 1).
      { unfold v, cross. replace (_ + _) with ((t 0%nat * t 0%nat + t 1%nat * t 1%nat + t 2%nat * t 2%nat) * (u 0%nat * u 0%nat + u 1%nat * u 1%nat + u 2%nat * u 2%nat)
        - (t 0%nat * u 0%nat + t 1%nat * u 1%nat + t 2%nat * u 2%nat) * (t 0%nat * u 0%nat + t 1%nat * u 1%nat + t 2%nat * u 2%nat)) by ring.
        rewrite Tt, U, Z. ring. }
      rewrite E1. assert (-1 <= s 0%nat * v 0%nat + s 1%nat * v 1%nat + s 2%nat * v 2%nat).
      { pose proof (Rle_0_sqr (s 0%nat + v 0%nat)) as A0. pose proof (Rle_0_sqr (s 1%nat + v 1%nat)) as A1. pose proof (Rle_0_sqr (s 2%nat + v 2%nat)) as A2. unfold Rsqr in *. lra. }
      nra.
    + intros _. split.
      * rewrite vdot3. unfold column. rewrite <- Sup. ring.
      * intros j Hj. unfold column.
        assert (E : forall j, cross u (cross s u) j = s j * (u 0%nat * u 0%nat + u 1%nat * u 1%nat + u 2%nat * u 2%nat) - u j * (s 0%nat * u 0%nat + s 1%nat * u 1%nat + s 2%nat * u 2%nat) \/ (3 <= j)%nat).
        { intros [|[|[|k]]]; [left; unfold cross; ring..|right; lia]. }
        destruct (E j) as [Ej|]; [|lia]. replace (cross (fun j0 => u j0) (fun j0 => normalized 3 (cross s u) j0) j) with (cross u (cross s u) j).
        { rewrite Ej, U, Sn. ring. }
        destruct j as [|[|[|j]]]; [| | |lia]; unfold cross at 1 3; rewrite !D; reflexivity.
Qed.
Print Assumptions fault_basis_correct.

(** It throws exactly if up is parallel to the normal. *)
Theorem fault_basis_defined : forall dim up n, (dim = 2%nat \/ dim = 3%nat) -> nonzero dim n ->
  (facet_basis dim up n = None <-> parallel dim up n).
Proof.
  intros dim up n Hd NZ. pose proof tol_small as T. pose proof (nonzero_pos _ _ NZ) as Npos. pose proof (normalized_scale dim n Npos) as Sc. pose proof (vnorm_pos dim n Npos) as Np.
  pose proof (normalized_unit dim n Npos) as U. set (u := normalized dim n) in *.
  assert (Par : parallel dim up n <-> exists t, forall i, (i < dim)%nat -> up i = t * u i).
  { split; intros [t Ht].
    - exists (t * vnorm dim n). intros i Hi. rewrite Ht, (Sc i) by auto. ring.
    - exists (t / vnorm dim n). intros i Hi. rewrite Ht, (Sc i) by auto. field. lra. }
  rewrite Par. clear Par. unfold facet_basis. destruct Hd; subst dim; fold u.
  - rewrite vdot2 in U. set (x := up 0%nat * u 1%nat - up 1%nat * u 0%nat). transitivity (x = 0).
    + destruct (sgn_cases x) as [[H ->]|[[H ->]|[H ->]]]; destruct (Rlt_dec _ _) as [L|L];
        rewrite ?Rabs_R1, ?Rabs_Ropp, ?Rabs_R0, ?Rabs_left in L by lra; split; intro; try lra; try discriminate; auto.
    + unfold x. split.
      * intro Z. exists (up 0%nat * u 0%nat + up 1%nat * u 1%nat). intros [|[|i]] Hi; [| |lia].
        -- replace (up 0%nat) with (up 0%nat * 1) at 1 by ring. rewrite <- U.
           replace (up 0%nat * (u 0%nat * u 0%nat + u 1%nat * u 1%nat)) with ((up 0%nat * u 0%nat + up 1%nat * u 1%nat) * u 0%nat + u 1%nat * (up 0%nat * u 1%nat - up 1%nat * u 0%nat)) by ring. rewrite Z. ring.
        -- replace (up 1%nat) with (up 1%nat * 1) at 1 by ring. rewrite <- U.
           replace (up 1%nat * (u 0%nat * u 0%nat + u 1%nat * u 1%nat)) with ((up 0%nat * u 0%nat + up 1%nat * u 1%nat) * u 1%nat - u 0%nat * (up 0%nat * u 1%nat - up 1%nat * u 0%nat)) by ring. rewrite Z. ring.
      * intros [t Ht]. rewrite (Ht 0%nat), (Ht 1%nat) by lia. ring.
  - rewrite vdot3 in U. set (c := cross up u). transitivity (vdot 3 c c = 0).
    + pose proof (vdot_nonneg 3 c) as C0. destruct (Rlt_dec 0 (vdot 3 c c)) as [P|P].
      * pose proof (normalized_unit 3 c P) as Un. assert (E : vnorm 3 (normalized 3 c) = 1) by (unfold vnorm; rewrite Un; apply sqrt_1).
        destruct (Rlt_dec (vnorm 3 (normalized 3 c)) tol); [lra|]. split; [discriminate|lra].
      * assert (Z : vdot 3 c c = 0) by lra. assert (E : vnorm 3 (normalized 3 c) = 0).
        { unfold normalized. destruct (Rlt_dec 0 (vdot 3 c c)); [lra|]. unfold vnorm. rewrite Z. apply sqrt_0. }
        destruct (Rlt_dec (vnorm 3 (normalized 3 c)) tol); [|lra]. split; auto.
    + split.
      * intro Z. rewrite vdot3 in Z. pose proof (Rle_0_sqr (c 0%nat)) as A0. pose proof (Rle_0_sqr (c 1%nat)) as A1. pose proof (Rle_0_sqr (c 2%nat)) as A2. unfold Rsqr in *.
        assert (B0 : c 0%nat = 0) by nra. assert (B1 : c 1%nat = 0) by nra. assert (B2 : c 2%nat = 0) by nra. unfold c, cross in B0, B1, B2.
        exists (up 0%nat * u 0%nat + up 1%nat * u 1%nat + up 2%nat * u 2%nat).
        assert (G : forall i, (i < 3)%nat -> up i * (u 0%nat * u 0%nat + u 1%nat * u 1%nat + u 2%nat * u 2%nat) = (up 0%nat * u 0%nat + up 1%nat * u 1%nat + up 2%nat * u 2%nat) * u i).
        { intros [|[|[|i]]] Hi; [| | |lia].
          - transitivity ((up 0%nat * u 0%nat + up 1%nat * u 1%nat + up 2%nat * u 2%nat) * u 0%nat + u 1%nat * (up 0%nat * u 1%nat - up 1%nat * u 0%nat) - u 2%nat * (up 2%nat * u 0%nat - up 0%nat * u 2%nat)); [ring|rewrite B1, B2; ring].
          - transitivity ((up 0%nat * u 0%nat + up 1%nat * u 1%nat + up 2%nat * u 2%nat) * u 1%nat + u 2%nat * (up 1%nat * u 2%nat - up 2%nat * u 1%nat) - u 0%nat * (up 0%nat * u 1%nat - up 1%nat * u 0%nat)); [ring|rewrite B0, B2; ring].
          - transitivity ((up 0%nat * u 0%nat + up 1%nat * u 1%nat + up 2%nat * u 2%nat) * u 2%nat + u 0%nat * (up 2%nat * u 0%nat - up 0%nat * u 2%nat) - u 1%nat * (up 1%nat * u 2%nat - up 2%nat * u 1%nat)); [ring|rewrite B0, B1; ring]. }
        intros i Hi. rewrite <- G by auto. rewrite U. ring.
      * intros [t Ht]. rewrite vdot3. unfold c, cross. rewrite (Ht 0%nat), (Ht 1%nat), (Ht 2%nat) by lia. ring.
Qed.
Print Assumptions fault_basis_defined.
(** "almost colinear" is not detected: the tests compare a sign and the length of a normalized vector
    with the tolerance. *)
Theorem almost_colinear_refuted : forall eps, 0 < eps -> exists up n b,
  facet_basis 2 up n = Some b /\ (forall i, (i < 2)%nat -> Rabs (up i - n i) < eps) /\ vdot 2 n n = 1.
Proof.
  intros eps He. set (n := fun i : nat => match i with O => 0 | _ => 1 end). set (up := fun i : nat => match i with O => eps / 2 | _ => 1 end).
  assert (NZ : nonzero 2 n) by (exists 1%nat; split; [lia|cbn; lra]).
  destruct (facet_basis 2 up n) as [b|] eqn:E.
  - exists up, n, b. split; auto. split; [|rewrite vdot2; cbn; ring]. intros [|[|i]] Hi; [| |lia]; cbn; [rewrite Rabs_right|rewrite Rabs_right]; lra.
  - apply fault_basis_defined in E; auto. destruct E as [t Ht]. specialize (Ht 0%nat ltac:(lia)). cbn in Ht. lra.
Qed.
Print Assumptions almost_colinear_refuted.
