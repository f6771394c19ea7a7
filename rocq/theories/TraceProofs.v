(** The inverse trace inequality on the reference simplex: restriction of the Dubiner basis to a facet,
    symmetry of integrals over the simplex. *)
Require Import List Arith Lia Bool Reals Lra.
Require Import Verif.Base Verif.LinAlg Verif.BasisModel Verif.BasisSpec Verif.JacobiProofs Verif.IntegralSpec Verif.IntegralProofs
  Verif.OrthogonalProofs Verif.QuadratureModel Verif.QuadratureSpec Verif.QuadratureProofs Verif.QuadratureProps
  Verif.RootsProps Verif.DubinerProofs Verif.CombinatoricsModel Verif.CombinatoricsProps Verif.SpanProofs Verif.ErrorExactProps Verif.NodesConform
  Verif.ElasticCoerciveProps.
Import ListNotations.
Local Open Scope R_scope.

(** * The basis on a facet *)
Lemma sign_sqr : forall l, (-1) ^ l * (-1) ^ l = 1.
Proof. induction l as [| l IH]; cbn [pow]; [ring |]. replace (-1 * (-1) ^ l * (-1 * (-1) ^ l)) with ((-1) ^ l * (-1) ^ l) by ring. exact IH. Qed.
Lemma jacobi_minus_one : forall a n, jacobi n a 0 (-1) = (-1) ^ n /\ jacobi (S n) a 0 (-1) = (-1) ^ S n.
Proof.
  intros a. pose proof (pos_INR a) as Ha. induction n as [| n [IH1 IH2]].
  - rewrite <- !hjac_jacobi, hjac_0. split; [reflexivity |].
    pose proof (three_term a 0 0 (-1)) as T. rewrite <- !hjac_jacobi, !hjac_0 in T. unfold al, be, ga in T. simpl (INR 0) in T.
    set (y := hjac 1 a 0 (-1) 1) in *. cbn [pow].
    assert (Ea : 2 * (0 + 1) * (0 + (INR a + 0) + 1) / ((2 * 0 + (INR a + 0) + 1) * (2 * 0 + (INR a + 0) + 2)) = 2 / (INR a + 2)) by (field; lra).
    rewrite Ea in T. apply (Rmult_eq_reg_l (2 / (INR a + 2))); [| apply Rgt_not_eq; apply Rdiv_lt_0_compat; lra].
    assert (Eb : (0 - INR a) / (INR a + 0 + 2) = 2 / (INR a + 2) - 1) by (field; lra). rewrite Eb in T. lra.
  - split; [exact IH2 |].
    pose proof (three_term a 0 (S n) (-1)) as T. replace (S n - 1)%nat with n in T by lia. rewrite IH1, IH2 in T.
    assert (P : 0 < al a 0 (S n)) by apply al_pos.
    apply (Rmult_eq_reg_l (al a 0 (S n))); [| lra].
    assert (Q : al a 0 (S n) + ga a 0 (S n) - be a 0 (S n) = 1).
    { unfold al, be, ga. rewrite S_INR. simpl (INR 0). pose proof (pos_INR n). field. repeat split; lra. }
    change ((-1) ^ S (S n)) with (-1 * (-1 * (-1) ^ n)). change ((-1) ^ S n) with (-1 * (-1) ^ n) in T.
    set (s := (-1) ^ n) in *. nra.
Qed.
Lemma hjac_minus_one : forall a l, hjac l a 0 (2 * 0 - 1) 1 = (-1) ^ l.
Proof. intros a l. replace (2 * 0 - 1) with (-1) by ring. rewrite hjac_jacobi. apply jacobi_minus_one. Qed.
Lemma level_value : forall a l, level a l = / (2 * INR l + INR a + 1).
Proof.
  intros a l. unfold level, hh. rewrite !Nat.add_0_r. simpl (INR 0). pose proof (pos_INR a). pose proof (pos_INR l).
  rewrite pow_add. cbn [pow]. field. repeat split; try apply factR_neq; try lra. apply pow_nonzero. lra.
Qed.

(** The point of the facet on which the last coordinate vanishes. *)
Definition last_facet (D : nat) (chi : nat -> R) : nat -> R := match D with 2%nat => pt (chi 0%nat) 0 0 | _ => pt (chi 0%nat) (chi 1%nat) 0 end.
Lemma dub_facet : forall D h l chi, (D = 2 \/ D = 3)%nat -> length h = (D - 1)%nat ->
  dub D (h ++ [l]) (last_facet D chi) = (-1) ^ l * dub (D - 1) h chi.
Proof.
  intros D h l chi [-> | ->] Hl.
  - destruct h as [| p [| ? ?]]; try discriminate. unfold dub, last_facet, pt. cbn [Nat.sub app nth].
    rewrite hjac_minus_one. replace (1 - 0) with 1 by ring. ring.
  - destruct h as [| p [| q [| ? ?]]]; try discriminate. unfold dub, last_facet, pt. cbn [Nat.sub app nth].
    rewrite hjac_minus_one. replace (1 - chi 1%nat - 0) with (1 - chi 1%nat) by ring. replace (1 - 0) with 1 by ring. ring.
Qed.
Lemma dub_norm_facet : forall D h l, (D = 2 \/ D = 3)%nat -> length h = (D - 1)%nat ->
  dub_norm D (h ++ [l]) = dub_norm (D - 1) h / (2 * INR (list_sum (h ++ [l])) + INR D).
Proof.
  intros D h l [-> | ->] Hl.
  - destruct h as [| p [| ? ?]]; try discriminate. unfold dub_norm. cbn [Nat.sub app nth list_sum fold_right]. rewrite (level_value (2 * p + 1)).
    rewrite !plus_INR, mult_INR. cbn [INR]. unfold Rdiv. f_equal. f_equal. ring.
  - destruct h as [| p [| q [| ? ?]]]; try discriminate. unfold dub_norm. cbn [Nat.sub app nth list_sum fold_right]. rewrite (level_value (2 * p + 2 * q + 2)).
    rewrite !plus_INR, !mult_INR. cbn [INR]. unfold Rdiv. f_equal. f_equal. ring.
Qed.

(** * Sums *)
Lemma cauchy_weighted : forall n (a b m : nat -> R), (forall j, (j < n)%nat -> 0 < m j) ->
  rsum n (fun j => a j * b j) * rsum n (fun j => a j * b j) <= rsum n (fun j => a j * a j / m j) * rsum n (fun j => b j * b j * m j).
Proof.
  intros n a b m Hm. pose proof (cauchy_sum n (fun j => a j * / sqrt (m j)) (fun j => b j * sqrt (m j))) as C. cbv beta in C.
  assert (S : forall j, (j < n)%nat -> 0 < sqrt (m j)) by (intros; apply sqrt_lt_R0; auto).
  rewrite (rsum_ext n (fun i => a i * / sqrt (m i) * (b i * sqrt (m i))) (fun j => a j * b j)) in C by (intros j Hj; specialize (S j Hj); field; lra).
  rewrite (rsum_ext n (fun i => a i * / sqrt (m i) * (a i * / sqrt (m i))) (fun j => a j * a j / m j)) in C.
  2: { intros j Hj. specialize (S j Hj). rewrite <- (sqrt_sqrt (m j)) at 3 by (specialize (Hm j Hj); lra). field. lra. }
  rewrite (rsum_ext n (fun i => b i * sqrt (m i) * (b i * sqrt (m i))) (fun j => b j * b j * m j)) in C.
  2: { intros j Hj. rewrite <- (sqrt_sqrt (m j)) at 3 by (specialize (Hm j Hj); lra). ring. }
  exact C.
Qed.
Definition ind (x y : list nat) : R := if list_eqb x y then 1 else 0.
Lemma ind_cases : forall x y, (x = y /\ ind x y = 1) \/ (x <> y /\ ind x y = 0).
Proof. intros x y. unfold ind, list_eqb. destruct (list_eq_dec Nat.eq_dec x y); auto. Qed.
Lemma ind_sum : forall js x (g : list nat -> R), NoDup js -> In x js -> rsum (length js) (fun j => ind (nth j js []) x * g (nth j js [])) = g x.
Proof.
  intros js x g ND Hx. apply (In_nth js x []) in Hx as (k & Hk & E).
  rewrite (rsum_single (length js) k); [| exact Hk |].
  - rewrite E. destruct (ind_cases x x) as [[_ ->] | [X _]]; [ring | contradiction].
  - intros j Hj Hne. destruct (ind_cases (nth j js []) x) as [[X _] | [_ ->]]; [| ring].
    exfalso. apply Hne. apply (proj1 (NoDup_nth js []) ND j k Hj Hk). congruence.
Qed.
Lemma ind_sum_out : forall js x (g : list nat -> R), ~ In x js -> rsum (length js) (fun j => ind (nth j js []) x * g (nth j js [])) = 0.
Proof.
  intros js x g Hx. apply rsum_zero. intros j Hj. destruct (ind_cases (nth j js []) x) as [[X _] | [_ ->]]; [| ring].
  exfalso. apply Hx. rewrite <- X. now apply nth_In.
Qed.
Lemma arith_sum : forall n s d, rsum n (fun l => 2 * INR l + 2 * s + d) = INR n * (INR n - 1 + 2 * s + d).
Proof. induction n as [| n IH]; intros s d; cbn [rsum]; [simpl; ring |]. rewrite IH, S_INR. ring. Qed.
Lemma list_sum_app1 : forall h l, list_sum (h ++ [l]) = (list_sum h + l)%nat.
Proof. intros. rewrite list_sum_app. cbn. lia. Qed.

(** * The inequality for the last facet *)
Lemma parseval : forall D N js c, (D = 1 \/ D = 2 \/ D = 3)%nat -> multiindices D N js ->
  is_simplex_integral D (fun xi => rsum (length js) (fun j => c j * dub D (nth j js []) xi) * rsum (length js) (fun j => c j * dub D (nth j js []) xi))
    (rsum (length js) (fun j => c j * c j * dub_norm D (nth j js []))).
Proof.
  intros D N js c HD Hjs. set (nb := length js).
  apply (simplex_ext D (fun xi => rsum nb (fun j => rsum nb (fun k => c j * c k * (dub D (nth j js []) xi * dub D (nth k js []) xi)))) _
    (rsum nb (fun j => rsum nb (fun k => c j * c k * (if (j =? k)%nat then dub_norm D (nth j js []) else 0))))).
  - intros x y z. rewrite <- rsum_scale_r. apply rsum_ext. intros j Hj. rewrite <- rsum_scale. apply rsum_ext. intros; ring.
  - apply rsum_ext. intros j Hj. rewrite (rsum_single nb j); [rewrite Nat.eqb_refl; ring | exact Hj |].
    intros k Hk Hne. destruct (Nat.eqb_spec j k); [congruence | ring].
  - apply (simplex_rsum D nb (fun j xi => rsum nb (fun k => c j * c k * (dub D (nth j js []) xi * dub D (nth k js []) xi)))); [| lia]. intros j Hj.
    apply (simplex_rsum D nb (fun k xi => c j * c k * (dub D (nth j js []) xi * dub D (nth k js []) xi))); [| lia]. intros k Hk.
    apply (simplex_scale D (fun xi => dub D (nth j js []) xi * dub D (nth k js []) xi)).
    rewrite <- (al_eqb D N js Hjs j k Hj Hk). apply dub_integral; [exact HD | |]; apply (al_in D N js Hjs); assumption.
Qed.
Lemma multiindices_exist : forall D N, (0 < D)%nat -> exists js, multiindices D N js.
Proof.
  intros D N HD. destruct (integer_sums_enumerate D N true HD) as (fuel & l & E & _). exists l. apply (sums_multiindices fuel D N l HD E).
Qed.

Section LastFacet.
Variables (D N : nat) (js hs : list (list nat)).
Hypothesis HD : (D = 2 \/ D = 3)%nat.
Hypothesis Hjs : multiindices D N js.
Hypothesis Hhs : multiindices (D - 1) N hs.
Local Notation nb := (length js). Local Notation nh := (length hs).
Definition head (x : list nat) : list nat := firstn (D - 1) x.
Definition tail (x : list nat) : nat := nth (D - 1) x 0%nat.
Lemma split_index : forall x, length x = D -> x = head x ++ [tail x] /\ length (head x) = (D - 1)%nat.
Proof.
  intros x Hx. unfold head, tail. destruct HD as [-> | ->].
  - destruct x as [| p [| q [| ? ?]]]; try discriminate. split; reflexivity.
  - destruct x as [| p [| q [| r [| ? ?]]]]; try discriminate. split; reflexivity.
Qed.
Lemma head_in : forall j, (j < nb)%nat -> In (head (nth j js [])) hs.
Proof.
  intros j Hj. destruct (al_in D N js Hjs j Hj) as [L Sm]. destruct (split_index _ L) as [E Lh]. apply Hhs. split; [exact Lh |].
  rewrite E, list_sum_app1 in Sm. lia.
Qed.
Definition wgt (x : list nat) : R := 2 * INR (list_sum x) + INR D.
Lemma wgt_pos : forall x, 0 < wgt x.
Proof. intros x. unfold wgt. pose proof (pos_INR (list_sum x)). assert (0 < INR D) by (apply lt_0_INR; lia). lra. Qed.
Lemma wgt_sum_eq : forall h, In h hs -> rsum nb (fun j => ind h (head (nth j js [])) * wgt (nth j js [])) =
  (INR N - INR (list_sum h) + 1) * (INR N + INR (list_sum h) + INR D).
Proof.
  intros h Hh. apply Hhs in Hh as [Lh Sh]. set (s := list_sum h) in *.
  assert (E : rsum nb (fun j => ind h (head (nth j js [])) * wgt (nth j js [])) =
    rsum (S N) (fun l => rsum nb (fun j => ind (nth j js []) (h ++ [l]) * wgt (nth j js [])))).
  { rewrite rsum_swap. apply rsum_ext. intros j Hj. destruct (al_in D N js Hjs j Hj) as [L Sm]. destruct (split_index _ L) as [Ej Lj].
    set (x := nth j js []) in *. rewrite rsum_scale_r. f_equal.
    assert (T : (tail x < S N)%nat) by (rewrite Ej, list_sum_app1 in Sm; lia).
    rewrite (rsum_single (S N) (tail x)); [| exact T |].
    - destruct (ind_cases h (head x)) as [[-> ->] | [Ne ->]].
      + destruct (ind_cases x (head x ++ [tail x])) as [[_ ->] | [X _]]; [reflexivity | contradiction].
      + destruct (ind_cases x (h ++ [tail x])) as [[X _] | [_ ->]]; [| reflexivity]. exfalso. apply Ne. rewrite Ej in X.
        apply app_inj_tail in X as [X _]. congruence.
    - intros l Hl Ne. destruct (ind_cases x (h ++ [l])) as [[X _] | [_ ->]]; [| reflexivity]. exfalso. apply Ne. rewrite Ej in X.
      apply app_inj_tail in X as [_ X]. congruence. }
  rewrite E. replace (S N) with (S (N - s) + s)%nat by lia.
  assert (U : rsum (S (N - s) + s) (fun l => rsum nb (fun j => ind (nth j js []) (h ++ [l]) * wgt (nth j js []))) =
              rsum (S (N - s)) (fun l => 2 * INR l + 2 * INR s + INR D)).
  { transitivity (rsum (S (N - s)) (fun l => rsum nb (fun j => ind (nth j js []) (h ++ [l]) * wgt (nth j js [])))).
    - apply rsum_pad. intros l Hl. apply ind_sum_out. intros X. apply Hjs in X as [_ X]. rewrite list_sum_app1 in X. fold s in X. lia.
    - apply rsum_ext. intros l Hl. rewrite ind_sum; [| apply Hjs |].
      + unfold wgt. rewrite list_sum_app1, plus_INR. fold s. ring.
      + apply Hjs. rewrite app_length, list_sum_app1. fold s. cbn. destruct HD; lia. }
  rewrite U, arith_sum, S_INR, minus_INR by exact Sh. ring.
Qed.
Lemma wgt_sum : forall h, In h hs -> rsum nb (fun j => ind h (head (nth j js [])) * wgt (nth j js [])) <= INR (N + 1) * INR (N + D).
Proof.
  intros h Hh. rewrite wgt_sum_eq by exact Hh. rewrite !plus_INR. simpl (INR 1). set (s := list_sum h).
  pose proof (pos_INR s). assert (1 <= INR D) by (change 1 with (INR 1); apply le_INR; destruct HD; lia). nra.
Qed.

Variable c : nat -> R.
Local Notation p xi := (rsum nb (fun j => c j * dub D (nth j js []) xi)).
Definition vcoef (i : nat) : R := rsum nb (fun j => c j * (-1) ^ tail (nth j js []) * ind (nth i hs []) (head (nth j js []))).
Lemma facet_expansion : forall chi, p (last_facet D chi) = rsum nh (fun i => vcoef i * dub (D - 1) (nth i hs []) chi).
Proof.
  intros chi. unfold vcoef. rewrite (rsum_ext nh _ (fun i => rsum nb (fun j => c j * (-1) ^ tail (nth j js []) * ind (nth i hs []) (head (nth j js [])) * dub (D - 1) (nth i hs []) chi)))
    by (intros; now rewrite rsum_scale_r).
  rewrite rsum_swap. apply rsum_ext. intros j Hj. destruct (al_in D N js Hjs j Hj) as [L Sm]. destruct (split_index _ L) as [E Lh].
  rewrite E at 1. rewrite dub_facet by assumption.
  rewrite (rsum_ext nh _ (fun i => c j * (-1) ^ tail (nth j js []) * (ind (nth i hs []) (head (nth j js [])) * dub (D - 1) (nth i hs []) chi))) by (intros; ring).
  rewrite rsum_scale, (ind_sum hs (head (nth j js [])) (fun h => dub (D - 1) h chi)); [ring | apply Hhs | now apply head_in].
Qed.
Lemma facet_norm : is_simplex_integral (D - 1) (fun chi => p (last_facet D chi) * p (last_facet D chi))
  (rsum nh (fun i => vcoef i * vcoef i * dub_norm (D - 1) (nth i hs []))).
Proof.
  eapply simplex_ext; [| reflexivity | apply (parseval (D - 1) N hs vcoef ltac:(lia) Hhs)].
  intros x y z. cbv beta. rewrite !facet_expansion. reflexivity.
Qed.
Lemma last_facet_inequality : forall I J,
  is_simplex_integral D (fun xi => p xi * p xi) I ->
  is_simplex_integral (D - 1) (fun chi => p (last_facet D chi) * p (last_facet D chi)) J ->
  J <= INR (N + 1) * INR (N + D) * I.
Proof.
  intros I J HI HJ.
  assert (EI : I = rsum nb (fun j => c j * c j * dub_norm D (nth j js []))).
  { apply (simplex_integral_unique D (fun xi => p xi * p xi)); [lia | exact HI |]. apply (parseval D N js c ltac:(lia) Hjs). }
  assert (EJ : J = rsum nh (fun i => vcoef i * vcoef i * dub_norm (D - 1) (nth i hs []))).
  { apply (simplex_integral_unique (D - 1) (fun chi => p (last_facet D chi) * p (last_facet D chi))); [lia | exact HJ | exact facet_norm]. }
  set (K := INR (N + 1) * INR (N + D)).
  assert (HV : forall i, (i < nh)%nat -> vcoef i * vcoef i <= K * rsum nb (fun j => c j * c j / wgt (nth j js []) * ind (nth i hs []) (head (nth j js [])))).
  { intros i Hi. set (x j := nth j js []).
    pose proof (cauchy_weighted nb (fun j => c j * ind (nth i hs []) (head (x j))) (fun j => (-1) ^ tail (x j) * ind (nth i hs []) (head (x j))) (fun j => wgt (x j)) ltac:(intros; apply wgt_pos)) as C.
    cbv beta in C.
    assert (I2 : forall a b, ind a b * ind a b = ind a b) by (intros a b; destruct (ind_cases a b) as [[_ ->] | [_ ->]]; ring).
    rewrite (rsum_ext nb (fun j => c j * ind (nth i hs []) (head (x j)) * ((-1) ^ tail (x j) * ind (nth i hs []) (head (x j)))) (fun j => c j * (-1) ^ tail (x j) * ind (nth i hs []) (head (x j)))) in C.
    2: { intros j Hj. rewrite <- (I2 (nth i hs []) (head (x j))) at 3. ring. }
    rewrite (rsum_ext nb (fun j => c j * ind (nth i hs []) (head (x j)) * (c j * ind (nth i hs []) (head (x j))) / wgt (x j)) (fun j => c j * c j / wgt (x j) * ind (nth i hs []) (head (x j)))) in C.
    2: { intros j Hj. rewrite <- (I2 (nth i hs []) (head (x j))) at 3. unfold Rdiv. ring. }
    rewrite (rsum_ext nb (fun j => (-1) ^ tail (x j) * ind (nth i hs []) (head (x j)) * ((-1) ^ tail (x j) * ind (nth i hs []) (head (x j))) * wgt (x j)) (fun j => ind (nth i hs []) (head (x j)) * wgt (x j))) in C.
    2: { intros j Hj. rewrite <- (I2 (nth i hs []) (head (x j))) at 3. replace ((-1) ^ tail (x j) * ind (nth i hs []) (head (x j)) * ((-1) ^ tail (x j) * ind (nth i hs []) (head (x j)))) with ((-1) ^ tail (x j) * (-1) ^ tail (x j) * (ind (nth i hs []) (head (x j)) * ind (nth i hs []) (head (x j)))) by ring. rewrite sign_sqr. ring. }
    fold (vcoef i) in C. eapply Rle_trans; [exact C |]. rewrite (Rmult_comm K). apply Rmult_le_compat_l.
    - apply rsum_nonneg. intros j Hj. pose proof (wgt_pos (nth j js [])) as W. destruct (ind_cases (nth i hs []) (head (nth j js []))) as [[_ ->] | [_ ->]]; [| lra].
      rewrite Rmult_1_r. apply Rmult_le_pos; [apply Rle_0_sqr | apply Rlt_le, Rinv_0_lt_compat, W].
    - apply wgt_sum. now apply nth_In. }
  rewrite EJ. apply Rle_trans with (rsum nh (fun i => K * rsum nb (fun j => c j * c j / wgt (nth j js []) * ind (nth i hs []) (head (nth j js []))) * dub_norm (D - 1) (nth i hs []))).
  - apply rsum_le. intros i Hi. apply Rmult_le_compat_r; [apply Rlt_le, dub_norm_pos | now apply HV].
  - apply Req_le. rewrite EI, <- rsum_scale.
    rewrite (rsum_ext nh _ (fun i => rsum nb (fun j => K * (c j * c j / wgt (nth j js []) * (ind (nth i hs []) (head (nth j js [])) * dub_norm (D - 1) (nth i hs [])))))).
    2: { intros i Hi. rewrite <- rsum_scale, <- rsum_scale_r. apply rsum_ext. intros; ring. }
    rewrite rsum_swap. apply rsum_ext. intros j Hj. rewrite rsum_scale. f_equal. rewrite rsum_scale.
    rewrite (ind_sum hs (head (nth j js [])) (dub_norm (D - 1))); [| apply Hhs | now apply head_in].
    destruct (al_in D N js Hjs j Hj) as [L Sm]. destruct (split_index _ L) as [E Lh].
    rewrite E at 3. rewrite dub_norm_facet by assumption. rewrite <- E. unfold wgt. field. pose proof (wgt_pos (nth j js [])) as W. unfold wgt in W. lra.
Qed.
End LastFacet.

Lemma last_facet_trace : forall D N f I J, (D = 2 \/ D = 3)%nat -> polynomial D N f ->
  is_simplex_integral D (fun xi => f xi * f xi) I ->
  is_simplex_integral (D - 1) (fun chi => f (last_facet D chi) * f (last_facet D chi)) J ->
  J <= INR (N + 1) * INR (N + D) * I.
Proof.
  intros D N f I J HD Hf HI HJ. destruct (multiindices_exist D N ltac:(lia)) as (js & Hjs). destruct (multiindices_exist (D - 1) N ltac:(lia)) as (hs & Hhs).
  destruct (phi_span D N js ltac:(lia) Hjs f Hf) as (c & E).
  assert (E' : forall xi, rsum (length js) (fun j => c j * dub D (nth j js []) xi) = f xi).
  { intros xi. rewrite E. apply rsum_ext. intros j _. now rewrite DubinerP_dub. }
  apply (last_facet_inequality D N js hs HD Hjs Hhs c I J).
  - eapply simplex_ext; [| reflexivity | exact HI]. intros. cbv beta. now rewrite !E'.
  - eapply simplex_ext; [| reflexivity | exact HJ]. intros. cbv beta. now rewrite !E'.
Qed.
