(** The residual polynomial of the smoother minimises the weighted integral of squares. *)
Require Import List Arith Lia ZArith Reals Lra.
Require Import Verif.LinAlg Verif.BasisModel Verif.BasisSpec Verif.JacobiProofs Verif.IntegralSpec Verif.IntegralProofs Verif.OrthogonalProofs Verif.DubinerProofs Verif.RootsProofs.
Require Import Verif.LsPolySpec Verif.LsPolyModel Verif.LsPolyJacobi Verif.LsPolyProofs Verif.LsPolyOptimal.
Local Open Scope R_scope.

Lemma orthogonal_lower : forall a b k g, (1 <= k)%nat -> polynomial1 (k - 1) g ->
  is_integral (fun x => wt a b x * (jacobi k a b x * g x)) (-1) 1 0.
Proof.
  intros a b k g Hk Hg. destruct (jacobi_span a b (k - 1) g Hg) as (c & E).
  eapply is_integral_ext; [| | apply (is_integral_rsum (S (k - 1)) (fun m x => c m * (wt a b x * (jacobi k a b x * jacobi m a b x))) (-1) 1 (fun m => c m * 0))].
  - intros x _. cbv beta. rewrite E, <- !rsum_scale. apply rsum_ext. intros m _. ring.
  - apply rsum_zero. intros. ring.
  - intros m Hm. apply is_integral_scale. apply jacobi_orthogonal. lia.
Qed.
Lemma square_integral : forall a b k d, polynomial1 k d -> exists J,
  is_integral (fun x => wt a b x * (d x * d x)) (-1) 1 J /\ 0 <= J /\ (J = 0 -> forall x, d x = 0).
Proof.
  intros a b k d Hd. destruct (jacobi_span a b k d Hd) as (c & E). exists (rsum (S k) (fun m => c m * c m * hh a b m)). split; [| split].
  - eapply is_integral_ext; [| | apply (is_integral_rsum (S k) (fun m x => c m * rsum (S k) (fun l => c l * (wt a b x * (jacobi m a b x * jacobi l a b x)))) (-1) 1
      (fun m => c m * rsum (S k) (fun l => c l * (if (m =? l)%nat then hh a b m else 0))))].
    + intros x _. cbv beta.
      rewrite (rsum_ext (S k) _ (fun m => (c m * jacobi m a b x) * (wt a b x * d x))).
      * rewrite rsum_scale_r, <- E. ring.
      * intros m _. rewrite (rsum_ext (S k) _ (fun l => (wt a b x * jacobi m a b x) * (c l * jacobi l a b x))) by (intros; ring).
        rewrite rsum_scale, <- E. ring.
    + apply rsum_ext. intros m Hm. rewrite (rsum_single (S k) m (fun l => c l * (if (m =? l)%nat then hh a b m else 0)) Hm).
      * rewrite Nat.eqb_refl. ring.
      * intros l _ Hl. destruct (Nat.eqb_spec m l); [congruence | ring].
    + intros m _. apply (is_integral_scale (fun x => rsum (S k) (fun l => c l * (wt a b x * (jacobi m a b x * jacobi l a b x))))).
      apply (is_integral_rsum (S k) (fun l x => c l * (wt a b x * (jacobi m a b x * jacobi l a b x)))). intros l _. apply is_integral_scale, jacobi_norm.
  - apply rsum_nonneg. intros m _. apply Rmult_le_pos; [apply Rle_0_sqr | apply Rlt_le, hh_pos].
  - intros Z x. rewrite E. apply rsum_zero. intros m Hm.
    assert (Hz : c m * c m * hh a b m = 0).
    { apply (rsum_nonneg_zero (S k) (fun m => c m * c m * hh a b m)); [| exact Z | exact Hm].
      intros i _. apply Rmult_le_pos; [apply Rle_0_sqr | apply Rlt_le, hh_pos]. }
    pose proof (hh_pos a b m). apply Rmult_integral in Hz. destruct Hz as [Hz | Hz]; [| lra].
    apply Rmult_integral in Hz. destruct Hz as [Hz | Hz]; rewrite Hz; ring.
Qed.

Section Best.
Variables alpha beta : nat.
Variable e : R.
Hypothesis He : 0 < e.
Local Notation W := (weight alpha beta e).
Local Notation rcoef := (rcoef (INR alpha) (INR beta) e).

Lemma shift_integral : forall g I, is_integral g (-1) 1 I -> is_integral (fun t => g (2 * t / e - 1)) 0 e (e / 2 * I).
Proof.
  intros g I H. assert (Hm : 0 < 2 / e) by (apply Rdiv_lt_0_compat; lra).
  pose proof (is_integral_affine g 0 e (-1) (2 / e) I Hm) as K.
  replace (-1 + 2 / e * 0) with (-1) in K by ring. replace (-1 + 2 / e * e) with 1 in K by (field; lra).
  eapply is_integral_ext; [| | exact (K H)].
  - intros t _. cbv beta. f_equal. field. lra.
  - field. lra.
Qed.
Lemma at_number_poly : forall k c, polynomial1 k (at_number k c).
Proof. intros k c. exists c. reflexivity. Qed.
Lemma back_poly : forall k g, polynomial1 k g -> polynomial1 k (fun x => g (e / 2 * (x + 1))).
Proof.
  intros k g H. apply (p1_ext k (fun x => g (e / 2 + e / 2 * x))); [intros x; f_equal; ring |]. now apply p1_comp_affine.
Qed.
Lemma back_forth : forall t, e / 2 * (2 * t / e - 1 + 1) = t.
Proof. intros t. field. lra. Qed.

Lemma squares_exist : forall k d, polynomial1 k d -> exists J,
  is_integral (fun t => W t * (d t * d t)) 0 e J /\ 0 <= J /\ (J = 0 -> forall t, d t = 0).
Proof.
  intros k d Hd. destruct (square_integral alpha beta k _ (back_poly k d Hd)) as (J & HJ & Hpos & Hz).
  exists (e / 2 * J). split; [| split].
  - eapply is_integral_ext; [| reflexivity | exact (shift_integral _ _ HJ)]. intros t _. cbv beta. rewrite back_forth. reflexivity.
  - apply Rmult_le_pos; lra.
  - intros Z t. assert (Z' : J = 0) by (apply Rmult_integral in Z; lra). rewrite <- (back_forth t). exact (Hz Z' (2 * t / e - 1)).
Qed.
Lemma cross_zero : forall k d, polynomial1 k d -> d 0 = 0 ->
  is_integral (fun t => W t * (at_number k (rcoef k) t * d t)) 0 e 0.
Proof.
  intros k d (c & E) H0.
  destruct k as [| k].
  - eapply is_integral_ext; [| | apply (is_integral_const 0)]; [| ring].
    intros t _. cbv beta. rewrite (E t). rewrite (E 0) in H0. cbn [rsum pow] in *. replace (c 0%nat) with 0 by lra. ring.
  - set (g := fun t => rsum (S k) (fun j => c (S j) * t ^ j)).
    assert (Ed : forall t, d t = t * g t).
    { intros t. rewrite (E t), rsum_head. rewrite (E 0), rsum_head in H0.
      assert (Z : rsum (S k) (fun i => c (S i) * 0 ^ S i) = 0) by (apply rsum_zero; intros; cbn [pow]; ring).
      rewrite Z in H0. cbn [pow] in *. replace (c 0%nat) with 0 by lra. unfold g. rewrite <- rsum_scale.
      rewrite Rmult_0_l, Rplus_0_l. apply rsum_ext. intros. ring. }
    assert (Hg : polynomial1 (S k - 1) (fun x => g (e / 2 * (x + 1)))).
    { replace (S k - 1)%nat with k by lia. apply back_poly. exists (fun j => c (S j)). reflexivity. }
    pose proof (orthogonal_lower alpha (S beta) (S k) _ ltac:(lia) Hg) as O.
    pose proof (is_integral_scale _ 0 e _ (e / 2 / jacobi (S k) alpha (S beta) (-1)) (shift_integral _ _ O)) as O'.
    eapply is_integral_ext; [| | exact O']; [| ring].
    intros t _. cbv beta. rewrite Ed, rval_jacobi, back_forth by exact He. unfold weight, wt.
    set (x := 2 * t / e - 1). assert (Et : t = e / 2 * (1 + x)) by (unfold x; field; lra). rewrite Et at 2.
    cbn [pow]. field. apply jacobi_minus_one_neq.
Qed.
Lemma rcoef_least_squares : forall k, least_squares k alpha beta e (rcoef k).
Proof.
  intros k. split; [apply rcoef_0 |].
  destruct (squares_exist k (at_number k (rcoef k)) (at_number_poly k _)) as (I & HI & _ & _).
  exists I. split; [exact HI |]. intros c' J Hc HJ.
  set (p := at_number k (rcoef k)) in *. set (q := at_number k c') in *.
  assert (H0 : forall c, at_number k c 0 = c 0%nat).
  { intros c. unfold at_number. rewrite rsum_head, rsum_zero; [cbn [pow]; ring | intros; cbn [pow]; ring]. }
  assert (Hd : polynomial1 k (fun t => q t + -1 * p t)) by (apply p1_plus; [| apply p1_scale]; apply at_number_poly).
  assert (Hd0 : q 0 + -1 * p 0 = 0) by (unfold p, q; rewrite !H0, Hc, rcoef_0; ring).
  destruct (squares_exist k _ Hd) as (S2 & HS & Hpos & Hz). pose proof (cross_zero k _ Hd Hd0) as HC. fold p in HC.
  assert (EJ : J = I + (2 * 0 + S2)).
  { apply (is_integral_unique (fun t => W t * (q t * q t)) 0 e); [lra | exact HJ |].
    eapply is_integral_ext; [| reflexivity | exact (is_integral_plus _ _ 0 e _ _ HI (is_integral_plus _ _ 0 e _ _ (is_integral_scale _ 0 e _ 2 HC) HS))].
    intros t _. cbv beta. ring. }
  split; [lra |]. intros Eq t. pose proof (Hz ltac:(lra) t) as Z. cbv beta in Z. lra.
Qed.
End Best.
