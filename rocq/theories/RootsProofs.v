(** The Jacobi polynomial P_n^(a,b) has n distinct zeros, all between -1 and 1. *)
Require Import List Arith Lia Reals Lra.
Require Import Verif.LinAlg Verif.BasisSpec Verif.JacobiProofs Verif.IntegralSpec Verif.IntegralProofs
  Verif.OrthogonalProofs Verif.QuadratureSpec.
Local Open Scope R_scope.

(** ** Polynomials with many zeros *)
Lemma pow_diff : forall d r, exists g, polynomial1 d g /\ forall x, x ^ S d - r ^ S d = (x - r) * g x.
Proof.
  induction d as [| d IH]; intros r.
  - exists (fun _ => 1). split; [apply p1_const | intros; cbn; ring].
  - destruct (IH r) as (g & Hg & E). exists (fun x => x * g x + r ^ S d). split.
    + apply p1_plus; [now apply p1_x | apply p1_const].
    + intros x. replace (x ^ S (S d) - r ^ S (S d)) with (x * (x ^ S d - r ^ S d) + r ^ S d * (x - r)) by (cbn; ring).
      rewrite E. ring.
Qed.
Lemma factor_out : forall d f r, polynomial1 (S d) f -> exists g, polynomial1 d g /\ forall x, f x - f r = (x - r) * g x.
Proof.
  induction d as [| d IH]; intros f r Hf.
  - destruct Hf as (c & H). exists (fun _ => c 1%nat). split; [apply p1_const |]. intros x. rewrite !H. cbn. ring.
  - destruct (p1_split (S d) f Hf) as (c & h & Hh & E). destruct (IH h r Hh) as (g & Hg & Eg).
    destruct (pow_diff (S d) r) as (g' & Hg' & Eg'). exists (fun x => c * g' x + g x). split.
    + apply p1_plus; [now apply p1_scale | apply (p1_le d); [lia | exact Hg]].
    + intros x. rewrite !E. replace (c * x ^ S (S d) + h x - (c * r ^ S (S d) + h r)) with (c * (x ^ S (S d) - r ^ S (S d)) + (h x - h r)) by ring.
      rewrite Eg', Eg. ring.
Qed.
Lemma many_zeros : forall d f x, polynomial1 d f -> (forall i, (i <= d)%nat -> f (x i) = 0) ->
  (forall i j, (i < j <= d)%nat -> x i < x j) -> forall t, f t = 0.
Proof.
  induction d as [| d IH]; intros f x Hf Hz Hd t.
  - destruct Hf as (c & H). specialize (Hz 0%nat ltac:(lia)). rewrite H in *. cbn in *. lra.
  - destruct (factor_out d f (x 0%nat) Hf) as (g & Hg & E).
    assert (G : forall t, g t = 0).
    { apply (IH g (fun i => x (S i)) Hg).
      - intros i Hi. specialize (E (x (S i))). rewrite (Hz (S i)), (Hz 0%nat) in E by lia.
        pose proof (Hd 0%nat (S i) ltac:(lia)). apply (Rmult_eq_reg_l (x (S i) - x 0%nat)); lra.
      - intros i j Hij. apply Hd. lia. }
    specialize (E t). rewrite G, (Hz 0%nat ltac:(lia)) in E. lra.
Qed.

(** (t - x 0) ... (t - x (n - 1)). *)
Fixpoint zprod (n : nat) (x : nat -> R) (t : R) : R := match n with O => 1 | S m => zprod m x t * (t - x m) end.
Lemma zprod_lead : forall n x, exists g, (n = 0%nat -> forall t, g t = 0) /\ polynomial1 (n - 1) g /\ forall t, zprod n x t = t ^ n + g t.
Proof.
  intros n x. induction n as [| n (g & G0 & G & E)].
  - exists (fun _ => 0). split; [reflexivity |]. split; [apply p1_const | intros; cbn; ring].
  - exists (fun t => - x n * t ^ n + (t - x n) * g t). split; [discriminate |]. split.
    + replace (S n - 1)%nat with n by lia. apply p1_plus; [apply p1_scale, p1_pow |].
      destruct n as [| n].
      * apply (p1_ext _ (fun _ => 0)); [intros; rewrite G0 by reflexivity; ring | apply p1_const].
      * replace (S n) with (1 + (S n - 1))%nat at 1 by lia. apply p1_mult; [| exact G].
        apply (p1_ext _ (fun t => - x (S n) + 1 * t)); [intros; ring | apply p1_affine].
    + intros t. cbn [zprod pow]. rewrite E. ring.
Qed.
Lemma zprod_zero : forall n x i, (i < n)%nat -> zprod n x (x i) = 0.
Proof.
  induction n as [| n IH]; intros x i Hi; [lia |]. cbn [zprod]. destruct (Nat.eq_dec i n) as [-> | Hne]; [ring |].
  rewrite IH by lia. ring.
Qed.
(** The sign between the zeros j - 1 and j. *)
Lemma zprod_sign : forall n x t j, (j <= n)%nat -> (forall i, (i < j)%nat -> x i < t) -> (forall i, (j <= i < n)%nat -> t < x i) ->
  0 < (-1) ^ (n - j) * zprod n x t.
Proof.
  induction n as [| n IH]; intros x t j Hj Hl Hr.
  - cbn. lra.
  - cbn [zprod]. destruct (Nat.eq_dec j (S n)) as [-> | Hne].
    + specialize (IH x t n ltac:(lia) ltac:(intros; apply Hl; lia) ltac:(intros; lia)). rewrite Nat.sub_diag in *. cbn [pow] in *.
      pose proof (Hl n ltac:(lia)). rewrite Rmult_1_l in *. apply Rmult_lt_0_compat; lra.
    + specialize (IH x t j ltac:(lia) Hl ltac:(intros; apply Hr; lia)). replace (S n - j)%nat with (S (n - j)) by lia. cbn [pow].
      pose proof (Hr n ltac:(lia)).
      replace (-1 * (-1) ^ (n - j) * (zprod n x t * (t - x n))) with (((-1) ^ (n - j) * zprod n x t) * (x n - t)) by ring.
      apply Rmult_lt_0_compat; lra.
Qed.

Lemma sign_sq : forall k, (-1) ^ k * (-1) ^ k = 1.
Proof. intros k. rewrite <- Rpow_mult_distr. replace (-1 * -1) with 1 by ring. apply pow1. Qed.

Lemma finite_choice : forall n (Q : nat -> R -> Prop), (forall i, (i < n)%nat -> exists y, Q i y) ->
  exists f : nat -> R, forall i, (i < n)%nat -> Q i (f i).
Proof.
  induction n as [| n IH]; intros Q H.
  - exists (fun _ => 0). intros; lia.
  - destruct (IH Q ltac:(auto with arith)) as (f & Hf). destruct (H n ltac:(lia)) as (y & Hy).
    exists (fun i => if (i =? n)%nat then y else f i). intros i Hi. destruct (Nat.eqb_spec i n) as [-> | Hne]; [exact Hy |].
    apply Hf. lia.
Qed.

Section Roots.
Variables a b : nat.
Local Notation P k := (jacobi k a b).

Lemma jacobi_at_one : forall n, 0 < P n 1.
Proof.
  intros n. unfold jacobi. rewrite rsum_head. rewrite rsum_zero.
  - rewrite Rplus_0_r. cbn [pow]. unfold jacobi_coeff. rewrite Rmult_1_r.
    apply Rdiv_lt_0_compat; repeat apply Rmult_lt_0_compat; apply factR_pos.
  - intros i Hi. replace ((1 - 1) / 2) with 0 by field. rewrite pow_i by lia. ring.
Qed.
End Roots.
Lemma jacobi_reflect : forall n a b x, jacobi n a b (- x) = (-1) ^ n * jacobi n b a x.
Proof.
  intros n a b x. enough (H : jacobi n a b (- x) = (-1) ^ n * jacobi n b a x /\ jacobi (S n) a b (- x) = (-1) ^ S n * jacobi (S n) b a x) by apply H.
  induction n as [| n [IH0 IH1]].
  - rewrite <- !hjac_jacobi, !hjac_0, !hjac_1, !plus_INR. cbn [pow]. split; ring.
  - split; [exact IH1 |].
    pose proof (three_term a b (S n) (- x)) as T. pose proof (three_term b a (S n) x) as T'.
    replace (S n - 1)%nat with n in * by lia. rewrite IH0, IH1 in T.
    assert (Eal : al b a (S n) = al a b (S n)) by (unfold al; f_equal; ring).
    assert (Ega : ga b a (S n) = ga a b (S n)) by (unfold ga; f_equal; ring).
    assert (Ebe : be b a (S n) = - be a b (S n)).
    { unfold be, Rdiv. rewrite Ropp_mult_distr_l. f_equal; [ring | f_equal; ring]. }
    rewrite Eal, Ega, Ebe in T'. pose proof (al_pos a b (S n)) as Hal.
    apply (Rmult_eq_reg_l (al a b (S n))); [| lra].
    replace (al a b (S n) * ((-1) ^ S (S n) * jacobi (S (S n)) b a x)) with ((-1) ^ S (S n) * (al a b (S n) * jacobi (S (S n)) b a x)) by ring.
    replace (al a b (S n) * jacobi (S (S n)) b a x) with (x * jacobi (S n) b a x - - be a b (S n) * jacobi (S n) b a x - ga a b (S n) * jacobi n b a x) by lra.
    cbn [pow] in *. lra.
Qed.

Section Interlace.
Variables a b : nat.
Local Notation P k := (jacobi k a b).
(** The zeros of P_n increase in (-1, 1), and P_(n-1) alternates in sign there. *)
Definition interlaced (n : nat) (x : nat -> R) : Prop :=
  (forall i, (i < n)%nat -> -1 < x i < 1 /\ P n (x i) = 0 /\ 0 < (-1) ^ (n - 1 - i) * P (n - 1) (x i))
  /\ (forall i j, (i < j < n)%nat -> x i < x j).

Lemma jacobi_factored : forall n x, (0 < n)%nat -> (forall i, (i < n)%nat -> P n (x i) = 0) -> (forall i j, (i < j < n)%nat -> x i < x j) ->
  forall t, P n t = lead a b n * zprod n x t.
Proof.
  intros n x Hn Hz Hm t. destruct (jacobi_lead a b n) as (g & _ & Hg & E). destruct (zprod_lead n x) as (g' & _ & Hg' & E').
  assert (Z : (fun t => P n t + - lead a b n * zprod n x t) t = 0); [| cbv beta in Z; lra].
  refine (many_zeros (n - 1) (fun t => P n t + - lead a b n * zprod n x t) x _ _ _ t).
  - apply (p1_ext _ (fun t => g t + - lead a b n * g' t)); [intros u; rewrite E, E'; ring |].
    apply p1_plus; [exact Hg | now apply p1_scale].
  - intros i Hi. cbv beta. rewrite Hz, zprod_zero by lia. ring.
  - intros i j Hij. apply Hm. lia.
Qed.
Lemma lead_pos : forall n, 0 < lead a b n.
Proof.
  intros n. unfold lead, jacobi_coeff. apply Rdiv_lt_0_compat; [| apply pow_lt; lra].
  apply Rdiv_lt_0_compat; repeat apply Rmult_lt_0_compat; apply factR_pos.
Qed.
Lemma jacobi_continuous : forall n, continuity (P n).
Proof. intros n t. apply derivable_continuous_pt. exists (P1 a b n t). apply P1_deriv. Qed.
Lemma crossing : forall n u v s, u < v -> (s = 1 \/ s = -1) -> 0 < - s * P n u -> 0 < s * P n v -> exists z, u < z < v /\ P n z = 0.
Proof.
  intros n u v s Huv Hs Hu Hv.
  assert (G : exists z, u <= z <= v /\ P n z = 0).
  { destruct Hs as [-> | ->].
    - destruct (IVT (P n) u v (jacobi_continuous n) Huv) as (z & Hz & E); [lra | lra |]. now exists z.
    - destruct (IVT (fun t => - P n t) u v) as (z & Hz & E); [| exact Huv | lra | lra |].
      + apply (continuity_opp (P n)), jacobi_continuous.
      + exists z. split; [exact Hz | lra]. }
  destruct G as (z & Hz & E). exists z. split; [| exact E].
  assert (z <> u) by (intros ->; rewrite E in Hu; lra). assert (z <> v) by (intros ->; rewrite E in Hv; lra). lra.
Qed.

Lemma interlaced_step : forall n x, (0 < n)%nat -> interlaced n x -> exists y, interlaced (S n) y.
Proof.
  intros n x Hn (Hx & Hm).
  set (grid := fun j => match j with O => -1 | S i => if (i <? n)%nat then x i else 1 end).
  assert (Gm : forall j, (j <= n)%nat -> grid j < grid (S j)).
  { intros [| j] Hj; unfold grid.
    - replace (0 <? n)%nat with true by (symmetry; apply Nat.ltb_lt; lia). apply Hx. lia.
    - replace (j <? n)%nat with true by (symmetry; apply Nat.ltb_lt; lia). destruct (Nat.ltb_spec (S j) n); [apply Hm; lia | apply Hx; lia]. }
  assert (Gs : forall j, (j <= n + 1)%nat -> 0 < (-1) ^ (n + 1 - j) * P (S n) (grid j)).
  { intros [| i] Hi; unfold grid.
    - rewrite Nat.sub_0_r. replace (-1) with (- (1)) at 2 by ring. rewrite jacobi_reflect. rewrite Nat.add_1_r.
      rewrite <- Rmult_assoc, sign_sq, Rmult_1_l. apply jacobi_at_one.
    - destruct (Nat.ltb_spec i n) as [Hin | Hin].
      + destruct (Hx i Hin) as (_ & E & S0). pose proof (three_term a b n (x i)) as T. rewrite E in T.
        pose proof (al_pos a b n) as Hal.
        assert (Hga : 0 < ga a b n).
        { pose proof (norm_step a b (n - 1)) as NS. replace (S (n - 1)) with n in NS by lia.
          pose proof (al_pos a b (n - 1)). pose proof (hh_pos a b n). pose proof (hh_pos a b (n - 1)).
          assert (0 < al a b (n - 1) * hh a b n) by (apply Rmult_lt_0_compat; assumption).
          apply (Rmult_lt_reg_r (hh a b (n - 1))); lra. }
        assert (EP : P (S n) (x i) = - (ga a b n / al a b n * P (n - 1) (x i))).
        { apply (Rmult_eq_reg_l (al a b n)); [| lra].
          replace (al a b n * - (ga a b n / al a b n * P (n - 1) (x i))) with (- (ga a b n * P (n - 1) (x i))) by (field; lra). lra. }
        rewrite EP. replace (n + 1 - S i)%nat with (S (n - 1 - i)) by lia. cbn [pow].
        replace (-1 * (-1) ^ (n - 1 - i) * - (ga a b n / al a b n * P (n - 1) (x i)))
          with (ga a b n / al a b n * ((-1) ^ (n - 1 - i) * P (n - 1) (x i))) by ring.
        apply Rmult_lt_0_compat; [apply Rdiv_lt_0_compat; assumption | exact S0].
      + assert (i = n) as -> by lia. replace (n + 1 - S n)%nat with 0%nat by lia. cbn [pow]. rewrite Rmult_1_l. apply jacobi_at_one. }
  destruct (finite_choice (S n) (fun j z => grid j < z < grid (S j) /\ P (S n) z = 0)) as (y & Hy).
  { intros j Hj. apply (crossing (S n) (grid j) (grid (S j)) ((-1) ^ (n - j))).
    - apply Gm. lia.
    - destruct (Nat.Even_or_Odd (n - j)) as [[k E] | [k E]]; rewrite E.
      + left. apply pow_1_even.
      + right. rewrite Nat.add_1_r. apply pow_1_odd.
    - pose proof (Gs j ltac:(lia)) as G. replace (n + 1 - j)%nat with (S (n - j)) in G by lia. cbn [pow] in G. lra.
    - pose proof (Gs (S j) ltac:(lia)) as G. replace (n + 1 - S j)%nat with (n - j)%nat in G by lia. exact G. }
  assert (Gmono : forall d j, (j + d <= n + 1)%nat -> grid j <= grid (j + d)%nat).
  { induction d as [| d IH]; intros j Hj; [rewrite Nat.add_0_r; lra |].
    specialize (IH j ltac:(lia)). rewrite Nat.add_succ_r. pose proof (Gm (j + d)%nat ltac:(lia)). lra. }
  exists y. split.
  - intros j Hj. destruct (Hy j Hj) as ((L1 & L2) & E). split; [| split; [exact E |]].
    + pose proof (Gmono j 0%nat ltac:(lia)) as B1. pose proof (Gmono (n + 1 - S j)%nat (S j) ltac:(lia)) as B2.
      replace (S j + (n + 1 - S j))%nat with (S n) in B2 by lia. cbn [Nat.add] in B1.
      assert (grid 0%nat = -1) by reflexivity.
      assert (grid (S n) = 1) by (unfold grid; rewrite Nat.ltb_irrefl; reflexivity). lra.
    + replace (S n - 1)%nat with n by lia.
      rewrite (jacobi_factored n x Hn (fun i Hi => proj1 (proj2 (Hx i Hi))) Hm).
      assert (Sg : 0 < (-1) ^ (n - j) * zprod n x (y j)).
      { apply zprod_sign; [lia | |].
        - intros i Hi. assert (grid (S i) = x i) by (unfold grid; replace (i <? n)%nat with true by (symmetry; apply Nat.ltb_lt; lia); reflexivity).
          pose proof (Gmono (j - S i)%nat (S i) ltac:(lia)) as B1. replace (S i + (j - S i))%nat with j in B1 by lia. lra.
        - intros i Hi. assert (grid (S i) = x i) by (unfold grid; replace (i <? n)%nat with true by (symmetry; apply Nat.ltb_lt; lia); reflexivity).
          pose proof (Gmono (i - j)%nat (S j) ltac:(lia)) as B1. replace (S j + (i - j))%nat with (S i) in B1 by lia. lra. }
      replace ((-1) ^ (n - j) * (lead a b n * zprod n x (y j))) with (lead a b n * ((-1) ^ (n - j) * zprod n x (y j))) by ring.
      apply Rmult_lt_0_compat; [apply lead_pos | exact Sg].
  - intros i j Hij. destruct (Hy i ltac:(lia)) as ((L1 & L2) & _). destruct (Hy j ltac:(lia)) as ((L3 & L4) & _).
    pose proof (Gmono (j - S i)%nat (S i) ltac:(lia)) as B1. replace (S i + (j - S i))%nat with j in B1 by lia. lra.
Qed.
Lemma interlaced_exists : forall n, exists x, interlaced (S n) x.
Proof.
  induction n as [| n (x & Hx)].
  - set (r := (INR b - INR a) / (INR a + INR b + 2)). exists (fun _ => r).
    pose proof (pos_INR a). pose proof (pos_INR b). split; [| intros; lia]. intros i Hi. assert (i = 0%nat) as -> by lia. split; [| split].
    + unfold r. split; apply (Rmult_lt_reg_r (INR a + INR b + 2)); try lra.
      * unfold Rdiv. rewrite Rmult_assoc, Rinv_l by lra. lra.
      * unfold Rdiv. rewrite Rmult_assoc, Rinv_l by lra. lra.
    + rewrite <- hjac_jacobi, hjac_1, plus_INR. unfold r. field. lra.
    + cbn [Nat.sub pow]. rewrite <- hjac_jacobi, hjac_0. lra.
  - apply (interlaced_step (S n) x); [lia | exact Hx].
Qed.

Lemma roots_exist : forall n, exists x, jacobi_roots n a b x /\ forall i, (i < n)%nat -> -1 < x i < 1.
Proof.
  intros [| n].
  - exists (fun _ => 0). repeat split; intros; lia.
  - destruct (interlaced_exists n) as (x & Hx & Hm). exists x. split; [split |].
    + intros i Hi. apply Hx. exact Hi.
    + intros i j Hi Hj E. destruct (Nat.lt_trichotomy i j) as [L | [-> | L]]; [| reflexivity |].
      * pose proof (Hm i j ltac:(lia)). lra.
      * pose proof (Hm j i ltac:(lia)). lra.
    + intros i Hi. apply Hx. exact Hi.
Qed.
End Interlace.
