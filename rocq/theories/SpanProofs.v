(** The Dubiner functions of degree at most N span the polynomials of degree at most N. *)
Require Import List Arith Lia Reals Lra.
Require Import Verif.Base Verif.LinAlg Verif.BasisModel Verif.BasisSpec Verif.JacobiProofs Verif.IntegralSpec Verif.IntegralProofs
  Verif.OrthogonalProofs Verif.QuadratureModel Verif.QuadratureSpec Verif.QuadratureProofs Verif.QuadratureProps
  Verif.RootsProps Verif.DubinerProofs Verif.CombinatoricsModel Verif.CombinatoricsProps.
Import ListNotations.
Local Open Scope R_scope.

(** The multi-indices of D entries and sum at most N, each once. *)
Definition multiindices (D N : nat) (js : list (list nat)) : Prop :=
  NoDup js /\ forall x, In x js <-> length x = D /\ (list_sum x <= N)%nat.

Lemma sums_loop_more : forall f it last l, sums_loop f it last = Some l -> forall g, (f <= g)%nat -> sums_loop g it last = Some l.
Proof.
  induction f as [| f IH]; intros it last l E g Hg; cbn [sums_loop] in E.
  - destruct g; cbn [sums_loop]; destruct (list_eq_dec Nat.eq_dec it last); [exact E | discriminate | exact E | discriminate].
  - destruct g as [| g]; [lia |]. cbn [sums_loop]. destruct (list_eq_dec Nat.eq_dec it last); [exact E |].
    destruct (sums_loop f (sums_incr it) last) as [r |] eqn:Er; [| discriminate].
    rewrite (IH _ _ _ Er g ltac:(lia)). exact E.
Qed.
(** Whatever the loop over AllIntegerSums<D>(N) produces is these multi-indices. *)
Lemma sums_multiindices : forall fuel D N js, (0 < D)%nat -> sums_loop fuel (sums_begin D true N) (sums_end D true N) = Some js ->
  multiindices D N js /\ binom (N + D) D = Some (length js).
Proof.
  intros fuel D N js HD E. destruct (integer_sums_enumerate D N true HD) as (fuel' & l & E' & A1 & A2 & A3).
  apply sums_loop_more with (g := Nat.max fuel fuel') in E; [| lia].
  apply sums_loop_more with (g := Nat.max fuel fuel') in E'; [| lia].
  rewrite E in E'. inversion E'; subst. split; [split; assumption | now apply A3].
Qed.

Lemma simplex_rsum : forall D n (f : nat -> (nat -> R) -> R) I, (forall k, (k < n)%nat -> is_simplex_integral D (f k) (I k)) ->
  (0 < D <= 3)%nat -> is_simplex_integral D (fun xi => rsum n (fun k => f k xi)) (rsum n I).
Proof.
  intros D n f I H HD. induction n as [| n IH]; cbn [rsum].
  - pose proof (simplex_scale D (mono 0 0 0) _ 0 (simplex_mono D 0 0 0 0 HD ltac:(cbn; repeat split; lia))) as S0.
    eapply simplex_ext; [| | exact S0]; [intros; cbv beta; ring | ring].
  - apply (simplex_plus D (fun xi => rsum n (fun k => f k xi)) (f n)); [apply IH; auto with arith | apply H; lia].
Qed.

Section Span.
Variables (D N : nat) (js : list (list nat)).
Hypothesis HD : (D = 1 \/ D = 2 \/ D = 3)%nat.
Hypothesis Hjs : multiindices D N js.
Local Notation nb := (length js).
Local Notation al j := (nth j js []).
Local Notation phi j := (DubinerP D (al j)).
Definition mon (j : nat) : (nat -> R) -> R := mono (nth 0 (al j) 0%nat) (nth 1 (al j) 0%nat) (nth 2 (al j) 0%nat).

Lemma al_in : forall j, (j < nb)%nat -> length (al j) = D /\ (list_sum (al j) <= N)%nat.
Proof. intros j Hj. apply Hjs. now apply nth_In. Qed.
Lemma al_eqb : forall i j, (i < nb)%nat -> (j < nb)%nat -> list_eqb (al i) (al j) = (i =? j)%nat.
Proof.
  intros i j Hi Hj. unfold list_eqb. destruct Hjs as [ND _]. destruct (list_eq_dec Nat.eq_dec _ _) as [E | E].
  - symmetry. apply Nat.eqb_eq. apply (proj1 (NoDup_nth js []) ND i j Hi Hj E).
  - symmetry. apply Nat.eqb_neq. congruence.
Qed.
Lemma phi_poly : forall j, (j < nb)%nat -> polynomial D N (phi j).
Proof. intros j Hj. destruct (al_in j Hj) as [A B]. apply (poly_le D (list_sum (al j))); [exact B | now apply dubiner_poly]. Qed.
Lemma phi_integral : forall i j, (i < nb)%nat -> (j < nb)%nat ->
  is_simplex_integral D (fun xi => phi i xi * phi j xi) (if (i =? j)%nat then dub_norm D (al i) else 0).
Proof. intros i j Hi Hj. rewrite <- al_eqb by assumption. apply dubiner_integral; [exact HD | now apply al_in | now apply al_in]. Qed.

Lemma mono_span : forall d f, (d <= N)%nat -> polynomial D d f -> exists c, forall xi, f xi = rsum nb (fun j => c j * mon j xi).
Proof.
  intros d f Hd Hf. destruct (polynomial_monos D ltac:(lia) d f Hf) as (l & A & E).
  assert (G : exists c, forall xi, msum l xi = rsum nb (fun j => c j * mon j xi)); [| destruct G as (c & G); exists c; intros; now rewrite E].
  clear E. induction l as [| [c0 [[p q] r]] l IH].
  - exists (fun _ => 0). intros xi. cbn [msum fold_right]. symmetry. apply rsum_zero. intros; ring.
  - destruct IH as (c & IH); [intros; apply A; now right |].
    pose proof (A _ (or_introl eq_refl)) as (B1 & B2 & B3).
    assert (I : exists k, (k < nb)%nat /\ al k = firstn D [p; q; r]).
    { destruct (In_nth js (firstn D [p; q; r]) []) as (k & Hk & Ek); [| exists k; auto].
      apply Hjs. destruct HD as [-> | [-> | ->]]; cbn; lia. }
    destruct I as (k & Hk & Ek).
    exists (fun j => (if (j =? k)%nat then c0 else 0) + c j). intros xi. change (msum ((c0, (p, q, r)) :: l) xi) with (c0 * mono p q r xi + msum l xi).
    rewrite IH. rewrite (rsum_ext nb (fun j => ((if (j =? k)%nat then c0 else 0) + c j) * mon j xi) (fun j => (if (j =? k)%nat then c0 else 0) * mon j xi + c j * mon j xi)) by (intros; ring).
    rewrite rsum_plus. f_equal. rewrite (rsum_single nb k); [| exact Hk |].
    + rewrite Nat.eqb_refl. f_equal. unfold mon. rewrite Ek. destruct HD as [-> | [-> | ->]]; cbn [firstn nth].
      * rewrite (B2 ltac:(lia)), (B3 ltac:(lia)). reflexivity.
      * rewrite (B3 ltac:(lia)). reflexivity.
      * reflexivity.
    + intros j _ Hne. destruct (Nat.eqb_spec j k); [congruence | ring].
Qed.

Lemma mon_integral : forall i j, exists I, (i < nb)%nat -> (j < nb)%nat -> is_simplex_integral D (fun xi => mon i xi * mon j xi) I.
Proof.
  intros i j. eexists. intros Hi Hj. eapply simplex_ext; [| reflexivity |].
  2: { apply (simplex_mono D (2 * N) (nth 0 (al i) 0 + nth 0 (al j) 0)%nat (nth 1 (al i) 0 + nth 1 (al j) 0)%nat (nth 2 (al i) 0 + nth 2 (al j) 0)%nat); [lia |].
       destruct (al_in i Hi) as [A B]. destruct (al_in j Hj) as [A' B']. destruct HD as [-> | [-> | ->]].
       - destruct (al i) as [| p [| ? ?]]; try discriminate. destruct (al j) as [| p' [| ? ?]]; try discriminate. cbn in *. lia.
       - destruct (al i) as [| p [| q [| ? ?]]]; try discriminate. destruct (al j) as [| p' [| q' [| ? ?]]]; try discriminate. cbn in *. lia.
       - destruct (al i) as [| p [| q [| s [| ? ?]]]]; try discriminate. destruct (al j) as [| p' [| q' [| s' [| ? ?]]]]; try discriminate. cbn in *. lia. }
  intros. unfold mon, mono. rewrite !pow_add. ring.
Qed.
Lemma choice2 : forall n (Q : nat -> nat -> R -> Prop), (forall i j, exists y, (i < n)%nat -> (j < n)%nat -> Q i j y) ->
  exists f : nat -> nat -> R, forall i j, (i < n)%nat -> (j < n)%nat -> Q i j (f i j).
Proof.
  intros n Q H.
  assert (G : forall m, exists f : nat -> nat -> R, forall i j, (i < m)%nat -> (j < n)%nat -> (i < n)%nat -> Q i j (f i j)).
  { induction m as [| m (f & Hf)]; [exists (fun _ _ => 0); intros; lia |].
    destruct (RootsProofs.finite_choice n (fun j y => (m < n)%nat -> (j < n)%nat -> Q m j y)) as (g & Hg); [intros j _; apply H |].
    exists (fun i j => if (i =? m)%nat then g j else f i j). intros i j Hi Hj Hi'. destruct (Nat.eqb_spec i m) as [-> | Hne]; [auto |].
    apply Hf; lia. }
  destruct (G n) as (f & Hf). exists f. intros i j Hi Hj. apply Hf; assumption.
Qed.
Lemma choice1 : forall n (Q : nat -> (nat -> R) -> Prop), (forall i, (i < n)%nat -> exists y, Q i y) ->
  exists f : nat -> nat -> R, forall i, (i < n)%nat -> Q i (f i).
Proof.
  induction n as [| n IH]; intros Q H.
  - exists (fun _ _ => 0). intros; lia.
  - destruct (IH Q ltac:(auto with arith)) as (f & Hf). destruct (H n ltac:(lia)) as (y & Hy).
    exists (fun i => if (i =? n)%nat then y else f i). intros i Hi. destruct (Nat.eqb_spec i n) as [-> | Hne]; [exact Hy |]. apply Hf. lia.
Qed.

Lemma phi_span : forall f, polynomial D N f -> exists c, forall xi, f xi = rsum nb (fun j => c j * phi j xi).
Proof.
  destruct (choice1 nb (fun i c => forall xi, phi i xi = rsum nb (fun j => c j * mon j xi))) as (C & HC).
  { intros i Hi. apply (mono_span N); [lia | now apply phi_poly]. }
  destruct (choice2 nb (fun i j I => is_simplex_integral D (fun xi => mon i xi * mon j xi) I)) as (H & HH); [intros; apply mon_integral |].
  set (B := fun j k => rsum nb (fun l => H j l * C k l) / dub_norm D (al k)).
  assert (CB : forall i k, (i < nb)%nat -> (k < nb)%nat -> rsum nb (fun j => C i j * B j k) = delta i k).
  { intros i k Hi Hk.
    assert (E : rsum nb (fun j => rsum nb (fun l => C i j * C k l * H j l)) = if (i =? k)%nat then dub_norm D (al i) else 0).
    { apply (simplex_integral_unique D (fun xi => phi i xi * phi k xi)); [exact HD | | now apply phi_integral].
      apply (simplex_ext D (fun xi => rsum nb (fun j => rsum nb (fun l => C i j * C k l * (mon j xi * mon l xi)))) _
               (rsum nb (fun j => rsum nb (fun l => C i j * C k l * H j l)))); [| reflexivity |].
      - intros x y z. rewrite (HC i Hi), (HC k Hk). rewrite <- rsum_scale_r. apply rsum_ext. intros j Hj.
        rewrite <- rsum_scale. apply rsum_ext. intros; ring.
      - apply (simplex_rsum D nb (fun j xi => rsum nb (fun l => C i j * C k l * (mon j xi * mon l xi)))); [| lia]. intros j Hj.
        apply (simplex_rsum D nb (fun l xi => C i j * C k l * (mon j xi * mon l xi))); [| lia]. intros l Hl.
        apply (simplex_scale D (fun xi => mon j xi * mon l xi)). now apply HH. }
    pose proof (dub_norm_pos D (al k)) as Pk.
    unfold B. rewrite (rsum_ext nb _ (fun j => rsum nb (fun l => C i j * C k l * H j l) * / dub_norm D (al k))).
    - rewrite rsum_scale_r, E. unfold delta. destruct (Nat.eqb_spec i k) as [-> | Hne]; [field; lra | ring].
    - intros j Hj. unfold Rdiv. rewrite <- Rmult_assoc, <- rsum_scale. f_equal. apply rsum_ext. intros; ring. }
  pose proof (inverse_commutes nb C B CB) as BC.
  intros f Hf. destruct (mono_span N f ltac:(lia) Hf) as (c & E).
  exists (fun k => rsum nb (fun j => c j * B j k)). intros xi. rewrite E.
  rewrite (rsum_ext nb (fun k => rsum nb (fun j => c j * B j k) * phi k xi) (fun k => rsum nb (fun j => c j * (B j k * phi k xi)))).
  2: { intros k Hk. rewrite <- rsum_scale_r. apply rsum_ext. intros; ring. }
  rewrite rsum_swap. apply rsum_ext. intros j Hj. rewrite rsum_scale. f_equal.
  rewrite (rsum_ext nb _ (fun k => rsum nb (fun l => B j k * C k l * mon l xi))).
  2: { intros k Hk. rewrite (HC k Hk), <- rsum_scale. apply rsum_ext. intros; ring. }
  rewrite rsum_swap. rewrite (rsum_ext nb _ (fun l => delta j l * mon l xi)); [symmetry; now apply delta_sum |].
  intros l Hl. rewrite rsum_scale_r, BC by assumption. reflexivity.
Qed.
(** The coefficients are unique. *)
Lemma phi_independent : forall c, (forall xi, rsum nb (fun j => c j * phi j xi) = 0) -> forall k, (k < nb)%nat -> c k = 0.
Proof.
  intros c Hc k Hk. pose proof (dub_norm_pos D (al k)) as Pk.
  assert (E : c k * dub_norm D (al k) = 0).
  { apply (simplex_integral_unique D (fun xi => rsum nb (fun j => c j * (phi j xi * phi k xi)))); [exact HD | |].
    - pose proof (simplex_rsum D nb (fun j xi => c j * (phi j xi * phi k xi)) (fun j => c j * (if (j =? k)%nat then dub_norm D (al j) else 0))) as S.
      cbv beta in S. rewrite (rsum_single nb k) in S; [| exact Hk | intros j _ Hne; destruct (Nat.eqb_spec j k); [congruence | ring]].
      rewrite Nat.eqb_refl in S. apply S; [| lia]. intros j Hj. apply (simplex_scale D (fun xi => phi j xi * phi k xi)). now apply phi_integral.
    - pose proof (simplex_rsum D 0 (fun _ _ => 0) (fun _ => 0)) as S. eapply simplex_ext; [| | apply S; lia]; [| reflexivity].
      intros x y z. cbn [rsum]. symmetry. rewrite (rsum_ext nb _ (fun j => c j * phi j (pt x y z) * phi k (pt x y z))) by (intros; ring).
      rewrite rsum_scale_r, Hc. ring. }
  apply Rmult_integral in E. destruct E; [assumption | lra].
Qed.
End Span.
