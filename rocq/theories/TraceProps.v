(** Property theorems: the inverse trace inequality with the constant of InverseInequality.h, for every
    degree (C75). *)
Require Import List Arith Lia Bool Reals Lra Factorial.
Require Import Verif.Base Verif.LinAlg Verif.BasisModel Verif.BasisSpec Verif.JacobiProofs Verif.IntegralSpec Verif.IntegralProofs
  Verif.OrthogonalProofs Verif.QuadratureModel Verif.QuadratureSpec Verif.QuadratureProofs Verif.QuadratureProps
  Verif.RootsProps Verif.DubinerProofs Verif.CombinatoricsModel Verif.CombinatoricsProps Verif.SpanProofs Verif.ErrorExactProps Verif.NodesConform
  Verif.PenaltyModel Verif.GeometryModel Verif.TraceProofs.
Import ListNotations.
Local Open Scope R_scope.

(** * Symmetry of the reference simplex *)
Definition swap01 (xi : nat -> R) : nat -> R := pt (xi 1%nat) (xi 0%nat) (xi 2%nat).
Definition swap12 (xi : nat -> R) : nat -> R := pt (xi 0%nat) (xi 2%nat) (xi 1%nat).
Definition flip (D : nat) (xi : nat -> R) : nat -> R := pt (1 - rsum D xi) (xi 1%nat) (xi 2%nat).
Lemma is_integral_flip : forall f c I, is_integral f 0 c I -> is_integral (fun x => f (c - x)) 0 c I.
Proof.
  intros f c I (F & HF & ->). exists (fun x => - F (c - x)). split.
  - intros x Hx. apply (derivable_pt_lim_ext_eq (fun t => - F (c - t)) _ x (- (f (c - x) * -1))); [reflexivity | ring |].
    apply (derivable_pt_lim_opp (fun t => F (c - t))). apply (derivable_pt_lim_comp (fun t => c - t) F); [| apply HF; lra].
    apply (derivable_pt_lim_ext_eq (fun t => fct_cte c t - id t) _ x (0 - 1)); [reflexivity | ring |].
    apply (derivable_pt_lim_minus (fct_cte c) id); [apply derivable_pt_lim_const | apply derivable_pt_lim_id].
  - replace (c - c) with 0 by ring. rewrite Rminus_0_r. ring.
Qed.
Lemma simplex_flip : forall D f I, (D = 2 \/ D = 3)%nat -> is_simplex_integral D f I -> is_simplex_integral D (fun xi => f (flip D xi)) I.
Proof.
  intros D f I [-> | ->]; cbn [is_simplex_integral].
  - intros (G & A & B). exists G. split; [| exact B]. intros y Hy. specialize (A y Hy). apply is_integral_flip in A.
    eapply is_integral_ext; [| reflexivity | exact A]. intros x _. cbv beta. change (flip 2 (pt x y 0)) with (pt (1 - (0 + x + y)) y 0).
    replace (1 - (0 + x + y)) with (1 - y - x) by ring. reflexivity.
  - intros (G & H & A & B & C). exists G, H. split; [| split; assumption]. intros z y Hz Hy. specialize (A z y Hz Hy). apply is_integral_flip in A.
    eapply is_integral_ext; [| reflexivity | exact A]. intros x _. cbv beta. change (flip 3 (pt x y z)) with (pt (1 - (0 + x + y + z)) y z).
    replace (1 - (0 + x + y + z)) with (1 - y - z - x) by ring. reflexivity.
Qed.
(** Integrals of sums of monomials. *)
Definition msum_integral (D : nat) (l : list (R * (nat * nat * nat))) : R :=
  fold_right (fun t s => (let '(c, (p, q, r)) := t in c * (factR p * factR q * factR r / factR (p + q + r + D))) + s) 0 l.
Lemma msum_is_integral : forall D d l, (0 < D <= 3)%nat -> (forall t, In t l -> expo D d (snd t)) -> is_simplex_integral D (msum l) (msum_integral D l).
Proof.
  intros D d l HD. induction l as [| [c [[p q] r]] l IH]; intros H.
  - pose proof (simplex_scale D (mono 0 0 0) _ 0 (simplex_mono D 0 0 0 0 HD ltac:(cbn; repeat split; lia))) as S0.
    eapply simplex_ext; [| | exact S0]; [intros; cbn; ring | cbn; ring].
  - apply (simplex_plus D (fun xi => c * mono p q r xi) (msum l)).
    + apply simplex_scale. eapply simplex_mono; [exact HD |]. apply (H (c, (p, q, r))). left. reflexivity.
    + apply IH. intros t Ht. apply H. right. exact Ht.
Qed.
Lemma simplex_permute : forall D d f I (s : (nat -> R) -> nat -> R) (e : nat * nat * nat -> nat * nat * nat), (D = 2 \/ D = 3)%nat ->
  (forall p q r xi, mono p q r (s xi) = let '(p', q', r') := e (p, q, r) in mono p' q' r' xi) ->
  (forall x, expo D d x -> expo D d (e x)) ->
  (forall p q r, let '(p', q', r') := e (p, q, r) in factR p' * factR q' * factR r' / factR (p' + q' + r' + D) = factR p * factR q * factR r / factR (p + q + r + D)) ->
  polynomial D d f -> is_simplex_integral D f I -> is_simplex_integral D (fun xi => f (s xi)) I.
Proof.
  intros D d f I s e HD Hm He Hv Hf HI. destruct (polynomial_monos D ltac:(lia) d f Hf) as (l & A & E).
  assert (EI : I = msum_integral D l).
  { apply (simplex_integral_unique D f); [lia | exact HI |]. eapply simplex_ext; [| reflexivity | apply (msum_is_integral D d l ltac:(lia) A)]. intros; symmetry; apply E. }
  set (l' := map (fun t => (fst t, e (snd t))) l).
  assert (E1 : forall xi, msum l' xi = f (s xi)).
  { intros xi. rewrite E. unfold l', msum. clear -Hm. induction l as [| [c [[p q] r]] l IH]; cbn [map fold_right fst snd]; [reflexivity |].
    rewrite IH. rewrite Hm. destruct (e (p, q, r)) as [[p' q'] r']. reflexivity. }
  assert (E2 : msum_integral D l' = I).
  { rewrite EI. unfold l', msum_integral. clear -Hv. induction l as [| [c [[p q] r]] l IH]; cbn [map fold_right fst snd]; [reflexivity |].
    rewrite IH. specialize (Hv p q r). destruct (e (p, q, r)) as [[p' q'] r']. rewrite Hv. reflexivity. }
  eapply simplex_ext; [intros; apply E1 | exact E2 |]. apply (msum_is_integral D d); [lia |].
  intros t Ht. unfold l' in Ht. apply in_map_iff in Ht as (u & <- & Hu). cbn [snd]. apply He. now apply A.
Qed.
Lemma simplex_swap01 : forall D d f I, (D = 2 \/ D = 3)%nat -> polynomial D d f -> is_simplex_integral D f I -> is_simplex_integral D (fun xi => f (swap01 xi)) I.
Proof.
  intros D d f I HD Hf HI. apply (simplex_permute D d f I swap01 (fun x => let '(p, q, r) := x in (q, p, r)) HD); auto.
  - intros. unfold mono, swap01, pt. ring.
  - intros [[p q] r] (A & B & C). repeat split; [lia | lia | exact C].
  - intros p q r. cbv beta iota. replace (q + p + r)%nat with (p + q + r)%nat by lia. field. apply factR_neq.
Qed.
Lemma simplex_swap12 : forall d f I, polynomial 3 d f -> is_simplex_integral 3 f I -> is_simplex_integral 3 (fun xi => f (swap12 xi)) I.
Proof.
  intros d f I Hf HI. apply (simplex_permute 3 d f I swap12 (fun x => let '(p, q, r) := x in (p, r, q)) ltac:(lia)); auto.
  - intros. unfold mono, swap12, pt. ring.
  - intros [[p q] r] (A & B & C). repeat split; lia.
  - intros p q r. cbv beta iota. replace (p + r + q)%nat with (p + q + r)%nat by lia. field. apply factR_neq.
Qed.
Lemma poly_swap01 : forall D d f, (D = 2 \/ D = 3)%nat -> polynomial D d f -> polynomial D d (fun xi => f (swap01 xi)).
Proof.
  intros D d f HD Hf. apply poly_comp; [exact Hf |]. intros [| [| [| i]]] Hi; unfold swap01, pt; try (apply poly_coord; lia). lia.
Qed.
Lemma poly_swap12 : forall d f, polynomial 3 d f -> polynomial 3 d (fun xi => f (swap12 xi)).
Proof. intros d f Hf. apply poly_comp; [exact Hf |]. intros [| [| [| i]]] Hi; unfold swap12, pt; try (apply poly_coord; lia). lia. Qed.
Lemma poly_flip : forall D d f, (D = 2 \/ D = 3)%nat -> polynomial D d f -> polynomial D d (fun xi => f (flip D xi)).
Proof.
  intros D d f HD Hf. apply poly_comp; [exact Hf |]. intros [| [| [| i]]] Hi; unfold flip, pt; try (apply poly_coord; lia); [| lia].
  destruct HD as [-> | ->].
  - apply (poly_aff 2 _ 1 (-1) (-1) 0); [intros; cbn [rsum]; ring | left; lia | left; lia | right; reflexivity].
  - apply (poly_aff 3 _ 1 (-1) (-1) (-1)); [intros; cbn [rsum]; ring | left; lia | left; lia | left; lia].
Qed.

(** Every facet is the image of the last one under a symmetry of the simplex. *)
Lemma facet_symmetry : forall D fs f, (D = 2 \/ D = 3)%nat -> f2v D = Some fs -> In f fs ->
  exists s : (nat -> R) -> nat -> R,
    (forall d p, polynomial D d p -> polynomial D d (fun xi => p (s xi))) /\
    (forall d p I, polynomial D d p -> is_simplex_integral D p I -> is_simplex_integral D (fun xi => p (s xi)) I) /\
    (forall chi i, (i < D)%nat -> s (last_facet D chi) i = facet_param D f chi i).
Proof.
  intros D fs f [-> | ->] E Hf; cbn in E; injection E as <-; cbn in Hf.
  - destruct Hf as [<- | [<- | [<- | []]]].
    + exists (fun xi => xi). split; [auto |]. split; [auto |]. intros chi [| [| i]] Hi; try lia; unfold facet_param, last_facet, ref_vertex, pt; cbn; ring.
    + exists swap01. split; [intros; apply poly_swap01; auto |]. split; [intros; eapply simplex_swap01; eauto |].
      intros chi [| [| i]] Hi; try lia; unfold facet_param, last_facet, ref_vertex, swap01, pt; cbn; ring.
    + exists (fun xi => flip 2 (swap01 xi)). split; [intros; apply (poly_swap01 2 d (fun xi => p (flip 2 xi))); auto; apply poly_flip; auto |].
      split; [intros; eapply (simplex_swap01 2 d (fun xi => p (flip 2 xi))); auto; [apply poly_flip | apply simplex_flip]; auto |].
      intros chi [| [| i]] Hi; try lia; unfold facet_param, last_facet, ref_vertex, flip, swap01, pt; cbn; ring.
  - destruct Hf as [<- | [<- | [<- | [<- | []]]]].
    + exists (fun xi => xi). split; [auto |]. split; [auto |]. intros chi [| [| [| i]]] Hi; try lia; unfold facet_param, last_facet, ref_vertex, pt; cbn; ring.
    + exists swap12. split; [intros; apply poly_swap12; auto |]. split; [intros; eapply simplex_swap12; eauto |].
      intros chi [| [| [| i]]] Hi; try lia; unfold facet_param, last_facet, ref_vertex, swap12, pt; cbn; ring.
    + exists (fun xi => swap01 (swap12 xi)). split; [intros; apply (poly_swap12 d (fun xi => p (swap01 xi))); apply poly_swap01; auto |].
      split; [intros; eapply (simplex_swap12 d (fun xi => p (swap01 xi))); [apply poly_swap01 | eapply simplex_swap01]; eauto |].
      intros chi [| [| [| i]]] Hi; try lia; unfold facet_param, last_facet, ref_vertex, swap01, swap12, pt; cbn; ring.
    + exists (fun xi => flip 3 (swap01 (swap12 xi))).
      split; [intros; apply (poly_swap12 d (fun xi => p (flip 3 (swap01 xi)))); apply (poly_swap01 3 d (fun xi => p (flip 3 xi))); auto; apply poly_flip; auto |].
      split; [intros; eapply (simplex_swap12 d (fun xi => p (flip 3 (swap01 xi))));
        [apply (poly_swap01 3 d (fun xi => p (flip 3 xi))); auto; apply poly_flip; auto | eapply (simplex_swap01 3 d (fun xi => p (flip 3 xi))); auto; [apply poly_flip | apply simplex_flip]; auto] |].
      intros chi [| [| [| i]]] Hi; try lia; unfold facet_param, last_facet, ref_vertex, flip, swap01, swap12, pt; cbn; ring.
Qed.

(** C75, the inequality: for every polynomial of degree N on the reference triangle or tetrahedron the mean
    of its square over a facet is at most trace_constant(N) times the mean of its square over the element.
    (D - 1)! J is the mean over the facet and D! I that over the element.  Affine maps preserve means, so that
    the same holds on every simplex. *)
Theorem inverse_trace_inequality : forall D N p fs f I J, (D = 2 \/ D = 3)%nat -> polynomial D N p -> f2v D = Some fs -> In f fs ->
  is_simplex_integral D (fun xi => p xi * p xi) I ->
  is_simplex_integral (D - 1) (fun chi => p (facet_param D f chi) * p (facet_param D f chi)) J ->
  INR (fact (D - 1)) * J <= trace_constant D N * (INR (fact D) * I).
Proof.
  intros D N p fs f I J HD Hp Hfs Hf HI HJ. destruct (facet_symmetry D fs f HD Hfs Hf) as (s & S1 & S2 & S3).
  assert (T : J <= INR (N + 1) * INR (N + D) * I).
  { apply (last_facet_trace D N (fun xi => p (s xi)) I J HD (S1 N p Hp)).
    - apply (S2 (N + N)%nat (fun xi => p xi * p xi)); [now apply poly_mult | exact HI].
    - eapply simplex_ext; [| reflexivity | exact HJ]. intros x y z. cbv beta.
      rewrite (poly_ext D N p Hp (facet_param D f (pt x y z)) (s (last_facet D (pt x y z)))); [reflexivity |]. intros i Hi. symmetry. now apply S3. }
  unfold trace_constant. destruct D as [| D]; [lia |]. replace (S D - 1)%nat with D by lia. change (fact (S D)) with (S D * fact D)%nat.
  rewrite mult_INR. assert (Fp : 0 < INR (fact D)) by (apply lt_0_INR, lt_O_fact). assert (Dp : 0 < INR (S D)) by (apply lt_0_INR; lia).
  replace (INR (N + 1) * INR (N + S D) / INR (S D) * (INR (S D) * INR (fact D) * I)) with (INR (fact D) * (INR (N + 1) * INR (N + S D) * I)) by (field; lra).
  apply Rmult_le_compat_l; [lra | exact T].
Qed.
Print Assumptions inverse_trace_inequality.

(** C75, the constant is the best one: for every degree some polynomial attains it. *)
Theorem trace_constant_optimal : forall D N, (D = 2 \/ D = 3)%nat -> exists p fs f I J, polynomial D N p /\ f2v D = Some fs /\ In f fs /\
  is_simplex_integral D (fun xi => p xi * p xi) I /\
  is_simplex_integral (D - 1) (fun chi => p (facet_param D f chi) * p (facet_param D f chi)) J /\
  0 < I /\ INR (fact (D - 1)) * J = trace_constant D N * (INR (fact D) * I).
Proof.
  intros D N HD. destruct (multiindices_exist D N ltac:(lia)) as (js & Hjs). destruct (multiindices_exist (D - 1) N ltac:(lia)) as (hs & Hhs).
  set (z := repeat 0%nat (D - 1)). assert (Sz : list_sum z = 0%nat) by (unfold z; generalize (D - 1)%nat; induction n; cbn; auto).
  assert (Hz : In z hs) by (apply Hhs; rewrite Sz; split; [apply repeat_length | lia]).
  set (c := fun j => ind z (head D (nth j js [])) * (-1) ^ tail D (nth j js []) * wgt D (nth j js [])).
  set (p := fun xi => rsum (length js) (fun j => c j * dub D (nth j js []) xi)).
  assert (Pp : polynomial D N p).
  { apply (poly_rsum D N (length js) (fun j xi => c j * dub D (nth j js []) xi)). intros j Hj. apply poly_scale.
    apply (poly_eq D N (DubinerP D (nth j js []))); [intros; now rewrite DubinerP_dub | apply (phi_poly D N js ltac:(lia) Hjs j Hj)]. }
  set (K := INR (N + 1) * INR (N + D)).
  assert (WK : rsum (length js) (fun j => ind z (head D (nth j js [])) * wgt D (nth j js [])) = K).
  { rewrite (wgt_sum_eq D N js hs HD Hjs Hhs z Hz), Sz. unfold K. rewrite !plus_INR. simpl. ring. }
  set (n0 := dub_norm (D - 1) z).
  assert (I2 : forall a b, ind a b * ind a b = ind a b) by (intros a b; destruct (ind_cases a b) as [[_ ->] | [_ ->]]; ring).
  assert (EI : rsum (length js) (fun j => c j * c j * dub_norm D (nth j js [])) = n0 * K).
  { rewrite <- WK, <- rsum_scale. apply rsum_ext. intros j Hj. unfold c. destruct (al_in D N js Hjs j Hj) as [L Sm]. destruct (split_index D N js hs HD Hjs Hhs _ L) as [E Lh].
    destruct (ind_cases z (head D (nth j js []))) as [[Ez ->] | [_ ->]]; [| ring].
    rewrite E at 5. rewrite dub_norm_facet by assumption. rewrite <- E, <- Ez. fold n0.
    replace (1 * (-1) ^ tail D (nth j js []) * wgt D (nth j js []) * (1 * (-1) ^ tail D (nth j js []) * wgt D (nth j js []))) with
      ((-1) ^ tail D (nth j js []) * (-1) ^ tail D (nth j js []) * (wgt D (nth j js []) * wgt D (nth j js []))) by ring.
    rewrite sign_sqr. pose proof (wgt_pos D HD (nth j js [])) as W. unfold wgt in *. field. lra. }
  assert (EJ : rsum (length hs) (fun i => vcoef D js hs c i * vcoef D js hs c i * dub_norm (D - 1) (nth i hs [])) = n0 * (K * K)).
  { assert (V : forall i, (i < length hs)%nat -> vcoef D js hs c i = ind (nth i hs []) z * K).
    { intros i Hi. unfold vcoef. rewrite <- WK, <- rsum_scale. apply rsum_ext. intros j Hj. unfold c.
      replace (ind z (head D (nth j js [])) * (-1) ^ tail D (nth j js []) * wgt D (nth j js []) * (-1) ^ tail D (nth j js []) * ind (nth i hs []) (head D (nth j js []))) with
        ((-1) ^ tail D (nth j js []) * (-1) ^ tail D (nth j js []) * (ind z (head D (nth j js [])) * wgt D (nth j js []) * ind (nth i hs []) (head D (nth j js [])))) by ring.
      rewrite sign_sqr. destruct (ind_cases z (head D (nth j js []))) as [[<- ->] | [_ ->]]; ring. }
    rewrite (rsum_ext (length hs) _ (fun i => K * K * (ind (nth i hs []) z * dub_norm (D - 1) (nth i hs [])))).
    - rewrite rsum_scale, (ind_sum hs z (dub_norm (D - 1))); [fold n0; ring | apply Hhs | exact Hz].
    - intros i Hi. rewrite V by exact Hi. rewrite <- (I2 (nth i hs []) z) at 3. ring. }
  assert (HI := parseval D N js c ltac:(lia) Hjs). rewrite EI in HI.
  assert (HJ := facet_norm D N js hs HD Hjs Hhs c). rewrite EJ in HJ.
  assert (F : exists fs f, f2v D = Some fs /\ In f fs /\ forall chi i, (i < D)%nat -> last_facet D chi i = facet_param D f chi i).
  { destruct HD as [-> | ->]; cbn; do 2 eexists; (split; [reflexivity |]); (split; [left; reflexivity |]);
      intros chi [| [| [| i]]] Hi; try lia; unfold facet_param, last_facet, ref_vertex, pt; cbn; ring. }
  destruct F as (fs & f & Hfs & Hf & FP).
  exists p, fs, f, (n0 * K), (n0 * (K * K)). split; [exact Pp |]. split; [exact Hfs |]. split; [exact Hf |]. split; [exact HI |]. split.
  { eapply simplex_ext; [| reflexivity | exact HJ]. intros x y w. cbv beta. fold (p (last_facet D (pt x y w))).
    rewrite (poly_ext D N p Pp (facet_param D f (pt x y w)) (last_facet D (pt x y w))); [reflexivity |]. intros i Hi. symmetry. now apply FP. }
  assert (Kp : 0 < K) by (unfold K; apply Rmult_lt_0_compat; apply lt_0_INR; lia).
  assert (Np : 0 < n0) by apply dub_norm_pos. split; [now apply Rmult_lt_0_compat |].
  unfold trace_constant. fold K. destruct D as [| D]; [lia |]. replace (S D - 1)%nat with D by lia. change (fact (S D)) with (S D * fact D)%nat.
  rewrite mult_INR. assert (Dp : 0 < INR (S D)) by (apply lt_0_INR; lia). field. lra.
Qed.
Print Assumptions trace_constant_optimal.
