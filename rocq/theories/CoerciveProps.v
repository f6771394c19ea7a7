(** Property theorems: the penalty makes the assembled matrix positive semidefinite (C53). *)
Require Import List Arith Lia Bool Reals Lra Permutation.
Require Import Verif.Base Verif.CombinatoricsProofs Verif.LinAlg Verif.SimplexModel Verif.SimplexProofs Verif.SimplexProps Verif.LocalMeshModel Verif.LocalMeshProofs Verif.LocalMeshProps
  Verif.TopoModel Verif.TopoSpec Verif.TopoProofs Verif.TopoProps
  Verif.AssembleModel Verif.AssembleSpec Verif.AssembleProofs Verif.AssembleProps Verif.MatFree Verif.PoissonModel Verif.PoissonProofs
  Verif.PenaltyModel Verif.SipSpec Verif.SipProofs Verif.SipRank Verif.SipProps.
Import ListNotations.
Local Open Scope R_scope.

(** * Specification *)
Section Spec.
Variable Q : problem.
Local Notation P := (pb_ref Q). Local Notation dim := (p_dim P).
(** Integrals of |grad u|^2 over element g and over its facet f. *)
Definition grad2 (g : nat) (u : nat -> R) : R :=
  rsum (p_Nq P) (fun q => p_W P q * p_J P g q * rsum dim (fun i => grad Q g u i q * grad Q g u i q)).
Definition grad2_on (f : list nat) (g : nat) (u : nat -> R) : R :=
  rsum (p_nq P) (fun q => p_w P q * pb_nl Q f q * rsum dim (fun i => grad_on Q f g u i q * grad_on Q f g u i q)).
Definition facet_area (f : list nat) : R := rsum (p_nq P) (fun q => p_w P q * pb_nl Q f q).
Definition elem_volume (g : nat) : R := rsum (p_Nq P) (fun q => p_W P q * p_J P g q).
(** Positive weights and volumes; the length of the normal; the coefficient is positive at
    the nodes and, at the quadrature points, within the range of its nodal values. *)
Record geometry_ok (elems facets : list (list nat)) : Prop := {
  ge_W : forall q, (q < p_Nq P)%nat -> 0 <= p_W P q;
  ge_w : forall q, (q < p_nq P)%nat -> 0 <= p_w P q;
  ge_J : forall g q, (g < length elems)%nat -> (q < p_Nq P)%nat -> 0 <= p_J P g q;
  ge_volume : forall g, (g < length elems)%nat -> 0 < elem_volume g;
  ge_area : forall f, In f facets -> 0 < facet_area f;
  ge_nl : forall f q, In f facets -> (q < p_nq P)%nat -> 0 <= pb_nl Q f q;
  ge_n : forall f g q, In f facets -> In g (elements_of elems f) -> (q < p_nq P)%nat ->
     rsum dim (fun i => pb_n Q f g i q * pb_n Q f g i q) = pb_nl Q f q * pb_nl Q f q;
  ge_nodes : (0 < p_N P)%nat;
  ge_pos : forall g l, (g < length elems)%nat -> (l < p_N P)%nat -> 0 < p_K P g l;
  ge_in : forall g q, (g < length elems)%nat -> (q < p_Nq P)%nat -> exists l, (l < p_N P)%nat /\ p_K P g l <= kappa Q g q;
  ge_on : forall f g q, In f facets -> In g (elements_of elems f) -> (q < p_nq P)%nat ->
     0 <= kappa_on Q f g q /\ exists l, (l < p_N P)%nat /\ kappa_on Q f g q <= p_K P g l }.
(** The constant of the inverse trace inequality for polynomials of degree n on a simplex in D
    dimensions (Warburton and Hesthaven), and the inequality for gradients of functions of the given
    degree. *)
Definition inverse_trace (D n : nat) : R := INR (n + 1) * INR (n + D) / INR D.
Definition trace_inequality (elems facets : list (list nat)) (degree : nat) : Prop :=
  forall f g u, In f facets -> In g (elements_of elems f) ->
    grad2_on f g u <= inverse_trace dim (degree - 1) * (facet_area f / elem_volume g) * grad2 g u.
End Spec.

(** * Lemmas *)
Lemma min_le n f l : (l < n)%nat -> min_element n f <= f l.
Proof.
  induction n as [|[|n] IH]; intro H; [lia|replace l with 0%nat by lia; cbn; lra|].
  change (min_element (S (S n)) f) with (Rmin (min_element (S n) f) (f (S n))).
  destruct (Nat.eq_dec l (S n)) as [->|]; [apply Rmin_r|]. eapply Rle_trans; [apply Rmin_l|apply IH; lia].
Qed.
Lemma max_ge n f l : (l < n)%nat -> f l <= max_element n f.
Proof.
  induction n as [|[|n] IH]; intro H; [lia|replace l with 0%nat by lia; cbn; lra|].
  change (max_element (S (S n)) f) with (Rmax (max_element (S n) f) (f (S n))).
  destruct (Nat.eq_dec l (S n)) as [->|]; [apply Rmax_r|]. eapply Rle_trans; [apply IH; lia|apply Rmax_l].
Qed.
Lemma max_le n f c : (0 < n)%nat -> (forall l, (l < n)%nat -> f l <= c) -> max_element n f <= c.
Proof.
  intros Hn H. induction n as [|n IH]; [lia|]. destruct n as [|n]; [apply H; lia|].
  change (max_element (S (S n)) f) with (Rmax (max_element (S n) f) (f (S n))). apply Rmax_lub; [apply IH|]; auto; lia.
Qed.
Lemma min_pos n f : (0 < n)%nat -> (forall l, (l < n)%nat -> 0 < f l) -> 0 < min_element n f.
Proof.
  induction n as [|[|n] IH]; intros H A; [lia|cbn; auto|].
  change (min_element (S (S n)) f) with (Rmin (min_element (S n) f) (f (S n))). apply Rmin_glb_lt; [apply IH|]; auto; lia.
Qed.
Section Bounds.
Variables (Q : problem) (elems facets : list (list nat)).
Hypothesis GE : geometry_ok Q elems facets.
Local Notation P := (pb_ref Q).
Lemma ge_vol g : (g < length elems)%nat -> 0 < volume P g.
Proof. apply (ge_volume _ _ _ GE). Qed.
Lemma ge_min g : (g < length elems)%nat -> 0 < min_element (p_N P) (p_K P g).
Proof. intro Hg. apply min_pos; [apply (ge_nodes _ _ _ GE)|]. intros. apply (ge_pos _ _ _ GE); auto. Qed.
Lemma ge_K g q : (g < length elems)%nat -> (q < p_Nq P)%nat -> min_element (p_N P) (p_K P g) <= kappa Q g q.
Proof. intros Hg Hq. destruct (ge_in _ _ _ GE g q Hg Hq) as (l & Hl & L). eapply Rle_trans; [apply min_le; eauto|auto]. Qed.
Lemma ge_K_on f g q : In f facets -> In g (elements_of elems f) -> (q < p_nq P)%nat ->
  0 <= kappa_on Q f g q <= max_element (p_N P) (p_K P g).
Proof.
  intros Hf Hg Hq. destruct (ge_on _ _ _ GE f g q Hf Hg Hq) as (H & l & Hl & L). split; auto.
  eapply Rle_trans; [exact L|apply max_ge; auto].
Qed.
Lemma ti_code degree : trace_inequality Q elems facets degree -> forall f g u, In f facets -> In g (elements_of elems f) ->
  grad2_on Q f g u <= trace_constant (p_dim P) (degree - 1) * (facet_area Q f / volume P g) * grad2 Q g u.
Proof. intro TI. exact TI. Qed.
End Bounds.
Lemma young p nl j k k1 s G : 0 < p -> 0 <= nl -> 0 <= k <= k1 -> 0 <= G -> s * s <= nl * nl * G ->
  j * k * s <= p / 4 * nl * (j * j) + k1 * k1 / p * (nl * G).
Proof.
  intros Hp Hn Hk HG Hs. destruct (Req_dec nl 0) as [Z|Z].
  - rewrite Z in Hs |- *. assert (s = 0) by nra. subst s. lra.
  - assert (Hn' : 0 < nl) by lra. apply (Rmult_le_reg_l (p * nl)); [nra|].
    replace (p * nl * (p / 4 * nl * (j * j) + k1 * k1 / p * (nl * G))) with (p * nl * j / 2 * (p * nl * j / 2) + k1 * k1 * (nl * nl * G)) by (field; lra).
    assert (A : k * k * (s * s) <= k1 * k1 * (nl * nl * G)).
    { apply Rle_trans with (k * k * (nl * nl * G)); [apply Rmult_le_compat_l; nra|].
      apply Rmult_le_compat_r; [|nra]. assert (0 <= nl * nl) by nra. nra. }
    pose proof (Rle_0_sqr (p * nl * j / 2 - k * s)) as B. unfold Rsqr in B. nra.
Qed.
Lemma cauchy n (a b : nat -> R) c : rsum n (fun i => b i * b i) = c * c ->
  rsum n (fun i => a i * b i) * rsum n (fun i => a i * b i) <= c * c * rsum n (fun i => a i * a i).
Proof.
  intro Hb. set (s := rsum n (fun i => a i * b i)). set (A := rsum n (fun i => a i * a i)).
  assert (A0 : 0 <= A) by (apply rsum_nonneg; intros; apply Rle_0_sqr).
  destruct (Req_dec c 0) as [Z|Z].
  - assert (B : forall i, (i < n)%nat -> b i * b i = 0).
    { apply rsum_nonneg_zero; [intros; nra|]. rewrite Hb, Z. ring. }
    assert (s = 0). { unfold s. apply rsum_zero. intros i Hi. specialize (B i Hi). assert (b i = 0) by nra. rewrite H. ring. }
    rewrite H, Z. lra.
  - assert (E : rsum n (fun i => (c * c * a i - s * b i) * (c * c * a i - s * b i)) = c * c * (c * c * A - s * s)).
    { rewrite (rsum_ext n _ (fun i => (c * c * (c * c)) * (a i * a i) + (- 2 * (c * c) * s) * (a i * b i) + (s * s) * (b i * b i))) by (intros; ring).
      rewrite !rsum_plus, !rsum_scale, Hb. fold s A. ring. }
    assert (P : 0 <= rsum n (fun i => (c * c * a i - s * b i) * (c * c * a i - s * b i))) by (apply rsum_nonneg; intros; apply Rle_0_sqr).
    rewrite E in P. assert (0 < c * c) by nra. nra.
Qed.

Section Coercive.
Variable Q : problem.
Variables (elems facets : list (list nat)) (bc : list nat -> nat) (degree : nat).
Local Notation P := (pb_ref Q). Local Notation dim := (p_dim P). Local Notation N := (p_N P).
Hypothesis GE : geometry_ok Q elems facets.
Hypothesis TI : trace_inequality Q elems facets degree.
Hypothesis Hdim : (0 < dim)%nat.

Definition kmax (g : nat) : R := max_element N (p_K P g).
Definition kmin (g : nat) : R := min_element N (p_K P g).
(** The code's p(side) in terms of the problem. *)
Definition pen_of (f : list nat) (g : nat) : R :=
  INR (dim + 1) * trace_constant dim (degree - 1) * (facet_area Q f / volume P g) * (kmax g * kmax g / kmin g).

Lemma in_elems f g : In g (elements_of elems f) -> (g < length elems)%nat.
Proof. intro H. apply elements_of_spec in H as (plex & E & _). apply nth_error_Some. congruence. Qed.
Lemma max_min n f : (0 < n)%nat -> min_element n f <= max_element n f.
Proof.
  induction n as [|[|n] IH]; intro H; [lia|cbn; lra|].
  change (min_element (S (S n)) f) with (Rmin (min_element (S n) f) (f (S n))). change (max_element (S (S n)) f) with (Rmax (max_element (S n) f) (f (S n))). specialize (IH ltac:(lia)).
  pose proof (Rmin_l (min_element (S n) f) (f (S n))). pose proof (Rmax_l (max_element (S n) f) (f (S n))). lra.
Qed.
Lemma kmax_pos g : (g < length elems)%nat -> 0 < kmax g.
Proof.
  intro Hg. pose proof (ge_min _ _ _ GE g Hg) as H. unfold kmax. destruct N as [|n]; [cbn in H; lra|].
  pose proof (max_min (S n) (p_K P g) ltac:(lia)). lra.
Qed.
Lemma trace_constant_pos : 0 < trace_constant dim (degree - 1).
Proof.
  unfold trace_constant. apply Rdiv_lt_0_compat; [apply Rmult_lt_0_compat|]; apply lt_0_INR; lia.
Qed.
Lemma pen_pos f g : In f facets -> In g (elements_of elems f) -> 0 < pen_of f g.
Proof.
  intros Hf Hg. apply in_elems in Hg. unfold pen_of. pose proof (kmax_pos g Hg). pose proof (ge_min _ _ _ GE g Hg) as Hm. fold (kmin g) in Hm.
  apply Rmult_lt_0_compat; [apply Rmult_lt_0_compat; [apply Rmult_lt_0_compat|]|].
  - apply lt_0_INR. lia.
  - apply trace_constant_pos.
  - apply Rdiv_lt_0_compat; [apply (ge_area _ _ _ GE f Hf) | apply (ge_vol _ _ _ GE g Hg)].
  - apply Rdiv_lt_0_compat; [nra|auto].
Qed.

Definition energy (g : nat) (U : nat -> nat -> R) : R := vol_term Q g U U.
Lemma energy_ge g U : (g < length elems)%nat -> kmin g * grad2 Q g (U g) <= energy g U.
Proof.
  intro Hg. unfold energy, vol_term, grad2. rewrite <- rsum_scale. apply rsum_le. intros q Hq.
  assert (G0 : 0 <= rsum dim (fun i => grad Q g (U g) i q * grad Q g (U g) i q)) by (apply rsum_nonneg; intros; apply Rle_0_sqr).
  pose proof (ge_W _ _ _ GE q Hq). pose proof (ge_J _ _ _ GE g q Hg Hq). pose proof (ge_K _ _ _ GE g q Hg Hq) as HK. fold (kmin g) in HK.
  assert (0 <= p_W P q * p_J P g q) by nra.
  replace (kmin g * (p_W P q * p_J P g q * rsum dim (fun i => grad Q g (U g) i q * grad Q g (U g) i q)))
    with (p_W P q * p_J P g q * kmin g * rsum dim (fun i => grad Q g (U g) i q * grad Q g (U g) i q)) by ring.
  apply Rmult_le_compat_r; auto. apply Rmult_le_compat_l; auto.
Qed.
Lemma grad2_nonneg g u : (g < length elems)%nat -> 0 <= grad2 Q g u.
Proof.
  intro Hg. apply rsum_nonneg. intros q Hq. pose proof (ge_W _ _ _ GE q Hq). pose proof (ge_J _ _ _ GE g q Hg Hq).
  assert (G0 : 0 <= rsum dim (fun i => grad Q g u i q * grad Q g u i q)) by (apply rsum_nonneg; intros; apply Rle_0_sqr).
  apply Rmult_le_pos; nra.
Qed.
Lemma energy_nonneg g U : (g < length elems)%nat -> 0 <= energy g U.
Proof.
  intro Hg. pose proof (energy_ge g U Hg). pose proof (grad2_nonneg g (U g) Hg). pose proof (ge_min _ _ _ GE g Hg) as Hm. fold (kmin g) in Hm.
  assert (0 <= kmin g * grad2 Q g (U g)) by nra. lra.
Qed.
(** One side of one facet takes at most its share of the element's energy. *)
Lemma side_share f g U : In f facets -> In g (elements_of elems f) ->
  kmax g * kmax g / pen_of f g * grad2_on Q f g (U g) <= energy g U / INR (dim + 1).
Proof.
  intros Hf Hg. pose proof (in_elems f g Hg) as Hl. pose proof (ti_code Q elems facets degree TI f g (U g) Hf Hg) as T. pose proof (energy_ge g U Hl) as E.
  pose proof (pen_pos f g Hf Hg) as Pp. pose proof (kmax_pos g Hl) as Km. pose proof (ge_min _ _ _ GE g Hl) as Hm. fold (kmin g) in Hm.
  pose proof (ge_area _ _ _ GE f Hf) as Ha. pose proof (ge_vol _ _ _ GE g Hl) as Hv. pose proof trace_constant_pos as Hc.
  assert (D : 0 < INR (dim + 1)) by (apply lt_0_INR; lia).
  set (c := trace_constant dim (degree - 1)) in *. set (a := facet_area Q f / volume P g) in *.
  assert (Ap : 0 < a) by (apply Rdiv_lt_0_compat; auto).
  apply Rle_trans with (kmax g * kmax g / pen_of f g * (c * a * grad2 Q g (U g))).
  - apply Rmult_le_compat_l; auto. apply Rlt_le, Rdiv_lt_0_compat; [nra|auto].
  - replace (kmax g * kmax g / pen_of f g * (c * a * grad2 Q g (U g))) with (kmin g * grad2 Q g (U g) / INR (dim + 1)).
    + apply Rmult_le_compat_r; auto. apply Rlt_le, Rinv_0_lt_compat; auto.
    + unfold pen_of. fold c a. field. repeat split; lra.
Qed.

Lemma flux_split f g h q : (forall i, pb_n Q f h i q = - pb_n Q f g i q) -> forall U,
  rsum dim (fun i => mean_flux Q f g h U i q * jump Q f g h U i q) =
  1 / 2 * ((trace Q f g (U g) q - trace Q f h (U h) q) * kappa_on Q f g q * rsum dim (fun i => grad_on Q f g (U g) i q * pb_n Q f g i q)
   + (trace Q f g (U g) q - trace Q f h (U h) q) * kappa_on Q f h q * - rsum dim (fun i => grad_on Q f h (U h) i q * pb_n Q f h i q)).
Proof.
  intros Hn U.
  rewrite (rsum_ext dim _ (fun i => 1 / 2 * (trace Q f g (U g) q - trace Q f h (U h) q) * kappa_on Q f g q * (grad_on Q f g (U g) i q * pb_n Q f g i q)
    + - (1 / 2 * (trace Q f g (U g) q - trace Q f h (U h) q) * kappa_on Q f h q) * (grad_on Q f h (U h) i q * pb_n Q f h i q))).
  - rewrite rsum_plus, !rsum_scale. ring.
  - intros i _. unfold mean_flux, jump. rewrite !Hn. field.
Qed.
Lemma side_young f g q j U s : In f facets -> In g (elements_of elems f) -> (q < p_nq P)%nat ->
  s = rsum dim (fun i => grad_on Q f g (U g) i q * pb_n Q f g i q) \/ s = - rsum dim (fun i => grad_on Q f g (U g) i q * pb_n Q f g i q) ->
  j * kappa_on Q f g q * s <= pen_of f g / 4 * pb_nl Q f q * (j * j)
    + kmax g * kmax g / pen_of f g * (pb_nl Q f q * rsum dim (fun i => grad_on Q f g (U g) i q * grad_on Q f g (U g) i q)).
Proof.
  intros Hf Hg Hq Hs. apply young.
  - apply pen_pos; auto.
  - apply (ge_nl _ _ _ GE); auto.
  - apply (ge_K_on _ _ _ GE); auto.
  - apply rsum_nonneg. intros. apply Rle_0_sqr.
  - pose proof (cauchy dim (fun i => grad_on Q f g (U g) i q) (fun i => pb_n Q f g i q) (pb_nl Q f q) (ge_n _ _ _ GE f g q Hf Hg Hq)) as C.
    destruct Hs as [-> | ->]; lra.
Qed.
Lemma share_sum f g c U : c * grad2_on Q f g (U g) =
  rsum (p_nq P) (fun q => p_w P q * (c * (pb_nl Q f q * rsum dim (fun i => grad_on Q f g (U g) i q * grad_on Q f g (U g) i q)))).
Proof. unfold grad2_on. rewrite <- rsum_scale. apply rsum_ext. intros. ring. Qed.

Lemma int_bound f g h U : In f facets -> elements_of elems f = [g; h] -> (forall i q, pb_n Q f h i q = - pb_n Q f g i q) ->
  pb_pen Q f = (pen_of f g + pen_of f h) / 4 ->
  - (energy g U / INR (dim + 1)) - energy h U / INR (dim + 1) <= int_term Q f g h U U.
Proof.
  intros Hf El Hn Hp. assert (Hg : In g (elements_of elems f)) by (rewrite El; cbn; auto). assert (Hh : In h (elements_of elems f)) by (rewrite El; cbn; auto).
  pose proof (side_share f g U Hf Hg) as Sg. pose proof (side_share f h U Hf Hh) as Sh.
  apply Rle_trans with (-1 * (kmax g * kmax g / pen_of f g * grad2_on Q f g (U g) + kmax h * kmax h / pen_of f h * grad2_on Q f h (U h))); [lra|].
  rewrite !share_sum. unfold int_term. rewrite <- rsum_plus, <- rsum_scale. apply rsum_le. intros q Hq.
  pose proof (ge_w _ _ _ GE q Hq) as Hw. rewrite (flux_split f g h q (fun i => Hn i q)), Hp.
  set (j := trace Q f g (U g) q - trace Q f h (U h) q).
  pose proof (side_young f g q j U _ Hf Hg Hq (or_introl eq_refl)) as Yg. pose proof (side_young f h q j U _ Hf Hh Hq (or_intror eq_refl)) as Yh.
  set (sg := rsum dim (fun i => grad_on Q f g (U g) i q * pb_n Q f g i q)) in *.
  set (sh := - rsum dim (fun i => grad_on Q f h (U h) i q * pb_n Q f h i q)) in *.
  set (Tg := kmax g * kmax g / pen_of f g * (pb_nl Q f q * _)) in *. set (Th := kmax h * kmax h / pen_of f h * (pb_nl Q f q * _)) in *.
  replace (-1 * (p_w P q * Tg + p_w P q * Th)) with (p_w P q * (- Tg - Th)) by ring.
  apply Rmult_le_compat_l; auto.
  replace ((pen_of f g + pen_of f h) / 4 * pb_nl Q f q * j * j) with (pen_of f g / 4 * pb_nl Q f q * (j * j) + pen_of f h / 4 * pb_nl Q f q * (j * j)) by field.
  lra.
Qed.
Lemma bnd_bound f g U : In f facets -> elements_of elems f = [g] -> pb_pen Q f = pen_of f g ->
  - (energy g U / INR (dim + 1)) <= bnd_term Q f g U U.
Proof.
  intros Hf El Hp. assert (Hg : In g (elements_of elems f)) by (rewrite El; cbn; auto).
  pose proof (side_share f g U Hf Hg) as Sg.
  apply Rle_trans with (-1 * (kmax g * kmax g / pen_of f g * grad2_on Q f g (U g))); [lra|].
  rewrite share_sum. unfold bnd_term. rewrite <- rsum_scale. apply rsum_le. intros q Hq.
  pose proof (ge_w _ _ _ GE q Hq) as Hw. rewrite Hp.
  set (u := trace Q f g (U g) q).
  pose proof (side_young f g q (2 * u) U _ Hf Hg Hq (or_introl eq_refl)) as Yg.
  rewrite (rsum_ext dim (fun i => kappa_on Q f g q * _ * _) (fun i => (kappa_on Q f g q * u) * (grad_on Q f g (U g) i q * pb_n Q f g i q))) by (intros; ring).
  rewrite rsum_scale. set (sg := rsum dim (fun i => grad_on Q f g (U g) i q * pb_n Q f g i q)) in *.
  set (Tg := kmax g * kmax g / pen_of f g * (pb_nl Q f q * _)) in *.
  replace (-1 * (p_w P q * Tg)) with (p_w P q * (- Tg)) by ring.
  apply Rmult_le_compat_l; auto.
  replace (pen_of f g / 4 * pb_nl Q f q * (2 * u * (2 * u))) with (pen_of f g * pb_nl Q f q * u * u) in Yg by field. lra.
Qed.
End Coercive.

Lemma lsum_filter {A} (b : A -> bool) (e : A -> R) l : lsum e (filter b l) = lsum (fun a => if b a then e a else 0) l.
Proof. induction l as [|a l IH]; cbn; auto. destruct (b a); cbn; rewrite IH; ring. Qed.
Lemma double_sum {A B} (b : A -> B -> bool) (e : B -> R) (fs : list A) (gs : list B) :
  lsum (fun f => lsum e (filter (b f) gs)) fs = lsum (fun g => INR (length (filter (fun f => b f g) fs)) * e g) gs.
Proof.
  induction fs as [|f fs IH]; cbn [lsum filter length].
  - symmetry. apply lsum_zero. intros. cbn. ring.
  - rewrite IH, lsum_filter, <- lsum_plus. apply lsum_ext. intros g _. destruct (b f g); [|ring]. cbn [length]. rewrite S_INR. ring.
Qed.
(** An element has at most k + 1 facets. *)
Lemma facet_count k procs elems facets bc m g : mesh_parts k procs elems facets bc m -> (g < length elems)%nat ->
  (length (filter (fun f => forallb (fun v => existsb (Nat.eqb v) (nth g elems [])) f) facets) <= k + 1)%nat.
Proof.
  intros MP Hg. destruct (mp_owned _ _ _ _ _ _ MP g Hg) as (p & e & Hp & He & Ee). pose proof (mp_mesh _ _ _ _ _ _ MP p Hp) as O.
  destruct (mp_elem _ _ _ _ _ _ MP p e g Hp Ee) as [_ Eq]. destruct (nth_error_lt elems g Hg) as [plex Ep].
  rewrite Ep in Eq. symmetry in Eq. destruct (to_elems _ _ O) as [_ Se]. destruct (Se plex) as [Lp Sp]; [eapply nth_error_In; eauto|].
  destruct (downward_spec k plex ltac:(lia) Sp) as (ds & Eds & Ids & Nds & B).
  assert (L : length ds = (k + 1)%nat).
  { destruct (binom_spec (k + 1) k ltac:(lia)) as (b & Eb & Hb). rewrite Lp in B. assert (b = length ds) by congruence. subst b.
    replace (k + 1 - k)%nat with 1%nat in Hb by lia. replace (k + 1)%nat with (S k) in Hb by lia.
    cbn [Factorial.fact] in Hb. rewrite Nat.mul_1_r in Hb.
    apply (Nat.mul_cancel_r _ _ (Factorial.fact k)); [apply Factorial.fact_neq_0|]. cbn in Hb. lia. }
  rewrite <- L. apply NoDup_incl_length; [apply NoDup_filter; apply (mp_facets _ _ _ _ _ _ MP)|].
  intros f Hf. apply filter_In in Hf as [Hf Hb]. apply Ids. destruct (mp_facets _ _ _ _ _ _ MP) as [_ Sf]. destruct (Sf f Hf) as [Lf Ssf].
  split; auto. split; auto. intros v Hv. rewrite forallb_forall in Hb. specialize (Hb v Hv). rewrite (nth_error_nth _ _ [] Ep) in Hb.
  apply existsb_exists in Hb as (v' & Hv' & E). apply Nat.eqb_eq in E. subst v'. auto.
Qed.

Section Global.
Variables (k procs : nat) (elems facets : list (list nat)) (bc : list nat -> nat) (m : nat -> topo_mesh).
Hypothesis MP : mesh_parts k procs elems facets bc m.
Variable Q : problem.
Hypothesis PO : problem_ok k elems facets Q.
Variables (P : nat -> pdata) (fi : nat -> list facet_info) (degree : nat).
Hypothesis RK : forall p, (p < procs)%nat -> rank_data k Q (m p) (P p) /\ p_method (P p) = IP /\ facet_table k (m p) = Some (fi p).
Hypothesis PEN : forall p i x, (p < procs)%nat -> nth_error (fi p) i = Some x -> p_pen (P p) i = prepare_penalty (P p) degree i x.

(** The penalty of a facet is the same on all ranks that see it. *)
Lemma penalty_global f : In f facets ->
  (forall g, elements_of elems f = [g] -> pb_pen Q f = pen_of Q degree f g) /\
  (forall g h, elements_of elems f = [g; h] -> pb_pen Q f = (pen_of Q degree f g + pen_of Q degree f h) / 4).
Proof.
  intro Hf. pose proof Hf as Hf'. apply (mp_facets_all _ _ _ _ _ _ MP) in Hf' as (Lf & Sf & plex & Hp & I).
  apply In_nth_error in Hp as [g0 Eg]. assert (Hg : (g0 < length elems)%nat) by (apply nth_error_Some; congruence).
  destruct (mp_owned _ _ _ _ _ _ MP g0 Hg) as (p & e & Hp & He & Ee). pose proof (mp_mesh _ _ _ _ _ _ MP p Hp) as O.
  destruct (mp_elem _ _ _ _ _ _ MP p e g0 Hp Ee) as [_ Eq].
  assert (Hin : In f (tm_facets (m p))) by (apply (to_all _ _ O plex f); auto; apply nth_error_In with e; congruence).
  apply In_nth_error in Hin as [i Ei].
  assert (Hi : (i < tm_num_local_facets (m p))%nat).
  { apply (to_local_facets _ _ O i); [apply nth_error_Some; congruence|]. exists e. split; auto. exists plex, f. repeat split; auto. congruence. }
  destruct (RK p Hp) as (RD & _ & Efi). destruct (facet_table_correct k (m p) O) as (fi' & Efi' & _ & RS). assert (fi' = fi p) by congruence. subst fi'.
  destruct (RS i Hi) as (x & Ex & R). pose proof (facet_elements _ _ _ _ _ _ MP p i x f Hp Hi R Ei) as EL.
  destruct (rd_facet _ _ _ _ RD i f x Hi Ei R) as (_ & Hnl & Hpen & _ & _).
  assert (Side : forall u g, nth_error (tm_l2cg (m p)) u = Some g -> penalty_side (P p) degree i u = pen_of Q degree f g).
  { intros u g Eu. destruct (rd_elem _ _ _ _ RD u g Eu) as (HJ & _ & HK & _).
    unfold penalty_side, pen_of, kmax, kmin, area, facet_area, volume.
    rewrite (rd_N _ _ _ _ RD), (rd_dim _ _ _ _ RD), (rd_nq _ _ _ _ RD), (rd_Nq _ _ _ _ RD), (rd_w _ _ _ _ RD), (rd_W _ _ _ _ RD), HJ, HK, Hnl. reflexivity. }
  pose proof (PEN p i x Hp Ex) as Pn. unfold prepare_penalty in Pn. rewrite Hpen in Pn.
  rewrite (Side _ _ (fr_g0 _ _ _ _ R)), (Side _ _ (fr_g1 _ _ _ _ R)) in Pn.
  destruct (fi_up0 x =? fi_up1 x); cbn [negb] in Pn.
  - split; intros; rewrite EL in H; [|discriminate]. injection H as <-. auto.
  - split; intros g.
    + intros H. rewrite EL in H. destruct (fi_g0 x <? fi_g1 x); discriminate.
    + intros h H. rewrite EL in H. destruct (fi_g0 x <? fi_g1 x); injection H as <- <-; rewrite Pn; auto. field.
Qed.
End Global.

(** C53: with the penalty that the code computes, the matrix the ranks assemble is positive
    semidefinite, on every mesh, partition and coefficient field, if the inverse trace inequality
    holds with the constant that the code uses. *)
Theorem assembled_matrix_positive : forall k procs elems facets bc m Q P fi degree A,
  mesh_parts k procs elems facets bc m -> problem_ok k elems facets Q ->
  (forall p, (p < procs)%nat -> rank_data k Q (m p) (P p) /\ p_method (P p) = IP /\ facet_table k (m p) = Some (fi p)) ->
  (forall p i x, (p < procs)%nat -> nth_error (fi p) i = Some x -> p_pen (P p) i = prepare_penalty (P p) degree i x) ->
  p_dim (pb_ref Q) = k -> (0 < k)%nat ->
  geometry_ok Q elems facets -> trace_inequality Q elems facets degree ->
  (forall p, (p < procs)%nat -> map_opt (to_global (m p)) (assemble (m p) (fi p) (poisson_mat (P p))) = Some (A p)) ->
  forall U, 0 <= pairing (p_N (pb_ref Q)) (flat_map A (seq 0 procs)) U U.
Proof.
  intros k procs elems facets bc m Q P fi degree A MP PO RK PEN Hd Hk GE TI HA U.
  destruct (assembly_is_interior_penalty k procs elems facets bc m Q P fi MP PO RK) as (A' & b' & HA' & _ & E).
  assert (EA : flat_map A (seq 0 procs) = flat_map A' (seq 0 procs)).
  { apply flat_map_ext_in. intros p Hp. apply in_seq in Hp. pose proof (HA p ltac:(lia)). pose proof (HA' p ltac:(lia)). congruence. }
  rewrite EA, (proj1 (E U U)). clear A A' b' HA HA' E EA.
  unfold sip_form. set (D := INR (k + 1)). assert (Dp : 0 < D) by (apply lt_0_INR; lia).
  assert (F : lsum (fun f => - lsum (fun g => energy Q g U / D) (elements_of elems f)) facets <= lsum (fun f => facet_term Q elems bc f U U) facets).
  { apply lsum_le. intros f Hf. destruct (penalty_global k procs elems facets bc m MP Q P fi degree RK PEN f Hf) as [P1 P2].
    unfold facet_term. destruct (facet_one_or_two k procs elems facets bc m MP f Hf) as (g & h & [El | El]); rewrite El; cbn [lsum].
    - assert (Hg : (g < length elems)%nat) by (apply (in_elems elems f g); rewrite El; cbn; auto).
      pose proof (bnd_bound Q elems facets degree GE TI ltac:(lia) f g U Hf El (P1 g El)) as B. rewrite Hd in B. fold D in B.
      pose proof (energy_nonneg Q elems facets GE g U Hg) as En.
      assert (0 <= energy Q g U / D) by (apply Rmult_le_pos; [auto|apply Rlt_le, Rinv_0_lt_compat; auto]).
      destruct (bc f =? BC_Natural); lra.
    - pose proof (int_bound Q elems facets degree GE TI ltac:(lia) f g h U Hf El (fun i q => po_n _ _ _ _ PO f g h i q Hf El) (P2 g h El)) as B.
      rewrite Hd in B. fold D in B. lra. }
  assert (S : lsum (fun f => lsum (fun g => energy Q g U / D) (elements_of elems f)) facets <= lsum (fun g => energy Q g U) (seq 0 (length elems))).
  { unfold elements_of. rewrite (double_sum (fun f g => forallb (fun v => existsb (Nat.eqb v) (nth g elems [])) f)).
    apply lsum_le. intros g Hg. apply in_seq in Hg. pose proof (facet_count k procs elems facets bc m g MP ltac:(lia)) as C.
    apply le_INR in C. fold D in C. pose proof (energy_nonneg Q elems facets GE g U ltac:(lia)) as En.
    apply (Rmult_le_reg_r D); auto. unfold Rdiv. rewrite <- Rmult_assoc, Rmult_assoc, Rinv_l, Rmult_1_r by lra. rewrite Rmult_comm. apply Rmult_le_compat_l; auto. }
  assert (Z : lsum (fun f => - lsum (fun g => energy Q g U / D) (elements_of elems f)) facets = - lsum (fun f => lsum (fun g => energy Q g U / D) (elements_of elems f)) facets).
  { rewrite (lsum_ext _ (fun f => -1 * lsum (fun g => energy Q g U / D) (elements_of elems f))) by (intros; ring). rewrite lsum_scale. ring. }
  change (lsum (fun g => vol_term Q g U U) (seq 0 (length elems))) with (lsum (fun g => energy Q g U) (seq 0 (length elems))). lra.
Qed.
Print Assumptions assembled_matrix_positive.

(** On straight-sided elements with piecewise linear functions the inequality holds, so that nothing
    is left to assume. *)
Definition linear_affine (Q : problem) : Prop := let P := pb_ref Q in
  exists (Dx : nat -> nat -> R) (G : nat -> nat -> nat -> R),
    (forall l e q, p_DxiQ P l e q = Dx l e) /\ (forall f l e q, p_Dxi P f l e q = Dx l e) /\
    (forall g e i q, p_GQ P g e i q = G g e i) /\ (forall f g e i q, pb_G Q f g e i q = G g e i).
Theorem trace_inequality_linear : forall Q elems facets, (0 < p_dim (pb_ref Q))%nat ->
  (forall g, (g < length elems)%nat -> 0 < elem_volume Q g) -> linear_affine Q -> trace_inequality Q elems facets 1.
Proof.
  intros Q elems facets Hd Hv (Dx & G & H1 & H2 & H3 & H4) f g u Hf Hg. apply (in_elems elems) in Hg. specialize (Hv g Hg).
  set (P := pb_ref Q) in *. set (gr i := rsum (p_N P) (fun l => rsum (p_dim P) (fun e => G g e i * Dx l e) * u l)).
  assert (E1 : grad2 Q g u = elem_volume Q g * rsum (p_dim P) (fun i => gr i * gr i)).
  { unfold grad2, elem_volume. rewrite <- rsum_scale_r. apply rsum_ext. intros q _. f_equal. apply rsum_ext. intros i _.
    assert (grad Q g u i q = gr i); [|congruence]. unfold grad, gr. apply rsum_ext. intros l _. f_equal. apply rsum_ext. intros e _. fold P. rewrite H3, H1. reflexivity. }
  assert (E2 : grad2_on Q f g u = facet_area Q f * rsum (p_dim P) (fun i => gr i * gr i)).
  { unfold grad2_on, facet_area. rewrite <- rsum_scale_r. apply rsum_ext. intros q _. f_equal. apply rsum_ext. intros i _.
    assert (grad_on Q f g u i q = gr i); [|congruence]. unfold grad_on, gr. apply rsum_ext. intros l _. f_equal. apply rsum_ext. intros e _. fold P. rewrite H4, H2. reflexivity. }
  assert (Dn : 0 < INR (p_dim P)) by (apply lt_0_INR; auto).
  rewrite E1, E2. unfold inverse_trace. fold P. cbn [Nat.sub Nat.add INR]. apply Req_le. field. split; lra.
Qed.
Print Assumptions trace_inequality_linear.
