(** The interior penalty form vanishes only if nothing is lost in the estimates (C81). *)
Require Import List Arith Lia Bool Reals Lra Psatz.
Require Import Verif.Base Verif.LinAlg Verif.SimplexModel Verif.TopoModel Verif.TopoSpec Verif.TopoProps
  Verif.AssembleModel Verif.AssembleSpec Verif.AssembleProps Verif.MatFree Verif.FaultModel Verif.PoissonModel Verif.PenaltyModel
  Verif.SipSpec Verif.CoerciveProps.
Import ListNotations.
Local Open Scope R_scope.

Lemma lsum_nonneg_zero {A} (f : A -> R) l : (forall a, In a l -> 0 <= f a) -> lsum f l = 0 -> forall a, In a l -> f a = 0.
Proof.
  induction l as [|b l IH]; intros H Z a Ha; [destruct Ha|]. cbn in Z. pose proof (H b (or_introl eq_refl)). pose proof (lsum_nonneg f l (fun a Ha => H a (or_intror Ha))).
  destruct Ha as [<- | Ha]; [lra|]. apply IH; auto; [intros; apply H; right; auto|lra].
Qed.
Lemma young_sharp p nl j k k1 s : 0 < p -> 0 < nl -> 0 <= k <= k1 -> j * k * s <= p / 4 * nl * (j * j) + k1 * k1 / p * (s * s / nl).
Proof.
  intros Hp Hn Hk. apply (Rmult_le_reg_l (p * nl)); [nra|].
  replace (p * nl * (p / 4 * nl * (j * j) + k1 * k1 / p * (s * s / nl))) with (p * nl * j / 2 * (p * nl * j / 2) + k1 * k1 * (s * s)) by (field; lra).
  assert (A : k * k * (s * s) <= k1 * k1 * (s * s)) by (apply Rmult_le_compat_r; [apply Rle_0_sqr|nra]).
  pose proof (Rle_0_sqr (p * nl * j / 2 - k * s)) as B. unfold Rsqr in B. nra.
Qed.

Section Sharp.
Variable Q : problem.
Variables (elems facets : list (list nat)) (bc : list nat -> nat) (degree : nat).
Local Notation P := (pb_ref Q). Local Notation dim := (p_dim P). Local Notation N := (p_N P).
Hypothesis GE : geometry_ok Q elems facets.
Hypothesis TI : trace_inequality Q elems facets degree.
Hypothesis Hdim : (0 < dim)%nat.
Hypothesis NL : forall f q, In f facets -> 0 < pb_nl Q f q.
Definition normal_flux (f : list nat) (g : nat) (u : nat -> R) (q : nat) : R := rsum dim (fun i => grad_on Q f g u i q * pb_n Q f g i q).
Definition normal2_on (f : list nat) (g : nat) (u : nat -> R) : R :=
  rsum (p_nq P) (fun q => p_w P q * (normal_flux f g u q * normal_flux f g u q / pb_nl Q f q)).
Definition share (f : list nat) (g : nat) (U : nat -> nat -> R) : R := kmax Q g * kmax Q g / pen_of Q degree f g * normal2_on f g (U g).
Lemma share_expand f g U : share f g U = rsum (p_nq P) (fun q => p_w P q * (kmax Q g * kmax Q g / pen_of Q degree f g * (normal_flux f g (U g) q * normal_flux f g (U g) q / pb_nl Q f q))).
Proof. unfold share, normal2_on. rewrite <- rsum_scale. apply rsum_ext. intros. ring. Qed.
Lemma int_sharp f g h U : In f facets -> elements_of elems f = [g; h] -> (forall i q, pb_n Q f h i q = - pb_n Q f g i q) ->
  pb_pen Q f = (pen_of Q degree f g + pen_of Q degree f h) / 4 -> - share f g U - share f h U <= int_term Q f g h U U.
Proof.
  intros Hf El Hn Hp. assert (Hg : In g (elements_of elems f)) by (rewrite El; cbn; auto). assert (Hh : In h (elements_of elems f)) by (rewrite El; cbn; auto).
  apply Rle_trans with (-1 * (share f g U + share f h U)); [lra|].
  rewrite !share_expand. unfold int_term. rewrite <- rsum_plus, <- rsum_scale. apply rsum_le. intros q Hq.
  pose proof (ge_w _ _ _ GE q Hq) as Hw. rewrite (flux_split Q f g h q (fun i => Hn i q)), Hp.
  set (j := trace Q f g (U g) q - trace Q f h (U h) q).
  pose proof (young_sharp (pen_of Q degree f g) (pb_nl Q f q) j (kappa_on Q f g q) (kmax Q g) (normal_flux f g (U g) q)
    (pen_pos Q elems facets degree GE Hdim f g Hf Hg) (NL f q Hf) (ge_K_on _ _ _ GE f g q Hf Hg Hq)) as Yg.
  pose proof (young_sharp (pen_of Q degree f h) (pb_nl Q f q) j (kappa_on Q f h q) (kmax Q h) (- normal_flux f h (U h) q)
    (pen_pos Q elems facets degree GE Hdim f h Hf Hh) (NL f q Hf) (ge_K_on _ _ _ GE f h q Hf Hh Hq)) as Yh.
  replace (- normal_flux f h (U h) q * - normal_flux f h (U h) q) with (normal_flux f h (U h) q * normal_flux f h (U h) q) in Yh by ring.
  fold (normal_flux f g (U g) q) (normal_flux f h (U h) q).
  set (Tg := kmax Q g * kmax Q g / pen_of Q degree f g * _) in *. set (Th := kmax Q h * kmax Q h / pen_of Q degree f h * _) in *.
  replace (-1 * (p_w P q * Tg + p_w P q * Th)) with (p_w P q * (- Tg - Th)) by ring.
  apply Rmult_le_compat_l; auto.
  replace ((pen_of Q degree f g + pen_of Q degree f h) / 4 * pb_nl Q f q * j * j) with (pen_of Q degree f g / 4 * pb_nl Q f q * (j * j) + pen_of Q degree f h / 4 * pb_nl Q f q * (j * j)) by field.
  lra.
Qed.
Lemma bnd_sharp f g U : In f facets -> elements_of elems f = [g] -> pb_pen Q f = pen_of Q degree f g -> - share f g U <= bnd_term Q f g U U.
Proof.
  intros Hf El Hp. assert (Hg : In g (elements_of elems f)) by (rewrite El; cbn; auto).
  apply Rle_trans with (-1 * share f g U); [lra|]. rewrite share_expand. unfold bnd_term. rewrite <- rsum_scale. apply rsum_le. intros q Hq.
  pose proof (ge_w _ _ _ GE q Hq) as Hw. rewrite Hp. set (u := trace Q f g (U g) q).
  pose proof (young_sharp (pen_of Q degree f g) (pb_nl Q f q) (2 * u) (kappa_on Q f g q) (kmax Q g) (normal_flux f g (U g) q)
    (pen_pos Q elems facets degree GE Hdim f g Hf Hg) (NL f q Hf) (ge_K_on _ _ _ GE f g q Hf Hg Hq)) as Yg.
  rewrite (rsum_ext dim (fun i => kappa_on Q f g q * _ * _) (fun i => (kappa_on Q f g q * u) * (grad_on Q f g (U g) i q * pb_n Q f g i q))) by (intros; ring).
  rewrite rsum_scale. fold (normal_flux f g (U g) q). set (Tg := kmax Q g * kmax Q g / pen_of Q degree f g * _) in *.
  replace (-1 * (p_w P q * Tg)) with (p_w P q * (- Tg)) by ring. apply Rmult_le_compat_l; auto.
  replace (pen_of Q degree f g / 4 * pb_nl Q f q * (2 * u * (2 * u))) with (pen_of Q degree f g * pb_nl Q f q * u * u) in Yg by field. lra.
Qed.
Lemma flux_le f g u q : In f facets -> In g (elements_of elems f) -> (q < p_nq P)%nat ->
  normal_flux f g u q * normal_flux f g u q / pb_nl Q f q <= pb_nl Q f q * rsum dim (fun i => grad_on Q f g u i q * grad_on Q f g u i q).
Proof.
  intros Hf Hg Hq. pose proof (cauchy dim (fun i => grad_on Q f g u i q) (fun i => pb_n Q f g i q) (pb_nl Q f q) (ge_n _ _ _ GE f g q Hf Hg Hq)) as C. cbv beta in C. fold (normal_flux f g u q) in C.
  pose proof (NL f q Hf) as Hn. apply (Rmult_le_reg_r (pb_nl Q f q)); [exact Hn|]. unfold Rdiv. rewrite (Rmult_assoc _ (/ _)), Rinv_l, Rmult_1_r by lra. lra.
Qed.
Lemma normal2_le f g u : In f facets -> In g (elements_of elems f) -> normal2_on f g u <= grad2_on Q f g u.
Proof.
  intros Hf Hg. apply rsum_le. intros q Hq. rewrite Rmult_assoc. apply Rmult_le_compat_l; [apply (ge_w _ _ _ GE q Hq)|]. apply flux_le; auto.
Qed.
(** A side takes its full share only if the trace inequality is attained and the gradient is normal to
    the facet. *)
Lemma share_bound f g U : In f facets -> In g (elements_of elems f) ->
  share f g U <= energy Q g U / INR (dim + 1) /\
  (share f g U = energy Q g U / INR (dim + 1) -> normal2_on f g (U g) = grad2_on Q f g (U g) /\
     grad2_on Q f g (U g) = trace_constant dim (degree - 1) * (facet_area Q f / elem_volume Q g) * grad2 Q g (U g)).
Proof.
  intros Hf Hg. pose proof (in_elems elems f g Hg) as Hl. pose proof (ti_code Q elems facets degree TI f g (U g) Hf Hg) as T. pose proof (energy_ge Q elems facets GE g U Hl) as E.
  pose proof (pen_pos Q elems facets degree GE Hdim f g Hf Hg) as Pp. pose proof (kmax_pos Q elems facets GE Hdim g Hl) as Km. pose proof (ge_min _ _ _ GE g Hl) as Hm. fold (kmin Q g) in Hm.
  pose proof (ge_area _ _ _ GE f Hf) as Ha. pose proof (ge_vol _ _ _ GE g Hl) as Hv. pose proof (trace_constant_pos Q degree Hdim) as Hc.
  pose proof (normal2_le f g (U g) Hf Hg) as Nn. change (volume P g) with (elem_volume Q g) in T, Hv.
  assert (Dp : 0 < INR (dim + 1)) by (apply lt_0_INR; lia).
  unfold share. set (c := trace_constant dim (degree - 1)) in *. set (a := facet_area Q f / elem_volume Q g) in *.
  assert (Ap : 0 < a) by (apply Rdiv_lt_0_compat; auto).
  assert (F : 0 < kmax Q g * kmax Q g / pen_of Q degree f g) by (apply Rdiv_lt_0_compat; [nra|auto]).
  assert (S1 : kmax Q g * kmax Q g / pen_of Q degree f g * (c * a * grad2 Q g (U g)) = kmin Q g * grad2 Q g (U g) / INR (dim + 1)).
  { unfold pen_of. fold c. change (facet_area Q f / volume P g) with a. field. repeat split; lra. }
  assert (S2 : kmin Q g * grad2 Q g (U g) / INR (dim + 1) <= energy Q g U / INR (dim + 1)) by (apply Rmult_le_compat_r; [apply Rlt_le, Rinv_0_lt_compat; auto|auto]).
  set (K := kmax Q g * kmax Q g / pen_of Q degree f g) in *. set (n2 := normal2_on f g (U g)) in *. set (g2 := grad2_on Q f g (U g)) in *. set (v2 := c * a * grad2 Q g (U g)) in *.
  assert (A1 : K * n2 <= K * g2) by (apply Rmult_le_compat_l; lra). assert (A2 : K * g2 <= K * v2) by (apply Rmult_le_compat_l; lra).
  split; [lra|]. intro Eq. split; apply (Rmult_eq_reg_l K); lra.
Qed.

Hypothesis PEN : forall f, In f facets ->
  (forall g, elements_of elems f = [g] -> pb_pen Q f = pen_of Q degree f g) /\
  (forall g h, elements_of elems f = [g; h] -> pb_pen Q f = (pen_of Q degree f g + pen_of Q degree f h) / 4 /\ forall i q, pb_n Q f h i q = - pb_n Q f g i q).
Hypothesis ONE_TWO : forall f, In f facets -> exists g h, elements_of elems f = [g] \/ elements_of elems f = [g; h].
Hypothesis COUNT : forall T : nat -> R, lsum (fun g => INR (dim + 1) * T g) (seq 0 (length elems)) = lsum (fun f => lsum T (elements_of elems f)) facets.
(** What facet f takes of the energy of element g. *)
Definition taken (f : list nat) (g : nat) (U : nat -> nat -> R) : R :=
  match elements_of elems f with [_] => if (bc f =? BC_Natural)%nat then 0 else share f g U | _ => share f g U end.
Theorem zero_form U : sip_form Q elems facets bc U U = 0 -> forall f g, In f facets -> In g (elements_of elems f) -> taken f g U = energy Q g U / INR (dim + 1).
Proof.
  intros Z. assert (Dp : 0 < INR (dim + 1)) by (apply lt_0_INR; lia).
  assert (TB : forall f g, In f facets -> In g (elements_of elems f) -> taken f g U <= energy Q g U / INR (dim + 1)).
  { intros f g Hf Hg. pose proof (proj1 (share_bound f g U Hf Hg)) as B. pose proof (energy_nonneg Q elems facets GE g U (in_elems elems f g Hg)) as En.
    assert (0 <= energy Q g U / INR (dim + 1)) by (apply Rmult_le_pos; [auto|apply Rlt_le, Rinv_0_lt_compat; auto]).
    unfold taken. destruct (elements_of elems f) as [|a [|b l]]; auto. destruct (bc f =? BC_Natural)%nat; auto. }
  assert (FT : forall f, In f facets -> - lsum (fun g => taken f g U) (elements_of elems f) <= facet_term Q elems bc f U U).
  { intros f Hf. destruct (PEN f Hf) as [P1 P2]. destruct (ONE_TWO f Hf) as (g & h & [El|El]); unfold facet_term, taken; rewrite El; cbn [lsum].
    - destruct (bc f =? BC_Natural)%nat; [lra|]. pose proof (bnd_sharp f g U Hf El (P1 g El)). lra.
    - destruct (P2 g h El) as [P3 P4]. pose proof (int_sharp f g h U Hf El P4 P3). lra. }
  set (slack f := lsum (fun g => energy Q g U / INR (dim + 1) - taken f g U) (elements_of elems f)).
  assert (S0 : forall f, In f facets -> 0 <= slack f) by (intros f Hf; apply lsum_nonneg; intros g Hg; specialize (TB f g Hf Hg); lra).
  assert (SZ : lsum slack facets = 0).
  { apply Rle_antisym; [|apply lsum_nonneg; exact S0]. rewrite <- Z. unfold sip_form.
    change (lsum (fun g => vol_term Q g U U) (seq 0 (length elems))) with (lsum (fun g => energy Q g U) (seq 0 (length elems))).
    rewrite (lsum_ext (fun g => energy Q g U) (fun g => INR (dim + 1) * (energy Q g U / INR (dim + 1)))) by (intros; field; lra).
    rewrite COUNT, <- lsum_plus. apply lsum_le. intros f Hf. specialize (FT f Hf). unfold slack.
    rewrite (lsum_ext (fun g => energy Q g U / INR (dim + 1) - taken f g U) (fun g => energy Q g U / INR (dim + 1) + -1 * taken f g U)) by (intros; ring).
    rewrite lsum_plus, lsum_scale. lra. }
  intros f g Hf Hg. pose proof (lsum_nonneg_zero slack facets S0 SZ f Hf) as Sf.
  assert (X : energy Q g U / INR (dim + 1) - taken f g U = 0); [|lra].
  apply (lsum_nonneg_zero (fun g => energy Q g U / INR (dim + 1) - taken f g U) (elements_of elems f)); auto. intros a Ha. specialize (TB f a Hf Ha). lra.
Qed.
End Sharp.
