(** The interior penalty form of elasticity vanishes only if nothing is lost in the estimates (C82). *)
Require Import List Arith Lia Bool Reals Lra Psatz.
Require Import Verif.Base Verif.LinAlg Verif.SimplexModel Verif.TopoModel Verif.TopoSpec Verif.TopoProps
  Verif.AssembleModel Verif.AssembleSpec Verif.AssembleProps Verif.MatFree Verif.FaultModel Verif.PoissonModel Verif.PenaltyModel
  Verif.SipSpec Verif.CoerciveProps Verif.ElasticityModel Verif.ElasticitySpec Verif.ElasticityProofs Verif.ElasticFormSpec Verif.ElasticFormProofs Verif.ElasticFormProps
  Verif.ElasticCoerciveProps Verif.DefiniteForm.
Import ListNotations.
Local Open Scope R_scope.

Section Pointwise.
Variable Q : eproblem.
Local Notation dim := (p_dim (e_geo (ep_ref Q))).
(** Strain of a displacement gradient, and its product with a normal. *)
Definition strain_of (H : nat -> nat -> R) (i j : nat) : R := (H i j + H j i) / 2.
Definition strain_n (H : nat -> nat -> R) (n : nat -> R) (i : nat) : R := rsum dim (fun j => strain_of H i j * n j).
Definition traction_n (lam mu : R) (H : nat -> nat -> R) (n : nat -> R) (i : nat) : R := rsum dim (fun k => hooke Q lam mu H i k * n k).
Lemma traction_strain lam mu H n i : (i < dim)%nat -> traction_n lam mu H n i = lam * rsum dim (fun r => H r r) * n i + 2 * mu * strain_n H n i.
Proof.
  intro Hi. unfold traction_n, hooke, strain_n, strain_of. set (t := rsum dim (fun r => H r r)).
  rewrite (rsum_ext dim _ (fun k => lam * t * (delta i k * n k) + 2 * mu * ((H i k + H k i) / 2 * n k))).
  - rewrite rsum_plus, !rsum_scale, delta_sum by exact Hi. reflexivity.
  - intros k _. unfold delta. destruct (i =? k); field.
Qed.
Section Sharp.
Variables (lam mu c1 nl : R) (H : nat -> nat -> R) (n : nat -> R).
Hypothesis Hd : (2 <= dim)%nat.
Hypothesis Hl : 0 <= lam.
Hypothesis Hm : 0 <= mu.
Hypothesis Hc : INR dim * lam + 2 * mu <= c1.
Hypothesis Hc1 : 0 < c1.
Hypothesis Hnl : 0 < nl.
Hypothesis Hn : rsum dim (fun j => n j * n j) = nl * nl.
Local Notation T := (rsum dim (fun i => traction_n lam mu H n i * traction_n lam mu H n i)).
Local Notation Y := (rsum dim (fun i => strain_n H n i * strain_n H n i)).
Lemma strain_n_le : Y <= nl * nl * sym2 Q H.
Proof. apply (traction_bound Q (strain_of H) n nl Hn). Qed.
Lemma traction_le : T <= (INR dim * lam + 2 * mu) * (lam * (nl * nl * sym2 Q H) + 2 * mu * Y).
Proof.
  set (t := rsum dim (fun r => H r r)). set (z := rsum dim (fun i => n i * strain_n H n i)).
  assert (E : T = lam * lam * (t * t) * (nl * nl) + 4 * lam * mu * (t * z) + 4 * mu * mu * Y).
  { rewrite (rsum_ext dim _ (fun i => lam * lam * (t * t) * (n i * n i) + 4 * lam * mu * t * (n i * strain_n H n i) + 4 * mu * mu * (strain_n H n i * strain_n H n i))).
    - rewrite !rsum_plus, !rsum_scale, Hn. fold z. ring.
    - intros i Hi. rewrite traction_strain by exact Hi. fold t. ring. }
  rewrite E. clear E. pose proof (trace_le_sym2 Q H) as Tr. fold t in Tr. set (s := sym2 Q H) in *. set (d := INR dim) in *.
  assert (D2 : 2 <= d) by (unfold d; change 2 with (INR 2); apply le_INR; exact Hd).
  pose proof (cauchy_sum dim n (strain_n H n)) as C. fold z in C. rewrite Hn in C. set (y := Y) in *.
  (* 2 d t z nl^2 <= (t nl^2)^2 + (d z)^2 *)
  assert (A : 2 * (t * z) <= nl * nl * s + d * y).
  { apply (Rmult_le_reg_l (d * (nl * nl))); [nra|].
    pose proof (Rle_0_sqr (t * (nl * nl) - d * z)) as B. unfold Rsqr in B.
    assert (B1 : t * t * (nl * nl * (nl * nl)) <= d * s * (nl * nl * (nl * nl))) by (apply Rmult_le_compat_r; [nra|exact Tr]).
    assert (B2 : d * d * (z * z) <= d * d * (nl * nl * y)) by (apply Rmult_le_compat_l; [nra|exact C]). nra. }
  assert (A1 : lam * lam * (t * t) * (nl * nl) <= lam * lam * (d * s) * (nl * nl)) by (apply Rmult_le_compat_r; [nra|]; apply Rmult_le_compat_l; nra).
  assert (A2 : 2 * lam * mu * (2 * (t * z)) <= 2 * lam * mu * (nl * nl * s + d * y)) by (apply Rmult_le_compat_l; [nra|exact A]). lra.
Qed.
(** The traction is at most c1 times the strain, and less unless the strain acts along the normal. *)
Lemma traction_sharp : T <= c1 * c1 * (nl * nl * sym2 Q H) /\ (T = c1 * c1 * (nl * nl * sym2 Q H) -> Y = nl * nl * sym2 Q H).
Proof.
  pose proof traction_le as L. pose proof strain_n_le as S. set (X := nl * nl * sym2 Q H) in *. set (y := Y) in *. set (d := INR dim) in *.
  assert (D2 : 2 <= d) by (unfold d; change 2 with (INR 2); apply le_INR; exact Hd).
  assert (X0 : 0 <= X) by (apply Rmult_le_pos; [nra|apply sym2_nonneg]). assert (y0 : 0 <= y) by (apply rsum_nonneg; intros; apply Rle_0_sqr).
  assert (la : 2 * lam <= d * lam) by (apply Rmult_le_compat_r; auto).
  assert (L1 : (d * lam + 2 * mu) * (lam * X + 2 * mu * y) <= c1 * (d * lam / 2 * X + 2 * mu * y)).
  { assert (d0 : 0 <= d * lam) by nra. assert (p1 : 0 <= lam * X) by (apply Rmult_le_pos; auto). assert (p2 : 0 <= 2 * mu * y) by (apply Rmult_le_pos; lra).
    apply Rmult_le_compat; [lra|lra|lra|]. assert (lam * X <= d * lam / 2 * X) by (apply Rmult_le_compat_r; lra). lra. }
  assert (my : 2 * mu * y <= 2 * mu * X) by (apply Rmult_le_compat_l; lra).
  assert (cX : (d * lam + 2 * mu) * X <= c1 * X) by (apply Rmult_le_compat_r; lra).
  assert (aX : 0 <= d * lam * X) by (apply Rmult_le_pos; nra).
  split.
  - eapply Rle_trans; [exact L|]. eapply Rle_trans; [exact L1|]. rewrite (Rmult_assoc c1 c1 X). apply Rmult_le_compat_l; [lra|]. lra.
  - intro E. assert (G : c1 * X <= d * lam / 2 * X + 2 * mu * y) by (apply (Rmult_le_reg_l c1); [exact Hc1|lra]).
    destruct (Req_dec X 0) as [Z|Z]; [lra|]. assert (0 < X) by lra.
    assert (A0 : d * lam * X = 0) by lra. assert (d * lam = 0) by (apply Rmult_integral in A0; tauto).
    assert (B0 : c1 * X = 2 * mu * X) by lra. assert (c1 = 2 * mu) by (apply (Rmult_eq_reg_r X); lra).
    assert (B1 : 2 * mu * y = 2 * mu * X) by lra. apply (Rmult_eq_reg_l (2 * mu)); lra.
Qed.
Lemma strain_along : Y = nl * nl * sym2 Q H -> forall i j, (i < dim)%nat -> (j < dim)%nat -> nl * nl * strain_of H i j = strain_n H n i * n j.
Proof.
  intros E i j Hi Hj.
  assert (R0 : forall i, (i < dim)%nat -> 0 <= nl * nl * rsum dim (fun j => strain_of H i j * strain_of H i j) - strain_n H n i * strain_n H n i).
  { intros a Ha. pose proof (cauchy dim (strain_of H a) n nl Hn) as C. cbv beta in C. fold (strain_n H n a) in C. lra. }
  assert (RZ : nl * nl * rsum dim (fun j => strain_of H i j * strain_of H i j) - strain_n H n i * strain_n H n i = 0).
  { apply (rsum_nonneg_zero dim (fun i => nl * nl * rsum dim (fun j => strain_of H i j * strain_of H i j) - strain_n H n i * strain_n H n i)); auto.
    rewrite rsum_minus, rsum_scale, E. unfold sym2, strain_of. ring. }
  assert (S : rsum dim (fun j => (nl * nl * strain_of H i j - strain_n H n i * n j) * (nl * nl * strain_of H i j - strain_n H n i * n j)) = 0).
  { rewrite (rsum_ext dim _ (fun j => (nl * nl * (nl * nl)) * (strain_of H i j * strain_of H i j) + (- 2 * (nl * nl) * strain_n H n i) * (strain_of H i j * n j) + (strain_n H n i * strain_n H n i) * (n j * n j))) by (intros; ring).
    rewrite !rsum_plus, !rsum_scale, Hn. fold (strain_n H n i). set (r := rsum dim (fun j => strain_of H i j * strain_of H i j)) in *. set (y := strain_n H n i) in *.
    replace (nl * nl * (nl * nl) * r) with (nl * nl * (nl * nl * r)) by ring. replace (nl * nl * r) with (y * y) by lra. ring. }
  pose proof (rsum_nonneg_zero dim _ (fun j _ => Rle_0_sqr (nl * nl * strain_of H i j - strain_n H n i * n j)) S j Hj) as Z. unfold Rsqr in Z.
  apply Rmult_integral in Z. lra.
Qed.
End Sharp.
End Pointwise.

Section SharpForm.
Variable Q : eproblem.
Variables (elems facets : list (list nat)) (bc : list nat -> nat) (degree : nat).
Local Notation E := (ep_ref Q). Local Notation P := (e_geo (ep_ref Q)). Local Notation dim := (p_dim P).
Hypothesis GE : egeometry_ok Q elems facets.
Hypothesis TI : etrace_inequality Q elems facets degree.
Hypothesis Hdim : (2 <= dim)%nat.
Hypothesis NL : forall f q, In f facets -> 0 < ep_nl Q f q.
Let Hdim0 : (0 < dim)%nat. Proof. lia. Qed.
Definition traction2 (f : list nat) (g : nat) (U : nat -> nat -> R) (q : nat) : R := rsum dim (fun i => tn Q f g g (U g) i q * tn Q f g g (U g) i q).
Definition eshare (f : list nat) (g : nat) (U : nat -> nat -> R) : R := rsum (p_nq P) (fun q => p_w P q * (1 / epen_of Q degree f g * (traction2 f g U q / ep_nl Q f q))).
Lemma young_sum p nl (j s : nat -> R) : 0 < p -> 0 < nl ->
  rsum dim (fun i => j i * s i) <= p / 4 * nl * rsum dim (fun i => j i * j i) + 1 / p * (rsum dim (fun i => s i * s i) / nl).
Proof.
  intros Hp Hn. replace (1 / p * (rsum dim (fun i => s i * s i) / nl)) with (1 / p / nl * rsum dim (fun i => s i * s i)) by (field; lra).
  rewrite <- !rsum_scale, <- rsum_plus. apply rsum_le. intros i _. pose proof (young_sharp p nl (j i) 1 1 (s i) Hp Hn ltac:(lra)) as Y.
  replace (1 / p / nl * (s i * s i)) with (1 * 1 / p * (s i * s i / nl)) by (field; lra). lra.
Qed.
Lemma eint_sharp f g h U : In f facets -> elements_of elems f = [g; h] -> (forall i q, ep_n Q f h i q = - ep_n Q f g i q) ->
  ep_pen Q f = (epen_of Q degree f g + epen_of Q degree f h) / 4 -> - eshare f g U - eshare f h U <= eint_term Q f g h U U.
Proof.
  intros Hf El Hn Hp. assert (Hg : In g (elements_of elems f)) by (rewrite El; cbn; auto). assert (Hh : In h (elements_of elems f)) by (rewrite El; cbn; auto).
  apply Rle_trans with (-1 * (eshare f g U + eshare f h U)); [lra|]. unfold eshare, eint_term. rewrite <- rsum_plus, <- rsum_scale. apply rsum_le. intros q Hq.
  pose proof (eg_w _ _ _ GE q Hq) as Hw. rewrite (eflux_split Q f g h q (fun i => Hn i q)), Hp.
  set (j i := disp_on Q f g (U g) q i - disp_on Q f h (U h) q i).
  pose proof (young_sum (epen_of Q degree f g) (ep_nl Q f q) j (fun i => tn Q f g g (U g) i q) (epen_pos Q elems facets degree GE Hdim0 f g Hf Hg) (NL f q Hf)) as Yg.
  pose proof (young_sum (epen_of Q degree f h) (ep_nl Q f q) (fun i => - j i) (fun i => tn Q f h h (U h) i q) (epen_pos Q elems facets degree GE Hdim0 f h Hf Hh) (NL f q Hf)) as Yh.
  cbv beta in Yg, Yh. fold (traction2 f g U q) in Yg. fold (traction2 f h U q) in Yh.
  rewrite (rsum_ext dim (fun i => - j i * - j i) (fun i => j i * j i)) in Yh by (intros; ring).
  rewrite (rsum_ext dim (fun i => - j i * _) (fun i => -1 * (j i * tn Q f h h (U h) i q))), rsum_scale in Yh by (intros; ring).
  set (Tg := 1 / epen_of Q degree f g * _) in *. set (Th := 1 / epen_of Q degree f h * _) in *. set (J := rsum dim (fun i => j i * j i)) in *.
  change (rsum dim (fun i => (disp_on Q f g (U g) q i - disp_on Q f h (U h) q i) * (disp_on Q f g (U g) q i - disp_on Q f h (U h) q i))) with J.
  change (rsum dim (fun i => (disp_on Q f g (U g) q i - disp_on Q f h (U h) q i) * tn Q f g g (U g) i q)) with (rsum dim (fun i => j i * tn Q f g g (U g) i q)).
  change (rsum dim (fun i => (disp_on Q f g (U g) q i - disp_on Q f h (U h) q i) * tn Q f h h (U h) i q)) with (rsum dim (fun i => j i * tn Q f h h (U h) i q)).
  replace (-1 * (p_w P q * Tg + p_w P q * Th)) with (p_w P q * (- Tg - Th)) by ring. apply Rmult_le_compat_l; auto.
  replace ((epen_of Q degree f g + epen_of Q degree f h) / 4 * ep_nl Q f q * J) with (epen_of Q degree f g / 4 * ep_nl Q f q * J + epen_of Q degree f h / 4 * ep_nl Q f q * J) by field.
  lra.
Qed.
Lemma ebnd_sharp f g U : In f facets -> elements_of elems f = [g] -> ep_pen Q f = epen_of Q degree f g -> - eshare f g U <= ebnd_term Q f g U U.
Proof.
  intros Hf El Hp. assert (Hg : In g (elements_of elems f)) by (rewrite El; cbn; auto).
  apply Rle_trans with (-1 * eshare f g U); [lra|]. unfold eshare, ebnd_term. rewrite <- rsum_scale. apply rsum_le. intros q Hq.
  pose proof (eg_w _ _ _ GE q Hq) as Hw. rewrite Hp, contract_outer. set (u i := disp_on Q f g (U g) q i).
  rewrite (rsum_ext dim (fun i => u i * rsum dim _) (fun i => u i * tn Q f g g (U g) i q)) by (intros; rewrite tn_stress; reflexivity).
  pose proof (young_sum (epen_of Q degree f g) (ep_nl Q f q) (fun i => 2 * u i) (fun i => tn Q f g g (U g) i q) (epen_pos Q elems facets degree GE Hdim0 f g Hf Hg) (NL f q Hf)) as Y.
  cbv beta in Y. fold (traction2 f g U q) in Y.
  rewrite (rsum_ext dim (fun i => 2 * u i * (2 * u i)) (fun i => 4 * (u i * u i))), rsum_scale in Y by (intros; ring).
  rewrite (rsum_ext dim (fun i => 2 * u i * _) (fun i => 2 * (u i * tn Q f g g (U g) i q))), rsum_scale in Y by (intros; ring).
  set (Tg := 1 / epen_of Q degree f g * _) in *. replace (-1 * (p_w P q * Tg)) with (p_w P q * (- Tg)) by ring. apply Rmult_le_compat_l; auto.
  change (rsum dim (fun i => disp_on Q f g (U g) q i * disp_on Q f g (U g) q i)) with (rsum dim (fun i => u i * u i)). lra.
Qed.
Lemma traction2_sharp f g U q : In f facets -> In g (elements_of elems f) -> (q < p_nq P)%nat -> let H := dgrad_on Q f g (U g) q in let n j := ep_n Q f g j q in
  traction2 f g U q <= stiffness_c1 E g * stiffness_c1 E g * (ep_nl Q f q * ep_nl Q f q * sym2 Q H) /\
  (traction2 f g U q = stiffness_c1 E g * stiffness_c1 E g * (ep_nl Q f q * ep_nl Q f q * sym2 Q H) ->
     forall i j, (i < dim)%nat -> (j < dim)%nat -> ep_nl Q f q * ep_nl Q f q * strain_of H i j = strain_n Q H n i * n j).
Proof.
  intros Hf Hg Hq H n. destruct (eg_on _ _ _ GE f g q Hf Hg Hq) as (Hl & Hm & Hc). pose proof (eg_c1 _ _ _ GE g (in_elems elems f g Hg)) as C1. pose proof (eg_n _ _ _ GE f g q Hf Hg Hq) as Hn.
  pose proof (traction_sharp Q (lam_on Q f g q) (mu_on Q f g q) (stiffness_c1 E g) (ep_nl Q f q) H n Hdim Hl Hm Hc C1 (NL f q Hf) Hn) as [S1 S2].
  assert (ET : traction2 f g U q = rsum dim (fun i => traction_n Q (lam_on Q f g q) (mu_on Q f g q) H n i * traction_n Q (lam_on Q f g q) (mu_on Q f g q) H n i)) by (apply rsum_ext; intros; rewrite tn_stress; reflexivity).
  rewrite ET. split; [exact S1|]. intros EQ. apply (strain_along Q (ep_nl Q f q) H n Hn (S2 EQ)).
Qed.
(** A side takes its full share only if the trace inequality is attained and the strain acts along the
    normal of the facet. *)
Lemma eshare_bound f g U : In f facets -> In g (elements_of elems f) ->
  eshare f g U <= eenergy Q g U / INR (dim + 1) /\
  (eshare f g U = eenergy Q g U / INR (dim + 1) ->
     strain2_on Q f g (U g) = trace_constant dim (degree - 1) * (efacet_area Q f / eelem_volume Q g) * strain2 Q g (U g) /\
     forall q, (q < p_nq P)%nat -> 0 < p_w P q -> forall i j, (i < dim)%nat -> (j < dim)%nat ->
       ep_nl Q f q * ep_nl Q f q * strain_of (dgrad_on Q f g (U g) q) i j = strain_n Q (dgrad_on Q f g (U g) q) (fun j => ep_n Q f g j q) i * ep_n Q f g j q).
Proof.
  intros Hf Hg. pose proof (in_elems elems f g Hg) as Hl. pose proof (eti_code Q elems facets degree TI f g (U g) Hf Hg) as T. pose proof (eenergy_ge Q elems facets GE g U Hl) as En.
  pose proof (epen_pos Q elems facets degree GE Hdim0 f g Hf Hg) as Pp. pose proof (eg_c1 _ _ _ GE g Hl) as Km. pose proof (eg_c0 _ _ _ GE g Hl) as Hm.
  pose proof (eg_area _ _ _ GE f Hf) as Ha. pose proof (eg_vol _ _ _ GE g Hl) as Hv. pose proof (etrace_constant_pos Q degree Hdim0) as Hc.
  assert (Dp : 0 < INR (dim + 1)) by (apply lt_0_INR; lia). change (volume P g) with (eelem_volume Q g) in T, Hv.
  set (c := trace_constant dim (degree - 1)) in *. set (a := efacet_area Q f / eelem_volume Q g) in *. assert (Ap : 0 < a) by (apply Rdiv_lt_0_compat; auto).
  set (c1 := stiffness_c1 E g) in *. set (pen := epen_of Q degree f g) in *. set (K := c1 * c1 / pen). assert (F : 0 < K) by (apply Rdiv_lt_0_compat; [nra|auto]).
  set (s2 := strain2_on Q f g (U g)) in *. set (v2 := c * a * strain2 Q g (U g)) in *.
  assert (PT : forall q, (q < p_nq P)%nat -> 0 <= p_w P q * (K * (ep_nl Q f q * sym2 Q (dgrad_on Q f g (U g) q)) - 1 / pen * (traction2 f g U q / ep_nl Q f q))).
  { intros q Hq. apply Rmult_le_pos; [apply (eg_w _ _ _ GE q Hq)|]. destruct (traction2_sharp f g U q Hf Hg Hq) as [S _]. fold c1 in S. pose proof (NL f q Hf) as Nq.
    apply (Rmult_le_reg_l (pen * ep_nl Q f q)); [nra|]. rewrite Rmult_0_r, Rmult_minus_distr_l. unfold K.
    replace (pen * ep_nl Q f q * (c1 * c1 / pen * (ep_nl Q f q * sym2 Q (dgrad_on Q f g (U g) q)))) with (c1 * c1 * (ep_nl Q f q * ep_nl Q f q * sym2 Q (dgrad_on Q f g (U g) q))) by (field; lra).
    replace (pen * ep_nl Q f q * (1 / pen * (traction2 f g U q / ep_nl Q f q))) with (traction2 f g U q) by (field; lra). lra. }
  assert (DF : K * s2 - eshare f g U = rsum (p_nq P) (fun q => p_w P q * (K * (ep_nl Q f q * sym2 Q (dgrad_on Q f g (U g) q)) - 1 / pen * (traction2 f g U q / ep_nl Q f q)))).
  { unfold s2. rewrite eshare_sum. unfold eshare. rewrite <- rsum_minus. apply rsum_ext. intros. fold pen. ring. }
  assert (A1 : eshare f g U <= K * s2) by (assert (0 <= K * s2 - eshare f g U) by (rewrite DF; apply rsum_nonneg; exact PT); lra).
  assert (A2 : K * s2 <= K * v2) by (apply Rmult_le_compat_l; lra).
  assert (S1 : K * v2 = stiffness_c0 E g * strain2 Q g (U g) / INR (dim + 1)).
  { unfold K, v2, pen, epen_of. fold c. change (volume P g) with (eelem_volume Q g). fold a. fold c1. field. repeat split; lra. }
  assert (S2 : stiffness_c0 E g * strain2 Q g (U g) / INR (dim + 1) <= eenergy Q g U / INR (dim + 1)) by (apply Rmult_le_compat_r; [apply Rlt_le, Rinv_0_lt_compat; auto|auto]).
  split; [lra|]. intro Eq. split; [apply (Rmult_eq_reg_l K); lra|]. intros q Hq Wq.
  assert (Z : K * s2 - eshare f g U = 0) by lra. rewrite DF in Z.
  pose proof (rsum_nonneg_zero _ _ PT Z q Hq) as Zq. cbv beta in Zq. apply Rmult_integral in Zq as [Zq|Zq]; [lra|].
  apply (traction2_sharp f g U q Hf Hg Hq). fold c1. pose proof (NL f q Hf) as Nq.
  replace (traction2 f g U q) with (pen * ep_nl Q f q * (1 / pen * (traction2 f g U q / ep_nl Q f q))) by (field; lra).
  replace (1 / pen * (traction2 f g U q / ep_nl Q f q)) with (K * (ep_nl Q f q * sym2 Q (dgrad_on Q f g (U g) q))) by lra. unfold K. field. lra.
Qed.

Hypothesis PEN : forall f, In f facets ->
  (forall g, elements_of elems f = [g] -> ep_pen Q f = epen_of Q degree f g) /\
  (forall g h, elements_of elems f = [g; h] -> ep_pen Q f = (epen_of Q degree f g + epen_of Q degree f h) / 4 /\ forall i q, ep_n Q f h i q = - ep_n Q f g i q).
Hypothesis ONE_TWO : forall f, In f facets -> exists g h, elements_of elems f = [g] \/ elements_of elems f = [g; h].
Hypothesis COUNT : forall T : nat -> R, lsum (fun g => INR (dim + 1) * T g) (seq 0 (length elems)) = lsum (fun f => lsum T (elements_of elems f)) facets.
(** What facet f takes of the energy of element g. *)
Definition etaken (f : list nat) (g : nat) (U : nat -> nat -> R) : R :=
  match elements_of elems f with [_] => if (bc f =? BC_Natural)%nat then 0 else eshare f g U | _ => eshare f g U end.
Theorem elastic_zero_form U : elastic_form Q elems facets bc U U = 0 -> forall f g, In f facets -> In g (elements_of elems f) -> etaken f g U = eenergy Q g U / INR (dim + 1).
Proof.
  intros Z. assert (Dp : 0 < INR (dim + 1)) by (apply lt_0_INR; lia).
  assert (TB : forall f g, In f facets -> In g (elements_of elems f) -> etaken f g U <= eenergy Q g U / INR (dim + 1)).
  { intros f g Hf Hg. pose proof (proj1 (eshare_bound f g U Hf Hg)) as B. pose proof (eenergy_nonneg Q elems facets GE g U (in_elems elems f g Hg)) as En.
    assert (0 <= eenergy Q g U / INR (dim + 1)) by (apply Rmult_le_pos; [auto|apply Rlt_le, Rinv_0_lt_compat; auto]).
    unfold etaken. destruct (elements_of elems f) as [|a [|b l]]; auto. destruct (bc f =? BC_Natural)%nat; auto. }
  assert (FT : forall f, In f facets -> - lsum (fun g => etaken f g U) (elements_of elems f) <= efacet_term Q elems bc f U U).
  { intros f Hf. destruct (PEN f Hf) as [P1 P2]. destruct (ONE_TWO f Hf) as (g & h & [El|El]); unfold efacet_term, etaken; rewrite El; cbn [lsum].
    - destruct (bc f =? BC_Natural)%nat; [lra|]. pose proof (ebnd_sharp f g U Hf El (P1 g El)). lra.
    - destruct (P2 g h El) as [P3 P4]. pose proof (eint_sharp f g h U Hf El P4 P3). lra. }
  set (slack f := lsum (fun g => eenergy Q g U / INR (dim + 1) - etaken f g U) (elements_of elems f)).
  assert (S0 : forall f, In f facets -> 0 <= slack f) by (intros f Hf; apply lsum_nonneg; intros g Hg; specialize (TB f g Hf Hg); lra).
  assert (SZ : lsum slack facets = 0).
  { apply Rle_antisym; [|apply lsum_nonneg; exact S0]. rewrite <- Z. unfold elastic_form.
    change (lsum (fun g => evol_term Q g U U) (seq 0 (length elems))) with (lsum (fun g => eenergy Q g U) (seq 0 (length elems))).
    rewrite (lsum_ext (fun g => eenergy Q g U) (fun g => INR (dim + 1) * (eenergy Q g U / INR (dim + 1)))) by (intros; field; lra).
    rewrite COUNT, <- lsum_plus. apply lsum_le. intros f Hf. specialize (FT f Hf). unfold slack.
    rewrite (lsum_ext (fun g => eenergy Q g U / INR (dim + 1) - etaken f g U) (fun g => eenergy Q g U / INR (dim + 1) + -1 * etaken f g U)) by (intros; ring).
    rewrite lsum_plus, lsum_scale. lra. }
  intros f g Hf Hg. pose proof (lsum_nonneg_zero slack facets S0 SZ f Hf) as Sf.
  assert (X : eenergy Q g U / INR (dim + 1) - etaken f g U = 0); [|lra].
  apply (lsum_nonneg_zero (fun g => eenergy Q g U / INR (dim + 1) - etaken f g U) (elements_of elems f)); auto. intros a Ha. specialize (TB f a Hf Ha). lra.
Qed.
End SharpForm.
