(** Property theorems: the penalty makes the assembled elasticity matrix positive semidefinite (C58). *)
Require Import List Arith Lia Bool Reals Lra Permutation.
Require Import Verif.Base Verif.LinAlg Verif.LocalMeshModel Verif.LocalMeshProps
  Verif.TopoModel Verif.TopoSpec Verif.TopoProofs Verif.TopoProps
  Verif.AssembleModel Verif.AssembleSpec Verif.AssembleProofs Verif.AssembleProps Verif.MatFree Verif.PoissonModel
  Verif.PenaltyModel Verif.SipSpec Verif.SipProps Verif.CoerciveProps
  Verif.ElasticityModel Verif.ElasticitySpec Verif.ElasticityProofs Verif.ElasticFormSpec Verif.ElasticFormProofs Verif.ElasticFormRank Verif.ElasticFormProps.
Import ListNotations.
Local Open Scope R_scope.

(** * Specification *)
Section Spec.
Variable Q : eproblem.
Local Notation E := (ep_ref Q). Local Notation P := (e_geo (ep_ref Q)). Local Notation dim := (p_dim P).
(** Squared norm of the symmetric part of a displacement gradient. *)
Definition sym2 (H : nat -> nat -> R) : R := rsum dim (fun i => rsum dim (fun j => (H i j + H j i) / 2 * ((H i j + H j i) / 2))).
(** Integrals of |strain(u)|^2 over element g and over its facet f. *)
Definition strain2 (g : nat) (u : nat -> R) : R := rsum (p_Nq P) (fun q => p_W P q * p_J P g q * sym2 (dgrad Q g u q)).
Definition strain2_on (f : list nat) (g : nat) (u : nat -> R) : R := rsum (p_nq P) (fun q => p_w P q * ep_nl Q f q * sym2 (dgrad_on Q f g u q)).
Definition efacet_area (f : list nat) : R := rsum (p_nq P) (fun q => p_w P q * ep_nl Q f q).
Definition eelem_volume (g : nat) : R := rsum (p_Nq P) (fun q => p_W P q * p_J P g q).
(** Positive weights and volumes; the length of the normal; lambda >= 0 and mu > 0 at the
    nodes; at the quadrature points mu is not below all nodal values and dim lambda + 2 mu not above. *)
Record egeometry_ok (elems facets : list (list nat)) : Prop := {
  eg_W : forall q, (q < p_Nq P)%nat -> 0 <= p_W P q;
  eg_w : forall q, (q < p_nq P)%nat -> 0 <= p_w P q;
  eg_J : forall g q, (g < length elems)%nat -> (q < p_Nq P)%nat -> 0 <= p_J P g q;
  eg_volume : forall g, (g < length elems)%nat -> 0 < eelem_volume g;
  eg_area : forall f, In f facets -> 0 < efacet_area f;
  eg_nl : forall f q, In f facets -> (q < p_nq P)%nat -> 0 <= ep_nl Q f q;
  eg_n : forall f g q, In f facets -> In g (elements_of elems f) -> (q < p_nq P)%nat ->
     rsum dim (fun i => ep_n Q f g i q * ep_n Q f g i q) = ep_nl Q f q * ep_nl Q f q;
  eg_nodes : (0 < p_N P)%nat;
  eg_pos : forall g l, (g < length elems)%nat -> (l < p_N P)%nat -> 0 <= e_lam E g l /\ 0 < e_mu E g l;
  eg_inside : forall g q, (g < length elems)%nat -> (q < p_Nq P)%nat -> 0 <= lam_in Q g q /\ exists l, (l < p_N P)%nat /\ e_mu E g l <= mu_in Q g q;
  eg_facet : forall f g q, In f facets -> In g (elements_of elems f) -> (q < p_nq P)%nat ->
     0 <= lam_on Q f g q /\ 0 <= mu_on Q f g q /\
     exists l, (l < p_N P)%nat /\ INR dim * lam_on Q f g q + 2 * mu_on Q f g q <= INR dim * e_lam E g l + 2 * e_mu E g l }.
(** The inverse trace inequality for strains of displacements of the given degree. *)
Definition etrace_inequality (elems facets : list (list nat)) (degree : nat) : Prop :=
  forall f g u, In f facets -> In g (elements_of elems f) ->
    strain2_on f g u <= inverse_trace dim (degree - 1) * (efacet_area f / eelem_volume g) * strain2 g u.
End Spec.

(** * Lemmas *)
Section Bounds.
Variables (Q : eproblem) (elems facets : list (list nat)).
Hypothesis GE : egeometry_ok Q elems facets.
Local Notation E := (ep_ref Q). Local Notation P := (e_geo (ep_ref Q)). Local Notation dim := (p_dim P).
Lemma eg_vol g : (g < length elems)%nat -> 0 < volume P g.
Proof. apply (eg_volume _ _ _ GE). Qed.
Lemma eg_c0 g : (g < length elems)%nat -> 0 < stiffness_c0 E g.
Proof. intro Hg. apply min_pos; [apply (eg_nodes _ _ _ GE)|]. intros l Hl. destruct (eg_pos _ _ _ GE g l Hg Hl). lra. Qed.
Lemma eg_c1 g : (g < length elems)%nat -> 0 < stiffness_c1 E g.
Proof.
  intro Hg. pose proof (eg_nodes _ _ _ GE) as N0. destruct (eg_pos _ _ _ GE g 0%nat Hg N0) as [L0 M0].
  eapply Rlt_le_trans; [|apply (max_ge _ (fun i => INR dim * e_lam E g i + 2 * e_mu E g i) 0%nat N0)]. cbv beta.
  assert (0 <= INR dim * e_lam E g 0%nat) by (apply Rmult_le_pos; [apply pos_INR|auto]). lra.
Qed.
Lemma eg_in g q : (g < length elems)%nat -> (q < p_Nq P)%nat -> 0 <= lam_in Q g q /\ stiffness_c0 E g <= 2 * mu_in Q g q.
Proof.
  intros Hg Hq. destruct (eg_inside _ _ _ GE g q Hg Hq) as (H & l & Hl & L). split; auto.
  eapply Rle_trans; [apply (min_le _ (fun i => 2 * e_mu E g i) l Hl)|]. cbv beta. lra.
Qed.
Lemma eg_on f g q : In f facets -> In g (elements_of elems f) -> (q < p_nq P)%nat ->
  0 <= lam_on Q f g q /\ 0 <= mu_on Q f g q /\ INR dim * lam_on Q f g q + 2 * mu_on Q f g q <= stiffness_c1 E g.
Proof.
  intros Hf Hg Hq. destruct (eg_facet _ _ _ GE f g q Hf Hg Hq) as (H1 & H2 & l & Hl & L). repeat split; auto.
  eapply Rle_trans; [exact L|]. apply (max_ge _ (fun i => INR dim * e_lam E g i + 2 * e_mu E g i) l Hl).
Qed.
Lemma eti_code degree : etrace_inequality Q elems facets degree -> forall f g u, In f facets -> In g (elements_of elems f) ->
  strain2_on Q f g u <= trace_constant dim (degree - 1) * (efacet_area Q f / volume P g) * strain2 Q g u.
Proof. intro TI. exact TI. Qed.
End Bounds.
Lemma cauchy_sum n (a b : nat -> R) :
  rsum n (fun i => a i * b i) * rsum n (fun i => a i * b i) <= rsum n (fun i => a i * a i) * rsum n (fun i => b i * b i).
Proof.
  assert (B : 0 <= rsum n (fun i => b i * b i)) by (apply rsum_nonneg; intros; apply Rle_0_sqr).
  pose proof (cauchy n a b (sqrt (rsum n (fun i => b i * b i)))) as C. rewrite sqrt_sqrt in C by auto. specialize (C eq_refl). lra.
Qed.
Lemma am_gm s a b : 0 <= a -> 0 <= b -> s * s <= 4 * (a * b) -> s <= a + b.
Proof. intros. apply Rnot_lt_le. intro. assert ((a + b) * (a + b) < s * s) by nra. pose proof (Rle_0_sqr (a - b)). unfold Rsqr in *. nra. Qed.

Section Algebra.
Variable Q : eproblem.
Local Notation dim := (p_dim (e_geo (ep_ref Q))).
Lemma sym2_nonneg H : 0 <= sym2 Q H.
Proof. apply rsum_nonneg. intros. apply rsum_nonneg. intros. apply Rle_0_sqr. Qed.
Lemma sym2_form H : 2 * sym2 Q H = rsum dim (fun i => rsum dim (fun j => (H i j + H j i) * H i j)).
Proof.
  set (S := rsum dim (fun i => rsum dim (fun j => H i j * H i j))). set (T := rsum dim (fun i => rsum dim (fun j => H i j * H j i))).
  assert (S' : rsum dim (fun i => rsum dim (fun j => H j i * H j i)) = S) by (unfold S; rewrite rsum_swap; reflexivity).
  transitivity (S + T).
  - unfold sym2. rewrite <- rsum_scale.
    transitivity (1 / 2 * S + T + 1 / 2 * rsum dim (fun i => rsum dim (fun j => H j i * H j i))); [|rewrite S'; field].
    unfold S, T. rewrite <- !rsum_scale, <- !rsum_plus. apply rsum_ext. intros. rewrite <- !rsum_scale, <- !rsum_plus. apply rsum_ext. intros. field.
  - unfold S, T. rewrite <- rsum_plus. apply rsum_ext. intros. rewrite <- rsum_plus. apply rsum_ext. intros. ring.
Qed.
Lemma trace_le_sym2 H : rsum dim (fun r => H r r) * rsum dim (fun r => H r r) <= INR dim * sym2 Q H.
Proof.
  pose proof (cauchy_sum dim (fun _ => 1) (fun r => H r r)) as C.
  cbv beta in C. rewrite (rsum_ext dim (fun i => 1 * H i i) (fun r => H r r)) in C by (intros; ring).
  assert (N1 : forall n, rsum n (fun _ => 1 * 1) = INR n) by (induction n; [reflexivity|cbn [rsum]; rewrite IHn, S_INR; ring]).
  rewrite N1 in C. eapply Rle_trans; [exact C|]. apply Rmult_le_compat_l; [apply pos_INR|].
  unfold sym2. apply rsum_le. intros i Hi.
  rewrite <- (delta_sum dim i (fun j => H j j * H j j)) by auto. apply rsum_le. intros j _. unfold delta.
  destruct (Nat.eqb_spec i j) as [->|]; [right; field|].
  rewrite Rmult_0_l. apply Rle_0_sqr.
Qed.
(** Energy density. *)
Lemma energy_density lam mu H : contract Q (hooke Q lam mu H) H = lam * (rsum dim (fun r => H r r) * rsum dim (fun r => H r r)) + 2 * mu * sym2 Q H.
Proof.
  rewrite contract_hooke, <- sym2_form. ring.
Qed.
(** The stress is bounded by the strain. *)
Lemma stress_bound lam mu H : 0 <= lam -> 0 <= mu ->
  rsum dim (fun i => rsum dim (fun j => hooke Q lam mu H i j * hooke Q lam mu H i j)) <= (INR dim * lam + 2 * mu) * (INR dim * lam + 2 * mu) * sym2 Q H.
Proof.
  intros Hl Hm. set (t := rsum dim (fun r => H r r)).
  assert (N1 : forall n, rsum n (fun _ => lam * t * (lam * t)) = INR n * (lam * t * (lam * t))) by (induction n; [cbn; ring|cbn [rsum]; rewrite IHn, S_INR; ring]).
  assert (E1 : rsum dim (fun i => rsum dim (fun j => hooke Q lam mu H i j * hooke Q lam mu H i j)) =
    INR dim * (lam * t * (lam * t)) + 4 * lam * mu * (t * t) + 4 * mu * mu * sym2 Q H).
  { transitivity (rsum dim (fun i => lam * t * (lam * t) + 4 * lam * mu * t * H i i + 4 * mu * mu * rsum dim (fun j => (H i j + H j i) / 2 * ((H i j + H j i) / 2)))).
    - apply rsum_ext. intros i Hi. unfold hooke. fold t.
      rewrite (rsum_ext dim _ (fun j => delta i j * (lam * t * (lam * t) + 2 * lam * t * mu * (H i j + H j i)) + 4 * mu * mu * ((H i j + H j i) / 2 * ((H i j + H j i) / 2)))).
      + rewrite rsum_plus, rsum_scale. rewrite (delta_sum dim i (fun j => lam * t * (lam * t) + 2 * lam * t * mu * (H i j + H j i))) by auto. ring.
      + intros j _. unfold delta. destruct (i =? j); field.
    - rewrite !rsum_plus, N1. rewrite (rsum_scale dim (4 * lam * mu * t) (fun i => H i i)). fold t.
      rewrite (rsum_scale dim (4 * mu * mu) (fun i => rsum dim (fun j => (H i j + H j i) / 2 * ((H i j + H j i) / 2)))). unfold sym2. ring. }
  rewrite E1. pose proof (trace_le_sym2 H) as T. fold t in T. pose proof (sym2_nonneg H) as S0. set (d := INR dim) in *. assert (D0 : 0 <= d) by apply pos_INR.
  set (s := sym2 Q H) in *.
  assert (A : (d * lam * lam + 4 * lam * mu) * (t * t) <= (d * lam * lam + 4 * lam * mu) * (d * s)).
  { apply Rmult_le_compat_l; auto. assert (0 <= lam * lam) by nra. assert (0 <= lam * mu) by nra. assert (0 <= d * (lam * lam)) by nra. lra. }
  lra.
Qed.
Lemma traction_bound (S : nat -> nat -> R) (n : nat -> R) nl : rsum dim (fun j => n j * n j) = nl * nl ->
  rsum dim (fun i => rsum dim (fun j => S i j * n j) * rsum dim (fun j => S i j * n j)) <= nl * nl * rsum dim (fun i => rsum dim (fun j => S i j * S i j)).
Proof.
  intro Hn. rewrite <- rsum_scale. apply rsum_le. intros i _. apply (cauchy dim (S i) n nl Hn).
Qed.
(** A jump times a traction. *)
Lemma jump_traction p nl c1 lam mu H (j n : nat -> R) s : 0 < p -> 0 <= nl -> 0 <= lam -> 0 <= mu -> INR dim * lam + 2 * mu <= c1 ->
  rsum dim (fun i => n i * n i) = nl * nl ->
  s = rsum dim (fun i => j i * rsum dim (fun k => hooke Q lam mu H i k * n k)) \/ s = - rsum dim (fun i => j i * rsum dim (fun k => hooke Q lam mu H i k * n k)) ->
  s <= p / 4 * nl * rsum dim (fun i => j i * j i) + c1 * c1 / p * (nl * sym2 Q H).
Proof.
  intros Hp Hnl Hl Hm Hc Hn Hs. set (J := rsum dim (fun i => j i * j i)). set (e := sym2 Q H).
  assert (J0 : 0 <= J) by (apply rsum_nonneg; intros; apply Rle_0_sqr). pose proof (sym2_nonneg H) as E0. fold e in E0.
  set (tr_ i := rsum dim (fun k => hooke Q lam mu H i k * n k)).
  assert (C : s * s <= J * (nl * nl * (c1 * c1 * e))).
  { apply Rle_trans with (J * rsum dim (fun i => tr_ i * tr_ i)).
    - pose proof (cauchy_sum dim j tr_) as C. fold J in C. change (fun i => j i * rsum dim (fun k => hooke Q lam mu H i k * n k)) with (fun i => j i * tr_ i) in Hs. destruct Hs as [-> | ->]; lra.
    - apply Rmult_le_compat_l; auto. eapply Rle_trans; [apply (traction_bound (hooke Q lam mu H) n nl Hn)|].
      apply Rmult_le_compat_l; [nra|]. eapply Rle_trans; [apply stress_bound; auto|]. apply Rmult_le_compat_r; auto.
      assert (0 <= INR dim * lam) by (apply Rmult_le_pos; [apply pos_INR|auto]). apply Rmult_le_compat; lra. }
  apply am_gm.
  - repeat apply Rmult_le_pos; lra.
  - apply Rmult_le_pos; [|nra]. apply Rmult_le_pos; [apply Rle_0_sqr|apply Rlt_le, Rinv_0_lt_compat; auto].
  - replace (4 * (p / 4 * nl * J * (c1 * c1 / p * (nl * e)))) with (J * (nl * nl * (c1 * c1 * e))) by (field; lra). auto.
Qed.
End Algebra.

Section Coercive.
Variable Q : eproblem.
Variables (elems facets : list (list nat)) (bc : list nat -> nat) (degree : nat).
Local Notation E := (ep_ref Q). Local Notation P := (e_geo (ep_ref Q)). Local Notation dim := (p_dim P).
Hypothesis GE : egeometry_ok Q elems facets.
Hypothesis TI : etrace_inequality Q elems facets degree.
Hypothesis Hdim : (0 < dim)%nat.

(** The code's p(side) in terms of the problem. *)
Definition epen_of (f : list nat) (g : nat) : R :=
  INR (dim + 1) * trace_constant dim (degree - 1) * (efacet_area Q f / volume P g) * (stiffness_c1 E g * stiffness_c1 E g / stiffness_c0 E g).
Lemma etrace_constant_pos : 0 < trace_constant dim (degree - 1).
Proof. unfold trace_constant. apply Rdiv_lt_0_compat; [apply Rmult_lt_0_compat|]; apply lt_0_INR; lia. Qed.
Lemma epen_pos f g : In f facets -> In g (elements_of elems f) -> 0 < epen_of f g.
Proof.
  intros Hf Hg. apply in_elems in Hg. unfold epen_of. pose proof (eg_c1 _ _ _ GE g Hg). pose proof (eg_c0 _ _ _ GE g Hg) as Hm.
  apply Rmult_lt_0_compat; [apply Rmult_lt_0_compat; [apply Rmult_lt_0_compat|]|].
  - apply lt_0_INR. lia.
  - apply etrace_constant_pos.
  - apply Rdiv_lt_0_compat; [apply (eg_area _ _ _ GE f Hf) | apply (eg_vol _ _ _ GE g Hg)].
  - apply Rdiv_lt_0_compat; [nra|auto].
Qed.
Definition eenergy (g : nat) (U : nat -> nat -> R) : R := evol_term Q g U U.
Lemma eenergy_ge g U : (g < length elems)%nat -> stiffness_c0 E g * strain2 Q g (U g) <= eenergy g U.
Proof.
  intro Hg. unfold eenergy, evol_term, strain2. rewrite <- rsum_scale. apply rsum_le. intros q Hq. unfold stress. rewrite energy_density.
  pose proof (eg_W _ _ _ GE q Hq). pose proof (eg_J _ _ _ GE g q Hg Hq). destruct (eg_in _ _ _ GE g q Hg Hq) as [Hl Hm].
  pose proof (sym2_nonneg Q (dgrad Q g (U g) q)) as S0. set (s := sym2 Q (dgrad Q g (U g) q)) in *. set (t := rsum dim (fun r => dgrad Q g (U g) q r r)).
  assert (0 <= p_W P q * p_J P g q) by nra. assert (0 <= lam_in Q g q * (t * t)) by (apply Rmult_le_pos; [auto|apply Rle_0_sqr]).
  replace (stiffness_c0 E g * (p_W P q * p_J P g q * s)) with (p_W P q * p_J P g q * (stiffness_c0 E g * s)) by ring.
  apply Rmult_le_compat_l; auto. assert (stiffness_c0 E g * s <= 2 * mu_in Q g q * s) by (apply Rmult_le_compat_r; auto). lra.
Qed.
Lemma strain2_nonneg g u : (g < length elems)%nat -> 0 <= strain2 Q g u.
Proof.
  intro Hg. apply rsum_nonneg. intros q Hq. pose proof (eg_W _ _ _ GE q Hq). pose proof (eg_J _ _ _ GE g q Hg Hq).
  apply Rmult_le_pos; [nra|apply sym2_nonneg].
Qed.
Lemma eenergy_nonneg g U : (g < length elems)%nat -> 0 <= eenergy g U.
Proof.
  intro Hg. pose proof (eenergy_ge g U Hg). pose proof (strain2_nonneg g (U g) Hg). pose proof (eg_c0 _ _ _ GE g Hg) as Hm.
  assert (0 <= stiffness_c0 E g * strain2 Q g (U g)) by nra. lra.
Qed.
(** One side of one facet takes at most its share of the element's energy. *)
Lemma eside_share f g U : In f facets -> In g (elements_of elems f) ->
  stiffness_c1 E g * stiffness_c1 E g / epen_of f g * strain2_on Q f g (U g) <= eenergy g U / INR (dim + 1).
Proof.
  intros Hf Hg. pose proof (in_elems elems f g Hg) as Hl. pose proof (eti_code Q elems facets degree TI f g (U g) Hf Hg) as T. pose proof (eenergy_ge g U Hl) as En.
  pose proof (epen_pos f g Hf Hg) as Pp. pose proof (eg_c1 _ _ _ GE g Hl) as Km. pose proof (eg_c0 _ _ _ GE g Hl) as Hm.
  pose proof (eg_area _ _ _ GE f Hf) as Ha. pose proof (eg_vol _ _ _ GE g Hl) as Hv. pose proof etrace_constant_pos as Hc.
  assert (D : 0 < INR (dim + 1)) by (apply lt_0_INR; lia).
  set (c := trace_constant dim (degree - 1)) in *. set (a := efacet_area Q f / volume P g) in *.
  assert (Ap : 0 < a) by (apply Rdiv_lt_0_compat; auto).
  apply Rle_trans with (stiffness_c1 E g * stiffness_c1 E g / epen_of f g * (c * a * strain2 Q g (U g))).
  - apply Rmult_le_compat_l; auto. apply Rlt_le, Rdiv_lt_0_compat; [nra|auto].
  - replace (stiffness_c1 E g * stiffness_c1 E g / epen_of f g * (c * a * strain2 Q g (U g))) with (stiffness_c0 E g * strain2 Q g (U g) / INR (dim + 1)).
    + apply Rmult_le_compat_r; auto. apply Rlt_le, Rinv_0_lt_compat; auto.
    + unfold epen_of. fold c a. field. repeat split; lra.
Qed.
Lemma eshare_sum f g c U : c * strain2_on Q f g (U g) =
  rsum (p_nq P) (fun q => p_w P q * (c * (ep_nl Q f q * sym2 Q (dgrad_on Q f g (U g) q)))).
Proof. unfold strain2_on. rewrite <- rsum_scale. apply rsum_ext. intros. ring. Qed.
(** Integral of |jump|^2. *)
Definition jump2 (f : list nat) (g h : nat) (U : nat -> nat -> R) : R :=
  rsum (p_nq P) (fun q => p_w P q * ep_nl Q f q * rsum dim (fun i => (disp_on Q f g (U g) q i - disp_on Q f h (U h) q i) * (disp_on Q f g (U g) q i - disp_on Q f h (U h) q i))).
Definition value2 (f : list nat) (g : nat) (u : nat -> R) : R :=
  rsum (p_nq P) (fun q => p_w P q * ep_nl Q f q * rsum dim (fun i => disp_on Q f g u q i * disp_on Q f g u q i)).
Lemma eside_young f g q j U s : In f facets -> In g (elements_of elems f) -> (q < p_nq P)%nat ->
  s = rsum dim (fun i => j i * tn Q f g g (U g) i q) \/ s = - rsum dim (fun i => j i * tn Q f g g (U g) i q) ->
  s <= epen_of f g / 4 * ep_nl Q f q * rsum dim (fun i => j i * j i)
    + stiffness_c1 E g * stiffness_c1 E g / epen_of f g * (ep_nl Q f q * sym2 Q (dgrad_on Q f g (U g) q)).
Proof.
  intros Hf Hg Hq Hs. destruct (eg_on _ _ _ GE f g q Hf Hg Hq) as (Hl & Hm & Hc).
  apply (jump_traction Q (epen_of f g) (ep_nl Q f q) (stiffness_c1 E g) (lam_on Q f g q) (mu_on Q f g q) (dgrad_on Q f g (U g) q) j (fun i => ep_n Q f g i q) s); auto.
  - apply epen_pos; auto.
  - apply (eg_nl _ _ _ GE); auto.
  - apply (eg_n _ _ _ GE); auto.
  - rewrite (rsum_ext dim _ (fun i => j i * tn Q f g g (U g) i q)) by (intros; rewrite tn_stress; reflexivity). auto.
Qed.
Lemma eflux_split f g h q : (forall i, ep_n Q f h i q = - ep_n Q f g i q) -> forall U,
  contract Q (mean_stress Q f g h U q) (djump Q f g h U q) =
  1 / 2 * (rsum dim (fun i => (disp_on Q f g (U g) q i - disp_on Q f h (U h) q i) * tn Q f g g (U g) i q)
    - rsum dim (fun i => (disp_on Q f g (U g) q i - disp_on Q f h (U h) q i) * tn Q f h h (U h) i q)).
Proof.
  intros Hn U. rewrite mean_djump. f_equal. rewrite <- rsum_plus, <- rsum_minus. apply rsum_ext. intros i _.
  rewrite (tn_opp Q f g g h) by auto. rewrite (tn_opp Q f h g h) by auto. ring.
Qed.
Lemma eint_bound f g h U : In f facets -> elements_of elems f = [g; h] -> (forall i q, ep_n Q f h i q = - ep_n Q f g i q) ->
  ep_pen Q f = (epen_of f g + epen_of f h) / 4 ->
  - (eenergy g U / INR (dim + 1)) - eenergy h U / INR (dim + 1) <= eint_term Q f g h U U /\
  eint_term Q f g h U U <= 2 * (ep_pen Q f * jump2 f g h U) + (eenergy g U / INR (dim + 1) + eenergy h U / INR (dim + 1)).
Proof.
  intros Hf El Hn Hp. assert (Hg : In g (elements_of elems f)) by (rewrite El; cbn; auto). assert (Hh : In h (elements_of elems f)) by (rewrite El; cbn; auto).
  pose proof (eside_share f g U Hf Hg) as Sg. pose proof (eside_share f h U Hf Hh) as Sh.
  set (cg := stiffness_c1 E g * stiffness_c1 E g / epen_of f g) in *. set (ch := stiffness_c1 E h * stiffness_c1 E h / epen_of f h) in *.
  set (I q := 1 / 2 * (rsum dim (fun i => (disp_on Q f g (U g) q i - disp_on Q f h (U h) q i) * tn Q f g g (U g) i q)
    - rsum dim (fun i => (disp_on Q f g (U g) q i - disp_on Q f h (U h) q i) * tn Q f h h (U h) i q))).
  set (J q := rsum dim (fun i => (disp_on Q f g (U g) q i - disp_on Q f h (U h) q i) * (disp_on Q f g (U g) q i - disp_on Q f h (U h) q i))).
  assert (EQ : eint_term Q f g h U U = rsum (p_nq P) (fun q => p_w P q * (- (2 * I q) + ep_pen Q f * ep_nl Q f q * J q))).
  { unfold eint_term. apply rsum_ext. intros q _. rewrite (eflux_split f g h q (fun i => Hn i q)). fold (I q) (J q). ring. }
  set (T q := cg * (ep_nl Q f q * sym2 Q (dgrad_on Q f g (U g) q)) + ch * (ep_nl Q f q * sym2 Q (dgrad_on Q f h (U h) q))).
  assert (B : forall q, (q < p_nq P)%nat -> 2 * I q <= ep_pen Q f * ep_nl Q f q * J q + T q /\ - (2 * I q) <= ep_pen Q f * ep_nl Q f q * J q + T q).
  { intros q Hq. set (j i := disp_on Q f g (U g) q i - disp_on Q f h (U h) q i).
    pose proof (eside_young f g q j U _ Hf Hg Hq (or_introl eq_refl)) as A1. pose proof (eside_young f g q j U _ Hf Hg Hq (or_intror eq_refl)) as A2.
    pose proof (eside_young f h q j U _ Hf Hh Hq (or_introl eq_refl)) as A3. pose proof (eside_young f h q j U _ Hf Hh Hq (or_intror eq_refl)) as A4.
    fold cg in A1, A2. fold ch in A3, A4. change (rsum dim (fun i => j i * j i)) with (J q) in *.
    rewrite Hp. unfold I, T. fold j.
    change (rsum dim (fun i => (disp_on Q f g (U g) q i - disp_on Q f h (U h) q i) * tn Q f g g (U g) i q)) with (rsum dim (fun i => j i * tn Q f g g (U g) i q)).
    change (rsum dim (fun i => (disp_on Q f g (U g) q i - disp_on Q f h (U h) q i) * tn Q f h h (U h) i q)) with (rsum dim (fun i => j i * tn Q f h h (U h) i q)).
    replace ((epen_of f g + epen_of f h) / 4 * ep_nl Q f q * J q) with (epen_of f g / 4 * ep_nl Q f q * J q + epen_of f h / 4 * ep_nl Q f q * J q) by field.
    split; lra. }
  assert (ST : cg * strain2_on Q f g (U g) + ch * strain2_on Q f h (U h) = rsum (p_nq P) (fun q => p_w P q * T q)).
  { rewrite !eshare_sum, <- rsum_plus. apply rsum_ext. intros. unfold T. ring. }
  rewrite EQ. split.
  - apply Rle_trans with (rsum (p_nq P) (fun q => -1 * (p_w P q * T q))); [rewrite rsum_scale, <- ST; lra|].
    apply rsum_le. intros q Hq. pose proof (eg_w _ _ _ GE q Hq) as Hw. destruct (B q Hq) as [B1 _].
    replace (-1 * (p_w P q * T q)) with (p_w P q * (- T q)) by ring. apply Rmult_le_compat_l; auto. lra.
  - apply Rle_trans with (rsum (p_nq P) (fun q => p_w P q * (2 * (ep_pen Q f * ep_nl Q f q * J q) + T q))).
    + apply rsum_le. intros q Hq. pose proof (eg_w _ _ _ GE q Hq) as Hw. destruct (B q Hq) as [_ B2]. apply Rmult_le_compat_l; auto. lra.
    + rewrite (rsum_ext (p_nq P) _ (fun q => 2 * ep_pen Q f * (p_w P q * ep_nl Q f q * J q) + p_w P q * T q)) by (intros; ring).
      rewrite rsum_plus, rsum_scale, <- ST. unfold jump2. fold J.
      change (rsum (p_nq P) (fun q => p_w P q * ep_nl Q f q * rsum dim (fun i => (disp_on Q f g (U g) q i - disp_on Q f h (U h) q i) * (disp_on Q f g (U g) q i - disp_on Q f h (U h) q i))))
        with (rsum (p_nq P) (fun q => p_w P q * ep_nl Q f q * J q)). lra.
Qed.
Lemma ebnd_bound f g U : In f facets -> elements_of elems f = [g] -> ep_pen Q f = epen_of f g ->
  - (eenergy g U / INR (dim + 1)) <= ebnd_term Q f g U U /\
  ebnd_term Q f g U U <= 2 * (ep_pen Q f * value2 f g (U g)) + eenergy g U / INR (dim + 1).
Proof.
  intros Hf El Hp. assert (Hg : In g (elements_of elems f)) by (rewrite El; cbn; auto).
  pose proof (eside_share f g U Hf Hg) as Sg. set (cg := stiffness_c1 E g * stiffness_c1 E g / epen_of f g) in *.
  set (I q := rsum dim (fun i => disp_on Q f g (U g) q i * tn Q f g g (U g) i q)).
  set (J q := rsum dim (fun i => disp_on Q f g (U g) q i * disp_on Q f g (U g) q i)).
  assert (EQ : ebnd_term Q f g U U = rsum (p_nq P) (fun q => p_w P q * (- (2 * I q) + ep_pen Q f * ep_nl Q f q * J q))).
  { unfold ebnd_term. apply rsum_ext. intros q _. rewrite contract_outer. fold (J q).
    rewrite (rsum_ext dim (fun i => disp_on Q f g (U g) q i * rsum dim _) (fun i => disp_on Q f g (U g) q i * tn Q f g g (U g) i q)) by (intros; rewrite tn_stress; reflexivity).
    fold (I q). ring. }
  set (T q := cg * (ep_nl Q f q * sym2 Q (dgrad_on Q f g (U g) q))).
  assert (B : forall q, (q < p_nq P)%nat -> 2 * I q <= ep_pen Q f * ep_nl Q f q * J q + T q /\ - (2 * I q) <= ep_pen Q f * ep_nl Q f q * J q + T q).
  { intros q Hq. set (j i := 2 * disp_on Q f g (U g) q i).
    pose proof (eside_young f g q j U _ Hf Hg Hq (or_introl eq_refl)) as A1. pose proof (eside_young f g q j U _ Hf Hg Hq (or_intror eq_refl)) as A2.
    fold cg in A1, A2.
    assert (J4 : rsum dim (fun i => j i * j i) = 4 * J q) by (unfold J; rewrite <- rsum_scale; apply rsum_ext; intros; unfold j; ring).
    assert (I2 : rsum dim (fun i => j i * tn Q f g g (U g) i q) = 2 * I q) by (unfold I; rewrite <- rsum_scale; apply rsum_ext; intros; unfold j; ring).
    rewrite J4 in A1, A2. rewrite I2 in A1, A2. rewrite Hp. unfold T.
    replace (epen_of f g / 4 * ep_nl Q f q * (4 * J q)) with (epen_of f g * ep_nl Q f q * J q) in A1, A2 by field. split; lra. }
  assert (ST : cg * strain2_on Q f g (U g) = rsum (p_nq P) (fun q => p_w P q * T q)) by (rewrite eshare_sum; reflexivity).
  rewrite EQ. split.
  - apply Rle_trans with (rsum (p_nq P) (fun q => -1 * (p_w P q * T q))); [rewrite rsum_scale, <- ST; lra|].
    apply rsum_le. intros q Hq. pose proof (eg_w _ _ _ GE q Hq) as Hw. destruct (B q Hq) as [B1 _].
    replace (-1 * (p_w P q * T q)) with (p_w P q * (- T q)) by ring. apply Rmult_le_compat_l; auto. lra.
  - apply Rle_trans with (rsum (p_nq P) (fun q => p_w P q * (2 * (ep_pen Q f * ep_nl Q f q * J q) + T q))).
    + apply rsum_le. intros q Hq. pose proof (eg_w _ _ _ GE q Hq) as Hw. destruct (B q Hq) as [_ B2]. apply Rmult_le_compat_l; auto. lra.
    + rewrite (rsum_ext (p_nq P) _ (fun q => 2 * ep_pen Q f * (p_w P q * ep_nl Q f q * J q) + p_w P q * T q)) by (intros; ring).
      rewrite rsum_plus, rsum_scale, <- ST. unfold value2.
      change (rsum (p_nq P) (fun q => p_w P q * ep_nl Q f q * rsum dim (fun i => disp_on Q f g (U g) q i * disp_on Q f g (U g) q i)))
        with (rsum (p_nq P) (fun q => p_w P q * ep_nl Q f q * J q)). lra.
Qed.
End Coercive.

Section Global.
Variables (k procs : nat) (elems facets : list (list nat)) (bc : list nat -> nat) (m : nat -> topo_mesh).
Hypothesis MP : mesh_parts k procs elems facets bc m.
Variable Q : eproblem.
Variables (E : nat -> edata) (fi : nat -> list facet_info) (degree : nat).
Hypothesis RK : forall p, (p < procs)%nat -> erank_data k Q (m p) (E p) /\ p_method (e_geo (E p)) = IP /\ facet_table k (m p) = Some (fi p).
Hypothesis PEN : forall p i x, (p < procs)%nat -> nth_error (fi p) i = Some x -> p_pen (e_geo (E p)) i = ElasticityModel.prepare_penalty (E p) degree i x.

(** The penalty of a facet is the same on all ranks that see it. *)
Lemma epenalty_global f : In f facets ->
  (forall g, elements_of elems f = [g] -> ep_pen Q f = epen_of Q degree f g) /\
  (forall g h, elements_of elems f = [g; h] -> ep_pen Q f = (epen_of Q degree f g + epen_of Q degree f h) / 4).
Proof.
  intro Hf. pose proof Hf as Hf'. apply (mp_facets_all _ _ _ _ _ _ MP) in Hf' as (Lf & Sf & plex & Hp & I).
  apply In_nth_error in Hp as [g0 Eg]. assert (Hg : (g0 < length elems)%nat) by (apply nth_error_Some; congruence).
  destruct (mp_owned _ _ _ _ _ _ MP g0 Hg) as (p & e & Hp & He & Ee). pose proof (mp_mesh _ _ _ _ _ _ MP p Hp) as O.
  destruct (mp_elem _ _ _ _ _ _ MP p e g0 Hp Ee) as [_ Eq].
  assert (Hin : In f (tm_facets (m p))) by (apply (to_all _ _ O plex f); auto; apply nth_error_In with e; congruence).
  apply In_nth_error in Hin as [i Ei].
  assert (Hi : (i < tm_num_local_facets (m p))%nat).
  { apply (to_local_facets _ _ O i); [apply nth_error_Some; congruence|]. exists e. split; auto. exists plex, f. repeat split; auto. congruence. }
  destruct (RK p Hp) as (RD & _ & Efi). destruct (facet_table_correct k (m p) O) as (fi' & Efi' & _ & RS). assert (fi' = fi p) by congruence. subst fi'.
  destruct (RS i Hi) as (x & Ex & R). pose proof (facet_elements _ _ _ _ _ _ MP p i x f Hp Hi R Ei) as EL.
  destruct (er_facet _ _ _ _ RD i f x Hi Ei R) as (_ & Hnl & Hpen & _ & _).
  assert (Side : forall u g, nth_error (tm_l2cg (m p)) u = Some g -> ElasticityModel.penalty_side (E p) degree i u = epen_of Q degree f g).
  { intros u g Eu. destruct (er_elem _ _ _ _ RD u g Eu) as (HJ & _ & HL & HM & _).
    unfold ElasticityModel.penalty_side, epen_of, stiffness_c0, stiffness_c1, area, efacet_area, volume.
    rewrite (er_N _ _ _ _ RD), (er_dim _ _ _ _ RD), (er_nq _ _ _ _ RD), (er_Nq _ _ _ _ RD), (er_w _ _ _ _ RD), (er_W _ _ _ _ RD), HJ, HL, HM, Hnl. reflexivity. }
  pose proof (PEN p i x Hp Ex) as Pn. unfold ElasticityModel.prepare_penalty in Pn. rewrite Hpen in Pn.
  rewrite (Side _ _ (fr_g0 _ _ _ _ R)), (Side _ _ (fr_g1 _ _ _ _ R)) in Pn.
  destruct (fi_up0 x =? fi_up1 x); cbn [negb] in Pn.
  - split; intros; rewrite EL in H; [|discriminate]. injection H as <-. auto.
  - split; intros g.
    + intros H. rewrite EL in H. destruct (fi_g0 x <? fi_g1 x); discriminate.
    + intros h H. rewrite EL in H. destruct (fi_g0 x <? fi_g1 x); injection H as <- <-; rewrite Pn; auto. field.
Qed.

Hypothesis GE : egeometry_ok Q elems facets.
(** Shares sum up to at most the energy. *)
Lemma shares_le U : (0 < k)%nat ->
  lsum (fun f => lsum (fun g => eenergy Q g U / INR (k + 1)) (elements_of elems f)) facets <= lsum (fun g => eenergy Q g U) (seq 0 (length elems)).
Proof.
  intro Hk. set (D := INR (k + 1)). assert (Dp : 0 < D) by (apply lt_0_INR; lia).
  unfold elements_of. rewrite (double_sum (fun f g => forallb (fun v => existsb (Nat.eqb v) (nth g elems [])) f)).
  apply lsum_le. intros g Hg. apply in_seq in Hg. pose proof (facet_count k procs elems facets bc m g MP ltac:(lia)) as C.
  apply le_INR in C. fold D in C. pose proof (eenergy_nonneg Q elems facets GE g U ltac:(lia)) as En.
  apply (Rmult_le_reg_r D); auto. unfold Rdiv. rewrite <- Rmult_assoc, Rmult_assoc, Rinv_l, Rmult_1_r by lra. rewrite Rmult_comm. apply Rmult_le_compat_l; auto.
Qed.
End Global.

(** C58: with the penalty that the code computes, the matrix the ranks assemble is positive
    semidefinite, on every mesh, partition and material with nonnegative lambda, if the inverse trace
    inequality holds with the constant that the code uses. *)
Theorem elasticity_matrix_positive : forall k procs elems facets bc m Q E fi degree A,
  mesh_parts k procs elems facets bc m -> eproblem_ok k elems facets Q ->
  (forall p, (p < procs)%nat -> erank_data k Q (m p) (E p) /\ p_method (e_geo (E p)) = IP /\ facet_table k (m p) = Some (fi p)) ->
  (forall p i x, (p < procs)%nat -> nth_error (fi p) i = Some x -> p_pen (e_geo (E p)) i = ElasticityModel.prepare_penalty (E p) degree i x) ->
  p_dim (e_geo (ep_ref Q)) = k -> (0 < k)%nat ->
  egeometry_ok Q elems facets -> etrace_inequality Q elems facets degree ->
  (forall p, (p < procs)%nat -> map_opt (to_global (m p)) (assemble (m p) (fi p) (elasticity_mat (E p))) = Some (A p)) ->
  forall U, 0 <= pairing (block_size (ep_ref Q)) (flat_map A (seq 0 procs)) U U.
Proof.
  intros k procs elems facets bc m Q E fi degree A MP PO RK PEN Hd Hk GE TI HA U.
  destruct (elasticity_assembly_is_interior_penalty k procs elems facets bc m Q E fi MP PO RK) as (A' & b' & HA' & _ & EQ).
  assert (EA : flat_map A (seq 0 procs) = flat_map A' (seq 0 procs)).
  { apply flat_map_ext_in. intros p Hp. apply in_seq in Hp. pose proof (HA p ltac:(lia)). pose proof (HA' p ltac:(lia)). congruence. }
  rewrite EA, (proj1 (EQ U U)). clear A A' b' HA HA' EQ EA.
  unfold elastic_form. set (D := INR (k + 1)). assert (Dp : 0 < D) by (apply lt_0_INR; lia).
  assert (F : lsum (fun f => - lsum (fun g => eenergy Q g U / D) (elements_of elems f)) facets <= lsum (fun f => efacet_term Q elems bc f U U) facets).
  { apply lsum_le. intros f Hf. destruct (epenalty_global k procs elems facets bc m MP Q E fi degree RK PEN f Hf) as [P1 P2].
    unfold efacet_term. destruct (facet_one_or_two k procs elems facets bc m MP f Hf) as (g & h & [El | El]); rewrite El; cbn [lsum].
    - assert (Hg : (g < length elems)%nat) by (apply (in_elems elems f g); rewrite El; cbn; auto).
      destruct (ebnd_bound Q elems facets degree GE TI ltac:(lia) f g U Hf El (P1 g El)) as [B _]. rewrite Hd in B. fold D in B.
      pose proof (eenergy_nonneg Q elems facets GE g U Hg) as En.
      assert (0 <= eenergy Q g U / D) by (apply Rmult_le_pos; [auto|apply Rlt_le, Rinv_0_lt_compat; auto]).
      destruct (bc f =? BC_Natural); lra.
    - destruct (eint_bound Q elems facets degree GE TI ltac:(lia) f g h U Hf El (fun i q => eo_n _ _ _ _ PO f g h i q Hf El) (P2 g h El)) as [B _].
      rewrite Hd in B. fold D in B. lra. }
  pose proof (shares_le k procs elems facets bc m MP Q GE U Hk) as S. fold D in S.
  assert (Z : lsum (fun f => - lsum (fun g => eenergy Q g U / D) (elements_of elems f)) facets = - lsum (fun f => lsum (fun g => eenergy Q g U / D) (elements_of elems f)) facets).
  { rewrite (lsum_ext _ (fun f => -1 * lsum (fun g => eenergy Q g U / D) (elements_of elems f))) by (intros; ring). rewrite lsum_scale. ring. }
  change (lsum (fun g => evol_term Q g U U) (seq 0 (length elems))) with (lsum (fun g => eenergy Q g U) (seq 0 (length elems))). lra.
Qed.
Print Assumptions elasticity_matrix_positive.

(** On straight-sided elements with piecewise linear displacements the inequality holds, so that
    nothing is left to assume. *)
Definition elinear_affine (Q : eproblem) : Prop := let P := e_geo (ep_ref Q) in
  exists (Dx : nat -> nat -> R) (G : nat -> nat -> nat -> R),
    (forall l e q, p_DxiQ P l e q = Dx l e) /\ (forall f l e q, p_Dxi P f l e q = Dx l e) /\
    (forall g e i q, p_GQ P g e i q = G g e i) /\ (forall f g e i q, ep_G Q f g e i q = G g e i).
Theorem strain_trace_inequality_linear : forall Q elems facets, (0 < p_dim (e_geo (ep_ref Q)))%nat ->
  (forall g, (g < length elems)%nat -> 0 < eelem_volume Q g) -> elinear_affine Q -> etrace_inequality Q elems facets 1.
Proof.
  intros Q elems facets Hd Hv (Dx & G & H1 & H2 & H3 & H4) f g u Hf Hg. apply (in_elems elems) in Hg. specialize (Hv g Hg).
  set (P := e_geo (ep_ref Q)) in *. set (gr i j := rsum (p_N P) (fun l => rsum (p_dim P) (fun e => G g e j * Dx l e) * coef Q u i l)).
  assert (E1 : strain2 Q g u = eelem_volume Q g * sym2 Q gr).
  { unfold strain2, eelem_volume. fold P. rewrite <- rsum_scale_r. apply rsum_ext. intros q _. f_equal.
    assert (forall i j, dgrad Q g u q i j = gr i j).
    { intros. unfold dgrad, gr. fold P. apply rsum_ext. intros l _. f_equal. apply rsum_ext. intros e _. rewrite H3, H1. reflexivity. }
    unfold sym2. apply rsum_ext. intros i _. apply rsum_ext. intros j _. rewrite !H. reflexivity. }
  assert (E2 : strain2_on Q f g u = efacet_area Q f * sym2 Q gr).
  { unfold strain2_on, efacet_area. fold P. rewrite <- rsum_scale_r. apply rsum_ext. intros q _. f_equal.
    assert (forall i j, dgrad_on Q f g u q i j = gr i j).
    { intros. unfold dgrad_on, gr. fold P. apply rsum_ext. intros l _. f_equal. apply rsum_ext. intros e _. rewrite H4, H2. reflexivity. }
    unfold sym2. apply rsum_ext. intros i _. apply rsum_ext. intros j _. rewrite !H. reflexivity. }
  assert (Dn : 0 < INR (p_dim P)) by (apply lt_0_INR; auto).
  rewrite E1, E2. unfold inverse_trace. fold P. cbn [Nat.sub Nat.add INR]. apply Req_le. field. split; lra.
Qed.
Print Assumptions strain_trace_inequality_linear.
