(** Property theorems: the CFL time step bounds the frequencies of the discrete wave equation (C59). *)
Require Import List Arith Lia Bool Reals Lra Permutation.
Require Import Verif.Base Verif.LinAlg Verif.LocalMeshModel Verif.LocalMeshProps
  Verif.TopoModel Verif.TopoSpec Verif.TopoProofs Verif.TopoProps
  Verif.AssembleModel Verif.AssembleSpec Verif.AssembleProofs Verif.AssembleProps Verif.MatFree Verif.PoissonModel
  Verif.PenaltyModel Verif.SipSpec Verif.SipProps Verif.CoerciveProps
  Verif.ElasticityModel Verif.ElasticitySpec Verif.ElasticityProofs Verif.ElasticFormSpec Verif.ElasticFormProofs Verif.ElasticFormRank Verif.ElasticFormProps
  Verif.ElasticCoerciveProps Verif.ElasticCflModel.
Import ListNotations.
Local Open Scope R_scope.

(** * Specification *)
Section Spec.
Variable Q : eproblem.
Local Notation E := (ep_ref Q). Local Notation P := (e_geo (ep_ref Q)). Local Notation dim := (p_dim P).
(** Integrals of |u|^2 and |grad u|^2 over element g. *)
Definition norm2 (g : nat) (u : nat -> R) : R := rsum (p_Nq P) (fun q => p_W P q * p_J P g q * rsum dim (fun i => disp Q u q i * disp Q u q i)).
Definition grad2 (g : nat) (u : nat -> R) : R :=
  rsum (p_Nq P) (fun q => p_W P q * p_J P g q * rsum dim (fun i => rsum dim (fun j => dgrad Q g u q i j * dgrad Q g u q i j))).
(** The mass form: integral of rho u . v over the mesh; 1/rho is the coefficient. *)
Definition rho_inv (g q : nat) : R := rsum (p_N P) (fun t => p_matEQ P q t * e_rhoInv E g t).
Definition mass_in (g : nat) (u v : nat -> R) : R :=
  rsum (p_Nq P) (fun q => p_W P q * p_J P g q * (/ rho_inv g q * rsum dim (fun i => disp Q u q i * disp Q v q i))).
Definition mass_form (elems : list (list nat)) (U V : nat -> nat -> R) : R := lsum (fun g => mass_in g (U g) (V g)) (seq 0 (length elems)).
(** The facets of element g, and the area of its boundary. *)
Definition facets_of (elems facets : list (list nat)) (g : nat) : list (list nat) :=
  filter (fun f => forallb (fun v => existsb (Nat.eqb v) (nth g elems [])) f) facets.
Definition boundary_area (elems facets : list (list nat)) (g : nat) : R := lsum (efacet_area Q) (facets_of elems facets g).
(** The two inverse inequalities for displacements of the given degree, and material that
    at the quadrature points does not exceed all its nodal values. *)
Record wave_ok (elems facets : list (list nat)) (degree : nat) (grad_constant : R) : Prop := {
  wo_traces : forall f g u, In f facets -> In g (elements_of elems f) ->
     value2 Q f g u <= inverse_trace dim degree * (efacet_area Q f / eelem_volume Q g) * norm2 g u;
  wo_grads : forall g u, (g < length elems)%nat ->
     grad2 g u <= grad_constant * (boundary_area elems facets g / eelem_volume Q g) * (boundary_area elems facets g / eelem_volume Q g) * norm2 g u;
  wo_constant : 0 <= grad_constant;
  wo_stiffness : forall g q, (g < length elems)%nat -> (q < p_Nq P)%nat ->
     exists l, (l < p_N P)%nat /\ INR dim * lam_in Q g q + 2 * mu_in Q g q <= INR dim * e_lam E g l + 2 * e_mu E g l;
  wo_density : forall g q, (g < length elems)%nat -> (q < p_Nq P)%nat -> 0 < rho_inv g q /\ exists l, (l < p_N P)%nat /\ rho_inv g q <= e_rhoInv E g l }.
End Spec.
Section WaveBounds.
Variables (Q : eproblem) (elems facets : list (list nat)) (degree : nat) (C : R).
Hypothesis WO : wave_ok Q elems facets degree C.
Local Notation E := (ep_ref Q). Local Notation P := (e_geo (ep_ref Q)). Local Notation dim := (p_dim P).
Lemma wo_trace f g u : In f facets -> In g (elements_of elems f) ->
  value2 Q f g u <= trace_constant dim degree * (efacet_area Q f / volume P g) * norm2 Q g u.
Proof. exact (wo_traces _ _ _ _ _ WO f g u). Qed.
Lemma wo_grad g u : (g < length elems)%nat ->
  grad2 Q g u <= C * (boundary_area Q elems facets g / volume P g) * (boundary_area Q elems facets g / volume P g) * norm2 Q g u.
Proof. exact (wo_grads _ _ _ _ _ WO g u). Qed.
Lemma wo_c1 g q : (g < length elems)%nat -> (q < p_Nq P)%nat -> INR dim * lam_in Q g q + 2 * mu_in Q g q <= stiffness_c1 E g.
Proof.
  intros Hg Hq. destruct (wo_stiffness _ _ _ _ _ WO g q Hg Hq) as (l & Hl & L).
  eapply Rle_trans; [exact L|]. apply (max_ge _ (fun i => INR dim * e_lam E g i + 2 * e_mu E g i) l Hl).
Qed.
Lemma wo_rho g q : (g < length elems)%nat -> (q < p_Nq P)%nat -> 0 < rho_inv Q g q <= inverse_density_upper_bound E g.
Proof.
  intros Hg Hq. destruct (wo_density _ _ _ _ _ WO g q Hg Hq) as (H & l & Hl & L). split; auto.
  eapply Rle_trans; [exact L|]. apply (max_ge _ (e_rhoInv E g) l Hl).
Qed.
End WaveBounds.

(** * The bound of one element, in terms of the problem *)
Section Bound.
Variables (k procs : nat) (elems facets : list (list nat)) (bc : list nat -> nat) (m : nat -> topo_mesh).
Hypothesis MP : mesh_parts k procs elems facets bc m.
Variable Q : eproblem.
Variables (degree : nat) (C : R).
Local Notation E := (ep_ref Q). Local Notation P := (e_geo (ep_ref Q)). Local Notation dim := (p_dim P).

Definition sides (f : list nat) : R := match elements_of elems f with [_] => 1 | _ => 2 end.
Definition element_bound (g : nat) : R :=
  (lsum (fun f => sides f * ep_pen Q f * trace_constant dim degree * efacet_area Q f / volume P g) (facets_of elems facets g)
   + stiffness_c1 E g * inverse_density_upper_bound E g * C * (boundary_area Q elems facets g / volume P g) * (boundary_area Q elems facets g / volume P g)) * 2.

Lemma in_facets_of f g : In f (facets_of elems facets g) <-> In f facets /\ incl f (nth g elems []).
Proof.
  unfold facets_of. rewrite filter_In. apply and_iff_compat_l. rewrite forallb_forall. split.
  - intros H v Hv. specialize (H v Hv). apply existsb_exists in H as (w & Hw & Ev). apply Nat.eqb_eq in Ev. subst. auto.
  - intros H v Hv. apply existsb_exists. exists v. split; [apply H; auto|apply Nat.eqb_refl].
Qed.
Lemma in_facets_elements f g : (g < length elems)%nat -> In f (facets_of elems facets g) <-> In f facets /\ In g (elements_of elems f).
Proof.
  intro Hg. unfold facets_of, elements_of. rewrite !filter_In, in_seq. intuition lia.
Qed.

Lemma slots_perm p fi wr t e g sl : (p < procs)%nat -> facet_table k (m p) = Some fi ->
  interleaving (all_side_writes k fi) wr -> do_writes (fresh_sides k (m p)) wr = Some t -> (e < tm_num_local (m p))%nat ->
  map_opt (fun d => nth_error t (e * (k + 1) + d)) (seq 0 (k + 1)) = Some sl -> nth_error (tm_l2cg (m p)) e = Some g ->
  Permutation (map (fun s => nth (si_fct s) (tm_facets (m p)) []) sl) (facets_of elems facets g).
Proof.
  intros Hp Efi Iw Et He Esl Eg. pose proof (mp_mesh _ _ _ _ _ _ MP p Hp) as O.
  destruct (slots_of k (m p) fi wr t O Efi Iw Et e He) as (sl' & _ & Esl' & Nd & Mem & Sl). assert (sl' = sl) by congruence. subst sl'.
  destruct (mp_elem _ _ _ _ _ _ MP p e g Hp Eg) as [Hg Eq].
  destruct (to_facets _ _ O) as [NF SF].
  assert (Len : forall s, In s sl -> (si_fct s < length (tm_facets (m p)))%nat).
  { intros s Hs. apply In_nth_error in Hs as [d Hd]. destruct (Sl d s Hd) as (_ & Hl & _). pose proof (to_facets_le _ _ O). lia. }
  apply NoDup_Permutation.
  - clear Mem Esl Esl' Sl. induction sl as [|s sl IH]; cbn [map]; [constructor|]. cbn [map] in Nd. inversion Nd as [|? ? Ns Nd']; subst. constructor.
    + intro H. apply in_map_iff in H as (s' & Es & Hs'). apply Ns. apply in_map_iff. exists s'. split; auto.
      apply (proj1 (NoDup_nth (tm_facets (m p)) []) NF); auto; apply Len; cbn; auto.
    + apply IH; auto. intros. apply Len. cbn. auto.
  - apply NoDup_filter. apply (mp_facets _ _ _ _ _ _ MP).
  - intro f. rewrite in_facets_of. destruct (nth_error_lt elems g Hg) as [plex Ep]. rewrite (nth_error_nth _ _ [] Ep). rewrite Ep in Eq. symmetry in Eq. split.
    + intro H. apply in_map_iff in H as (s & <- & Hs). pose proof (Len s Hs) as L. assert (Hc : In (si_fct s) (map si_fct sl)) by (apply in_map; auto).
      apply Mem in Hc as (plex' & f & E1 & E2 & I). assert (plex' = plex) by congruence. subst. rewrite (nth_error_nth _ _ [] E2). split; auto.
      apply (mp_facets_all _ _ _ _ _ _ MP). destruct (SF f) as [S1 S2]; [eapply nth_error_In; eauto|]. repeat split; auto. exists plex. split; auto. eapply nth_error_In; eauto.
    + intros [Hf I]. apply (mp_facets_all _ _ _ _ _ _ MP) in Hf as (Lf & Sf & _).
      assert (Hin : In f (tm_facets (m p))) by (apply (to_all _ _ O plex f); auto; apply nth_error_In with e; congruence).
      apply In_nth_error in Hin as [i Ei]. assert (Hc : In i (map si_fct sl)) by (apply Mem; exists plex, f; auto).
      apply in_map_iff in Hc as (s & <- & Hs). apply in_map_iff. exists s. split; auto. apply nth_error_nth; auto.
Qed.

Lemma lsum_swap {X Y} (F : X -> Y -> R) (ys : list Y) : forall xs, lsum (fun a => lsum (F a) ys) xs = lsum (fun b => lsum (fun a => F a b) xs) ys.
Proof. induction xs as [|a xs IH]; cbn [lsum]; [symmetry; apply lsum_zero; auto|]. rewrite IH, <- lsum_plus. reflexivity. Qed.
Lemma fold_pair (f h : side_info -> R) : forall sl a b,
  fold_left (fun a s => (fst a + f s, snd a + h s)) sl (a, b) = (a + lsum f sl, b + lsum h sl).
Proof. induction sl as [|s sl IH]; intros a b; cbn [fold_left lsum]; [f_equal; ring|]. rewrite IH. cbn [fst snd]. f_equal; ring. Qed.

Lemma bound_global p (Ep : edata) fi wr t e g sl : (p < procs)%nat -> erank_data k Q (m p) Ep -> facet_table k (m p) = Some fi ->
  interleaving (all_side_writes k fi) wr -> do_writes (fresh_sides k (m p)) wr = Some t -> (e < tm_num_local (m p))%nat ->
  map_opt (fun d => nth_error t (e * (k + 1) + d)) (seq 0 (k + 1)) = Some sl -> nth_error (tm_l2cg (m p)) e = Some g ->
  cfl_bound Ep degree C e sl = element_bound g.
Proof.
  intros Hp RD Efi Iw Et He Esl Eg. pose proof (mp_mesh _ _ _ _ _ _ MP p Hp) as O.
  pose proof (slots_perm p fi wr t e g sl Hp Efi Iw Et He Esl Eg) as Pm.
  destruct (slots_of k (m p) fi wr t O Efi Iw Et e He) as (sl' & _ & Esl' & Nd & Mem & Sl). assert (sl' = sl) by congruence. subst sl'.
  destruct (er_elem _ _ _ _ RD e g Eg) as (HJ & _ & HL & HM & HR).
  assert (V : volume (e_geo Ep) e = volume P g) by (unfold volume; rewrite (er_Nq _ _ _ _ RD), (er_W _ _ _ _ RD), HJ; reflexivity).
  assert (S1 : stiffness_c1 Ep e = stiffness_c1 E g) by (unfold stiffness_c1; rewrite (er_N _ _ _ _ RD), (er_dim _ _ _ _ RD), HL, HM; reflexivity).
  assert (S2 : inverse_density_upper_bound Ep e = inverse_density_upper_bound E g) by (unfold inverse_density_upper_bound; rewrite (er_N _ _ _ _ RD), HR; reflexivity).
  assert (Fct : forall s, In s sl -> let f := nth (si_fct s) (tm_facets (m p)) [] in
     p_pen (e_geo Ep) (si_fct s) = ep_pen Q f /\ area (e_geo Ep) (si_fct s) = efacet_area Q f /\ (if negb (e =? si_lid s) then 2 else 1) = sides f).
  { intros s Hs. cbv zeta. apply In_nth_error in Hs as [d Hd]. destruct (Sl d s Hd) as (_ & Hl & x & Ex & _ & _ & Cs & _ & R).
    destruct (nth_error_lt (tm_facets (m p)) (si_fct s)) as [f Ef]; [pose proof (to_facets_le _ _ O); lia|]. rewrite (nth_error_nth _ _ [] Ef).
    destruct (er_facet _ _ _ _ RD (si_fct s) f x Hl Ef R) as (_ & Hnl & Hpen & _). split; auto. split.
    - unfold area, efacet_area. rewrite (er_nq _ _ _ _ RD), (er_w _ _ _ _ RD), Hnl. reflexivity.
    - unfold sides. rewrite (facet_elements _ _ _ _ _ _ MP p _ x f Hp Hl R Ef).
      destruct Cs as [C0 C1 C2 _ | C0 C1 C2 _ _ _ | C0 C1 C2 _ _ _].
      + rewrite C0, C1, C2, !Nat.eqb_refl. reflexivity.
      + rewrite C0, C1. destruct (Nat.eqb_spec e (si_lid s)); [contradiction|]. destruct (fi_g0 x <? fi_g1 x); reflexivity.
      + rewrite C0, C1, (Nat.eqb_sym (si_lid s) e). destruct (Nat.eqb_spec e (si_lid s)); [contradiction|]. destruct (fi_g0 x <? fi_g1 x); reflexivity. }
  unfold cfl_bound, element_bound. rewrite (fold_pair (fun s => (if negb (e =? si_lid s) then 2 else 1) * p_pen (e_geo Ep) (si_fct s) * trace_constant (p_dim (e_geo Ep)) degree * area (e_geo Ep) (si_fct s) / volume (e_geo Ep) e)
    (fun s => area (e_geo Ep) (si_fct s))). cbn [fst snd]. rewrite !Rplus_0_l, S1, S2, V, (er_dim _ _ _ _ RD). unfold boundary_area.
  rewrite <- !(lsum_perm _ _ _ Pm), !lsum_map.
  rewrite (lsum_ext (fun s => area (e_geo Ep) (si_fct s)) (fun s => efacet_area Q (nth (si_fct s) (tm_facets (m p)) []))) by (intros s Hs; apply (Fct s Hs)).
  f_equal. f_equal. apply lsum_ext. intros s Hs. destruct (Fct s Hs) as (F1 & F2 & F3). rewrite F1, F2, F3. reflexivity.
Qed.
End Bound.

(** * The form is bounded by the mass *)
Section Upper.
Variables (k procs : nat) (elems facets : list (list nat)) (bc : list nat -> nat) (m : nat -> topo_mesh).
Hypothesis MP : mesh_parts k procs elems facets bc m.
Variable Q : eproblem.
Hypothesis PO : eproblem_ok k elems facets Q.
Variables (degree : nat) (C : R).
Local Notation E := (ep_ref Q). Local Notation P := (e_geo (ep_ref Q)). Local Notation dim := (p_dim P).
Hypothesis Hd : dim = k.
Hypothesis Hk : (0 < k)%nat.
Hypothesis GE : egeometry_ok Q elems facets.
Hypothesis TI : etrace_inequality Q elems facets degree.
Hypothesis WO : wave_ok Q elems facets degree C.
Hypothesis PG : forall f, In f facets ->
  (forall g, elements_of elems f = [g] -> ep_pen Q f = epen_of Q degree f g) /\
  (forall g h, elements_of elems f = [g; h] -> ep_pen Q f = (epen_of Q degree f g + epen_of Q degree f h) / 4).

Lemma pen_pos f : In f facets -> 0 < ep_pen Q f.
Proof.
  intro Hf. destruct (PG f Hf) as [P1 P2]. destruct (facet_one_or_two k procs elems facets bc m MP f Hf) as (g & h & [El | El]).
  - rewrite (P1 g El). apply (epen_pos Q elems facets degree GE ltac:(lia)); auto. rewrite El. cbn. auto.
  - rewrite (P2 g h El). assert (0 < epen_of Q degree f g) by (apply (epen_pos Q elems facets degree GE ltac:(lia)); auto; rewrite El; cbn; auto).
    assert (0 < epen_of Q degree f h) by (apply (epen_pos Q elems facets degree GE ltac:(lia)); auto; rewrite El; cbn; auto). lra.
Qed.
Lemma pen_nonneg f : In f facets -> 0 <= ep_pen Q f.
Proof. intro. apply Rlt_le, pen_pos. auto. Qed.
Lemma value2_nonneg f g u : In f facets -> 0 <= value2 Q f g u.
Proof.
  intro Hf. apply rsum_nonneg. intros q Hq. pose proof (eg_w _ _ _ GE q Hq). pose proof (eg_nl _ _ _ GE f q Hf Hq).
  apply Rmult_le_pos; [nra|]. apply rsum_nonneg. intros. apply Rle_0_sqr.
Qed.
Lemma jump_le f g h U : In f facets -> jump2 Q f g h U <= 2 * value2 Q f g (U g) + 2 * value2 Q f h (U h).
Proof.
  intro Hf. unfold jump2, value2. rewrite <- !rsum_scale, <- rsum_plus. apply rsum_le. intros q Hq.
  pose proof (eg_w _ _ _ GE q Hq). pose proof (eg_nl _ _ _ GE f q Hf Hq). set (c := p_w P q * ep_nl Q f q). assert (0 <= c) by (unfold c; nra).
  rewrite <- !Rmult_assoc, !(Rmult_comm 2 c), !Rmult_assoc, <- Rmult_plus_distr_l. apply Rmult_le_compat_l; auto.
  rewrite <- !rsum_scale, <- rsum_plus. apply rsum_le. intros i _. set (a := disp_on Q f g (U g) q i). set (b := disp_on Q f h (U h) q i).
  pose proof (Rle_0_sqr (a + b)). unfold Rsqr in *. lra.
Qed.
Lemma energy_le_grad g U : (g < length elems)%nat -> eenergy Q g U <= stiffness_c1 E g * grad2 Q g (U g).
Proof.
  intro Hg. unfold eenergy, evol_term, grad2. rewrite <- rsum_scale. apply rsum_le. intros q Hq. unfold stress. rewrite energy_density.
  pose proof (eg_W _ _ _ GE q Hq). pose proof (eg_J _ _ _ GE g q Hg Hq). destruct (eg_in _ _ _ GE g q Hg Hq) as [Hl Hm]. pose proof (eg_c0 _ _ _ GE g Hg) as C0.
  pose proof (wo_c1 _ _ _ _ _ WO g q Hg Hq) as Hc. set (Hs := dgrad Q g (U g) q).
  pose proof (sym2_nonneg Q Hs) as S0. pose proof (trace_le_sym2 Q Hs) as T. set (t := rsum dim (fun r => Hs r r)) in *. set (s := sym2 Q Hs) in *.
  set (G := rsum dim (fun i => rsum dim (fun j => Hs i j * Hs i j))).
  assert (SG : s <= G).
  { assert (G' : rsum dim (fun i => rsum dim (fun j => Hs j i * Hs j i)) = G) by (unfold G; rewrite rsum_swap; reflexivity).
    replace G with (1 / 2 * G + 1 / 2 * rsum dim (fun i => rsum dim (fun j => Hs j i * Hs j i))) by (rewrite G'; field).
    unfold s, sym2, G. rewrite <- !rsum_scale, <- rsum_plus. apply rsum_le. intros i _. rewrite <- !rsum_scale, <- rsum_plus. apply rsum_le. intros j _.
    pose proof (Rle_0_sqr (Hs i j - Hs j i)). unfold Rsqr in *. lra. }
  replace (stiffness_c1 E g * (p_W P q * p_J P g q * G)) with (p_W P q * p_J P g q * (stiffness_c1 E g * G)) by ring.
  apply Rmult_le_compat_l; [nra|].
  assert (A1 : lam_in Q g q * (t * t) <= lam_in Q g q * (INR dim * s)) by (apply Rmult_le_compat_l; auto).
  assert (A2 : (INR dim * lam_in Q g q + 2 * mu_in Q g q) * s <= stiffness_c1 E g * s) by (apply Rmult_le_compat_r; auto).
  assert (A3 : stiffness_c1 E g * s <= stiffness_c1 E g * G) by (apply Rmult_le_compat_l; auto; pose proof (eg_c1 _ _ _ GE g Hg); lra). lra.
Qed.
Lemma norm2_nonneg g u : (g < length elems)%nat -> 0 <= norm2 Q g u.
Proof.
  intro Hg. apply rsum_nonneg. intros q Hq. pose proof (eg_W _ _ _ GE q Hq). pose proof (eg_J _ _ _ GE g q Hg Hq).
  apply Rmult_le_pos; [nra|]. apply rsum_nonneg. intros. apply Rle_0_sqr.
Qed.
Lemma norm_le_mass g u : (g < length elems)%nat -> norm2 Q g u <= inverse_density_upper_bound E g * mass_in Q g u u.
Proof.
  intro Hg. unfold norm2, mass_in. rewrite <- rsum_scale. apply rsum_le. intros q Hq.
  pose proof (eg_W _ _ _ GE q Hq). pose proof (eg_J _ _ _ GE g q Hg Hq). destruct (wo_rho _ _ _ _ _ WO g q Hg Hq) as [R0 R1].
  set (s := rsum dim (fun i => disp Q u q i * disp Q u q i)). assert (S0 : 0 <= s) by (apply rsum_nonneg; intros; apply Rle_0_sqr).
  replace (inverse_density_upper_bound E g * (p_W P q * p_J P g q * (/ rho_inv Q g q * s))) with (p_W P q * p_J P g q * (inverse_density_upper_bound E g * / rho_inv Q g q * s)) by ring.
  apply Rmult_le_compat_l; [nra|]. rewrite <- (Rmult_1_l s) at 1. apply Rmult_le_compat_r; auto.
  apply (Rmult_le_reg_r (rho_inv Q g q)); auto. rewrite Rmult_assoc, Rinv_l; lra.
Qed.
Lemma trace_pos : 0 < trace_constant dim degree.
Proof. unfold trace_constant. apply Rdiv_lt_0_compat; [apply Rmult_lt_0_compat|]; apply lt_0_INR; lia. Qed.

Lemma side_pos f g : In f facets -> In g (elements_of elems f) -> 0 < sides elems f * ep_pen Q f * trace_constant dim degree * (efacet_area Q f / volume P g).
Proof.
  intros Hf Hg. pose proof (in_elems elems f g Hg) as Hl. pose proof (pen_pos f Hf) as Hp. pose proof trace_pos as Ht.
  assert (Hs : 0 < sides elems f) by (unfold sides; destruct (elements_of elems f) as [|? [|? ?]]; lra).
  assert (Ha : 0 < efacet_area Q f / volume P g) by (apply Rdiv_lt_0_compat; [apply (eg_area _ _ _ GE f Hf) | apply (eg_vol _ _ _ GE g Hl)]).
  apply Rmult_lt_0_compat; auto. apply Rmult_lt_0_compat; auto. apply Rmult_lt_0_compat; auto.
Qed.
Lemma form_bounded U : (forall g, (g < length elems)%nat -> inverse_density_upper_bound E g <= 1) ->
  elastic_form Q elems facets bc U U <= lsum (fun g => element_bound elems facets Q degree C g * mass_in Q g (U g) (U g)) (seq 0 (length elems)).
Proof.
  intro Rho. set (D := INR (k + 1)). assert (Dp : 0 < D) by (apply lt_0_INR; lia).
  set (bnd f g := 2 * sides elems f * ep_pen Q f * trace_constant dim degree * (efacet_area Q f / volume P g) * norm2 Q g (U g)).
  assert (F : lsum (fun f => efacet_term Q elems bc f U U) facets <=
    lsum (fun f => lsum (fun g => eenergy Q g U / D) (elements_of elems f)) facets + lsum (fun f => lsum (bnd f) (elements_of elems f)) facets).
  { rewrite <- lsum_plus. apply lsum_le. intros f Hf. destruct (PG f Hf) as [P1 P2]. pose proof (pen_nonneg f Hf) as Pn.
    unfold efacet_term. destruct (facet_one_or_two k procs elems facets bc m MP f Hf) as (g & h & [El | El]); rewrite El; cbn [lsum]; unfold bnd, sides; rewrite El.
    - assert (Ig : In g (elements_of elems f)) by (rewrite El; cbn; auto). assert (Hg : (g < length elems)%nat) by (apply (in_elems elems f g); auto).
      destruct (ebnd_bound Q elems facets degree GE TI ltac:(lia) f g U Hf El (P1 g El)) as [_ B]. rewrite Hd in B. fold D in B.
      pose proof (eenergy_nonneg Q elems facets GE g U Hg) as En. pose proof (value2_nonneg f g (U g) Hf) as V0.
      pose proof (wo_trace _ _ _ _ _ WO f g (U g) Hf Ig) as T.
      assert (0 <= eenergy Q g U / D) by (apply Rmult_le_pos; [auto|apply Rlt_le, Rinv_0_lt_compat; auto]).
      assert (A : ep_pen Q f * value2 Q f g (U g) <= ep_pen Q f * (trace_constant dim degree * (efacet_area Q f / volume P g) * norm2 Q g (U g))) by (apply Rmult_le_compat_l; auto).
      assert (0 <= ep_pen Q f * value2 Q f g (U g)) by (apply Rmult_le_pos; auto).
      destruct (bc f =? BC_Natural); lra.
    - assert (Ig : In g (elements_of elems f)) by (rewrite El; cbn; auto). assert (Ih : In h (elements_of elems f)) by (rewrite El; cbn; auto).
      destruct (eint_bound Q elems facets degree GE TI ltac:(lia) f g h U Hf El (fun i q => eo_n _ _ _ _ PO f g h i q Hf El) (P2 g h El)) as [_ B].
      rewrite Hd in B. fold D in B. pose proof (jump_le f g h U Hf) as J.
      pose proof (wo_trace _ _ _ _ _ WO f g (U g) Hf Ig) as Tg. pose proof (wo_trace _ _ _ _ _ WO f h (U h) Hf Ih) as Th.
      assert (A : ep_pen Q f * jump2 Q f g h U <= ep_pen Q f * (2 * (trace_constant dim degree * (efacet_area Q f / volume P g) * norm2 Q g (U g)) +
        2 * (trace_constant dim degree * (efacet_area Q f / volume P h) * norm2 Q h (U h)))) by (apply Rmult_le_compat_l; auto; lra).
      lra. }
  pose proof (shares_le k procs elems facets bc m MP Q GE U Hk) as S. fold D in S.
  assert (DS : lsum (fun f => lsum (bnd f) (elements_of elems f)) facets = lsum (fun g => lsum (fun f => bnd f g) (facets_of elems facets g)) (seq 0 (length elems))).
  { unfold elements_of, facets_of. set (b f g := forallb (fun v => existsb (Nat.eqb v) (nth g elems [])) f).
    rewrite (lsum_ext _ (fun f => lsum (fun g => if b f g then bnd f g else 0) (seq 0 (length elems)))) by (intros; apply lsum_filter).
    rewrite lsum_swap. apply lsum_ext. intros g _. symmetry. apply (lsum_filter (fun f => b f g)). }
  unfold elastic_form. change (lsum (fun g => evol_term Q g U U) (seq 0 (length elems))) with (lsum (fun g => eenergy Q g U) (seq 0 (length elems))).
  apply Rle_trans with (lsum (fun g => 2 * eenergy Q g U + lsum (fun f => bnd f g) (facets_of elems facets g)) (seq 0 (length elems))).
  { rewrite lsum_plus, lsum_scale. lra. }
  apply lsum_le. intros g Hg. apply in_seq in Hg. assert (Hl : (g < length elems)%nat) by lia. clear F S DS.
  pose proof (energy_le_grad g U Hl) as En. pose proof (wo_grad _ _ _ _ _ WO g (U g) Hl) as Gr. pose proof (norm_le_mass g (U g) Hl) as Nm.
  pose proof (norm2_nonneg g (U g) Hl) as N0. pose proof (eg_c1 _ _ _ GE g Hl) as C1. pose proof (Rho g Hl) as R1. pose proof (wo_constant _ _ _ _ _ WO) as C0.
  assert (M0 : norm2 Q g (U g) <= mass_in Q g (U g) (U g)).
  { assert (0 <= mass_in Q g (U g) (U g)); [|nra]. apply rsum_nonneg. intros q Hq. pose proof (eg_W _ _ _ GE q Hq). pose proof (eg_J _ _ _ GE g q Hl Hq).
    destruct (wo_rho _ _ _ _ _ WO g q Hl Hq) as [R0 _]. apply Rmult_le_pos; [nra|]. apply Rmult_le_pos; [apply Rlt_le, Rinv_0_lt_compat; auto|].
    apply rsum_nonneg. intros. apply Rle_0_sqr. }
  set (h := boundary_area Q elems facets g / volume P g) in *. set (M := mass_in Q g (U g) (U g)) in *. set (ir := inverse_density_upper_bound E g) in *. set (c1 := stiffness_c1 E g) in *.
  assert (A : 2 * eenergy Q g U <= 2 * (c1 * ir * C * h * h) * M).
  { assert (c1 * grad2 Q g (U g) <= c1 * (C * h * h * norm2 Q g (U g))) by (apply Rmult_le_compat_l; lra).
    assert (0 <= C * h * h) by (rewrite Rmult_assoc; apply Rmult_le_pos; [auto|apply Rle_0_sqr]).
    assert (C * h * h * norm2 Q g (U g) <= C * h * h * (ir * M)) by (apply Rmult_le_compat_l; auto).
    assert (c1 * (C * h * h * norm2 Q g (U g)) <= c1 * (C * h * h * (ir * M))) by (apply Rmult_le_compat_l; lra). lra. }
  assert (B : lsum (fun f => bnd f g) (facets_of elems facets g) <=
    2 * lsum (fun f => sides elems f * ep_pen Q f * trace_constant dim degree * efacet_area Q f / volume P g) (facets_of elems facets g) * M).
  { rewrite Rmult_assoc, (Rmult_comm (lsum _ _) M), <- Rmult_assoc, <- lsum_scale. apply lsum_le. intros f Hf. apply in_facets_elements in Hf as [Hf Ig]; auto.
    unfold bnd. set (x := sides elems f * ep_pen Q f * trace_constant dim degree * (efacet_area Q f / volume P g)).
    assert (X0 : 0 <= x) by (apply Rlt_le; unfold x; apply side_pos; auto).
    apply Rle_trans with (2 * (x * norm2 Q g (U g))); [unfold x; right; ring|].
    apply Rle_trans with (2 * (x * M)); [assert (x * norm2 Q g (U g) <= x * M) by (apply Rmult_le_compat_l; auto); lra|unfold x, Rdiv; right; ring]. }
  unfold element_bound. fold h c1 ir. lra.
Qed.
Lemma lsum_pos {X} (F : X -> R) l : (forall x, In x l -> 0 < F x) -> l <> [] -> 0 < lsum F l.
Proof.
  intros H Hl. destruct l as [|x l]; [congruence|]. cbn [lsum]. pose proof (H x ltac:(cbn; auto)).
  assert (0 <= lsum F l) by (apply lsum_nonneg; intros; apply Rlt_le, H; cbn; auto). lra.
Qed.
Lemma inv_density_pos g : (g < length elems)%nat -> 0 < inverse_density_upper_bound E g.
Proof.
  intro Hg. destruct (p_Nq P) as [|n] eqn:En.
  - pose proof (eg_vol _ _ _ GE g Hg) as V. unfold volume in V. rewrite En in V. cbn in V. lra.
  - destruct (wo_rho _ _ _ _ _ WO g 0 Hg ltac:(lia)). lra.
Qed.
Lemma bound_pos g : (g < length elems)%nat -> facets_of elems facets g <> [] -> 0 < element_bound elems facets Q degree C g.
Proof.
  intros Hg Ne. unfold element_bound.
  assert (F1 : 0 < lsum (fun f => sides elems f * ep_pen Q f * trace_constant dim degree * efacet_area Q f / volume P g) (facets_of elems facets g)).
  { apply lsum_pos; auto. intros f Hf. apply in_facets_elements in Hf as [Hf Ig]; auto. unfold Rdiv. rewrite Rmult_assoc. apply side_pos; auto. }
  assert (F2 : 0 <= stiffness_c1 E g * inverse_density_upper_bound E g * C * (boundary_area Q elems facets g / volume P g) * (boundary_area Q elems facets g / volume P g)).
  { rewrite Rmult_assoc. apply Rmult_le_pos; [|apply Rle_0_sqr]. apply Rmult_le_pos; [|apply (wo_constant _ _ _ _ _ WO)].
    apply Rmult_le_pos; [apply Rlt_le, (eg_c1 _ _ _ GE g Hg)|apply Rlt_le, inv_density_pos; auto]. }
  lra.
Qed.
Lemma mass_nonneg g u : (g < length elems)%nat -> 0 <= mass_in Q g u u.
Proof.
  intro Hl. apply rsum_nonneg. intros q Hq. pose proof (eg_W _ _ _ GE q Hq). pose proof (eg_J _ _ _ GE g q Hl Hq).
  destruct (wo_rho _ _ _ _ _ WO g q Hl Hq) as [R0 _]. apply Rmult_le_pos; [nra|]. apply Rmult_le_pos; [apply Rlt_le, Rinv_0_lt_compat; auto|].
  apply rsum_nonneg. intros. apply Rle_0_sqr.
Qed.
End Upper.

Lemma fold_min_le l : forall d x, In x l -> fold_left Rmin l d <= x.
Proof.
  assert (L : forall l d, fold_left Rmin l d <= d).
  { intro l0. induction l0 as [|a l0 IH]; intro d; cbn [fold_left]; [lra|]. eapply Rle_trans; [apply IH|apply Rmin_l]. }
  induction l as [|a l IH]; intros d x []; cbn [fold_left]; [subst|apply IH; auto]. eapply Rle_trans; [apply L|apply Rmin_r].
Qed.
Lemma fold_min_pos l : forall d, 0 < d -> (forall x, In x l -> 0 < x) -> 0 < fold_left Rmin l d.
Proof.
  induction l as [|a l IH]; intros d Hd H; cbn [fold_left]; auto. apply IH; [|intros; apply H; cbn; auto].
  apply Rmin_pos; auto. apply H. cbn. auto.
Qed.

(** C59: let dt be the time step bound that the ranks agree on.  If the density is at least one, every
    displacement satisfies dt^2 u^T A u <= u^T M u with the assembled matrix A and the mass matrix M,
    and hence every vibration A u = w^2 M u of the discrete equations has w dt <= 1. *)
Theorem time_step_bounds_form : forall k procs elems facets bc m Q E fi degree C A wr t sl dmax,
  mesh_parts k procs elems facets bc m -> eproblem_ok k elems facets Q ->
  (forall p, (p < procs)%nat -> erank_data k Q (m p) (E p) /\ p_method (e_geo (E p)) = IP /\ facet_table k (m p) = Some (fi p)) ->
  (forall p i x, (p < procs)%nat -> nth_error (fi p) i = Some x -> p_pen (e_geo (E p)) i = ElasticityModel.prepare_penalty (E p) degree i x) ->
  p_dim (e_geo (ep_ref Q)) = k -> (0 < k)%nat ->
  egeometry_ok Q elems facets -> etrace_inequality Q elems facets degree -> wave_ok Q elems facets degree C ->
  (forall g l, (g < length elems)%nat -> (l < p_N (e_geo (ep_ref Q)))%nat -> e_rhoInv (ep_ref Q) g l <= 1) ->
  (forall p, (p < procs)%nat -> map_opt (to_global (m p)) (assemble (m p) (fi p) (elasticity_mat (E p))) = Some (A p)) ->
  (forall p, (p < procs)%nat -> interleaving (all_side_writes k (fi p)) (wr p) /\ do_writes (fresh_sides k (m p)) (wr p) = Some (t p)) ->
  (forall p e, (p < procs)%nat -> (e < tm_num_local (m p))%nat -> map_opt (fun d => nth_error (t p) (e * (k + 1) + d)) (seq 0 (k + 1)) = Some (sl p e)) ->
  0 < dmax ->
  let dt := cfl_time_step dmax procs (fun p => local_cfl_time_step dmax (tm_num_local (m p)) (fun e => cfl_dt (E p) degree C e (sl p e))) in
  0 < dt /\ forall U, dt * dt * pairing (block_size (ep_ref Q)) (flat_map A (seq 0 procs)) U U <= mass_form Q elems U U.
Proof.
  intros k procs elems facets bc m Q E fi degree C A wr t sl dmax MP PO RK PEN Hd Hk GE TI WO Rho0 HA TB SL Dm dt.
  assert (Rho : forall g, (g < length elems)%nat -> inverse_density_upper_bound (ep_ref Q) g <= 1) by (intros g Hg; apply max_le; [apply (eg_nodes _ _ _ GE)|intros l Hl; apply Rho0; auto]).
  assert (PG := epenalty_global k procs elems facets bc m MP Q E fi degree RK PEN).
  assert (Own : forall p e, (p < procs)%nat -> (e < tm_num_local (m p))%nat -> exists g, (g < length elems)%nat /\ nth_error (tm_l2cg (m p)) e = Some g /\
    cfl_bound (E p) degree C e (sl p e) = element_bound elems facets Q degree C g /\ 0 < element_bound elems facets Q degree C g).
  { intros p e Hp He. pose proof (mp_mesh _ _ _ _ _ _ MP p Hp) as O. destruct (RK p Hp) as (RD & _ & Efi). destruct (TB p Hp) as (Iw & Et).
    destruct (nth_error_lt (tm_l2cg (m p)) e) as [g Eg]; [rewrite (to_l2cg _ _ O); pose proof (to_local_le _ _ O); lia|].
    destruct (mp_elem _ _ _ _ _ _ MP p e g Hp Eg) as [Hg _]. exists g. split; auto. split; auto. split.
    - apply (bound_global k procs elems facets bc m MP Q degree C p (E p) (fi p) (wr p) (t p)); auto.
    - apply (bound_pos k procs elems facets bc m MP Q degree C Hd Hk GE WO PG); auto. intro Z.
      pose proof (slots_perm k procs elems facets bc m MP p (fi p) (wr p) (t p) e g (sl p e) Hp Efi Iw Et He (SL p e Hp He) Eg) as Pm.
      rewrite Z in Pm. apply Permutation_sym, Permutation_nil in Pm.
      destruct (slots_of k (m p) (fi p) (wr p) (t p) O Efi Iw Et e He) as (sl' & Ls & Esl' & _). rewrite (SL p e Hp He) in Esl'. injection Esl' as <-.
      apply map_eq_nil in Pm. rewrite Pm in Ls. cbn in Ls. lia. }
  assert (D0 : 0 < dt).
  { unfold dt, cfl_time_step. apply fold_min_pos; auto. intros x Hx. apply in_map_iff in Hx as (p & <- & Hp). apply in_seq in Hp.
    unfold local_cfl_time_step. apply fold_min_pos; auto. intros x Hx. apply in_map_iff in Hx as (e & <- & He). apply in_seq in He.
    destruct (Own p e ltac:(lia) ltac:(lia)) as (g & _ & _ & Eb & Pb). unfold cfl_dt. rewrite Eb. apply Rdiv_lt_0_compat; [lra|]. apply sqrt_lt_R0; auto. }
  split; auto. intro U.
  destruct (elasticity_assembly_is_interior_penalty k procs elems facets bc m Q E fi MP PO RK) as (A' & b' & HA' & _ & EQ).
  assert (EA : flat_map A (seq 0 procs) = flat_map A' (seq 0 procs)).
  { apply flat_map_ext_in. intros p Hp. apply in_seq in Hp. pose proof (HA p ltac:(lia)). pose proof (HA' p ltac:(lia)). congruence. }
  rewrite EA, (proj1 (EQ U U)). clear A A' b' HA HA' EQ EA.
  pose proof (form_bounded k procs elems facets bc m MP Q PO degree C Hd Hk GE TI WO PG U Rho) as FB.
  eapply Rle_trans; [apply Rmult_le_compat_l; [nra|exact FB]|]. unfold mass_form. rewrite <- lsum_scale. apply lsum_le. intros g Hg. apply in_seq in Hg.
  assert (Hl : (g < length elems)%nat) by lia. rewrite <- Rmult_assoc. rewrite <- (Rmult_1_l (mass_in Q g (U g) (U g))) at 2.
  apply Rmult_le_compat_r; [apply (mass_nonneg elems facets Q degree C GE WO); auto|].
  destruct (mp_owned _ _ _ _ _ _ MP g Hl) as (p & e & Hp & He & Ee). destruct (Own p e Hp He) as (g' & _ & Eg & Eb & Pb). assert (g' = g) by congruence. subst g'.
  assert (Le : dt <= cfl_dt (E p) degree C e (sl p e)).
  { eapply Rle_trans; [apply fold_min_le, (in_map (fun p => local_cfl_time_step dmax (tm_num_local (m p)) (fun e => cfl_dt (E p) degree C e (sl p e)))), in_seq; split; [lia|exact Hp]|].
    apply fold_min_le, (in_map (fun e => cfl_dt (E p) degree C e (sl p e))), in_seq. lia. }
  unfold cfl_dt in Le. rewrite Eb in Le. set (B := element_bound elems facets Q degree C g) in *.
  assert (Sp : 0 < sqrt B) by (apply sqrt_lt_R0; auto).
  apply Rle_trans with (1 / sqrt B * (1 / sqrt B) * B); [apply Rmult_le_compat_r; [lra|]; apply Rmult_le_compat; lra|].
  rewrite <- (sqrt_sqrt B) at 3 by lra. right. field. lra.
Qed.
Print Assumptions time_step_bounds_form.

(** The frequencies. *)
Theorem time_step_bounds_frequency : forall k procs elems facets bc m Q E fi degree C A wr t sl dmax U w2,
  mesh_parts k procs elems facets bc m -> eproblem_ok k elems facets Q ->
  (forall p, (p < procs)%nat -> erank_data k Q (m p) (E p) /\ p_method (e_geo (E p)) = IP /\ facet_table k (m p) = Some (fi p)) ->
  (forall p i x, (p < procs)%nat -> nth_error (fi p) i = Some x -> p_pen (e_geo (E p)) i = ElasticityModel.prepare_penalty (E p) degree i x) ->
  p_dim (e_geo (ep_ref Q)) = k -> (0 < k)%nat ->
  egeometry_ok Q elems facets -> etrace_inequality Q elems facets degree -> wave_ok Q elems facets degree C ->
  (forall g l, (g < length elems)%nat -> (l < p_N (e_geo (ep_ref Q)))%nat -> e_rhoInv (ep_ref Q) g l <= 1) ->
  (forall p, (p < procs)%nat -> map_opt (to_global (m p)) (assemble (m p) (fi p) (elasticity_mat (E p))) = Some (A p)) ->
  (forall p, (p < procs)%nat -> interleaving (all_side_writes k (fi p)) (wr p) /\ do_writes (fresh_sides k (m p)) (wr p) = Some (t p)) ->
  (forall p e, (p < procs)%nat -> (e < tm_num_local (m p))%nat -> map_opt (fun d => nth_error (t p) (e * (k + 1) + d)) (seq 0 (k + 1)) = Some (sl p e)) ->
  0 < dmax -> 0 < mass_form Q elems U U ->
  (forall V, pairing (block_size (ep_ref Q)) (flat_map A (seq 0 procs)) V U = w2 * mass_form Q elems U V) ->
  let dt := cfl_time_step dmax procs (fun p => local_cfl_time_step dmax (tm_num_local (m p)) (fun e => cfl_dt (E p) degree C e (sl p e))) in
  0 <= w2 /\ sqrt w2 * dt <= 1.
Proof.
  intros k procs elems facets bc m Q E fi degree C A wr t sl dmax U w2 MP PO RK PEN Hd Hk GE TI WO Rho HA TB SL Dm Mp Eig dt.
  destruct (time_step_bounds_form k procs elems facets bc m Q E fi degree C A wr t sl dmax MP PO RK PEN Hd Hk GE TI WO Rho HA TB SL Dm) as [D0 B]. fold dt in D0, B.
  pose proof (elasticity_matrix_positive k procs elems facets bc m Q E fi degree A MP PO RK PEN Hd Hk GE TI HA U) as Po.
  specialize (B U). rewrite (Eig U) in Po, B.
  assert (W : 0 <= w2) by (apply Rnot_lt_le; intro; nra). split; auto.
  assert (L : w2 * (dt * dt) <= 1) by (apply (Rmult_le_reg_r (mass_form Q elems U U)); lra).
  pose proof (sqrt_pos w2) as Sp. pose proof (sqrt_sqrt w2 W) as Sq.
  apply Rnot_lt_le. intro H. assert (1 * 1 < sqrt w2 * dt * (sqrt w2 * dt)) by (apply Rmult_gt_0_lt_compat; lra). nra.
Qed.
Print Assumptions time_step_bounds_frequency.
