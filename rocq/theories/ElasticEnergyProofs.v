(** Energy of the discrete elastic body as a quadratic function; derivatives along trajectories (C84). *)
Require Import List Arith Lia Bool Reals Lra.
Require Import Verif.Base Verif.LinAlg Verif.AssembleModel Verif.AssembleSpec Verif.MatFree Verif.PoissonModel Verif.SipSpec Verif.CoerciveProps Verif.DefiniteProps
  Verif.ElasticityModel Verif.ElasticitySpec Verif.ElasticityProofs Verif.ElasticFormSpec Verif.ElasticFormProofs Verif.ElasticFormProps Verif.ElasticCflProps Verif.ElasticEnergySpec.
Import ListNotations.
Local Open Scope R_scope.

Section Algebra.
Variables (Q : eproblem) (elems facets : list (list nat)) (bc : list nat -> nat).
Hypothesis OPP : forall f g h i q, In f facets -> elements_of elems f = [g; h] -> ep_n Q f h i q = - ep_n Q f g i q.
Local Notation P := (e_geo (ep_ref Q)). Local Notation dim := (p_dim P).
Local Notation "'ftr'" := (facet_traction Q elems). Local Notation "'fju'" := (facet_jump Q elems). Local Notation "'pre'" := (prescribed Q elems bc).

Lemma data_not_free f : ehas_data Q (bc f) = true -> free elems bc f = false.
Proof.
  unfold ehas_data, free. destruct (elements_of elems f) as [|g [|h t]]; auto. intro H. destruct (Nat.eqb_spec (bc f) BC_Natural) as [E|]; auto.
  rewrite E in H. cbn in H. discriminate.
Qed.
(** The facet part of the form and of the load. *)
Lemma facet_form f U V : In f facets -> efacet_term Q elems bc f U V =
  if free elems bc f then 0 else rsum (p_nq P) (fun q => p_w P q * rsum dim (fun i =>
    - ftr f U q i * fju f V q i - ftr f V q i * fju f U q i + ep_pen Q f * ep_nl Q f q * (fju f U q i * fju f V q i))).
Proof.
  intro Hf. unfold efacet_term, free, facet_traction, facet_jump. destruct (elements_of elems f) as [|g [|h [|a t]]] eqn:El.
  - symmetry. apply rsum_zero. intros q _. rewrite (rsum_zero dim) by (intros; ring). ring.
  - destruct (bc f =? BC_Natural); [reflexivity|]. unfold ebnd_term. apply rsum_ext. intros q _. f_equal. rewrite !contract_outer.
    rewrite (rsum_ext dim (fun i => - _ * _ - _ * _ + _) (fun i => - (disp_on Q f g (V g) q i * rsum dim (fun j => stress_on Q f g (U g) q i j * ep_n Q f g j q))
      - disp_on Q f g (U g) q i * rsum dim (fun j => stress_on Q f g (V g) q i j * ep_n Q f g j q) + ep_pen Q f * ep_nl Q f q * (disp_on Q f g (U g) q i * disp_on Q f g (V g) q i))) by (intros; ring).
    rewrite rsum_plus, rsum_minus, rsum_scale. f_equal. f_equal. rewrite <- (Ropp_involutive (rsum dim (fun i => - _))). f_equal.
    rewrite <- (Rmult_1_l (rsum dim (fun i => - _))), <- Ropp_mult_distr_l_reverse, <- rsum_scale. apply rsum_ext. intros. ring.
  - assert (J : forall U V q, contract Q (mean_stress Q f g h U q) (djump Q f g h V q) =
      rsum dim (fun i => (disp_on Q f g (V g) q i - disp_on Q f h (V h) q i) * rsum dim (fun j => mean_stress Q f g h U q i j * ep_n Q f g j q))).
    { intros U' V' q. unfold djump. rewrite contract_plus, !contract_outer, <- rsum_plus. apply rsum_ext. intros i _.
      rewrite (rsum_ext dim (fun j => _ * ep_n Q f h j q) (fun j => -1 * (mean_stress Q f g h U' q i j * ep_n Q f g j q))) by (intros; rewrite (OPP f g h) by auto; ring).
      rewrite rsum_scale. ring. }
    unfold eint_term. apply rsum_ext. intros q _. f_equal. rewrite !J.
    rewrite (rsum_ext dim (fun i => - _ * _ - _ * _ + _) (fun i => -1 * ((disp_on Q f g (V g) q i - disp_on Q f h (V h) q i) * rsum dim (fun j => mean_stress Q f g h U q i j * ep_n Q f g j q))
      - (disp_on Q f g (U g) q i - disp_on Q f h (U h) q i) * rsum dim (fun j => mean_stress Q f g h V q i j * ep_n Q f g j q)
      + ep_pen Q f * ep_nl Q f q * ((disp_on Q f g (U g) q i - disp_on Q f h (U h) q i) * (disp_on Q f g (V g) q i - disp_on Q f h (V h) q i)))) by (intros; ring).
    rewrite rsum_plus, rsum_minus, !rsum_scale. ring.
  - symmetry. apply rsum_zero. intros q _. rewrite (rsum_zero dim) by (intros; ring). ring.
Qed.
Lemma facet_load f V : efacet_load Q elems bc f V =
  if ehas_data Q (bc f) then rsum (p_nq P) (fun q => p_w P q * rsum dim (fun i => pre f q i * (ep_pen Q f * ep_nl Q f q * fju f V q i - ftr f V q i))) else 0.
Proof.
  unfold efacet_load, prescribed, facet_traction, facet_jump. destruct (ehas_data Q (bc f)); [|reflexivity].
  destruct (elements_of elems f) as [|g [|h [|a t]]] eqn:El.
  - symmetry. apply rsum_zero. intros q _. rewrite (rsum_zero dim) by (intros; ring). ring.
  - unfold ebnd_load. apply rsum_ext. intros q _. f_equal. rewrite contract_outer, <- rsum_scale.
    rewrite <- (Rmult_1_l (rsum dim (fun i => ep_value Q f i q * _))), <- Ropp_mult_distr_l_reverse, <- rsum_scale, <- rsum_plus. apply rsum_ext. intros. ring.
  - unfold eint_load. apply rsum_ext. intros q _. f_equal. rewrite contract_outer, <- rsum_scale.
    rewrite <- (Rmult_1_l (rsum dim (fun i => ep_jump Q f g i q * _))), <- Ropp_mult_distr_l_reverse, <- rsum_scale, <- rsum_plus. apply rsum_ext. intros. ring.
  - symmetry. apply rsum_zero. intros q _. rewrite (rsum_zero dim) by (intros; ring). ring.
Qed.
(** The part that does not depend on the displacement. *)
Definition data_energy : R := 1 / 2 * lsum (fun f => rsum (p_nq P) (fun q => p_w P q * rsum dim (fun i => ep_pen Q f * ep_nl Q f q * (pre f q i * pre f q i)))) facets.
Lemma stored_is_quadratic U : stored_energy Q elems facets bc U = 1 / 2 * elastic_form Q elems facets bc U U - elastic_load Q elems facets bc U + data_energy.
Proof.
  unfold stored_energy, elastic_form, elastic_load, data_energy.
  assert (V : lsum (fun g => strain_energy Q g U - evol_load Q g U) (seq 0 (length elems)) =
    1 / 2 * lsum (fun g => evol_term Q g U U) (seq 0 (length elems)) - lsum (fun g => evol_load Q g U) (seq 0 (length elems))).
  { rewrite <- lsum_scale. set (l := seq 0 (length elems)). unfold strain_energy. fold (evol_term Q). induction l as [|g l IH]; cbn; [ring|]. rewrite IH. unfold evol_term. ring. }
  rewrite V.
  assert (F : lsum (fun f => defect_energy Q elems bc f U) facets =
    1 / 2 * lsum (fun f => efacet_term Q elems bc f U U) facets - lsum (fun f => efacet_load Q elems bc f U) facets
    + 1 / 2 * lsum (fun f => rsum (p_nq P) (fun q => p_w P q * rsum dim (fun i => ep_pen Q f * ep_nl Q f q * (pre f q i * pre f q i)))) facets).
  { assert (M : forall (a b : list nat -> R) l, lsum a l - lsum b l = lsum (fun f => a f - b f) l) by (intros a b l; induction l as [|x l IH]; cbn; [ring|rewrite <- IH; ring]).
    rewrite <- !lsum_scale, M, <- lsum_plus. apply lsum_ext. intros f Hf. rewrite facet_form, facet_load by auto. unfold defect_energy.
    destruct (ehas_data Q (bc f)) eqn:Eh.
    - rewrite (data_not_free f Eh), <- !rsum_scale, <- rsum_minus, <- rsum_plus. apply rsum_ext. intros q _.
      transitivity (p_w P q * (1 / 2 * rsum dim (fun i => - ftr f U q i * fju f U q i - ftr f U q i * fju f U q i + ep_pen Q f * ep_nl Q f q * (fju f U q i * fju f U q i))
        - rsum dim (fun i => pre f q i * (ep_pen Q f * ep_nl Q f q * fju f U q i - ftr f U q i)) + 1 / 2 * rsum dim (fun i => ep_pen Q f * ep_nl Q f q * (pre f q i * pre f q i)))); [|ring].
      f_equal. rewrite <- !rsum_scale, <- rsum_minus, <- rsum_plus. apply rsum_ext. intros i _. cbv zeta. field.
    - assert (Z : forall q i, pre f q i = 0) by (intros; unfold prescribed; rewrite Eh; reflexivity).
      assert (ZD : rsum (p_nq P) (fun q => p_w P q * rsum dim (fun i => ep_pen Q f * ep_nl Q f q * (pre f q i * pre f q i))) = 0).
      { apply rsum_zero. intros q _. rewrite (rsum_zero dim) by (intros; rewrite Z; ring). ring. }
      rewrite ZD. destruct (free elems bc f); [ring|]. rewrite Rmult_0_r, Rplus_0_r, Rminus_0_r, <- rsum_scale. apply rsum_ext. intros q _.
      transitivity (p_w P q * (1 / 2 * rsum dim (fun i => - ftr f U q i * fju f U q i - ftr f U q i * fju f U q i + ep_pen Q f * ep_nl Q f q * (fju f U q i * fju f U q i)))); [|ring].
      f_equal. rewrite <- rsum_scale. apply rsum_ext. intros i _. cbv zeta. rewrite Z. field. }
  rewrite F. ring.
Qed.
End Algebra.
