(** The elastic form of Bassi and Rebay is symmetric and nonnegative where the Lame parameters are constant in each element. *)
Require Import List Arith Lia Bool Reals Lra.
Require Import Verif.Base Verif.LinAlg Verif.LocalMeshModel Verif.LocalMeshProps Verif.TopoModel Verif.TopoSpec Verif.TopoProofs Verif.TopoProps
  Verif.AssembleModel Verif.AssembleSpec Verif.AssembleProofs Verif.AssembleProps Verif.MatFree Verif.PoissonModel Verif.PoissonProofs
  Verif.SipSpec Verif.SipProofs Verif.CoerciveProps Verif.ElasticityModel Verif.ElasticitySpec Verif.ElasticityProofs Verif.ElasticFormSpec Verif.ElasticFormProofs Verif.ElasticFormProps
  Verif.ElasticCoerciveProps Verif.ElasticBr2Spec Verif.ElasticBr2Proofs.
Import ListNotations.
Local Open Scope R_scope.

Section Positive.
Variable Q : eproblem.
Variables (elems facets : list (list nat)) (bc : list nat -> nat) (lam mu : nat -> R).
Local Notation P := (e_geo (ep_ref Q)). Local Notation N := (p_N P). Local Notation dim := (p_dim P). Local Notation nq := (p_nq P). Local Notation Nq := (p_Nq P).
Hypothesis Jp : forall g q, (g < length elems)%nat -> (q < Nq)%nat -> 0 <= p_J P g q.
Hypothesis Wp : forall q, (q < Nq)%nat -> 0 <= p_W P q.
Hypothesis Kp : forall g, (g < length elems)%nat -> 0 <= lam g /\ 0 <= mu g.
Hypothesis Kv : forall g q, (g < length elems)%nat -> (q < Nq)%nat -> lam_in Q g q = lam g /\ mu_in Q g q = mu g.
Hypothesis Kf : forall f g q, In f facets -> In g (elements_of elems f) -> (q < nq)%nat -> lam_on Q f g q = lam g /\ mu_on Q f g q = mu g.

(** The fields with the coefficients a, at a point of g. *)
Local Notation tens g a q := (fun i k => field Q g (a i k) q).
Local Notation tens_on f g a q := (fun i k => field_on Q f g (a i k) q).
(** Integral of C a : b over g. *)
Definition eip (g : nat) (a b : nat -> nat -> nat -> R) : R :=
  rsum Nq (fun q => p_W P q * p_J P g q * contract Q (hooke Q (lam g) (mu g) (tens g a q)) (tens g b q)).
Lemma eip_sym g a b : eip g a b = eip g b a.
Proof. apply rsum_ext. intros. f_equal. apply contract_hooke_sym. Qed.
(** Hooke's law on coefficients. *)
Definition hc (g : nat) (a : nat -> nat -> nat -> R) (i k l : nat) : R := hooke Q (lam g) (mu g) (fun i k => a i k l) i k.
Lemma hooke_comb (g : nat) (B : nat -> R) a i k :
  hooke Q (lam g) (mu g) (fun i k => rsum N (fun l => B l * a i k l)) i k = rsum N (fun l => B l * hc g a i k l).
Proof.
  unfold hc, hooke. set (d := if (i =? k)%nat then 1 else 0).
  transitivity (rsum N (fun l => lam g * d * rsum dim (fun r => B l * a r r l) + mu g * (B l * a i k l + B l * a k i l))).
  - rewrite rsum_plus, !rsum_scale, rsum_plus. f_equal. f_equal. apply rsum_swap.
  - apply rsum_ext. intros. rewrite rsum_scale. ring.
Qed.
Lemma elift_test f g c j r v i k : (i < dim)%nat -> (k < dim)%nat -> is_elifting Q f g c j r ->
  rsum Nq (fun q => p_W P q * p_J P g q * field Q g (r i k) q * field Q g v q) = c * rsum nq (fun q => p_w P q * j q i k * field_on Q f g v q).
Proof.
  intros Hi Hk L.
  transitivity (rsum N (fun t => rsum Nq (fun q => p_W P q * p_J P g q * field Q g (r i k) q * p_EQ P t q) * v t)).
  - rewrite (rsum_ext N _ (fun t => rsum Nq (fun q => p_W P q * p_J P g q * field Q g (r i k) q * p_EQ P t q * v t))) by (intros; rewrite rsum_scale_r; reflexivity).
    rewrite rsum_swap. apply rsum_ext. intros q _. unfold field at 2. rewrite <- rsum_scale. apply rsum_ext. intros. ring.
  - rewrite (rsum_ext N _ (fun t => c * rsum nq (fun q => p_w P q * j q i k * p_E P (ep_loc Q f g) t q) * v t)) by (intros t Ht; rewrite (L i k t Hi Hk Ht); reflexivity).
    rewrite (rsum_ext N _ (fun t => c * rsum nq (fun q => p_w P q * j q i k * (p_E P (ep_loc Q f g) t q * v t)))).
    2: { intros t _. rewrite Rmult_assoc. f_equal. rewrite <- rsum_scale_r. apply rsum_ext. intros. ring. }
    rewrite rsum_scale. f_equal. rewrite rsum_swap. apply rsum_ext. intros q _. unfold field_on. rewrite <- rsum_scale. reflexivity.
Qed.
Lemma elift_ip f g c j r s : is_elifting Q f g c j s ->
  eip g s r = c * rsum nq (fun q => p_w P q * contract Q (hooke Q (lam g) (mu g) (tens_on f g r q)) (j q)).
Proof.
  intro L. rewrite eip_sym. unfold eip, contract.
  transitivity (rsum dim (fun i => rsum dim (fun k => c * rsum nq (fun q => p_w P q * j q i k * field_on Q f g (hc g r i k) q)))).
  - rewrite (rsum_ext Nq _ (fun q => rsum dim (fun i => rsum dim (fun k => p_W P q * p_J P g q * field Q g (s i k) q * field Q g (hc g r i k) q)))).
    2: { intros q _. rewrite <- rsum_scale. apply rsum_ext. intros i _. rewrite <- rsum_scale. apply rsum_ext. intros k _.
         unfold field at 1. rewrite (hooke_comb g (fun l => p_EQ P l q) r i k). unfold field at 3. ring. }
    rewrite rsum_swap. apply rsum_ext. intros i Hi. rewrite rsum_swap. apply rsum_ext. intros k Hk. apply (elift_test f g c j s (hc g r i k) i k Hi Hk L).
  - rewrite (rsum_ext dim _ (fun i => c * rsum dim (fun k => rsum nq (fun q => p_w P q * j q i k * field_on Q f g (hc g r i k) q)))) by (intros; apply rsum_scale).
    rewrite rsum_scale. f_equal.
    rewrite (rsum_ext dim _ (fun i => rsum nq (fun q => rsum dim (fun k => p_w P q * j q i k * field_on Q f g (hc g r i k) q)))) by (intros; apply rsum_swap).
    rewrite rsum_swap. apply rsum_ext. intros q _. rewrite <- rsum_scale. apply rsum_ext. intros i _. rewrite <- rsum_scale. apply rsum_ext. intros k _.
    unfold field_on at 2. rewrite (hooke_comb g (fun l => p_E P (ep_loc Q f g) l q) r i k). unfold field_on. ring.
Qed.
Lemma elift_term_ip f g c x r s : In f facets -> In g (elements_of elems f) -> is_elifting Q f g c x s -> c * elift_term Q f g x r = eip g s r.
Proof.
  intros Hf Hg L. rewrite (elift_ip f g c x r s L). unfold elift_term. f_equal. apply rsum_ext. intros q Hq. destruct (Kf f g q Hf Hg Hq) as [-> ->]. reflexivity.
Qed.
Lemma hooke_scale l u c A i k : hooke Q l u (fun i k => c * A i k) i k = c * hooke Q l u A i k.
Proof. unfold hooke. rewrite rsum_scale. ring. Qed.
Lemma contract_scale_r c A B : contract Q A (fun i k => c * B i k) = c * contract Q A B.
Proof. unfold contract. rewrite <- rsum_scale. apply rsum_ext. intros. rewrite <- rsum_scale. apply rsum_ext. intros. ring. Qed.
Lemma contract_comm A B : contract Q A B = contract Q B A.
Proof. unfold contract. apply rsum_ext. intros. apply rsum_ext. intros. ring. Qed.
Lemma contract_plus_r A B C : contract Q A (fun i k => B i k + C i k) = contract Q A B + contract Q A C.
Proof. unfold contract. rewrite <- rsum_plus. apply rsum_ext. intros. rewrite <- rsum_plus. apply rsum_ext. intros. ring. Qed.
Lemma hooke_square l u A B c : contract Q (hooke Q l u (fun i k => A i k + c * B i k)) (fun i k => A i k + c * B i k) =
  contract Q (hooke Q l u A) A + 2 * c * contract Q (hooke Q l u A) B + c * c * contract Q (hooke Q l u B) B.
Proof.
  rewrite contract_plus_r, contract_scale_r.
  assert (S : forall X, contract Q (hooke Q l u (fun i k => A i k + c * B i k)) X = contract Q (hooke Q l u A) X + c * contract Q (hooke Q l u B) X).
  { intro X. rewrite contract_hooke_sym, contract_plus_r, contract_scale_r, (contract_hooke_sym Q l u X A), (contract_hooke_sym Q l u X B). reflexivity. }
  rewrite !S, (contract_hooke_sym Q l u B A). ring.
Qed.
Lemma hooke_nonneg l u A : 0 <= l -> 0 <= u -> 0 <= contract Q (hooke Q l u A) A.
Proof.
  intros Hl Hu. rewrite energy_density. pose proof (sym2_nonneg Q A). pose proof (Rle_0_sqr (rsum dim (fun r => A r r))). unfold Rsqr in *. 
  apply Rplus_le_le_0_compat; [|apply Rmult_le_pos; lra]. apply Rmult_le_pos; auto.
Qed.
Lemma eip_bound g r d : (g < length elems)%nat -> - (eip g d d / INR (dim + 1)) <= - 2 * eip g r d + INR (dim + 1) * eip g r r.
Proof.
  intro Hg. set (D := INR (dim + 1)). assert (Dp : 0 < D) by (apply lt_0_INR; lia). destruct (Kp g Hg) as [Lp Mp].
  unfold eip. rewrite <- !rsum_scale, <- rsum_plus. unfold Rdiv. rewrite <- rsum_scale_r.
  apply Rle_trans with (-1 * rsum Nq (fun q => p_W P q * p_J P g q * contract Q (hooke Q (lam g) (mu g) (tens g d q)) (tens g d q) * / D)); [lra|].
  rewrite <- rsum_scale. apply rsum_le. intros q Hq. pose proof (hooke_nonneg (lam g) (mu g) (fun i k => tens g r q i k + - / D * tens g d q i k) Lp Mp) as S.
  rewrite hooke_square in S. set (a := contract Q (hooke Q (lam g) (mu g) (tens g r q)) (tens g r q)) in *. set (b := contract Q (hooke Q (lam g) (mu g) (tens g r q)) (tens g d q)) in *.
  set (c := contract Q (hooke Q (lam g) (mu g) (tens g d q)) (tens g d q)) in *.
  assert (S' : 0 <= D * (a + 2 * - / D * b + - / D * - / D * c)) by (apply Rmult_le_pos; lra).
  replace (D * (a + 2 * - / D * b + - / D * - / D * c)) with (D * a - 2 * b + / D * c) in S' by (field; lra).
  assert (WJ : 0 <= p_W P q * p_J P g q) by (apply Rmult_le_pos; auto).
  pose proof (Rmult_le_pos _ _ WJ S'). lra.
Qed.

(** The gradient of u on g is a tensor field d g whose components lie in the space. *)
Definition has_dgradient (U : nat -> nat -> R) (d : nat -> nat -> nat -> nat -> R) : Prop := forall g, (g < length elems)%nat ->
  (forall i k q, (i < dim)%nat -> (k < dim)%nat -> (q < Nq)%nat -> field Q g (d g i k) q = dgrad Q g (U g) q i k) /\
  (forall f i k q, In f facets -> In g (elements_of elems f) -> (i < dim)%nat -> (k < dim)%nat -> (q < nq)%nat -> field_on Q f g (d g i k) q = dgrad_on Q f g (U g) q i k).
Lemma evol_ip U V d e g : (g < length elems)%nat -> has_dgradient U d -> has_dgradient V e -> evol_term Q g U V = eip g (d g) (e g).
Proof.
  intros Hg Hd He. unfold evol_term, eip. apply rsum_ext. intros q Hq. f_equal. unfold stress. destruct (Kv g q Hg Hq) as [-> ->].
  symmetry. apply contract_ext. intros i k Hi Hk. split; [|apply (proj1 (He g Hg)); auto]. apply hooke_ext; auto. intros. apply (proj1 (Hd g Hg)); auto.
Qed.
Lemma estress_ip f g c x s U d : In f facets -> In g (elements_of elems f) -> has_dgradient U d -> is_elifting Q f g c x s ->
  c * rsum nq (fun q => p_w P q * contract Q (stress_on Q f g (U g) q) (x q)) = eip g s (d g).
Proof.
  intros Hf Hg Hd L. pose proof (in_elems elems f g Hg) as Hl. rewrite (elift_ip f g c x (d g) s L). f_equal. apply rsum_ext. intros q Hq. f_equal. unfold stress_on. destruct (Kf f g q Hf Hg Hq) as [-> ->].
  apply contract_ext. intros i k Hi Hk. split; [|reflexivity]. apply hooke_ext; auto. intros. symmetry. apply (proj2 (Hd g Hl)); auto.
Qed.
Lemma eint_ip f g h U V r s d e : In f facets -> elements_of elems f = [g; h] -> has_dgradient U d -> has_dgradient V e ->
  is_elifting Q f g (1 / 2) (djump Q f g h U) (r g) -> is_elifting Q f h (1 / 2) (djump Q f g h U) (r h) ->
  is_elifting Q f g (1 / 2) (djump Q f g h V) (s g) -> is_elifting Q f h (1 / 2) (djump Q f g h V) (s h) ->
  ebr2_int Q f g h r U V = (- eip g (s g) (d g) - eip g (r g) (e g) + INR (dim + 1) * eip g (s g) (r g))
    + (- eip h (s h) (d h) - eip h (r h) (e h) + INR (dim + 1) * eip h (s h) (r h)).
Proof.
  intros Hf El Hd He Rg Rh Sg Sh. assert (Hg : In g (elements_of elems f)) by (rewrite El; cbn; auto). assert (Hh : In h (elements_of elems f)) by (rewrite El; cbn; auto).
  unfold ebr2_int. rewrite (elift_term_ip f g (1 / 2) (djump Q f g h V) (r g) (s g)), (elift_term_ip f h (1 / 2) (djump Q f g h V) (r h) (s h)) by auto.
  assert (F : forall X Y, rsum nq (fun q => p_w P q * contract Q (mean_stress Q f g h X q) (djump Q f g h Y q)) =
     1 / 2 * rsum nq (fun q => p_w P q * contract Q (stress_on Q f g (X g) q) (djump Q f g h Y q))
   + 1 / 2 * rsum nq (fun q => p_w P q * contract Q (stress_on Q f h (X h) q) (djump Q f g h Y q))).
  { intros X Y. rewrite <- !rsum_scale, <- rsum_plus. apply rsum_ext. intros q _.
    replace (contract Q (mean_stress Q f g h X q) (djump Q f g h Y q)) with (1 / 2 * contract Q (stress_on Q f g (X g) q) (djump Q f g h Y q) + 1 / 2 * contract Q (stress_on Q f h (X h) q) (djump Q f g h Y q)); [ring|].
    unfold contract. rewrite <- !rsum_scale, <- rsum_plus. apply rsum_ext. intros i _. rewrite <- !rsum_scale, <- rsum_plus. apply rsum_ext. intros k _. unfold mean_stress. ring. }
  replace (rsum nq (fun q => p_w P q * (- contract Q (mean_stress Q f g h U q) (djump Q f g h V q) - contract Q (mean_stress Q f g h V q) (djump Q f g h U q))))
    with (- rsum nq (fun q => p_w P q * contract Q (mean_stress Q f g h U q) (djump Q f g h V q)) - rsum nq (fun q => p_w P q * contract Q (mean_stress Q f g h V q) (djump Q f g h U q))).
  2: { rewrite (rsum_ext nq (fun q => p_w P q * (- _ - _)) (fun q => -1 * (p_w P q * contract Q (mean_stress Q f g h U q) (djump Q f g h V q)) - p_w P q * contract Q (mean_stress Q f g h V q) (djump Q f g h U q))) by (intros; ring).
       rewrite rsum_minus, rsum_scale. ring. }
  rewrite !F. rewrite (estress_ip f g (1 / 2) _ (s g) U d), (estress_ip f h (1 / 2) _ (s h) U d), (estress_ip f g (1 / 2) _ (r g) V e), (estress_ip f h (1 / 2) _ (r h) V e) by auto. ring.
Qed.
Lemma ebnd_ip f g U V r s d e : In f facets -> elements_of elems f = [g] -> has_dgradient U d -> has_dgradient V e ->
  is_elifting Q f g 1 (ebjump Q f g U) (r g) -> is_elifting Q f g 1 (ebjump Q f g V) (s g) ->
  ebr2_bnd Q f g r U V = - eip g (s g) (d g) - eip g (r g) (e g) + INR (dim + 1) * eip g (s g) (r g).
Proof.
  intros Hf El Hd He Rg Sg. assert (Hg : In g (elements_of elems f)) by (rewrite El; cbn; auto).
  unfold ebr2_bnd. rewrite <- (Rmult_1_l (elift_term Q f g (ebjump Q f g V) (r g))). rewrite (elift_term_ip f g 1 (ebjump Q f g V) (r g) (s g)) by auto.
  pose proof (estress_ip f g 1 _ (s g) U d Hf Hg Hd Sg) as F1. pose proof (estress_ip f g 1 _ (r g) V e Hf Hg He Rg) as F2. rewrite Rmult_1_l in F1, F2.
  rewrite (rsum_ext nq _ (fun q => -1 * (p_w P q * contract Q (stress_on Q f g (U g) q) (ebjump Q f g V q))
     - p_w P q * contract Q (stress_on Q f g (V g) q) (ebjump Q f g U q))) by (intros; ring).
  rewrite rsum_minus, rsum_scale, F1, F2. ring.
Qed.
Lemma ebr2_symmetric U V r s d e : elifts_jump Q elems facets U r -> elifts_jump Q elems facets V s -> has_dgradient U d -> has_dgradient V e ->
  ebr2_form Q elems facets bc r U V = ebr2_form Q elems facets bc s V U.
Proof.
  intros LU LV Hd He. unfold ebr2_form. f_equal; apply lsum_ext.
  - intros g Hg. apply in_seq in Hg. rewrite (evol_ip U V d e g), (evol_ip V U e d g) by (auto; lia). rewrite eip_sym. reflexivity.
  - intros f Hf. destruct (LU f Hf) as [U1 U2]. destruct (LV f Hf) as [V1 V2]. unfold ebr2_facet. destruct (elements_of elems f) as [|g [|h [|? ?]]] eqn:El; auto.
    + destruct (bc f =? BC_Natural); auto. rewrite (ebnd_ip f g U V (r f) (s f) d e), (ebnd_ip f g V U (s f) (r f) e d) by auto. rewrite (eip_sym g (s f g) (r f g)). ring.
    + destruct (U2 g h eq_refl). destruct (V2 g h eq_refl). rewrite (eint_ip f g h U V (r f) (s f) d e), (eint_ip f g h V U (s f) (r f) e d) by auto.
      rewrite (eip_sym g (s f g) (r f g)), (eip_sym h (s f h) (r f h)). ring.
Qed.
Lemma eip_nonneg g d : (g < length elems)%nat -> 0 <= eip g d d.
Proof.
  intro Hg. destruct (Kp g Hg). apply rsum_nonneg. intros q Hq. apply Rmult_le_pos; [apply Rmult_le_pos; auto|]. apply hooke_nonneg; auto.
Qed.
(** What facet f takes at most of the energies of its elements. *)
Lemma efacet_bound U r d f : In f facets -> elifts_jump Q elems facets U r -> has_dgradient U d ->
  (exists g h, elements_of elems f = [g] \/ elements_of elems f = [g; h]) ->
  - lsum (fun g => evol_term Q g U U / INR (dim + 1)) (elements_of elems f) <= ebr2_facet Q elems bc f (r f) U U.
Proof.
  intros Hf LU Hd (g & h & El). assert (Dp : 0 < INR (dim + 1)) by (apply lt_0_INR; lia). destruct (LU f Hf) as [U1 U2].
  assert (IE : forall g, In g (elements_of elems f) -> (g < length elems)%nat) by apply in_elems.
  unfold ebr2_facet. destruct El as [El | El]; rewrite El in *; cbn [lsum].
  - assert (Hg : (g < length elems)%nat) by (apply IE; cbn; auto). rewrite (evol_ip U U d d g Hg Hd Hd).
    destruct (bc f =? BC_Natural).
    + assert (0 <= eip g (d g) (d g) / INR (dim + 1)); [|lra]. apply Rmult_le_pos; [apply eip_nonneg; auto|apply Rlt_le, Rinv_0_lt_compat; auto].
    + rewrite (ebnd_ip f g U U (r f) (r f) d d) by auto. pose proof (eip_bound g (r f g) (d g) Hg). lra.
  - assert (Hg : (g < length elems)%nat) by (apply IE; cbn; auto). assert (Hh : (h < length elems)%nat) by (apply IE; cbn; auto).
    destruct (U2 g h eq_refl). rewrite (evol_ip U U d d g Hg Hd Hd), (evol_ip U U d d h Hh Hd Hd). rewrite (eint_ip f g h U U (r f) (r f) d d) by auto.
    pose proof (eip_bound g (r f g) (d g) Hg). pose proof (eip_bound h (r f h) (d h) Hh). lra.
Qed.
End Positive.

Lemma ebr2_nonneg k procs elems facets bc m Q lam mu U r d : mesh_parts k procs elems facets bc m -> p_dim (e_geo (ep_ref Q)) = k ->
  (forall g q, (g < length elems)%nat -> (q < p_Nq (e_geo (ep_ref Q)))%nat -> 0 <= p_J (e_geo (ep_ref Q)) g q) ->
  (forall q, (q < p_Nq (e_geo (ep_ref Q)))%nat -> 0 <= p_W (e_geo (ep_ref Q)) q) ->
  (forall g, (g < length elems)%nat -> 0 <= lam g /\ 0 <= mu g) ->
  (forall g q, (g < length elems)%nat -> (q < p_Nq (e_geo (ep_ref Q)))%nat -> lam_in Q g q = lam g /\ mu_in Q g q = mu g) ->
  (forall f g q, In f facets -> In g (elements_of elems f) -> (q < p_nq (e_geo (ep_ref Q)))%nat -> lam_on Q f g q = lam g /\ mu_on Q f g q = mu g) ->
  elifts_jump Q elems facets U r -> has_dgradient Q elems facets U d -> 0 <= ebr2_form Q elems facets bc r U U.
Proof.
  intros MP Hd Jp Wp Kp Kv Kf LU Hg. unfold ebr2_form. set (D := INR (k + 1)). assert (Dp : 0 < D) by (apply lt_0_INR; lia).
  assert (F : lsum (fun f => - lsum (fun g => evol_term Q g U U / D) (elements_of elems f)) facets <= lsum (fun f => ebr2_facet Q elems bc f (r f) U U) facets).
  { apply lsum_le. intros f Hf. unfold D. rewrite <- Hd. apply (efacet_bound Q elems facets bc lam mu Jp Wp Kp Kv Kf U r d f Hf LU Hg). apply (facet_one_or_two k procs elems facets bc m MP f Hf). }
  assert (E0 : forall g, (g < length elems)%nat -> 0 <= evol_term Q g U U).
  { intros g Hl. rewrite (evol_ip Q elems facets lam mu Kv U U d d g) by auto. apply (eip_nonneg Q elems lam mu); auto. }
  assert (S : lsum (fun f => lsum (fun g => evol_term Q g U U / D) (elements_of elems f)) facets <= lsum (fun g => evol_term Q g U U) (seq 0 (length elems))).
  { unfold elements_of. rewrite (double_sum (fun f g => forallb (fun v => existsb (Nat.eqb v) (nth g elems [])) f)).
    apply lsum_le. intros g Hl. apply in_seq in Hl. pose proof (facet_count k procs elems facets bc m g MP ltac:(lia)) as C.
    apply le_INR in C. fold D in C. pose proof (E0 g ltac:(lia)) as En.
    apply (Rmult_le_reg_r D); auto. unfold Rdiv. rewrite <- Rmult_assoc, Rmult_assoc, Rinv_l, Rmult_1_r by lra. rewrite Rmult_comm. apply Rmult_le_compat_l; auto. }
  assert (Z : lsum (fun f => - lsum (fun g => evol_term Q g U U / D) (elements_of elems f)) facets = - lsum (fun f => lsum (fun g => evol_term Q g U U / D) (elements_of elems f)) facets).
  { rewrite (lsum_ext _ (fun f => -1 * lsum (fun g => evol_term Q g U U / D) (elements_of elems f))) by (intros; ring). rewrite lsum_scale. ring. }
  lra.
Qed.
