(** The form of Bassi and Rebay is symmetric and nonnegative where the coefficient is constant in each element. *)
Require Import List Arith Lia Bool Reals Lra.
Require Import Verif.Base Verif.LinAlg Verif.LocalMeshModel Verif.LocalMeshProps Verif.TopoModel Verif.TopoSpec Verif.TopoProofs Verif.TopoProps
  Verif.AssembleModel Verif.AssembleSpec Verif.AssembleProofs Verif.AssembleProps Verif.MatFree Verif.PoissonModel Verif.PoissonProofs
  Verif.SipSpec Verif.SipProofs Verif.CoerciveProps Verif.Br2Spec Verif.Br2Proofs.
Import ListNotations.
Local Open Scope R_scope.

Section Positive.
Variable Q : problem.
Variables (elems facets : list (list nat)) (bc : list nat -> nat) (jac kap : nat -> R).
Local Notation P := (pb_ref Q). Local Notation N := (p_N P). Local Notation dim := (p_dim P). Local Notation nq := (p_nq P). Local Notation Nq := (p_Nq P).
Hypothesis ST : constant_jacobian Q elems jac.
Hypothesis Wp : forall q, (q < Nq)%nat -> 0 <= p_W P q.
Hypothesis Kp : forall g, (g < length elems)%nat -> 0 <= kap g.
Hypothesis Kv : forall g q, (g < length elems)%nat -> (q < Nq)%nat -> kappa Q g q = kap g.
Hypothesis Kf : forall f g q, In f facets -> In g (elements_of elems f) -> (q < nq)%nat -> kappa_on Q f g q = kap g.

(** Integral of a . b over g. *)
Definition ip (g : nat) (a b : nat -> nat -> R) : R :=
  rsum Nq (fun q => p_W P q * p_J P g q * rsum dim (fun i => value Q g (a i) q * value Q g (b i) q)).
Lemma ip_sym g a b : ip g a b = ip g b a.
Proof. apply rsum_ext. intros. f_equal. apply rsum_ext. intros. ring. Qed.
Lemma lift_test f g c j r v i : (i < dim)%nat -> is_lifting Q f g c j r ->
  rsum Nq (fun q => p_W P q * p_J P g q * value Q g (r i) q * value Q g v q) = c * rsum nq (fun q => p_w P q * j i q * trace Q f g v q).
Proof.
  intros Hi L.
  transitivity (rsum N (fun t => rsum Nq (fun q => p_W P q * p_J P g q * value Q g (r i) q * p_EQ P t q) * v t)).
  - rewrite (rsum_ext N _ (fun t => rsum Nq (fun q => p_W P q * p_J P g q * value Q g (r i) q * p_EQ P t q * v t))) by (intros; rewrite rsum_scale_r; reflexivity).
    rewrite rsum_swap. apply rsum_ext. intros q _. unfold value at 2. rewrite <- rsum_scale. apply rsum_ext. intros. ring.
  - rewrite (rsum_ext N _ (fun t => c * rsum nq (fun q => p_w P q * j i q * p_E P (pb_loc Q f g) t q) * v t)) by (intros t Ht; rewrite (L i t Hi Ht); reflexivity).
    rewrite (rsum_ext N _ (fun t => c * rsum nq (fun q => p_w P q * j i q * (p_E P (pb_loc Q f g) t q * v t)))).
    2: { intros t _. rewrite Rmult_assoc. f_equal. rewrite <- rsum_scale_r. apply rsum_ext. intros. ring. }
    rewrite rsum_scale. f_equal. rewrite rsum_swap. apply rsum_ext. intros q _. unfold trace. rewrite <- rsum_scale. reflexivity.
Qed.
Lemma lift_ip f g c j r v : is_lifting Q f g c j r ->
  ip g r v = c * rsum nq (fun q => p_w P q * rsum dim (fun i => j i q * trace Q f g (v i) q)).
Proof.
  intro L. unfold ip.
  transitivity (rsum dim (fun i => rsum Nq (fun q => p_W P q * p_J P g q * value Q g (r i) q * value Q g (v i) q))).
  - rewrite rsum_swap. apply rsum_ext. intros q _. rewrite <- rsum_scale. apply rsum_ext. intros. ring.
  - rewrite (rsum_ext dim _ (fun i => c * rsum nq (fun q => p_w P q * j i q * trace Q f g (v i) q))) by (intros i Hi; apply (lift_test f g c j r (v i) i Hi L)).
    rewrite rsum_scale. f_equal. rewrite rsum_swap. apply rsum_ext. intros q _. rewrite <- rsum_scale. apply rsum_ext. intros. ring.
Qed.
Lemma lift_term_ip f g c x r s : In f facets -> In g (elements_of elems f) -> is_lifting Q f g c x s -> c * lift_term Q f g x r = kap g * ip g s r.
Proof.
  intros Hf Hg L. rewrite (lift_ip f g c x s r L). unfold lift_term.
  rewrite (rsum_ext nq _ (fun q => kap g * (p_w P q * rsum dim (fun i => x i q * trace Q f g (r i) q)))) by (intros q Hq; rewrite (Kf f g q Hf Hg Hq); ring).
  rewrite rsum_scale. ring.
Qed.
Lemma ip_bound g r d : (g < length elems)%nat -> - (ip g d d / INR (dim + 1)) <= - 2 * ip g r d + INR (dim + 1) * ip g r r.
Proof.
  intro Hg. set (D := INR (dim + 1)). assert (Dp : 0 < D) by (apply lt_0_INR; lia). destruct (ST g Hg) as [J0 J].
  unfold ip. rewrite <- !rsum_scale, <- rsum_plus. unfold Rdiv. rewrite <- rsum_scale_r.
  apply Rle_trans with (-1 * rsum Nq (fun q => p_W P q * p_J P g q * rsum dim (fun i => value Q g (d i) q * value Q g (d i) q) * / D)); [lra|].
  rewrite <- rsum_scale. apply rsum_le. intros q Hq.
  replace (- 2 * (p_W P q * p_J P g q * rsum dim (fun i => value Q g (r i) q * value Q g (d i) q)) + D * (p_W P q * p_J P g q * rsum dim (fun i => value Q g (r i) q * value Q g (r i) q)))
    with (p_W P q * p_J P g q * (-2 * rsum dim (fun i => value Q g (r i) q * value Q g (d i) q) + D * rsum dim (fun i => value Q g (r i) q * value Q g (r i) q))) by ring.
  replace (-1 * (p_W P q * p_J P g q * rsum dim (fun i => value Q g (d i) q * value Q g (d i) q) * / D))
    with (p_W P q * p_J P g q * (- / D * rsum dim (fun i => value Q g (d i) q * value Q g (d i) q))) by ring.
  apply Rmult_le_compat_l.
  - rewrite J by auto. specialize (Wp q Hq). nra.
  - rewrite <- !rsum_scale, <- rsum_plus. apply rsum_le. intros i _. set (a := value Q g (r i) q). set (b := value Q g (d i) q).
    assert (0 <= D * ((a - / D * b) * (a - / D * b))) by (pose proof (Rle_0_sqr (a - / D * b)); unfold Rsqr in *; nra).
    replace (D * ((a - / D * b) * (a - / D * b))) with (-2 * (a * b) + D * (a * a) + / D * (b * b)) in H by (field; lra). lra.
Qed.

(** The gradient of u on g is a vector field d g whose components lie in the space. *)
Definition has_gradient (U : nat -> nat -> R) (d : nat -> nat -> nat -> R) : Prop := forall g, (g < length elems)%nat ->
  (forall i q, (i < dim)%nat -> (q < Nq)%nat -> value Q g (d g i) q = grad Q g (U g) i q) /\
  (forall f i q, In f facets -> In g (elements_of elems f) -> (i < dim)%nat -> (q < nq)%nat -> trace Q f g (d g i) q = grad_on Q f g (U g) i q).
Lemma vol_ip U V d e g : (g < length elems)%nat -> has_gradient U d -> has_gradient V e -> vol_term Q g U V = kap g * ip g (d g) (e g).
Proof.
  intros Hg Hd He. unfold vol_term, ip. rewrite <- rsum_scale. apply rsum_ext. intros q Hq. rewrite (Kv g q Hg Hq).
  rewrite (rsum_ext dim (fun i => value Q g (d g i) q * _) (fun i => grad Q g (U g) i q * grad Q g (V g) i q)); [ring|].
  intros i Hi. rewrite (proj1 (Hd g Hg) i q Hi Hq), (proj1 (He g Hg) i q Hi Hq). reflexivity.
Qed.
(** The flux of u against the jump x, on one side. *)
Lemma flux_ip f g c x s U d : In f facets -> In g (elements_of elems f) -> has_gradient U d -> is_lifting Q f g c x s ->
  c * rsum nq (fun q => p_w P q * rsum dim (fun i => kappa_on Q f g q * grad_on Q f g (U g) i q * x i q)) = kap g * ip g s (d g).
Proof.
  intros Hf Hg Hd L. pose proof (in_elems elems f g Hg) as Hl. rewrite (lift_ip f g c x s (d g) L).
  rewrite (rsum_ext nq _ (fun q => kap g * (p_w P q * rsum dim (fun i => x i q * trace Q f g (d g i) q)))).
  - rewrite rsum_scale. ring.
  - intros q Hq. rewrite <- !rsum_scale. apply rsum_ext. intros i Hi. rewrite (Kf f g q Hf Hg Hq), (proj2 (Hd g Hl) f i q Hf Hg Hi Hq). ring.
Qed.
Lemma int_ip f g h U V r s d e : In f facets -> elements_of elems f = [g; h] -> has_gradient U d -> has_gradient V e ->
  is_lifting Q f g (1 / 2) (jump Q f g h U) (r g) -> is_lifting Q f h (1 / 2) (jump Q f g h U) (r h) ->
  is_lifting Q f g (1 / 2) (jump Q f g h V) (s g) -> is_lifting Q f h (1 / 2) (jump Q f g h V) (s h) ->
  br2_int Q f g h r U V = kap g * (- ip g (s g) (d g) - ip g (r g) (e g) + INR (dim + 1) * ip g (s g) (r g))
    + kap h * (- ip h (s h) (d h) - ip h (r h) (e h) + INR (dim + 1) * ip h (s h) (r h)).
Proof.
  intros Hf El Hd He Rg Rh Sg Sh. assert (Hg : In g (elements_of elems f)) by (rewrite El; cbn; auto). assert (Hh : In h (elements_of elems f)) by (rewrite El; cbn; auto).
  unfold br2_int. rewrite (lift_term_ip f g (1 / 2) (jump Q f g h V) (r g) (s g)), (lift_term_ip f h (1 / 2) (jump Q f g h V) (r h) (s h)) by auto.
  assert (F : forall X Y, rsum nq (fun q => p_w P q * rsum dim (fun i => mean_flux Q f g h X i q * jump Q f g h Y i q)) =
     1 / 2 * rsum nq (fun q => p_w P q * rsum dim (fun i => kappa_on Q f g q * grad_on Q f g (X g) i q * jump Q f g h Y i q))
   + 1 / 2 * rsum nq (fun q => p_w P q * rsum dim (fun i => kappa_on Q f h q * grad_on Q f h (X h) i q * jump Q f g h Y i q))).
  { intros X Y. rewrite <- !rsum_scale, <- rsum_plus. apply rsum_ext. intros q _. rewrite <- !Rmult_assoc, !(Rmult_comm (1 / 2)), !Rmult_assoc, <- Rmult_plus_distr_l. f_equal.
    rewrite <- !rsum_scale, <- rsum_plus. apply rsum_ext. intros i _. unfold mean_flux. ring. }
  replace (rsum nq (fun q => p_w P q * (- rsum dim (fun i => mean_flux Q f g h U i q * jump Q f g h V i q) - rsum dim (fun i => mean_flux Q f g h V i q * jump Q f g h U i q))))
    with (- rsum nq (fun q => p_w P q * rsum dim (fun i => mean_flux Q f g h U i q * jump Q f g h V i q)) - rsum nq (fun q => p_w P q * rsum dim (fun i => mean_flux Q f g h V i q * jump Q f g h U i q))).
  2: { rewrite (rsum_ext nq (fun q => p_w P q * (- _ - _)) (fun q => -1 * (p_w P q * rsum dim (fun i => mean_flux Q f g h U i q * jump Q f g h V i q)) - p_w P q * rsum dim (fun i => mean_flux Q f g h V i q * jump Q f g h U i q))) by (intros; ring).
       rewrite rsum_minus, rsum_scale. ring. }
  rewrite !F. rewrite (flux_ip f g (1 / 2) _ (s g) U d), (flux_ip f h (1 / 2) _ (s h) U d), (flux_ip f g (1 / 2) _ (r g) V e), (flux_ip f h (1 / 2) _ (r h) V e) by auto. ring.
Qed.
Lemma bnd_ip f g U V r s d e : In f facets -> elements_of elems f = [g] -> has_gradient U d -> has_gradient V e ->
  is_lifting Q f g 1 (bjump Q f g U) (r g) -> is_lifting Q f g 1 (bjump Q f g V) (s g) ->
  br2_bnd Q f g r U V = kap g * (- ip g (s g) (d g) - ip g (r g) (e g) + INR (dim + 1) * ip g (s g) (r g)).
Proof.
  intros Hf El Hd He Rg Sg. assert (Hg : In g (elements_of elems f)) by (rewrite El; cbn; auto).
  unfold br2_bnd. rewrite <- (Rmult_1_l (lift_term Q f g (bjump Q f g V) (r g))). rewrite (lift_term_ip f g 1 (bjump Q f g V) (r g) (s g)) by auto.
  pose proof (flux_ip f g 1 _ (s g) U d Hf Hg Hd Sg) as F1. pose proof (flux_ip f g 1 _ (r g) V e Hf Hg He Rg) as F2. rewrite Rmult_1_l in F1, F2.
  rewrite (rsum_ext nq _ (fun q => -1 * (p_w P q * rsum dim (fun i => kappa_on Q f g q * grad_on Q f g (U g) i q * bjump Q f g V i q))
     - p_w P q * rsum dim (fun i => kappa_on Q f g q * grad_on Q f g (V g) i q * bjump Q f g U i q))) by (intros; ring).
  rewrite rsum_minus, rsum_scale, F1, F2. ring.
Qed.
Lemma br2_symmetric U V r s d e : lifts_jump Q elems facets U r -> lifts_jump Q elems facets V s -> has_gradient U d -> has_gradient V e ->
  br2_form Q elems facets bc r U V = br2_form Q elems facets bc s V U.
Proof.
  intros LU LV Hd He. unfold br2_form. f_equal; apply lsum_ext.
  - intros g Hg. apply in_seq in Hg. rewrite (vol_ip U V d e g), (vol_ip V U e d g) by (auto; lia). rewrite ip_sym. reflexivity.
  - intros f Hf. destruct (LU f Hf) as [U1 U2]. destruct (LV f Hf) as [V1 V2]. unfold br2_facet. destruct (elements_of elems f) as [|g [|h [|? ?]]] eqn:El; auto.
    + destruct (bc f =? BC_Natural); auto. rewrite (bnd_ip f g U V (r f) (s f) d e), (bnd_ip f g V U (s f) (r f) e d) by auto. rewrite (ip_sym g (s f g) (r f g)). ring.
    + destruct (U2 g h eq_refl). destruct (V2 g h eq_refl). rewrite (int_ip f g h U V (r f) (s f) d e), (int_ip f g h V U (s f) (r f) e d) by auto.
      rewrite (ip_sym g (s f g) (r f g)), (ip_sym h (s f h) (r f h)). ring.
Qed.
Lemma ip_nonneg g d : (g < length elems)%nat -> 0 <= ip g d d.
Proof.
  intro Hg. destruct (ST g Hg) as [J0 J]. apply rsum_nonneg. intros q Hq. rewrite J by auto. specialize (Wp q Hq).
  apply Rmult_le_pos; [nra|]. apply rsum_nonneg. intros. apply Rle_0_sqr.
Qed.
(** What facet f takes at most of the energies of its elements. *)
Lemma facet_bound U r d f : In f facets -> lifts_jump Q elems facets U r -> has_gradient U d ->
  (exists g h, elements_of elems f = [g] \/ elements_of elems f = [g; h]) ->
  - lsum (fun g => vol_term Q g U U / INR (dim + 1)) (elements_of elems f) <= br2_facet Q elems bc f (r f) U U.
Proof.
  intros Hf LU Hd (g & h & El). assert (Dp : 0 < INR (dim + 1)) by (apply lt_0_INR; lia). destruct (LU f Hf) as [U1 U2].
  assert (B : forall g t, (g < length elems)%nat -> - (kap g * ip g (d g) (d g) / INR (dim + 1)) <= kap g * (- ip g t (d g) - ip g t (d g) + INR (dim + 1) * ip g t t)).
  { intros g' t Hg'. pose proof (ip_bound g' t (d g') Hg') as B. pose proof (Kp g' Hg').
    replace (- (kap g' * ip g' (d g') (d g') / INR (dim + 1))) with (kap g' * - (ip g' (d g') (d g') / INR (dim + 1))) by (field; lra).
    apply Rmult_le_compat_l; auto. lra. }
  assert (IE : forall g, In g (elements_of elems f) -> (g < length elems)%nat) by apply in_elems.
  unfold br2_facet. destruct El as [El | El]; rewrite El in *; cbn [lsum].
  - assert (Hg : (g < length elems)%nat) by (apply IE; cbn; auto). rewrite (vol_ip U U d d g Hg Hd Hd).
    destruct (bc f =? BC_Natural).
    + assert (0 <= kap g * ip g (d g) (d g) / INR (dim + 1)); [|lra]. apply Rmult_le_pos; [apply Rmult_le_pos; [auto|apply ip_nonneg; auto]|apply Rlt_le, Rinv_0_lt_compat; auto].
    + rewrite (bnd_ip f g U U (r f) (r f) d d) by auto. pose proof (B g (r f g) Hg). lra.
  - assert (Hg : (g < length elems)%nat) by (apply IE; cbn; auto). assert (Hh : (h < length elems)%nat) by (apply IE; cbn; auto).
    destruct (U2 g h eq_refl). rewrite (vol_ip U U d d g Hg Hd Hd), (vol_ip U U d d h Hh Hd Hd). rewrite (int_ip f g h U U (r f) (r f) d d) by auto.
    pose proof (B g (r f g) Hg). pose proof (B h (r f h) Hh). lra.
Qed.
End Positive.

Lemma br2_nonneg k procs elems facets bc m Q jac kap U r d : mesh_parts k procs elems facets bc m -> p_dim (pb_ref Q) = k ->
  constant_jacobian Q elems jac -> (forall q, (q < p_Nq (pb_ref Q))%nat -> 0 <= p_W (pb_ref Q) q) ->
  (forall g, (g < length elems)%nat -> 0 <= kap g) ->
  (forall g q, (g < length elems)%nat -> (q < p_Nq (pb_ref Q))%nat -> kappa Q g q = kap g) ->
  (forall f g q, In f facets -> In g (elements_of elems f) -> (q < p_nq (pb_ref Q))%nat -> kappa_on Q f g q = kap g) ->
  lifts_jump Q elems facets U r -> has_gradient Q elems facets U d -> 0 <= br2_form Q elems facets bc r U U.
Proof.
  intros MP Hd ST Wp Kp Kv Kf LU Hg. unfold br2_form. set (D := INR (k + 1)). assert (Dp : 0 < D) by (apply lt_0_INR; lia).
  assert (F : lsum (fun f => - lsum (fun g => vol_term Q g U U / D) (elements_of elems f)) facets <= lsum (fun f => br2_facet Q elems bc f (r f) U U) facets).
  { apply lsum_le. intros f Hf. unfold D. rewrite <- Hd. apply (facet_bound Q elems facets bc jac kap ST Wp Kp Kv Kf U r d f Hf LU Hg). apply (facet_one_or_two k procs elems facets bc m MP f Hf). }
  assert (E0 : forall g, (g < length elems)%nat -> 0 <= vol_term Q g U U).
  { intros g Hl. rewrite (vol_ip Q elems facets kap Kv U U d d g) by auto. apply Rmult_le_pos; auto. apply (ip_nonneg Q elems jac); auto. }
  assert (S : lsum (fun f => lsum (fun g => vol_term Q g U U / D) (elements_of elems f)) facets <= lsum (fun g => vol_term Q g U U) (seq 0 (length elems))).
  { unfold elements_of. rewrite (double_sum (fun f g => forallb (fun v => existsb (Nat.eqb v) (nth g elems [])) f)).
    apply lsum_le. intros g Hl. apply in_seq in Hl. pose proof (facet_count k procs elems facets bc m g MP ltac:(lia)) as C.
    apply le_INR in C. fold D in C. pose proof (E0 g ltac:(lia)) as En.
    apply (Rmult_le_reg_r D); auto. unfold Rdiv. rewrite <- Rmult_assoc, Rmult_assoc, Rinv_l, Rmult_1_r by lra. rewrite Rmult_comm. apply Rmult_le_compat_l; auto. }
  assert (Z : lsum (fun f => - lsum (fun g => vol_term Q g U U / D) (elements_of elems f)) facets = - lsum (fun f => lsum (fun g => vol_term Q g U U / D) (elements_of elems f)) facets).
  { rewrite (lsum_ext _ (fun f => -1 * lsum (fun g => vol_term Q g U U / D) (elements_of elems f))) by (intros; ring). rewrite lsum_scale. ring. }
  lra.
Qed.
