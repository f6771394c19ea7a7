(** Facet-wise algebra of the elasticity operator. *)
Require Import List Arith Lia Bool Reals Lra.
Require Import Verif.Base Verif.LinAlg Verif.TopoModel Verif.AssembleModel Verif.ApplyModel Verif.PoissonModel Verif.PenaltyModel Verif.ElasticityModel Verif.ElasticitySpec.
Import ListNotations.
Local Open Scope R_scope.

Lemma rsum_app n m f : rsum (n + m) f = rsum n f + rsum m (fun i => f (n + i)%nat).
Proof.
  induction m; cbn [rsum]; [rewrite Nat.add_0_r; ring|]. rewrite Nat.add_succ_r. cbn [rsum]. rewrite IHm. ring.
Qed.
Lemma rsum_flat n d f : rsum (n * d) f = rsum d (fun p => rsum n (fun k => f (k + n * p)%nat)).
Proof.
  induction d; [rewrite Nat.mul_0_r; reflexivity|]. rewrite Nat.mul_succ_r, rsum_app, IHd. cbn [rsum]. f_equal.
  apply rsum_ext. intros. f_equal. lia.
Qed.
Lemma delta_sum n r f : (r < n)%nat -> rsum n (fun s => delta r s * f s) = f r.
Proof.
  intro H. rewrite (rsum_single n r); auto.
  - unfold delta. rewrite Nat.eqb_refl. ring.
  - intros i _ Hi. unfold delta. destruct (Nat.eqb_spec r i); [congruence|ring].
Qed.
Lemma delta_sym i j : delta i j = delta j i.
Proof. unfold delta. rewrite Nat.eqb_sym. reflexivity. Qed.

Section E.
Variable E : edata.
Local Notation P := (e_geo E).
Local Notation N := (p_N P). Local Notation dim := (p_dim P). Local Notation nq := (p_nq P). Local Notation Nq := (p_Nq P).
Local Notation w := (p_w P).
Local Notation NB := (block_size E).

Lemma bf_ix k p : (k < N)%nat -> bf E (ix E k p) = k.
Proof. intro H. unfold bf, ix. rewrite Nat.mul_comm, Nat.mod_add by lia. apply Nat.mod_small; auto. Qed.
Lemma cp_ix k p : (k < N)%nat -> cp E (ix E k p) = p.
Proof. intro H. unfold cp, ix. rewrite Nat.mul_comm, Nat.div_add by lia. rewrite Nat.div_small by auto. reflexivity. Qed.
Lemma cp_lt K : (K < NB)%nat -> (cp E K < dim)%nat.
Proof. unfold block_size, cp. intro H. apply Nat.div_lt_upper_bound; lia. Qed.
Lemma bf_lt K : (K < NB)%nat -> (bf E K < N)%nat.
Proof. unfold block_size, bf. intro H. apply Nat.mod_upper_bound. lia. Qed.
Lemma ix_parts K : (K < NB)%nat -> ix E (bf E K) (cp E K) = K.
Proof. unfold block_size, bf, cp, ix. intro H. symmetry. rewrite Nat.add_comm. apply Nat.div_mod. lia. Qed.
(** Sums over a block by component and basis function. *)
Lemma sum_block f : rsum NB f = rsum dim (fun p => rsum N (fun k => f (ix E k p))).
Proof. apply rsum_flat. Qed.
Lemma sum_parts (f : nat -> nat -> R) U : rsum NB (fun L => f (bf E L) (cp E L) * U L) = rsum dim (fun p => rsum N (fun k => f k p * U (ix E k p))).
Proof. rewrite sum_block. apply rsum_ext. intros p _. apply rsum_ext. intros k Hk. rewrite bf_ix, cp_ix by auto. reflexivity. Qed.

Lemma tct_form n lam mu Dx U p q : (p < dim)%nat -> tct E n lam mu Dx U p q =
  lam q * rsum dim (fun r => dgr E Dx U r r q) * n p q + mu q * (rsum dim (fun j => n j q * dgr E Dx U p j q) + rsum dim (fun j => n j q * dgr E Dx U j p q)).
Proof.
  intro Hp. unfold tct, sig.
  rewrite (rsum_ext dim _ (fun j => delta p j * (lam q * rsum dim (fun r => dgr E Dx U r r q) * n j q)
    + (mu q * (n j q * dgr E Dx U p j q) + mu q * (n j q * dgr E Dx U j p q)))) by (intros; ring).
  rewrite rsum_plus, delta_sum by auto. rewrite rsum_plus, !rsum_scale. ring.
Qed.

(** The assembled traction operator times U. *)
Lemma top_mul n lam mu Dx U p q : (p < dim)%nat ->
  rsum NB (fun L => traction_op E n lam mu Dx (bf E L) (cp E L) p q * U L) = tct E n lam mu Dx U p q.
Proof.
  intro Hp. rewrite (sum_parts (fun l u => traction_op E n lam mu Dx l u p q)), tct_form by auto.
  transitivity (rsum dim (fun u => (lam q * n p q) * dgr E Dx U u u q + (delta p u * (mu q * rsum dim (fun j => n j q * dgr E Dx U u j q)) + mu q * (n u q * dgr E Dx U u p q)))).
  - apply rsum_ext. intros u _. unfold dgr.
    rewrite (rsum_ext dim _ (fun j => rsum N (fun l => n j q * (Dx l j q * U (ix E l u))))) by (intros; rewrite rsum_scale; reflexivity).
    rewrite rsum_swap, <- !rsum_scale, <- !rsum_plus. apply rsum_ext. intros l _. unfold traction_op.
    rewrite (rsum_ext dim (fun i => n i q * (Dx l i q * U (ix E l u))) (fun i => (n i q * Dx l i q) * U (ix E l u))) by (intros; ring).
    rewrite rsum_scale_r, (delta_sym u p). ring.
  - rewrite !rsum_plus, delta_sum by auto. rewrite !rsum_scale. ring.
Qed.
(** The kernels' traction. *)
Lemma traction_form n lam mu Dx U p q : (p < dim)%nat -> traction E n lam mu Dx U p q = tct E n lam mu Dx U p q.
Proof.
  intro Hp. rewrite tct_form by auto. unfold traction. f_equal; [|f_equal; f_equal].
  - rewrite rsum_swap. rewrite <- rsum_scale, <- rsum_scale_r. apply rsum_ext. intros r _. unfold dgr.
    rewrite <- rsum_scale, <- rsum_scale_r. apply rsum_ext. intros. ring.
  - rewrite rsum_swap. apply rsum_ext. intros r _. unfold dgr. rewrite <- rsum_scale. apply rsum_ext. intros. ring.
  - rewrite rsum_swap. apply rsum_ext. intros r _. unfold dgr. rewrite <- rsum_scale. apply rsum_ext. intros. ring.
Qed.
Lemma Ju_form G f U q r s : Ju_q E G f U q r s = dgr E (Dx_q E G f) U r s q.
Proof.
  unfold Ju_q, dgr, Dx_q. rewrite rsum_swap. apply rsum_ext. intros l _. rewrite <- rsum_scale_r. reflexivity.
Qed.
Lemma constitutive_form lam mu G f U i j q : constitutive_q E lam mu (Ju_q E G f U) i j q = sig E lam mu (Dx_q E G f) U i j q.
Proof.
  unfold constitutive_q, sig. rewrite !Ju_form. f_equal. f_equal. apply rsum_ext. intros r Hr.
  rewrite (rsum_ext dim _ (fun s => delta r s * dgr E (Dx_q E G f) U r s q)) by (intros; rewrite Ju_form; reflexivity).
  apply (delta_sum dim r (fun s => dgr E (Dx_q E G f) U r s q)). auto.
Qed.

Lemma surface_mul fct c0 c1 c2 Ea Eb n lama mua lamb mub Dxa Dxb U K : (K < NB)%nat ->
  rsum NB (fun L => surface E c0 c1 c2 Ea Eb (traction_op E n lama mua Dxa) (traction_op E n lamb mub Dxb) (lift_ip E fct Eb) K L * U L) =
  rsum nq (fun q => w q * (c0 * (Ea (bf E K) q * tct E n lamb mub Dxb U (cp E K) q)
    + c1 * rsum dim (fun u => trc E Eb U u q * traction_op E n lama mua Dxa (bf E K) (cp E K) u q)
    + c2 * (Ea (bf E K) q * (p_nl P fct q * trc E Eb U (cp E K) q)))).
Proof.
  intro HK. pose proof (cp_lt K HK) as Hp. set (k := bf E K). set (p := cp E K) in *.
  transitivity (rsum NB (fun L => rsum nq (fun q =>
    w q * (c0 * (Ea k q * (traction_op E n lamb mub Dxb (bf E L) (cp E L) p q * U L))
      + c1 * (Eb (bf E L) q * traction_op E n lama mua Dxa k p (cp E L) q * U L)
      + c2 * (Ea k q * (p_nl P fct q * (Eb (bf E L) q * delta p (cp E L) * U L))))))).
  - apply rsum_ext. intros L _. unfold surface, lift_ip. fold k p. rewrite <- !rsum_plus, <- rsum_scale_r. apply rsum_ext. intros. ring.
  - rewrite rsum_swap. apply rsum_ext. intros q _. rewrite rsum_scale. f_equal. rewrite !rsum_plus. f_equal; [f_equal|].
    + rewrite !rsum_scale, top_mul by auto. reflexivity.
    + rewrite rsum_scale. f_equal. rewrite (sum_parts (fun l u => Eb l q * traction_op E n lama mua Dxa k p u q)). apply rsum_ext. intros u _.
      unfold trc. rewrite <- rsum_scale_r. apply rsum_ext. intros. ring.
    + rewrite !rsum_scale. f_equal. f_equal. f_equal. rewrite (sum_parts (fun l u => Eb l q * delta p u)).
      rewrite (rsum_ext dim _ (fun u => delta p u * trc E Eb U u q)).
      * apply (delta_sum dim p (fun u => trc E Eb U u q)). auto.
      * intros u _. unfold trc. rewrite <- rsum_scale. apply rsum_ext. intros. ring.
Qed.

Lemma apply_facet_form n lam mu G f uh sh K : (K < NB)%nat ->
  apply_facet E n lam mu G f uh sh K =
  rsum nq (fun q => w q * (rsum dim (fun u => uh u q * traction_op E n lam mu (Dx_q E G f) (bf E K) (cp E K) u q)
    - p_E P f (bf E K) q * rsum dim (fun j => n j q * sh (cp E K) j q))).
Proof.
  intro HK. pose proof (cp_lt K HK) as Hp. unfold apply_facet. set (k := bf E K). set (p := cp E K) in *.
  rewrite <- rsum_plus. apply rsum_ext. intros q _. rewrite Rmult_minus_distr_l. unfold Rminus. f_equal.
  - transitivity (w q * rsum dim (fun j => Dx_q E G f k j q * (lam q * delta p j * rsum dim (fun r => uh r q * n r q) + mu q * (uh p q * n j q + uh j q * n p q)))).
    + rewrite <- rsum_scale. apply rsum_ext. intros j _. unfold Dx_q. set (T := _ + mu q * _). rewrite <- rsum_scale_r, <- rsum_scale. apply rsum_ext. intros. ring.
    + f_equal.
      rewrite (rsum_ext dim _ (fun j => delta p j * (lam q * Dx_q E G f k j q * rsum dim (fun r => uh r q * n r q))
         + (mu q * uh p q * (n j q * Dx_q E G f k j q) + mu q * n p q * (uh j q * Dx_q E G f k j q)))) by (intros; ring).
      rewrite rsum_plus, delta_sum by auto. rewrite rsum_plus, !rsum_scale. unfold traction_op.
      rewrite (rsum_ext dim (fun u => uh u q * (_ + _)) (fun u => lam q * Dx_q E G f k p q * (uh u q * n u q)
         + (delta p u * (mu q * rsum dim (fun j => n j q * Dx_q E G f k j q) * uh u q) + mu q * n p q * (uh u q * Dx_q E G f k u q)))) by (intros; ring).
      rewrite !rsum_plus, delta_sum by auto. rewrite !rsum_scale. ring.
  - rewrite (rsum_ext dim _ (fun j => (- (w q * p_E P f k q)) * (n j q * sh p j q))) by (intros; ring). rewrite rsum_scale. ring.
Qed.

Lemma opp_trc Eb U p q : rsum N (fun l => - Eb l q * U (ix E l p)) = - trc E Eb U p q.
Proof. unfold trc. rewrite (rsum_ext N _ (fun l => -1 * (Eb l q * U (ix E l p)))) by (intros; ring). rewrite rsum_scale. ring. Qed.
Lemma flux_u_form E0 E1 U Ue i q : flux_u_skeleton E E0 E1 U Ue i q = (1 / 2) * (- trc E E0 U i q + trc E E1 Ue i q).
Proof. unfold flux_u_skeleton. rewrite opp_trc. reflexivity. Qed.
Lemma flux_u_b_form E0 U i q : flux_u_boundary E E0 U i q = - trc E E0 U i q.
Proof. apply opp_trc. Qed.
Lemma sigma_skeleton_normal c lam0 lam1 mu0 mu1 G0 G1 f0 f1 n nu U Ue i q :
  rsum dim (fun j => n j q * flux_sigma_skeleton E c lam0 lam1 mu0 mu1 G0 G1 f0 f1 nu U Ue i j q) =
  (1 / 2) * (tct E n lam0 mu0 (Dx_q E G0 f0) U i q + tct E n lam1 mu1 (Dx_q E G1 f1) Ue i q)
  + c * (trc E (p_E P f0) U i q - trc E (p_E P f1) Ue i q) * rsum dim (fun j => n j q * nu j q).
Proof.
  unfold flux_sigma_skeleton.
  rewrite (rsum_ext dim _ (fun j => (1 / 2) * (n j q * sig E lam0 mu0 (Dx_q E G0 f0) U i j q) + (1 / 2) * (n j q * sig E lam1 mu1 (Dx_q E G1 f1) Ue i j q)
    + c * (trc E (p_E P f0) U i q - trc E (p_E P f1) Ue i q) * (n j q * nu j q))).
  - rewrite !rsum_plus, !rsum_scale. unfold tct. ring.
  - intros j _. rewrite !constitutive_form, opp_trc. fold (trc E (p_E P f0) U i q). ring.
Qed.
Lemma sigma_boundary_normal c lam0 mu0 G0 f0 n nu U i q :
  rsum dim (fun j => n j q * flux_sigma_boundary E c lam0 mu0 G0 f0 nu U i j q) =
  tct E n lam0 mu0 (Dx_q E G0 f0) U i q + c * trc E (p_E P f0) U i q * rsum dim (fun j => n j q * nu j q).
Proof.
  unfold flux_sigma_boundary.
  rewrite (rsum_ext dim _ (fun j => (n j q * sig E lam0 mu0 (Dx_q E G0 f0) U i j q) + c * trc E (p_E P f0) U i q * (n j q * nu j q))).
  - rewrite !rsum_plus, !rsum_scale. reflexivity.
  - intros j _. rewrite constitutive_form. unfold trc. rewrite <- rsum_scale.
    rewrite (rsum_ext N (fun l => c * _ * _) (fun l => c * (p_E P f0 l q * U (ix E l i)))) by (intros; ring). ring.
Qed.
Lemma add_bc_normal c f n nu sh i q : rsum dim (fun j => n j q * flux_sigma_add_bc c f nu sh i j q) =
  rsum dim (fun j => n j q * sh i j q) + c * f i q * rsum dim (fun j => n j q * nu j q).
Proof.
  unfold flux_sigma_add_bc. rewrite <- rsum_scale, <- rsum_plus. apply rsum_ext. intros. ring.
Qed.

(** Opposite normals. *)
Lemma top_opp n lam mu Dx k p u q : traction_op E (fun i q => - n i q) lam mu Dx k p u q = - traction_op E n lam mu Dx k p u q.
Proof.
  unfold traction_op. rewrite (rsum_ext dim _ (fun j => -1 * (n j q * Dx k j q))) by (intros; ring). rewrite rsum_scale. ring.
Qed.
Lemma tct_opp n lam mu Dx U p q : tct E (fun i q => - n i q) lam mu Dx U p q = - tct E n lam mu Dx U p q.
Proof.
  unfold tct. rewrite (rsum_ext dim _ (fun j => -1 * (n j q * sig E lam mu Dx U p j q))) by (intros; ring). rewrite rsum_scale. ring.
Qed.

(** The facet's right-hand side. *)
Lemma traction_test_form n lam mu Dx ut k p q : (p < dim)%nat -> traction_test E n lam mu Dx ut k p q = rsum dim (fun u => ut u q * traction_op E n lam mu Dx k p u q).
Proof.
  intro Hp. unfold traction_test, traction_op.
  rewrite (rsum_ext dim (fun u => ut u q * (_ + _)) (fun u => lam q * Dx k p q * (ut u q * n u q)
     + (delta p u * (mu q * rsum dim (fun j => n j q * Dx k j q) * ut u q) + mu q * n p q * (ut u q * Dx k u q)))) by (intros; ring).
  rewrite !rsum_plus, delta_sum by auto. rewrite !rsum_scale.
  rewrite (rsum_ext dim (fun i => lam q * _ * _ * _) (fun i => lam q * Dx k p q * (ut i q * n i q))) by (intros; ring).
  rewrite (rsum_ext dim (fun j => Dx k j q * _ * _) (fun j => ut p q * (n j q * Dx k j q))) by (intros; ring).
  rewrite (rsum_ext dim (fun i => Dx k i q * _ * _) (fun i => n p q * (ut i q * Dx k i q))) by (intros; ring).
  rewrite !rsum_scale. ring.
Qed.
Lemma rhs_kernel_form fct c1 c2 lam mu Dx Eb f fl K : (K < NB)%nat ->
  rhs_facet_kernel E fct c1 c2 lam mu Dx Eb f fl K =
  rsum nq (fun q => w q * (c1 * rsum dim (fun u => f u q * traction_op E (p_n P fct) lam mu Dx (bf E K) (cp E K) u q) + c2 * (Eb (bf E K) q * fl (cp E K) q))).
Proof.
  intro HK. pose proof (cp_lt K HK) as Hp. unfold rhs_facet_kernel. rewrite <- rsum_plus. apply rsum_ext. intros q _.
  rewrite traction_test_form by auto. ring.
Qed.

(** The volume kernels. *)
Lemma apply_volume_mul el U K : (K < NB)%nat ->
  apply_volume E el U K = rsum NB (fun L => assemble_volume E el K L * U L).
Proof.
  intro HK. pose proof (cp_lt K HK) as Hp. unfold apply_volume, assemble_volume. set (k := bf E K). set (p := cp E K) in *.
  set (D := Dx_Q P el). set (gr r s q := rsum N (fun l => D l s q * U (ix E l r))).
  assert (J : forall q s r, Ju_Q E el U q s r = gr r s q).
  { intros. unfold Ju_Q, gr, D, Dx_Q. rewrite rsum_swap. apply rsum_ext. intros l _. rewrite <- rsum_scale_r. reflexivity. }
  transitivity (rsum Nq (fun q => lam_W_J E el q * D k p q * rsum dim (fun r => gr r r q) +
    mu_W_J E el q * rsum dim (fun j => D k j q * (gr p j q + gr j p q)))).
  - apply rsum_ext. intros q _. rewrite rsum_swap.
    assert (T : rsum dim (fun r => rsum dim (fun s => delta r s * Ju_Q E el U q r s)) = rsum dim (fun r => gr r r q)).
    { apply rsum_ext. intros r Hr. rewrite (rsum_ext dim _ (fun s => delta r s * gr s r q)) by (intros; rewrite J; reflexivity). apply (delta_sum dim r (fun s => gr s r q)). auto. }
    transitivity (rsum dim (fun j => D k j q * (lam_W_J E el q * delta p j * rsum dim (fun r => gr r r q) + mu_W_J E el q * (gr j p q + gr p j q)))).
    + apply rsum_ext. intros j _. unfold D, Dx_Q. rewrite <- rsum_scale_r. apply rsum_ext. intros e _. rewrite T, !J. ring.
    + rewrite (rsum_ext dim _ (fun j => delta p j * (lam_W_J E el q * D k j q * rsum dim (fun r => gr r r q)) + mu_W_J E el q * (D k j q * (gr p j q + gr j p q)))) by (intros; ring).
      rewrite rsum_plus, delta_sum, rsum_scale by auto. reflexivity.
  - rewrite (sum_parts (fun l u => rsum Nq (fun q => lam_W_J E el q * D l u q * D k p q +
      mu_W_J E el q * rsum dim (fun j => D k j q * (D l j q * delta p u + D l p q * delta j u))))).
    transitivity (rsum Nq (fun q => rsum dim (fun u => rsum N (fun l => (lam_W_J E el q * D l u q * D k p q +
      mu_W_J E el q * rsum dim (fun j => D k j q * (D l j q * delta p u + D l p q * delta j u))) * U (ix E l u))))).
    + apply rsum_ext. intros q _.
      transitivity (rsum dim (fun u => lam_W_J E el q * D k p q * gr u u q + mu_W_J E el q * rsum dim (fun j => D k j q * (delta p u * gr u j q + delta j u * gr u p q)))).
      * rewrite rsum_plus, !rsum_scale. f_equal. f_equal. rewrite rsum_swap. apply rsum_ext. intros j Hj.
        rewrite rsum_scale, rsum_plus. rewrite (delta_sum dim p (fun u => gr u j q)), (delta_sum dim j (fun u => gr u p q)) by auto. reflexivity.
      * apply rsum_ext. intros u _. unfold gr.
        rewrite (rsum_ext dim _ (fun j => rsum N (fun l => D k j q * (D l j q * delta p u + D l p q * delta j u) * U (ix E l u)))).
        -- rewrite rsum_swap, <- !rsum_scale, <- rsum_plus. apply rsum_ext. intros l _. rewrite rsum_scale_r. ring.
        -- intros j _. rewrite <- !rsum_scale, <- rsum_plus, <- rsum_scale. apply rsum_ext. intros. ring.
    + rewrite rsum_swap. apply rsum_ext. intros u _. rewrite rsum_swap. apply rsum_ext. intros l _. rewrite rsum_scale_r. reflexivity.
Qed.
End E.
