(** The blocks of the elasticity operator and the interior penalty form. *)
Require Import List Arith Lia Bool Reals Lra.
Require Import Verif.Base Verif.LinAlg Verif.TopoModel Verif.AssembleModel Verif.AssembleSpec Verif.MatFree
  Verif.PoissonModel Verif.SipSpec Verif.ElasticityModel Verif.ElasticitySpec Verif.ElasticityProofs Verif.ElasticFormSpec.
Import ListNotations.
Local Open Scope R_scope.

(** Bilinear sums over a block. *)
Section Pair.
Variable E : edata.
Local Notation P := (e_geo E).
Local Notation N := (p_N P). Local Notation dim := (p_dim P). Local Notation nq := (p_nq P). Local Notation w := (p_w P).
Local Notation NB := (block_size E).
Lemma trc_block Eb U q : forall p, (p < dim)%nat -> rsum NB (fun L => Eb (bf E L) q * delta p (cp E L) * U L) = trc E Eb U p q.
Proof.
  intros p Hp. rewrite (sum_parts E (fun l u => Eb l q * delta p u)).
  rewrite (rsum_ext dim _ (fun u => delta p u * trc E Eb U u q)); [apply (delta_sum dim p (fun u => trc E Eb U u q)); auto|].
  intros u _. unfold trc. rewrite <- rsum_scale. apply rsum_ext. intros. ring.
Qed.
Lemma component_sum (f : nat -> R) Ea V q : rsum NB (fun K => V K * (Ea (bf E K) q * f (cp E K))) = rsum dim (fun p => trc E Ea V p q * f p).
Proof.
  rewrite (rsum_ext NB _ (fun K => Ea (bf E K) q * f (cp E K) * V K)) by (intros; ring).
  rewrite (sum_parts E (fun k p => Ea k q * f p)). apply rsum_ext. intros p _. unfold trc. rewrite <- rsum_scale_r. apply rsum_ext. intros. ring.
Qed.
Lemma top_sum n lam mu Dx V q (f : nat -> R) :
  rsum NB (fun K => V K * rsum dim (fun u => traction_op E n lam mu Dx (bf E K) (cp E K) u q * f u)) = rsum dim (fun u => tct E n lam mu Dx V u q * f u).
Proof.
  rewrite (rsum_ext NB _ (fun K => rsum dim (fun u => traction_op E n lam mu Dx (bf E K) (cp E K) u q * V K * f u))).
  - rewrite rsum_swap. apply rsum_ext. intros u Hu. rewrite rsum_scale_r, top_mul by auto. reflexivity.
  - intros K _. rewrite <- rsum_scale. apply rsum_ext. intros. ring.
Qed.

Lemma eblock_pair n lam mu Dx n' lam' mu' Dx' Ea Eb (c1 c2 : R) (c3 : nat -> R) V U :
  rsum NB (fun K => V K * rsum NB (fun L => rsum nq (fun q => w q * (
     c1 * (traction_op E n lam mu Dx (bf E K) (cp E K) (cp E L) q * Eb (bf E L) q)
     - c2 * (Ea (bf E K) q * traction_op E n' lam' mu' Dx' (bf E L) (cp E L) (cp E K) q)
     + c3 q * (Ea (bf E K) q * Eb (bf E L) q * delta (cp E K) (cp E L)))) * U L)) =
  rsum nq (fun q => w q * (
     c1 * rsum dim (fun u => tct E n lam mu Dx V u q * trc E Eb U u q)
     - c2 * rsum dim (fun p => trc E Ea V p q * tct E n' lam' mu' Dx' U p q)
     + c3 q * rsum dim (fun p => trc E Ea V p q * trc E Eb U p q))).
Proof.
  transitivity (rsum NB (fun K => V K * rsum nq (fun q => w q * (
     c1 * rsum dim (fun u => traction_op E n lam mu Dx (bf E K) (cp E K) u q * trc E Eb U u q)
     - c2 * (Ea (bf E K) q * tct E n' lam' mu' Dx' U (cp E K) q)
     + c3 q * (Ea (bf E K) q * trc E Eb U (cp E K) q))))).
  - apply rsum_ext. intros K HK. f_equal.
    pose proof (cp_lt E K HK) as Hp. set (k := bf E K). set (p := cp E K) in *.
    transitivity (rsum nq (fun q => rsum NB (fun L => w q * (
      c1 * (traction_op E n lam mu Dx k p (cp E L) q * Eb (bf E L) q * U L)
      - c2 * (Ea k q * (traction_op E n' lam' mu' Dx' (bf E L) (cp E L) p q * U L))
      + c3 q * (Ea k q * (Eb (bf E L) q * delta p (cp E L) * U L)))))).
    + rewrite rsum_swap. apply rsum_ext. intros L _. rewrite <- rsum_scale_r. apply rsum_ext. intros. ring.
    + apply rsum_ext. intros q _. rewrite rsum_scale. f_equal. rewrite rsum_plus, rsum_minus, !rsum_scale. f_equal; [f_equal|].
      * f_equal. rewrite (sum_parts E (fun l u => traction_op E n lam mu Dx k p u q * Eb l q)). apply rsum_ext. intros u _. unfold trc.
        rewrite <- rsum_scale. apply rsum_ext. intros. ring.
      * rewrite top_mul by auto. reflexivity.
      * rewrite trc_block by auto. reflexivity.
  - rewrite (rsum_ext NB _ (fun K => rsum nq (fun q => w q * (
      c1 * (V K * rsum dim (fun u => traction_op E n lam mu Dx (bf E K) (cp E K) u q * trc E Eb U u q))
      - c2 * (V K * (Ea (bf E K) q * tct E n' lam' mu' Dx' U (cp E K) q))
      + c3 q * (V K * (Ea (bf E K) q * trc E Eb U (cp E K) q)))))).
    2: { intros K _. rewrite <- rsum_scale. apply rsum_ext. intros. ring. }
    rewrite rsum_swap. apply rsum_ext. intros q _. rewrite rsum_scale. f_equal. rewrite rsum_plus, rsum_minus, !rsum_scale.
    rewrite (top_sum n lam mu Dx V q (fun u => trc E Eb U u q)), (component_sum (fun p => tct E n' lam' mu' Dx' U p q)), (component_sum (fun p => trc E Eb U p q)). reflexivity.
Qed.
Lemma eload_pair n lam mu Dx Ea (c1 : R) (c2 : nat -> R) d V :
  rsum NB (fun K => V K * rsum nq (fun q => w q * (c1 * traction_test E n lam mu Dx d (bf E K) (cp E K) q + c2 q * (Ea (bf E K) q * d (cp E K) q)))) =
  rsum nq (fun q => w q * (c1 * rsum dim (fun u => tct E n lam mu Dx V u q * d u q) + c2 q * rsum dim (fun p => trc E Ea V p q * d p q))).
Proof.
  rewrite (rsum_ext NB _ (fun K => rsum nq (fun q => w q * (
      c1 * (V K * rsum dim (fun u => traction_op E n lam mu Dx (bf E K) (cp E K) u q * d u q)) + c2 q * (V K * (Ea (bf E K) q * d (cp E K) q)))))).
  2: { intros K HK. rewrite <- rsum_scale. apply rsum_ext. intros q _. rewrite traction_test_form by (apply cp_lt; auto).
       rewrite (rsum_ext dim (fun u => d u q * _) (fun u => traction_op E n lam mu Dx (bf E K) (cp E K) u q * d u q)) by (intros; ring). ring. }
  rewrite rsum_swap. apply rsum_ext. intros q _. rewrite rsum_scale. f_equal. rewrite rsum_plus, !rsum_scale.
  rewrite (top_sum n lam mu Dx V q (fun u => d u q)), (component_sum (fun p => d p q)). reflexivity.
Qed.
End Pair.

Section Blocks.
Variable Q : eproblem.
Local Notation E := (ep_ref Q).
Local Notation P := (e_geo E).
Local Notation N := (p_N P). Local Notation dim := (p_dim P). Local Notation nq := (p_nq P). Local Notation w := (p_w P).
Local Notation NB := (block_size E).

Definition Dxon (f : list nat) (a : nat) : nat -> nat -> nat -> R := Dx_q E (ep_G Q f a) (ep_loc Q f a).
Definition Bon (f : list nat) (a : nat) : nat -> nat -> R := p_E P (ep_loc Q f a).
(** Traction of a's functions in the direction of b's normal. *)
Definition Ton (f : list nat) (a b : nat) : nat -> nat -> nat -> nat -> R := traction_op E (ep_n Q f b) (lam_on Q f a) (mu_on Q f a) (Dxon f a).
Definition ediag_block (c : R) (f : list nat) (a K L : nat) : R :=
  let k := bf E K in let p := cp E K in let l := bf E L in let u := cp E L in
  rsum nq (fun q => w q * (- c * (Ton f a a k p u q * Bon f a l q) - c * (Bon f a k q * Ton f a a l u p q)
    + ep_pen Q f * ep_nl Q f q * (Bon f a k q * Bon f a l q * delta p u))).
Definition eoff_block (f : list nat) (a b K L : nat) : R :=
  let k := bf E K in let p := cp E K in let l := bf E L in let u := cp E L in
  rsum nq (fun q => w q * (- (1 / 2) * (Ton f a b k p u q * Bon f b l q) - 1 / 2 * (Bon f a k q * Ton f b a l u p q)
    + - (ep_pen Q f * ep_nl Q f q) * (Bon f a k q * Bon f b l q * delta p u))).
Definition elastic_mat : mat_form (nat -> nat -> R) := {|
  f_volume g := Some (assemble_volume E g);
  f_skeleton f bc g h := Some (ediag_block (1 / 2) f g, eoff_block f g h, eoff_block f h g, ediag_block (1 / 2) f h);
  f_boundary f bc g := if bc =? BC_Natural then None else Some (ediag_block 1 f g);
  f_post _ := None |}.
Lemma elastic_mat_symmetric : form_symmetric elastic_mat.
Proof. intros f bc g h. reflexivity. Qed.
Definition eload_block (c : R) (f : list nat) (a : nat) (d : nat -> nat -> R) (K : nat) : R :=
  rsum nq (fun q => w q * (- c * traction_test E (ep_n Q f a) (lam_on Q f a) (mu_on Q f a) (Dxon f a) d (bf E K) (cp E K) q
    + ep_pen Q f * ep_nl Q f q * (Bon f a (bf E K) q * d (cp E K) q))).
Definition elastic_vec : vec_form (nat -> R) := {|
  v_volume g := rhs_volume E g;
  v_skeleton f bc g h := if ehas_data Q bc then Some (eload_block (1 / 2) f g (ep_jump Q f g), eload_block (1 / 2) f h (ep_jump Q f h)) else None;
  v_boundary f bc g := if ehas_data Q bc then Some (eload_block 1 f g (ep_value Q f)) else None;
  v_post _ := None |}.
Lemma elastic_vec_symmetric : vform_symmetric elastic_vec.
Proof. intros f bc g h. cbn. destruct (ehas_data Q bc); reflexivity. Qed.

(** Traction of a's function in the direction of b's normal. *)
Definition tn (f : list nat) (a b : nat) (U : nat -> R) (p q : nat) : R := tct E (ep_n Q f b) (lam_on Q f a) (mu_on Q f a) (Dxon f a) U p q.
Lemma tn_stress f a b U p q : tn f a b U p q = rsum dim (fun j => stress_on Q f a U q p j * ep_n Q f b j q).
Proof.
  unfold tn, tct. apply rsum_ext. intros j _. rewrite Rmult_comm. f_equal.
Qed.
Lemma disp_on_trc f a U p q : trc E (Bon f a) U p q = disp_on Q f a U q p.
Proof. reflexivity. Qed.
Lemma diag_pair c f a V U : rsum NB (fun K => V K * rsum NB (fun L => ediag_block c f a K L * U L)) =
  rsum nq (fun q => w q * (- c * rsum dim (fun u => tn f a a V u q * disp_on Q f a U q u) - c * rsum dim (fun p => disp_on Q f a V q p * tn f a a U p q)
    + ep_pen Q f * ep_nl Q f q * rsum dim (fun p => disp_on Q f a V q p * disp_on Q f a U q p))).
Proof.
  exact (eblock_pair E (ep_n Q f a) (lam_on Q f a) (mu_on Q f a) (Dxon f a) (ep_n Q f a) (lam_on Q f a) (mu_on Q f a) (Dxon f a) (Bon f a) (Bon f a)
    (- c) c (fun q => ep_pen Q f * ep_nl Q f q) V U).
Qed.
Lemma off_pair f a b V U : rsum NB (fun K => V K * rsum NB (fun L => eoff_block f a b K L * U L)) =
  rsum nq (fun q => w q * (- (1 / 2) * rsum dim (fun u => tn f a b V u q * disp_on Q f b U q u) - 1 / 2 * rsum dim (fun p => disp_on Q f a V q p * tn f b a U p q)
    + - (ep_pen Q f * ep_nl Q f q) * rsum dim (fun p => disp_on Q f a V q p * disp_on Q f b U q p))).
Proof.
  exact (eblock_pair E (ep_n Q f b) (lam_on Q f a) (mu_on Q f a) (Dxon f a) (ep_n Q f a) (lam_on Q f b) (mu_on Q f b) (Dxon f b) (Bon f a) (Bon f b)
    (- (1 / 2)) (1 / 2) (fun q => - (ep_pen Q f * ep_nl Q f q)) V U).
Qed.

Lemma contract_outer S (v n : nat -> R) : contract Q S (fun i j => v i * n j) = rsum dim (fun i => v i * rsum dim (fun j => S i j * n j)).
Proof. unfold contract. apply rsum_ext. intros i _. rewrite <- rsum_scale. apply rsum_ext. intros. ring. Qed.
Lemma contract_plus S A B : contract Q S (fun i j => A i j + B i j) = contract Q S A + contract Q S B.
Proof. unfold contract. rewrite <- rsum_plus. apply rsum_ext. intros i _. rewrite <- rsum_plus. apply rsum_ext. intros. ring. Qed.
Lemma mean_djump f g h U V q : contract Q (mean_stress Q f g h U q) (djump Q f g h V q) =
  1 / 2 * (rsum dim (fun i => disp_on Q f g (V g) q i * (tn f g g (U g) i q + tn f h g (U h) i q))
    + rsum dim (fun i => disp_on Q f h (V h) q i * (tn f g h (U g) i q + tn f h h (U h) i q))).
Proof.
  unfold djump. rewrite contract_plus, !contract_outer. rewrite Rmult_plus_distr_l.
  f_equal; rewrite <- rsum_scale; apply rsum_ext; intros i _; rewrite !tn_stress, <- rsum_plus;
    unfold mean_stress; rewrite <- !rsum_scale; apply rsum_ext; intros; ring.
Qed.

Lemma evol_pair g V U : pairing NB [(g, g, assemble_volume E g)] V U = evol_term Q g U V.
Proof.
  unfold pairing. cbn [lsum]. rewrite Rplus_0_r.
  rewrite (rsum_ext NB _ (fun K => V g K * apply_volume E g (U g) K)).
  2: { intros K HK. rewrite apply_volume_mul by auto. reflexivity. }
  unfold apply_volume, evol_term.
  set (S q := fun i j => p_W P q * p_J P g q * stress Q g (U g) q i j).
  transitivity (rsum NB (fun K => rsum (p_Nq P) (fun q => rsum dim (fun j => Dx_Q P g (bf E K) j q * S q (cp E K) j)) * V g K)).
  - apply rsum_ext. intros K HK. rewrite Rmult_comm. f_equal. apply rsum_ext. intros q _. rewrite rsum_swap. apply rsum_ext. intros j Hj.
    assert (J : forall s r, Ju_Q E g (U g) q s r = dgrad Q g (U g) q r s).
    { intros. unfold Ju_Q, dgrad, coef, ix. rewrite rsum_swap. apply rsum_ext. intros l _. rewrite <- rsum_scale_r. reflexivity. }
    unfold Dx_Q. rewrite <- rsum_scale_r. apply rsum_ext. intros e _.
    rewrite !J. unfold S, stress, hooke, lam_W_J, mu_W_J. fold (lam_in Q g q). fold (mu_in Q g q).
    assert (T : rsum dim (fun r => rsum dim (fun s => delta r s * Ju_Q E g (U g) q r s)) = rsum dim (fun r => dgrad Q g (U g) q r r)).
    { apply rsum_ext. intros r Hr. rewrite (rsum_ext dim _ (fun s => delta r s * dgrad Q g (U g) q s r)) by (intros; rewrite J; reflexivity).
      apply (delta_sum dim r (fun s => dgrad Q g (U g) q s r)). auto. }
    rewrite T. unfold delta. set (tr_ := rsum dim (fun r => dgrad Q g (U g) q r r)). ring.
  - rewrite (sum_parts E (fun k p => rsum (p_Nq P) (fun q => rsum dim (fun j => Dx_Q P g k j q * S q p j)))).
    transitivity (rsum (p_Nq P) (fun q => rsum dim (fun p => rsum dim (fun j => S q p j * dgrad Q g (V g) q p j)))).
    + transitivity (rsum dim (fun p => rsum (p_Nq P) (fun q => rsum dim (fun j => S q p j * dgrad Q g (V g) q p j)))); [|rewrite rsum_swap; reflexivity].
      apply rsum_ext. intros p _.
      transitivity (rsum N (fun k => rsum (p_Nq P) (fun q => rsum dim (fun j => S q p j * (Dx_Q P g k j q * coef Q (V g) p k))))).
      * apply rsum_ext. intros k _. rewrite <- rsum_scale_r. apply rsum_ext. intros q _. rewrite <- rsum_scale_r. apply rsum_ext. intros. unfold coef, ix. ring.
      * rewrite rsum_swap. apply rsum_ext. intros q _. rewrite rsum_swap. apply rsum_ext. intros j _. rewrite rsum_scale. reflexivity.
    + apply rsum_ext. intros q _. unfold contract. rewrite <- rsum_scale. apply rsum_ext. intros p _. rewrite <- rsum_scale. apply rsum_ext. intros. unfold S. ring.
Qed.
Lemma eint_pair f g h V U :
  pairing NB [(g, g, ediag_block (1 / 2) f g); (g, h, eoff_block f g h); (h, g, eoff_block f h g); (h, h, ediag_block (1 / 2) f h)] V U = eint_term Q f g h U V.
Proof.
  unfold pairing. cbn [lsum]. rewrite !diag_pair, !off_pair, Rplus_0_r. rewrite <- !rsum_plus. unfold eint_term. apply rsum_ext. intros q _.
  rewrite !mean_djump. rewrite <- !Rmult_plus_distr_l. f_equal.
  set (vg := disp_on Q f g (V g) q). set (vh := disp_on Q f h (V h) q). set (ug := disp_on Q f g (U g) q). set (uh := disp_on Q f h (U h) q).
  rewrite (rsum_ext dim (fun i => vg i * (_ + _)) (fun i => vg i * tn f g g (U g) i q + vg i * tn f h g (U h) i q)) by (intros; ring).
  rewrite (rsum_ext dim (fun i => vh i * (_ + _)) (fun i => vh i * tn f g h (U g) i q + vh i * tn f h h (U h) i q)) by (intros; ring).
  rewrite (rsum_ext dim (fun i => ug i * (_ + _)) (fun i => tn f g g (V g) i q * ug i + tn f h g (V h) i q * ug i)) by (intros; ring).
  rewrite (rsum_ext dim (fun i => uh i * (_ + _)) (fun i => tn f g h (V g) i q * uh i + tn f h h (V h) i q * uh i)) by (intros; ring).
  rewrite (rsum_ext dim (fun i => (ug i - uh i) * _) (fun i => vg i * ug i - vg i * uh i - vh i * ug i + vh i * uh i)) by (intros; ring).
  rewrite !rsum_plus, !rsum_minus. field.
Qed.
Lemma ebnd_pair f g V U : pairing NB [(g, g, ediag_block 1 f g)] V U = ebnd_term Q f g U V.
Proof.
  unfold pairing. cbn [lsum]. rewrite diag_pair, Rplus_0_r. unfold ebnd_term. apply rsum_ext. intros q _. rewrite !contract_outer. f_equal.
  rewrite (rsum_ext dim (fun u => tn f g g (V g) u q * _) (fun i => disp_on Q f g (U g) q i * rsum dim (fun j => stress_on Q f g (V g) q i j * ep_n Q f g j q)))
    by (intros; rewrite tn_stress; ring).
  rewrite (rsum_ext dim (fun p => _ * tn f g g (U g) p q) (fun i => disp_on Q f g (V g) q i * rsum dim (fun j => stress_on Q f g (U g) q i j * ep_n Q f g j q)))
    by (intros; rewrite tn_stress; ring).
  rewrite (rsum_ext dim (fun p => disp_on Q f g (V g) q p * disp_on Q f g (U g) q p) (fun i => disp_on Q f g (U g) q i * disp_on Q f g (V g) q i)) by (intros; ring).
  ring.
Qed.
Lemma epair_app A B V U : pairing NB (A ++ B) V U = pairing NB A V U + pairing NB B V U.
Proof. apply lsum_app. Qed.
Lemma epair_flat {T} (F : T -> list (nat * nat * (nat -> nat -> R))) l V U : pairing NB (flat_map F l) V U = lsum (fun a => pairing NB (F a) V U) l.
Proof. apply lsum_flat_map. Qed.
Lemma eglobal_pair elems facets bc V U : pairing NB (global_matrix elems facets bc elastic_mat) V U = elastic_form Q elems facets bc U V.
Proof.
  unfold global_matrix, elastic_form. rewrite !epair_app, !epair_flat. cbn [elastic_mat f_volume f_skeleton f_boundary f_post if_some].
  rewrite (lsum_ext _ (fun g => evol_term Q g U V)) by (intros; apply evol_pair).
  rewrite (lsum_ext _ (fun f => efacet_term Q elems bc f U V)).
  - rewrite (lsum_zero (fun a => pairing NB [] V U)) by reflexivity. ring.
  - intros f _. unfold efacet_term. destruct (elements_of elems f) as [|g [|h [|? ?]]]; try reflexivity.
    + destruct (bc f =? BC_Natural); cbn [if_some]; [reflexivity|apply ebnd_pair].
    + apply eint_pair.
Qed.

(** * Right-hand side *)
Lemma eload_block_pair c f a d V : rsum NB (fun K => V K * eload_block c f a d K) =
  rsum nq (fun q => w q * (- c * rsum dim (fun u => tn f a a V u q * d u q) + ep_pen Q f * ep_nl Q f q * rsum dim (fun p => disp_on Q f a V q p * d p q))).
Proof.
  exact (eload_pair E (ep_n Q f a) (lam_on Q f a) (mu_on Q f a) (Dxon f a) (Bon f a) (- c) (fun q => ep_pen Q f * ep_nl Q f q) d V).
Qed.
Lemma evol_load_pair g V : vpairing NB (if_some (rhs_volume E g) (fun b => [(g, b)])) V = evol_load Q g V.
Proof.
  unfold evol_load, rhs_volume. destruct (e_force E) as [F|]; cbn [if_some]; [|reflexivity].
  unfold vpairing. cbn [lsum]. rewrite Rplus_0_r.
  rewrite (rsum_ext NB _ (fun K => rsum (p_Nq P) (fun q => p_J P g q * p_W P q * p_EQ P (bf E K) q * F g (cp E K) q) * V g K)) by (intros; ring).
  rewrite (sum_parts E (fun k p => rsum (p_Nq P) (fun q => p_J P g q * p_W P q * p_EQ P k q * F g p q))).
  transitivity (rsum dim (fun p => rsum (p_Nq P) (fun q => p_W P q * p_J P g q * (F g p q * disp Q (V g) q p)))).
  - apply rsum_ext. intros p _. rewrite (rsum_ext N _ (fun k => rsum (p_Nq P) (fun q => p_J P g q * p_W P q * p_EQ P k q * F g p q * V g (ix E k p)))) by (intros; rewrite <- rsum_scale_r; reflexivity).
    rewrite rsum_swap. apply rsum_ext. intros q _. unfold disp, coef. rewrite <- !rsum_scale. apply rsum_ext. intros. unfold ix. ring.
  - rewrite rsum_swap. apply rsum_ext. intros q _. rewrite rsum_scale. reflexivity.
Qed.
Lemma tn_opp f a b c U p q : (forall j, ep_n Q f c j q = - ep_n Q f b j q) -> tn f a c U p q = - tn f a b U p q.
Proof.
  intro H. rewrite !tn_stress. rewrite (rsum_ext dim _ (fun j => -1 * (stress_on Q f a U q p j * ep_n Q f b j q))) by (intros; rewrite H; ring).
  rewrite rsum_scale. ring.
Qed.
Lemma eint_load_pair f g h V : (forall q i, ep_n Q f h i q = - ep_n Q f g i q) -> (forall q i, ep_jump Q f h i q = - ep_jump Q f g i q) ->
  vpairing NB [(g, eload_block (1 / 2) f g (ep_jump Q f g)); (h, eload_block (1 / 2) f h (ep_jump Q f h))] V = eint_load Q f g h V.
Proof.
  intros Hn Hj. unfold vpairing. cbn [lsum]. rewrite !eload_block_pair, Rplus_0_r, <- rsum_plus. unfold eint_load. apply rsum_ext. intros q _.
  rewrite contract_outer, <- Rmult_plus_distr_l. f_equal.
  set (d i := ep_jump Q f g i q).
  rewrite (rsum_ext dim (fun u => tn f h h (V h) u q * _) (fun u => d u * tn f h g (V h) u q)).
  2: { intros u _. rewrite (tn_opp f h g h), Hj by auto. unfold d. ring. }
  rewrite (rsum_ext dim (fun p => disp_on Q f h (V h) q p * _) (fun p => -1 * (d p * disp_on Q f h (V h) q p))) by (intros; rewrite Hj; unfold d; ring).
  rewrite (rsum_ext dim (fun i => _ * rsum dim _) (fun i => 1 / 2 * (tn f g g (V g) i q * d i + d i * tn f h g (V h) i q))).
  2: { intros i _. rewrite !tn_stress. unfold mean_stress. fold (d i).
       rewrite (rsum_ext dim _ (fun j => 1 / 2 * (stress_on Q f g (V g) q i j * ep_n Q f g j q + stress_on Q f h (V h) q i j * ep_n Q f g j q))) by (intros; ring).
       rewrite rsum_scale, rsum_plus. ring. }
  rewrite (rsum_ext dim (fun i => _ * (_ - _)) (fun i => disp_on Q f g (V g) q i * d i - d i * disp_on Q f h (V h) q i)) by (intros; unfold d; ring).
  rewrite rsum_minus, !rsum_scale, rsum_plus. unfold d. field.
Qed.
Lemma ebnd_load_pair f g V : vpairing NB [(g, eload_block 1 f g (ep_value Q f))] V = ebnd_load Q f g V.
Proof.
  unfold vpairing. cbn [lsum]. rewrite eload_block_pair, Rplus_0_r. unfold ebnd_load. apply rsum_ext. intros q _. rewrite contract_outer. f_equal.
  rewrite (rsum_ext dim (fun u => tn f g g (V g) u q * _) (fun i => ep_value Q f i q * rsum dim (fun j => stress_on Q f g (V g) q i j * ep_n Q f g j q)))
    by (intros; rewrite tn_stress; ring).
  rewrite (rsum_ext dim (fun p => _ * ep_value Q f p q) (fun i => ep_value Q f i q * disp_on Q f g (V g) q i)) by (intros; ring). ring.
Qed.
Lemma evpair_app A B V : vpairing NB (A ++ B) V = vpairing NB A V + vpairing NB B V.
Proof. apply lsum_app. Qed.
Lemma evpair_flat {T} (F : T -> list (nat * (nat -> R))) l V : vpairing NB (flat_map F l) V = lsum (fun a => vpairing NB (F a) V) l.
Proof. apply lsum_flat_map. Qed.
Lemma eglobal_vpair k elems facets bc V : eproblem_ok k elems facets Q ->
  vpairing NB (global_vector elems facets bc elastic_vec) V = elastic_load Q elems facets bc V.
Proof.
  intro PO. unfold global_vector, elastic_load. rewrite !evpair_app, !evpair_flat. cbn [elastic_vec v_volume v_skeleton v_boundary v_post if_some].
  rewrite (lsum_ext _ (fun g => evol_load Q g V)) by (intros; apply evol_load_pair).
  rewrite (lsum_ext _ (fun f => efacet_load Q elems bc f V)).
  - rewrite (lsum_zero (fun a => vpairing NB [] V)) by reflexivity. ring.
  - intros f Hf. unfold efacet_load. destruct (elements_of elems f) as [|g [|h [|? ?]]] eqn:EL; try (destruct (ehas_data Q (bc f)); reflexivity).
    + destruct (ehas_data Q (bc f)); cbn [if_some]; [apply ebnd_load_pair|reflexivity].
    + destruct (ehas_data Q (bc f)); cbn [if_some]; [|reflexivity]. apply eint_load_pair.
      * intros. apply (eo_n _ _ _ _ PO f g h); auto.
      * intros. apply (eo_jump _ _ _ _ PO f g h); auto.
Qed.
End Blocks.
