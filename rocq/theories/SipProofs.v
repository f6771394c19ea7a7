(** The blocks of the Poisson operator and the interior penalty form. *)
Require Import List Arith Lia Bool Reals Lra FunctionalExtensionality Permutation.
Require Import Verif.Base Verif.LinAlg Verif.SimplexModel Verif.SimplexProofs Verif.SimplexProps Verif.LocalMeshModel Verif.LocalMeshProofs Verif.LocalMeshProps
  Verif.TopoModel Verif.TopoSpec Verif.TopoProofs Verif.TopoProps
  Verif.AssembleModel Verif.AssembleSpec Verif.AssembleProofs Verif.AssembleProps Verif.MatFree Verif.PoissonModel Verif.PoissonProofs Verif.SipSpec.
Import ListNotations.
Local Open Scope R_scope.

Section Blocks.
Variable Q : problem.
Local Notation P := (pb_ref Q).
Local Notation N := (p_N P). Local Notation dim := (p_dim P). Local Notation nq := (p_nq P). Local Notation w := (p_w P).

Definition KD (f : list nat) (a : nat) : nat -> nat -> nat -> R := K_Dx P a (pb_G Q f a) (pb_loc Q f a).
Definition Eon (f : list nat) (a : nat) : nat -> nat -> R := p_E P (pb_loc Q f a).
(** Flux of a's functions in the direction of b's normal. *)
Definition Dn (f : list nat) (a b : nat) : nat -> nat -> R := ndot dim (pb_n Q f b) (KD f a).
Definition vol_block (g k l : nat) : R := assemble_volume P g k l.
Definition diag_block (c : R) (f : list nat) (a k l : nat) : R :=
  rsum nq (fun q => w q * (- c * (Dn f a a k q * Eon f a l q) - c * (Eon f a k q * Dn f a a l q) + pb_pen Q f * pb_nl Q f q * (Eon f a k q * Eon f a l q))).
Definition off_block (f : list nat) (a b k l : nat) : R :=
  rsum nq (fun q => w q * (- (1 / 2) * (Dn f a b k q * Eon f b l q) - 1 / 2 * (Eon f a k q * Dn f b a l q) - pb_pen Q f * pb_nl Q f q * (Eon f a k q * Eon f b l q))).
Definition sip_mat : mat_form (nat -> nat -> R) := {|
  f_volume g := Some (vol_block g);
  f_skeleton f bc g h := Some (diag_block (1 / 2) f g, off_block f g h, off_block f h g, diag_block (1 / 2) f h);
  f_boundary f bc g := if bc =? BC_Natural then None else Some (diag_block 1 f g);
  f_post _ := None |}.
Lemma sip_mat_symmetric : form_symmetric sip_mat.
Proof. intros f bc g h. reflexivity. Qed.

(** Bilinear sums over a block. *)
Lemma block_pair (T1 T2 T3 T4 T5 T6 : nat -> nat -> R) (c1 c2 : R) (c3 : nat -> R) V U :
  rsum N (fun k => V k * rsum N (fun l => rsum nq (fun q => w q * (c1 * (T1 k q * T2 l q) - c2 * (T3 k q * T4 l q) + c3 q * (T5 k q * T6 l q))) * U l)) =
  rsum nq (fun q => w q * (c1 * (tr N T1 V q * tr N T2 U q) - c2 * (tr N T3 V q * tr N T4 U q) + c3 q * (tr N T5 V q * tr N T6 U q))).
Proof.
  assert (B : forall (c : nat -> R) A B, rsum nq (fun q => w q * (c q * (tr N A V q * tr N B U q))) =
    rsum N (fun k => V k * rsum N (fun l => rsum nq (fun q => w q * (c q * (A k q * B l q))) * U l))).
  { intros c A B. transitivity (rsum nq (fun q => rsum N (fun k => rsum N (fun l => w q * (c q * (A k q * B l q)) * U l * V k)))).
    - apply rsum_ext. intros q _. unfold tr.
      symmetry. rewrite (rsum_ext N _ (fun k => (w q * c q * A k q * V k) * rsum N (fun l => B l q * U l))).
      2: { intros k _. rewrite <- rsum_scale. apply rsum_ext. intros. ring. }
      rewrite rsum_scale_r. rewrite (rsum_ext N (fun k => w q * c q * A k q * V k) (fun k => (w q * c q) * (A k q * V k))) by (intros; ring).
      rewrite rsum_scale. ring.
    - rewrite rsum_swap. apply rsum_ext. intros k _. rewrite rsum_swap, <- rsum_scale. apply rsum_ext. intros l _.
      rewrite <- rsum_scale_r. rewrite <- rsum_scale. apply rsum_ext. intros. ring. }
  transitivity (rsum nq (fun q => w q * (c1 * (tr N T1 V q * tr N T2 U q))) + rsum nq (fun q => w q * (- c2 * (tr N T3 V q * tr N T4 U q)))
    + rsum nq (fun q => w q * (c3 q * (tr N T5 V q * tr N T6 U q)))).
  - rewrite (B (fun _ => c1)), (B (fun _ => - c2)), (B c3). rewrite <- !rsum_plus. apply rsum_ext. intros k _.
    rewrite <- !Rmult_plus_distr_l. f_equal. rewrite <- !rsum_plus. apply rsum_ext. intros l _.
    rewrite <- !Rmult_plus_distr_r. f_equal. rewrite <- !rsum_plus. apply rsum_ext. intros. ring.
  - rewrite <- !rsum_plus. apply rsum_ext. intros. ring.
Qed.

Lemma flux_on f a U i q : rsum N (fun l => KD f a l i q * U l) = kappa_on Q f a q * grad_on Q f a U i q.
Proof.
  unfold KD, K_Dx, kappa_on, grad_on. rewrite <- rsum_scale. apply rsum_ext. intros l _.
  rewrite <- Rmult_assoc. f_equal. rewrite <- rsum_scale_r. apply rsum_ext. intros m _.
  rewrite <- rsum_scale. apply rsum_ext. intros. ring.
Qed.
Lemma flux_dot f a b U q : tr N (Dn f a b) U q = rsum dim (fun i => kappa_on Q f a q * grad_on Q f a U i q * pb_n Q f b i q).
Proof.
  unfold Dn. rewrite <- flux_normal. apply rsum_ext. intros i _. rewrite flux_on. ring.
Qed.
Lemma trace_on f a U q : tr N (Eon f a) U q = trace Q f a U q.
Proof. reflexivity. Qed.

Lemma mean_jump f g h U V q : rsum dim (fun i => mean_flux Q f g h U i q * jump Q f g h V i q) =
  1 / 2 * (trace Q f g (V g) q * (tr N (Dn f g g) (U g) q + tr N (Dn f h g) (U h) q) + trace Q f h (V h) q * (tr N (Dn f g h) (U g) q + tr N (Dn f h h) (U h) q)).
Proof.
  rewrite !flux_dot. rewrite <- !rsum_plus, <- !rsum_scale, <- rsum_plus, <- rsum_scale. apply rsum_ext. intros i _.
  unfold mean_flux, jump. ring.
Qed.

Lemma pair_app A B V U : pairing N (A ++ B) V U = pairing N A V U + pairing N B V U.
Proof. apply lsum_app. Qed.
Lemma pair_flat {T} (F : T -> list (nat * nat * (nat -> nat -> R))) l V U : pairing N (flat_map F l) V U = lsum (fun a => pairing N (F a) V U) l.
Proof. apply lsum_flat_map. Qed.

Lemma vol_pair g V U : pairing N [(g, g, vol_block g)] V U = vol_term Q g U V.
Proof.
  unfold pairing, vol_term. cbn [lsum]. rewrite Rplus_0_r. unfold vol_block, assemble_volume.
  transitivity (rsum N (fun k => rsum N (fun l => rsum (p_Nq P) (fun q => rsum dim (fun i =>
    p_W P q * p_J P g q * kappa Q g q * (Dx_Q P g l i q * U g l * (Dx_Q P g k i q * V g k))))))).
  - apply rsum_ext. intros k _. rewrite <- rsum_scale. apply rsum_ext. intros l _. rewrite <- rsum_scale_r, <- rsum_scale.
    apply rsum_ext. intros q _. unfold kappa.
    rewrite rsum_swap, <- rsum_scale_r, <- rsum_scale. apply rsum_ext. intros i _.
    rewrite <- rsum_scale_r, <- rsum_scale.
    rewrite (rsum_ext N _ (fun m => (p_W P q * p_J P g q * (Dx_Q P g l i q * U g l * (Dx_Q P g k i q * V g k))) * (p_K P g m * p_matEQ P q m))) by (intros; ring).
    rewrite rsum_scale. ring.
  - rewrite (rsum_ext N _ (fun k => rsum (p_Nq P) (fun q => rsum N (fun l => rsum dim (fun i =>
       p_W P q * p_J P g q * kappa Q g q * (Dx_Q P g l i q * U g l * (Dx_Q P g k i q * V g k))))))) by (intros; apply rsum_swap).
    rewrite rsum_swap. apply rsum_ext. intros q _.
    rewrite (rsum_ext N _ (fun k => rsum dim (fun i => rsum N (fun l =>
       p_W P q * p_J P g q * kappa Q g q * (Dx_Q P g l i q * U g l * (Dx_Q P g k i q * V g k)))))) by (intros; apply rsum_swap).
    rewrite rsum_swap, <- rsum_scale. apply rsum_ext. intros i _. unfold grad.
    change (fun l => rsum dim (fun e => p_GQ P g e i q * p_DxiQ P l e q) * U g l) with (fun l => Dx_Q P g l i q * U g l).
    change (fun l => rsum dim (fun e => p_GQ P g e i q * p_DxiQ P l e q) * V g l) with (fun l => Dx_Q P g l i q * V g l).
    rewrite (rsum_ext N _ (fun k => (p_W P q * p_J P g q * kappa Q g q * rsum N (fun l => Dx_Q P g l i q * U g l)) * (Dx_Q P g k i q * V g k))).
    2: { intros k _. rewrite <- rsum_scale, <- rsum_scale_r. apply rsum_ext. intros. ring. }
    rewrite rsum_scale. ring.
Qed.
Lemma diag_pair c f a V U : rsum N (fun k => V k * rsum N (fun l => diag_block c f a k l * U l)) =
  rsum nq (fun q => w q * (- c * (tr N (Dn f a a) V q * trace Q f a U q) - c * (trace Q f a V q * tr N (Dn f a a) U q)
    + pb_pen Q f * pb_nl Q f q * (trace Q f a V q * trace Q f a U q))).
Proof.
  unfold diag_block. apply (block_pair (Dn f a a) (Eon f a) (Eon f a) (Dn f a a) (Eon f a) (Eon f a) (- c) c (fun q => pb_pen Q f * pb_nl Q f q)).
Qed.
Lemma off_pair f a b V U : rsum N (fun k => V k * rsum N (fun l => off_block f a b k l * U l)) =
  rsum nq (fun q => w q * (- (1 / 2) * (tr N (Dn f a b) V q * trace Q f b U q) - 1 / 2 * (trace Q f a V q * tr N (Dn f b a) U q)
    - pb_pen Q f * pb_nl Q f q * (trace Q f a V q * trace Q f b U q))).
Proof.
  unfold off_block.
  pose proof (block_pair (Dn f a b) (Eon f b) (Eon f a) (Dn f b a) (Eon f a) (Eon f b) (- (1 / 2)) (1 / 2) (fun q => - (pb_pen Q f * pb_nl Q f q)) V U) as H.
  cbv beta in H. etransitivity; [|etransitivity; [apply H|]].
  - apply rsum_ext. intros k _. f_equal. apply rsum_ext. intros l _. f_equal. apply rsum_ext. intros. ring.
  - apply rsum_ext. intros. unfold trace, Eon, tr. ring.
Qed.
Lemma int_pair f g h V U :
  pairing N [(g, g, diag_block (1 / 2) f g); (g, h, off_block f g h); (h, g, off_block f h g); (h, h, diag_block (1 / 2) f h)] V U = int_term Q f g h U V.
Proof.
  unfold pairing. cbn [lsum]. rewrite !diag_pair, !off_pair, Rplus_0_r. rewrite <- !rsum_plus. unfold int_term. apply rsum_ext. intros q _.
  rewrite !mean_jump. field.
Qed.
Lemma bnd_pair f g V U : pairing N [(g, g, diag_block 1 f g)] V U = bnd_term Q f g U V.
Proof.
  unfold pairing. cbn [lsum]. rewrite diag_pair, Rplus_0_r. unfold bnd_term. apply rsum_ext. intros q _.
  rewrite (rsum_ext dim (fun i => _ * (trace Q f g (V g) q * _)) (fun i => trace Q f g (V g) q * (kappa_on Q f g q * grad_on Q f g (U g) i q * pb_n Q f g i q))) by (intros; ring).
  rewrite (rsum_ext dim (fun i => _ * (trace Q f g (U g) q * _)) (fun i => trace Q f g (U g) q * (kappa_on Q f g q * grad_on Q f g (V g) i q * pb_n Q f g i q))) by (intros; ring).
  rewrite !rsum_scale, <- !flux_dot. ring.
Qed.
Lemma global_pair elems facets bc V U : pairing N (global_matrix elems facets bc sip_mat) V U = sip_form Q elems facets bc U V.
Proof.
  unfold global_matrix, sip_form. rewrite !pair_app, !pair_flat. cbn [sip_mat f_volume f_skeleton f_boundary f_post if_some].
  rewrite (lsum_ext _ (fun g => vol_term Q g U V)) by (intros; apply vol_pair).
  rewrite (lsum_ext _ (fun f => facet_term Q elems bc f U V)).
  - rewrite (lsum_zero (fun a => pairing N [] V U)) by reflexivity. ring.
  - intros f _. unfold facet_term. destruct (elements_of elems f) as [|g [|h [|? ?]]]; try reflexivity.
    + destruct (bc f =? BC_Natural); cbn [if_some]; [reflexivity|apply bnd_pair].
    + apply int_pair.
Qed.
End Blocks.
