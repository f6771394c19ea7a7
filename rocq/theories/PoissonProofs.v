(** Facet-wise algebra of the Poisson operator. *)
Require Import List Arith Lia Bool Reals Lra.
Require Import Verif.Base Verif.LinAlg Verif.TopoModel Verif.AssembleModel Verif.ApplyModel Verif.PoissonModel.
Import ListNotations.
Local Open Scope R_scope.

(** Normal component of a flux, value of a function given by its coefficients. *)
Definition ndot (d : nat) (n : nat -> nat -> R) (V : nat -> nat -> nat -> R) (k q : nat) : R := rsum d (fun i => n i q * V k i q).
Definition tr (N : nat) (E : nat -> nat -> R) (U : nat -> R) (q : nat) : R := rsum N (fun l => E l q * U l).

Lemma tr_ext N E E' U q : (forall l, (l < N)%nat -> E l q = E' l q) -> tr N E U q = tr N E' U q.
Proof. intro H. apply rsum_ext. intros. rewrite H; auto. Qed.

Section P.
Variable P : pdata.
Local Notation N := (p_N P). Local Notation dim := (p_dim P). Local Notation nq := (p_nq P). Local Notation Nq := (p_Nq P).
Local Notation w := (p_w P).

Lemma surface_form fct c0 c1 c2 KDa KDb Ea Eb Lb k l :
  surface P fct c0 c1 c2 KDa KDb Ea Eb Lb k l =
  rsum nq (fun q => w q * (c0 * (ndot dim (p_n P fct) KDa k q * Eb l q) + c1 * (Ea k q * ndot dim (p_n P fct) KDb l q) + c2 * (Ea k q * Lb l q))).
Proof.
  unfold surface, ndot. rewrite <- !rsum_plus. apply rsum_ext. intros q _.
  rewrite (rsum_ext dim _ (fun i => (c0 * w q * Eb l q) * (p_n P fct i q * KDa k i q))) by (intros; ring).
  rewrite (rsum_ext dim (fun i => c1 * _ * _ * _ * _) (fun i => (c1 * w q * Ea k q) * (p_n P fct i q * KDb l i q))) by (intros; ring).
  rewrite !rsum_scale. ring.
Qed.

Lemma surface_mul fct c0 c1 c2 KDa KDb Ea Eb Lb U k :
  rsum N (fun l => surface P fct c0 c1 c2 KDa KDb Ea Eb Lb k l * U l) =
  rsum nq (fun q => w q * (c0 * (ndot dim (p_n P fct) KDa k q * tr N Eb U q) +
    c1 * (Ea k q * tr N (ndot dim (p_n P fct) KDb) U q) + c2 * (Ea k q * tr N Lb U q))).
Proof.
  rewrite (rsum_ext N _ (fun l => rsum nq (fun q => w q * (c0 * (ndot dim (p_n P fct) KDa k q * Eb l q) + c1 * (Ea k q * ndot dim (p_n P fct) KDb l q) + c2 * (Ea k q * Lb l q)) * U l))).
  2: { intros l _. rewrite surface_form, rsum_scale_r. reflexivity. }
  rewrite rsum_swap. apply rsum_ext. intros q _. unfold tr.
  rewrite <- !rsum_scale. rewrite <- !rsum_plus. rewrite <- rsum_scale. apply rsum_ext. intros. ring.
Qed.

(** The prepared K_G with the gradient is K_Dx. *)
Lemma K_G_Dxi fct x side f k i q :
  f = (match side with O => fi_local0 x | _ => fi_local1 x end) ->
  rsum dim (fun e => K_G P fct x side e i q * p_Dxi P f k e q) = compute_K_Dx P fct x side k i q.
Proof.
  intros ->. destruct side; unfold K_G, compute_K_Dx, K_Dx; rewrite rsum_swap; apply rsum_ext; intros e _;
    rewrite <- rsum_scale_r; reflexivity.
Qed.

Lemma ndot_opp d n V k q : ndot d (fun i q => - n i q) V k q = - ndot d n V k q.
Proof. unfold ndot. rewrite (rsum_ext d _ (fun i => -1 * (n i q * V k i q))) by (intros; ring). rewrite rsum_scale. ring. Qed.
Lemma tr_opp M E U q : tr M (fun l q => - E l q) U q = - tr M E U q.
Proof. unfold tr. rewrite (rsum_ext M _ (fun i => -1 * (E i q * U i))) by (intros; ring). rewrite rsum_scale. ring. Qed.

(** Applying a facet with normal [n], own side [s] and fluxes [u_hat], [sigma_hat]. *)
Lemma apply_facet_form n fct x s u_hat sigma_hat k :
  apply_facet P n (K_G P fct x s) (match s with O => fi_local0 x | _ => fi_local1 x end) u_hat sigma_hat k =
  rsum nq (fun q => w q * (u_hat q * ndot dim n (compute_K_Dx P fct x s) k q
    - E_side P x s k q * rsum dim (fun r => n r q * sigma_hat r q))).
Proof.
  unfold apply_facet. apply rsum_ext. intros q _. unfold ndot. unfold E_side.
  set (f := match s with O => _ | _ => _ end).
  rewrite (rsum_ext dim _ (fun r => w q * (u_hat q * (n r q * compute_K_Dx P fct x s k r q) - p_E P f k q * (n r q * sigma_hat r q)))).
  - rewrite rsum_scale, rsum_minus, !rsum_scale. reflexivity.
  - intros r _. rewrite (rsum_ext dim _ (fun e => u_hat q * (K_G P fct x s e r q * p_Dxi P f k e q))) by (intros; ring).
    rewrite rsum_scale, (K_G_Dxi fct x s f) by reflexivity. ring.
Qed.

Lemma flux_part fct x s U p q :
  rsum dim (fun e => rsum N (fun l => K_G P fct x s e p q * p_Dxi P (match s with O => fi_local0 x | _ => fi_local1 x end) l e q * U l)) =
  rsum N (fun l => compute_K_Dx P fct x s l p q * U l).
Proof.
  rewrite rsum_swap. apply rsum_ext. intros l _. rewrite <- (K_G_Dxi fct x s _ l p q eq_refl), <- rsum_scale_r. reflexivity.
Qed.
Lemma flux_normal n V U q : rsum dim (fun r => n r q * rsum N (fun l => V l r q * U l)) = tr N (ndot dim n V) U q.
Proof.
  unfold tr, ndot. rewrite (rsum_ext dim _ (fun r => rsum N (fun l => n r q * V l r q * U l))).
  2: { intros. rewrite <- rsum_scale. apply rsum_ext. intros. ring. }
  rewrite rsum_swap. apply rsum_ext. intros. rewrite <- rsum_scale_r. reflexivity.
Qed.

(** Normal component of the numerical flux on an interior facet seen from side [s]. *)
Lemma sigma_skeleton_normal c n nu fct x s s' U Ue q : (s = 0 /\ s' = 1 \/ s = 1 /\ s' = 0)%nat ->
  rsum dim (fun r => n r q * flux_sigma_skeleton P c (K_G P fct x s) (K_G P fct x s')
    (match s with O => fi_local0 x | _ => fi_local1 x end) (match s' with O => fi_local0 x | _ => fi_local1 x end) nu U Ue r q) =
  (1 / 2) * (tr N (ndot dim n (compute_K_Dx P fct x s)) U q + tr N (ndot dim n (compute_K_Dx P fct x s')) Ue q) +
  c * (tr N (E_side P x s) U q - tr N (E_side P x s') Ue q) * rsum dim (fun r => n r q * nu r q).
Proof.
  intro Hs. unfold flux_sigma_skeleton.
  rewrite (rsum_ext dim _ (fun r => (1 / 2) * (n r q * rsum N (fun l => compute_K_Dx P fct x s l r q * U l))
     + (1 / 2) * (n r q * rsum N (fun l => compute_K_Dx P fct x s' l r q * Ue l))
     + c * (tr N (E_side P x s) U q - tr N (E_side P x s') Ue q) * (n r q * nu r q))).
  - rewrite !rsum_plus, !rsum_scale, !flux_normal. ring.
  - intros r _. rewrite !flux_part. fold (tr N (fun l q => - p_E P (match s' with O => fi_local0 x | _ => fi_local1 x end) l q) Ue q).
    rewrite tr_opp. unfold tr, E_side. ring.
Qed.
Lemma sigma_boundary_normal c n nu fct x U q :
  rsum dim (fun r => n r q * flux_sigma_boundary P c (K_G P fct x 0) (fi_local0 x) nu U r q) =
  tr N (ndot dim n (compute_K_Dx P fct x 0)) U q + c * tr N (E_side P x 0) U q * rsum dim (fun r => n r q * nu r q).
Proof.
  unfold flux_sigma_boundary.
  rewrite (rsum_ext dim _ (fun r => n r q * rsum N (fun l => compute_K_Dx P fct x 0 l r q * U l)
     + c * tr N (E_side P x 0) U q * (n r q * nu r q))).
  - rewrite !rsum_plus, !rsum_scale, flux_normal. ring.
  - intros r _. rewrite (flux_part fct x 0 U r q). unfold tr, E_side.
    rewrite (rsum_ext N (fun l => c * _ * _ * _) (fun l => c * nu r q * (p_E P (fi_local0 x) l q * U l))) by (intros; ring).
    rewrite rsum_scale. ring.
Qed.
End P.
