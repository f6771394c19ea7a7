(** Lemmas for the second method of Bassi and Rebay. *)
Require Import List Arith Lia Bool Reals Lra FunctionalExtensionality Permutation.
Require Import Verif.Base Verif.LinAlg Verif.SimplexModel Verif.TopoModel Verif.TopoSpec Verif.TopoProofs Verif.TopoProps
  Verif.AssembleModel Verif.AssembleSpec Verif.AssembleProofs Verif.AssembleProps Verif.MatFree Verif.PoissonModel Verif.PoissonProofs
  Verif.SipSpec Verif.SipProofs Verif.SipRank Verif.SipLoad Verif.Br2Spec.
Import ListNotations.
Local Open Scope R_scope.

(** The problem without penalty. *)
Definition no_pen (Q : problem) : problem := {| pb_ref := pb_ref Q; pb_loc := pb_loc Q; pb_n := pb_n Q; pb_nl := pb_nl Q; pb_G := pb_G Q;
  pb_pen := fun _ => 0; pb_jump := pb_jump Q; pb_value := pb_value Q |}.

Section Blocks.
Variable Q : problem.
Local Notation P := (pb_ref Q).
Local Notation N := (p_N P). Local Notation dim := (p_dim P). Local Notation nq := (p_nq P). Local Notation w := (p_w P).

(** The lifting as a kernel between the points of the facet. *)
Definition zk (c : R) (f : list nat) (s q q' : nat) : R :=
  kappa_on Q f s q * rsum N (fun u => Eon Q f s u q * rsum N (fun t => inverse_mass P s u t * (c * w q' * Eon Q f s t q'))).
Definition kern (z : nat -> nat -> R) (j : nat -> R) (q : nat) : R := rsum nq (fun q' => z q q' * j q').
(** c (D + 1) int_f phi_k^a n^a . Z(phi_l^b n^b). *)
Definition lift_block (c : R) (z : nat -> nat -> R) (f : list nat) (a b k l : nat) : R :=
  rsum nq (fun q => w q * (INR (dim + 1) * (Eon Q f a k q * rsum dim (fun i => c * pb_n Q f a i q * kern z (fun q' => Eon Q f b l q' * pb_n Q f b i q') q)))).
Definition z_int (f : list nat) (g h q q' : nat) : R := zk (1 / 2) f g q q' + zk (1 / 2) f h q q'.
Lemma z_int_sym f g h : z_int f g h = z_int f h g.
Proof. do 2 (apply functional_extensionality; intro). unfold z_int. ring. Qed.
Definition br2_diag (c : R) z f a k l : R := diag_block (no_pen Q) c f a k l + lift_block c z f a a k l.
Definition br2_off z f a b k l : R := off_block (no_pen Q) f a b k l + lift_block (1 / 2) z f a b k l.
Definition br2_mat : mat_form (nat -> nat -> R) := {|
  f_volume g := Some (vol_block Q g);
  f_skeleton f bc g h := let z := z_int f g h in
    Some (br2_diag (1 / 2) z f g, br2_off z f g h, br2_off z f h g, br2_diag (1 / 2) z f h);
  f_boundary f bc g := if bc =? BC_Natural then None else Some (br2_diag 1 (zk 1 f g) f g);
  f_post _ := None |}.
Lemma br2_mat_symmetric : form_symmetric br2_mat.
Proof. intros f bc g h. cbn. rewrite (z_int_sym f h g). reflexivity. Qed.

Lemma kern_ext z a b q : (forall q', (q' < nq)%nat -> a q' = b q') -> kern z a q = kern z b q.
Proof. intro E. apply rsum_ext. intros q' Hq. rewrite E; auto. Qed.
Lemma kern_plus z a b q : kern z (fun q' => a q' + b q') q = kern z a q + kern z b q.
Proof. unfold kern. rewrite <- rsum_plus. apply rsum_ext. intros. ring. Qed.
Lemma kern_sum z (F : nat -> nat -> R) (c : nat -> R) q n : rsum n (fun l => kern z (F l) q * c l) = kern z (fun q' => rsum n (fun l => F l q' * c l)) q.
Proof.
  unfold kern. rewrite (rsum_ext n _ (fun l => rsum nq (fun q' => z q q' * F l q' * c l))) by (intros; rewrite rsum_scale_r; reflexivity).
  rewrite rsum_swap. apply rsum_ext. intros q' _. rewrite <- rsum_scale. apply rsum_ext. intros. ring.
Qed.

(** V^T B U for a lifting block. *)
Definition lp (c : R) (z : nat -> nat -> R) (f : list nat) (x y : nat -> nat -> R) : R :=
  INR (dim + 1) * rsum nq (fun q => w q * rsum dim (fun i => c * x i q * kern z (y i) q)).
Lemma lift_pair c z f a b V U : rsum N (fun k => V k * rsum N (fun l => lift_block c z f a b k l * U l)) =
  lp c z f (fun i q => trace Q f a V q * pb_n Q f a i q) (fun i q => trace Q f b U q * pb_n Q f b i q).
Proof.
  assert (A : forall k, rsum N (fun l => lift_block c z f a b k l * U l) =
    rsum nq (fun q => w q * (INR (dim + 1) * (Eon Q f a k q * rsum dim (fun i => c * pb_n Q f a i q * kern z (fun q' => trace Q f b U q' * pb_n Q f b i q') q))))).
  { intro k. unfold lift_block. rewrite (rsum_ext N _ (fun l => rsum nq (fun q => w q * (INR (dim + 1) * (Eon Q f a k q *
       rsum dim (fun i => c * pb_n Q f a i q * kern z (fun q' => Eon Q f b l q' * pb_n Q f b i q') q))) * U l))) by (intros; rewrite rsum_scale_r; reflexivity).
    rewrite rsum_swap. apply rsum_ext. intros q _.
    rewrite (rsum_ext N _ (fun l => (w q * INR (dim + 1) * Eon Q f a k q) * rsum dim (fun i => c * pb_n Q f a i q * (kern z (fun q' => Eon Q f b l q' * pb_n Q f b i q') q * U l)))).
    2: { intros l _. rewrite <- !rsum_scale. rewrite <- rsum_scale_r. apply rsum_ext. intros. ring. }
    rewrite rsum_scale, rsum_swap. rewrite <- !Rmult_assoc. f_equal. apply rsum_ext. intros i _.
    rewrite rsum_scale, kern_sum. f_equal. apply kern_ext. intros q' _. unfold trace. rewrite <- rsum_scale_r. apply rsum_ext. intros. unfold Eon. ring. }
  rewrite (rsum_ext N _ (fun k => rsum nq (fun q => V k * (w q * (INR (dim + 1) * (Eon Q f a k q * rsum dim (fun i => c * pb_n Q f a i q * kern z (fun q' => trace Q f b U q' * pb_n Q f b i q') q))))))).
  2: { intros k _. rewrite A, rsum_scale. reflexivity. }
  rewrite rsum_swap. unfold lp. rewrite <- rsum_scale. apply rsum_ext. intros q _.
  set (s := rsum dim (fun i => c * pb_n Q f a i q * _)).
  rewrite (rsum_ext N _ (fun k => (p_E P (pb_loc Q f a) k q * V k) * (w q * INR (dim + 1) * s))) by (intros; unfold Eon; ring).
  rewrite rsum_scale_r. fold (trace Q f a V q). unfold s.
  replace (trace Q f a V q * (w q * INR (dim + 1) * rsum dim (fun i => c * pb_n Q f a i q * kern z (fun q' => trace Q f b U q' * pb_n Q f b i q') q)))
    with (INR (dim + 1) * (w q * (trace Q f a V q * rsum dim (fun i => c * pb_n Q f a i q * kern z (fun q' => trace Q f b U q' * pb_n Q f b i q') q)))) by ring.
  f_equal. f_equal. rewrite <- rsum_scale. apply rsum_ext. intros. ring.
Qed.
Lemma lp_plus_l c z f x x' y : lp c z f (fun i q => x i q + x' i q) y = lp c z f x y + lp c z f x' y.
Proof.
  unfold lp. rewrite <- Rmult_plus_distr_l. f_equal. rewrite <- rsum_plus. apply rsum_ext. intros q _. rewrite <- Rmult_plus_distr_l. f_equal.
  rewrite <- rsum_plus. apply rsum_ext. intros. ring.
Qed.
Lemma lp_plus_r c z f x y y' : lp c z f x (fun i q => y i q + y' i q) = lp c z f x y + lp c z f x y'.
Proof.
  unfold lp. rewrite <- Rmult_plus_distr_l. f_equal. rewrite <- rsum_plus. apply rsum_ext. intros q _. rewrite <- Rmult_plus_distr_l. f_equal.
  rewrite <- rsum_plus. apply rsum_ext. intros. rewrite kern_plus. ring.
Qed.
Lemma block_split (A B : nat -> nat -> R) V U : rsum N (fun k => V k * rsum N (fun l => (A k l + B k l) * U l)) =
  rsum N (fun k => V k * rsum N (fun l => A k l * U l)) + rsum N (fun k => V k * rsum N (fun l => B k l * U l)).
Proof.
  rewrite <- rsum_plus. apply rsum_ext. intros k _. rewrite <- Rmult_plus_distr_l. f_equal. rewrite <- rsum_plus. apply rsum_ext. intros. ring.
Qed.
Lemma br2_int_pair f g h V U : let z := z_int f g h in
  pairing N [(g, g, br2_diag (1 / 2) z f g); (g, h, br2_off z f g h); (h, g, br2_off z f h g); (h, h, br2_diag (1 / 2) z f h)] V U =
  int_term (no_pen Q) f g h U V + lp (1 / 2) z f (jump Q f g h V) (jump Q f g h U).
Proof.
  intro z. rewrite <- int_pair. unfold pairing. cbn [lsum]. unfold br2_diag, br2_off. rewrite !block_split, !lift_pair.
  unfold jump at 1 2. rewrite lp_plus_l, !lp_plus_r. cbn [no_pen pb_ref]. ring.
Qed.
Lemma br2_bnd_pair f g V U : let z := zk 1 f g in
  pairing N [(g, g, br2_diag 1 z f g)] V U = bnd_term (no_pen Q) f g U V + lp 1 z f (bjump Q f g V) (bjump Q f g U).
Proof.
  intro z. rewrite <- bnd_pair. unfold pairing. cbn [lsum]. unfold br2_diag. rewrite !block_split, !lift_pair. cbn [no_pen pb_ref]. unfold bjump. ring.
Qed.

(** * The kernel is the lifting *)
Definition delta (s u : nat) : R := if s =? u then 1 else 0.
Definition mref (t u : nat) : R := rsum (p_Nq P) (fun q => p_W P q * p_EQ P t q * p_EQ P u q).
Lemma mref_sym t u : mref t u = mref u t.
Proof. apply rsum_ext. intros. ring. Qed.
Lemma rsum_delta n (F : nat -> R) u : (u < n)%nat -> rsum n (fun s => F s * delta s u) = F u.
Proof.
  intro H. rewrite (rsum_single n u) by (auto; intros i _ Ne; unfold delta; apply Nat.eqb_neq in Ne; rewrite Ne; ring).
  unfold delta. rewrite Nat.eqb_refl. ring.
Qed.
Lemma rsum_delta_l n (F : nat -> R) u : (u < n)%nat -> rsum n (fun s => delta u s * F s) = F u.
Proof.
  intro H. rewrite <- (rsum_delta n F u H). apply rsum_ext. intros i _. unfold delta. rewrite Nat.eqb_sym. ring.
Qed.
Variables (elems : list (list nat)) (jac : nat -> R).
Hypothesis ST : constant_jacobian Q elems jac.
Hypothesis IM : inverts_mass Q.
Local Notation Mi := (p_MinvRef P).
Lemma left_inv s u : (s < N)%nat -> (u < N)%nat -> rsum N (fun t => Mi s t * mref t u) = delta s u.
Proof. exact (IM s u). Qed.
Lemma assoc3 (A B C : nat -> nat -> R) a b : rsum N (fun s => A a s * rsum N (fun t => B s t * C t b)) = rsum N (fun t => rsum N (fun s => A a s * B s t) * C t b).
Proof.
  rewrite (rsum_ext N (fun s => A a s * _) (fun s => rsum N (fun t => A a s * B s t * C t b))) by (intros; rewrite <- rsum_scale; apply rsum_ext; intros; ring).
  rewrite rsum_swap. apply rsum_ext. intros. rewrite rsum_scale_r. reflexivity.
Qed.
Lemma minv_sym s u : (s < N)%nat -> (u < N)%nat -> Mi s u = Mi u s.
Proof.
  intros Hs Hu. transitivity (rsum N (fun t => Mi s t * rsum N (fun r => mref t r * Mi u r))).
  - rewrite (rsum_ext N _ (fun t => Mi s t * delta t u)); [rewrite rsum_delta; auto|]. intros t Ht. f_equal.
    replace (delta t u) with (delta u t) by (unfold delta; rewrite Nat.eqb_sym; auto). rewrite <- left_inv by auto.
    apply rsum_ext. intros r _. rewrite mref_sym. ring.
  - etransitivity; [exact (assoc3 Mi mref (fun a b => Mi b a) s u)|]. cbv beta.
    rewrite (rsum_ext N _ (fun r => delta s r * Mi u r)) by (intros; rewrite left_inv; auto).
    exact (rsum_delta_l N (fun r => Mi u r) s Hs).
Qed.
Lemma inverse_mass_straight g k l : (g < length elems)%nat -> (k < N)%nat -> (l < N)%nat -> inverse_mass P g k l = / jac g * Mi k l.
Proof.
  intros Hg Hk Hl. destruct (ST g Hg) as [J0 J]. unfold inverse_mass.
  transitivity (/ jac g * rsum N (fun r => Mi k r * rsum N (fun s => mref r s * Mi s l))).
  - rewrite <- rsum_scale. apply rsum_ext. intros r _. rewrite <- !rsum_scale. apply rsum_ext. intros s _. unfold mref.
    rewrite <- rsum_scale_r, <- !rsum_scale. apply rsum_ext. intros q Hq. rewrite J by auto. field. lra.
  - f_equal. rewrite (assoc3 Mi mref Mi k l). rewrite (rsum_ext N _ (fun s => delta k s * Mi s l)) by (intros; rewrite left_inv; auto).
    exact (rsum_delta_l N (fun s => Mi s l) k Hk).
Qed.
Lemma value_test g r t : (g < length elems)%nat ->
  rsum (p_Nq P) (fun q => p_W P q * p_J P g q * value Q g r q * p_EQ P t q) = jac g * rsum N (fun u => mref t u * r u).
Proof.
  intro Hg. destruct (ST g Hg) as [J0 J]. unfold mref. rewrite <- rsum_scale.
  rewrite (rsum_ext N _ (fun u => rsum (p_Nq P) (fun q => jac g * (p_W P q * p_EQ P t q * p_EQ P u q * r u)))) by (intros; rewrite rsum_scale, rsum_scale_r; ring).
  rewrite rsum_swap. apply rsum_ext. intros q Hq. rewrite J by auto. unfold value.
  rewrite (rsum_ext N (fun i => jac g * _) (fun u => (jac g * p_W P q * p_EQ P t q) * (p_EQ P u q * r u))) by (intros; ring). rewrite rsum_scale. ring.
Qed.
(** The solution of the variational problem. *)
Definition the_lift (f : list nat) (g : nat) (c : R) (j : nat -> nat -> R) (i u : nat) : R :=
  rsum N (fun t => inverse_mass P g u t * (c * rsum nq (fun q => w q * j i q * Eon Q f g t q))).
Lemma lift_exists f g c j : (g < length elems)%nat -> is_lifting Q f g c j (the_lift f g c j).
Proof.
  intros Hg i t Hi Ht. rewrite value_test by auto. destruct (ST g Hg) as [J0 J]. unfold the_lift.
  set (b t := c * rsum nq (fun q => w q * j i q * Eon Q f g t q)).
  change (jac g * rsum N (fun u => mref t u * rsum N (fun t => inverse_mass P g u t * b t)) = b t).
  rewrite (rsum_ext N _ (fun u => / jac g * (mref t u * rsum N (fun t' => Mi u t' * b t')))).
  2: { intros u Hu. rewrite (rsum_ext N _ (fun t' => / jac g * (Mi u t' * b t'))) by (intros; rewrite inverse_mass_straight by auto; ring). rewrite rsum_scale. ring. }
  rewrite rsum_scale. rewrite <- Rmult_assoc, Rinv_r, Rmult_1_l by lra.
  rewrite (assoc3 mref Mi (fun t' _ => b t') t 0).
  rewrite (rsum_ext N _ (fun t' => delta t t' * b t')); [apply rsum_delta_l; auto|].
  intros t' Ht'. f_equal. transitivity (rsum N (fun s => Mi t' s * mref s t)).
  - apply rsum_ext. intros s Hs. rewrite (minv_sym t' s) by auto. rewrite (mref_sym s t). ring.
  - rewrite left_inv by auto. unfold delta. rewrite Nat.eqb_sym. reflexivity.
Qed.
Lemma lift_unique f g c j r : (g < length elems)%nat -> is_lifting Q f g c j r -> forall i u, (i < dim)%nat -> (u < N)%nat -> r i u = the_lift f g c j i u.
Proof.
  intros Hg L i u Hi Hu. destruct (ST g Hg) as [J0 J]. unfold the_lift.
  rewrite (rsum_ext N _ (fun t => Mi u t * rsum N (fun v => mref t v * r i v))).
  - rewrite (assoc3 Mi mref (fun v _ => r i v) u 0). rewrite (rsum_ext N _ (fun v => delta u v * r i v)) by (intros; rewrite left_inv; auto).
    rewrite rsum_delta_l; auto.
  - intros t Ht. rewrite inverse_mass_straight by auto. unfold Eon. rewrite <- (L i t Hi Ht), value_test by auto. field. lra.
Qed.
Lemma kern_lift f g c j r i q : (g < length elems)%nat -> (i < dim)%nat -> is_lifting Q f g c j r ->
  kern (zk c f g) (j i) q = kappa_on Q f g q * trace Q f g (r i) q.
Proof.
  intros Hg Hi L. unfold kern, zk, trace.
  rewrite (rsum_ext nq _ (fun q' => kappa_on Q f g q * (rsum N (fun u => Eon Q f g u q * rsum N (fun t => inverse_mass P g u t * (c * w q' * Eon Q f g t q'))) * j i q'))) by (intros; ring).
  rewrite rsum_scale. f_equal.
  rewrite (rsum_ext nq _ (fun q' => rsum N (fun u => Eon Q f g u q * rsum N (fun t => inverse_mass P g u t * (c * w q' * Eon Q f g t q')) * j i q'))) by (intros; rewrite rsum_scale_r; reflexivity).
  rewrite rsum_swap. apply rsum_ext. intros u Hu. rewrite (lift_unique f g c j r Hg L i u Hi Hu). unfold the_lift, Eon at 1.
  rewrite (rsum_ext nq _ (fun q' => p_E P (pb_loc Q f g) u q * rsum N (fun t => inverse_mass P g u t * (c * w q' * Eon Q f g t q') * j i q'))) by (intros; rewrite rsum_scale_r; ring).
  rewrite rsum_scale. f_equal. rewrite rsum_swap. apply rsum_ext. intros t _. rewrite <- !rsum_scale. apply rsum_ext. intros. ring.
Qed.
Lemma lp_bnd f g c j x r : (g < length elems)%nat -> is_lifting Q f g c j r ->
  lp c (zk c f g) f x j = INR (dim + 1) * (c * lift_term Q f g x r).
Proof.
  intros Hg L. unfold lp, lift_term. f_equal. rewrite <- rsum_scale. apply rsum_ext. intros q _.
  rewrite (rsum_ext dim _ (fun i => c * kappa_on Q f g q * (x i q * trace Q f g (r i) q))) by (intros; rewrite (kern_lift f g c j r) by auto; ring).
  rewrite rsum_scale. ring.
Qed.
Lemma lp_int f g h j x r s : (g < length elems)%nat -> (h < length elems)%nat -> is_lifting Q f g (1 / 2) j r -> is_lifting Q f h (1 / 2) j s ->
  lp (1 / 2) (z_int f g h) f x j = INR (dim + 1) * (1 / 2 * lift_term Q f g x r + 1 / 2 * lift_term Q f h x s).
Proof.
  intros Hg Hh Lr Ls. rewrite Rmult_plus_distr_l, <- (lp_bnd f g (1 / 2) j x r Hg Lr), <- (lp_bnd f h (1 / 2) j x s Hh Ls).
  unfold lp. rewrite <- Rmult_plus_distr_l. f_equal. rewrite <- rsum_plus. apply rsum_ext. intros q _. rewrite <- Rmult_plus_distr_l. f_equal.
  rewrite <- rsum_plus. apply rsum_ext. intros i _. rewrite <- Rmult_plus_distr_l. f_equal.
  unfold kern. rewrite <- rsum_plus. apply rsum_ext. intros. unfold z_int. ring.
Qed.
Lemma elem_in f g : In g (elements_of elems f) -> (g < length elems)%nat.
Proof. intro H. apply elements_of_spec in H as (plex & E & _). apply nth_error_Some. congruence. Qed.
Lemma br2_pair facets bc V U r : lifts_jump Q elems facets U r ->
  pairing N (global_matrix elems facets bc br2_mat) V U = br2_form Q elems facets bc r U V.
Proof.
  intro LJ. unfold global_matrix, br2_form. rewrite !pair_app, !pair_flat. cbn [br2_mat f_volume f_skeleton f_boundary f_post if_some].
  rewrite (lsum_ext _ (fun g => vol_term Q g U V)) by (intros; apply vol_pair).
  rewrite (lsum_ext _ (fun f => br2_facet Q elems bc f (r f) U V)).
  - rewrite (lsum_zero (fun a => pairing N [] V U)) by reflexivity. ring.
  - intros f Hf. destruct (LJ f Hf) as [L1 L2]. unfold br2_facet. pose proof (elem_in f) as EI. destruct (elements_of elems f) as [|g [|h [|? ?]]]; try reflexivity.
    + destruct (bc f =? BC_Natural); cbn [if_some]; [reflexivity|]. rewrite br2_bnd_pair.
      rewrite (lp_bnd f g 1 (bjump Q f g U) _ (r f g)) by (auto; apply EI; cbn; auto). unfold br2_bnd, bnd_term. cbn [no_pen pb_ref pb_pen]. rewrite Rmult_1_l. f_equal.
      apply rsum_ext. intros q _. f_equal. unfold bjump. cbn [no_pen pb_n].
      change (kappa_on (no_pen Q)) with (kappa_on Q). change (grad_on (no_pen Q)) with (grad_on Q). change (trace (no_pen Q)) with (trace Q). ring.
    + cbv zeta. cbn [if_some]. rewrite br2_int_pair. destruct (L2 g h eq_refl) as [Lg Lh].
      rewrite (lp_int f g h (jump Q f g h U) _ (r f g) (r f h)) by (auto; apply EI; cbn; auto). unfold br2_int, int_term. cbn [no_pen pb_ref pb_pen]. f_equal.
      apply rsum_ext. intros q _. f_equal. change (mean_flux (no_pen Q)) with (mean_flux Q). change (jump (no_pen Q)) with (jump Q). ring.
Qed.
End Blocks.
