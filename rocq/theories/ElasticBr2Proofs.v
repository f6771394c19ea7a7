(** Lemmas for the second method of Bassi and Rebay for elasticity. *)
Require Import List Arith Lia Bool Reals Lra FunctionalExtensionality.
Require Import Verif.Base Verif.LinAlg Verif.SimplexModel Verif.TopoModel Verif.TopoSpec Verif.AssembleModel Verif.AssembleSpec Verif.AssembleProofs Verif.MatFree
  Verif.PoissonModel Verif.SipSpec Verif.ElasticityModel Verif.ElasticitySpec Verif.ElasticityProofs Verif.ElasticFormSpec Verif.ElasticFormProofs Verif.ElasticBr2Spec.
Import ListNotations.
Local Open Scope R_scope.

(** The problem without penalty. *)
Definition eno_pen (Q : eproblem) : eproblem := {| ep_ref := ep_ref Q; ep_loc := ep_loc Q; ep_n := ep_n Q; ep_nl := ep_nl Q; ep_G := ep_G Q; ep_pen := fun _ => 0;
  ep_has_slip := ep_has_slip Q; ep_has_dir := ep_has_dir Q; ep_jump := ep_jump Q; ep_value := ep_value Q |}.

Section Blocks.
Variable Q : eproblem.
Local Notation E := (ep_ref Q).
Local Notation P := (e_geo E).
Local Notation N := (p_N P). Local Notation dim := (p_dim P). Local Notation nq := (p_nq P). Local Notation w := (p_w P).
Local Notation NB := (block_size E).

(** The lifting as a kernel between the points of the facet. *)
Definition elk (c : R) (f : list nat) (t q q' : nat) : R :=
  rsum N (fun m => Bon Q f t m q * rsum N (fun o => e_Minv E t m o * (c * w q' * Bon Q f t o q'))).
Definition ekern (z : nat -> nat -> R) (j : nat -> R) (q : nat) : R := rsum nq (fun q' => z q q' * j q').
Definition tnf (lam mu : nat -> R) (n : nat -> nat -> R) (u s i q : nat) : R :=
  lam q * delta u s * n i q + mu q * (delta i u * n s q + delta i s * n u q).
(** Component i of C Z(e_u (x) j) n. *)
Definition eside (c : R) (f : list nat) (t : nat) (n : nat -> nat -> R) (j : nat -> nat -> R) (u i q : nat) : R :=
  rsum dim (fun s => tnf (lam_on Q f t) (mu_on Q f t) n u s i q * ekern (elk c f t) (j s) q).
Definition sblock (c : R) (f : list nat) (t a b K L : nat) : R :=
  rsum nq (fun q => w q * (INR (dim + 1) * (Bon Q f a (bf E K) q * (c * eside c f t (ep_n Q f a) (fun s q' => Bon Q f b (bf E L) q' * ep_n Q f b s q') (cp E L) (cp E K) q)))).
Definition ebr2_diag (f : list nat) (g h a K L : nat) : R := ediag_block (eno_pen Q) (1 / 2) f a K L + (sblock (1 / 2) f g a a K L + sblock (1 / 2) f h a a K L).
Definition ebr2_off (f : list nat) (g h a b K L : nat) : R := eoff_block (eno_pen Q) f a b K L + (sblock (1 / 2) f g a b K L + sblock (1 / 2) f h a b K L).
Definition ebr2_one (f : list nat) (g K L : nat) : R := ediag_block (eno_pen Q) 1 f g K L + sblock 1 f g g g K L.
Definition ebr2_mat : mat_form (nat -> nat -> R) := {|
  f_volume g := Some (assemble_volume E g);
  f_skeleton f bc g h := Some (ebr2_diag f g h g, ebr2_off f g h g h, ebr2_off f g h h g, ebr2_diag f g h h);
  f_boundary f bc g := if bc =? BC_Natural then None else Some (ebr2_one f g);
  f_post _ := None |}.
Lemma ebr2_mat_symmetric : form_symmetric ebr2_mat.
Proof.
  intros f bc g h. cbn.
  assert (D : forall a, ebr2_diag f h g a = ebr2_diag f g h a) by (intro a; do 2 (apply functional_extensionality; intro); unfold ebr2_diag; ring).
  assert (O : forall a b, ebr2_off f h g a b = ebr2_off f g h a b) by (intros a b; do 2 (apply functional_extensionality; intro); unfold ebr2_off; ring).
  rewrite !D, !O. reflexivity.
Qed.

Lemma ekern_ext z a b q : (forall q', (q' < nq)%nat -> a q' = b q') -> ekern z a q = ekern z b q.
Proof. intro H. apply rsum_ext. intros q' Hq. rewrite H; auto. Qed.
Lemma ekern_plus z a b q : ekern z (fun q' => a q' + b q') q = ekern z a q + ekern z b q.
Proof. unfold ekern. rewrite <- rsum_plus. apply rsum_ext. intros. ring. Qed.
Lemma ekern_sum z (F : nat -> nat -> R) (c : nat -> R) q n : rsum n (fun l => ekern z (F l) q * c l) = ekern z (fun q' => rsum n (fun l => F l q' * c l)) q.
Proof.
  unfold ekern. rewrite (rsum_ext n _ (fun l => rsum nq (fun q' => z q q' * F l q' * c l))) by (intros; rewrite rsum_scale_r; reflexivity).
  rewrite rsum_swap. apply rsum_ext. intros q' _. rewrite <- rsum_scale. apply rsum_ext. intros. ring.
Qed.
Lemma eside_sum c f t n (F : nat -> nat -> nat -> R) (x : nat -> R) u i q m :
  rsum m (fun l => eside c f t n (F l) u i q * x l) = eside c f t n (fun s q' => rsum m (fun l => F l s q' * x l)) u i q.
Proof.
  unfold eside. rewrite (rsum_ext m _ (fun l => rsum dim (fun s => tnf (lam_on Q f t) (mu_on Q f t) n u s i q * (ekern (elk c f t) (F l s) q * x l)))) by (intros; rewrite <- rsum_scale_r; apply rsum_ext; intros; ring).
  rewrite rsum_swap. apply rsum_ext. intros s _. rewrite rsum_scale. f_equal. apply ekern_sum.
Qed.
Lemma eside_ext c f t n j j' u i q : (forall s q', (q' < nq)%nat -> j s q' = j' s q') -> eside c f t n j u i q = eside c f t n j' u i q.
Proof. intro H. unfold eside. apply rsum_ext. intros s _. f_equal. apply ekern_ext. intros. auto. Qed.

(** The stress of the lifted field against v (x) n. *)
Definition lifted (c : R) (f : list nat) (t : nat) (y : nat -> nat -> nat -> R) (q : nat) : nat -> nat -> R :=
  hooke Q (lam_on Q f t q) (mu_on Q f t q) (fun u s => ekern (elk c f t) (fun q' => y q' u s) q).
Lemma side_contract c f t (v : nat -> R) n y q :
  rsum dim (fun i => v i * rsum dim (fun u => eside c f t n (fun s q' => y q' u s) u i q)) = contract Q (lifted c f t y q) (fun i k => v i * n k q).
Proof.
  rewrite contract_outer. apply rsum_ext. intros i Hi. f_equal. unfold eside, lifted, hooke, tnf.
  set (H u s := ekern (elk c f t) (fun q' => y q' u s) q). set (lam := lam_on Q f t q). set (mu := mu_on Q f t q).
  transitivity (lam * n i q * rsum dim (fun u => H u u) + mu * (rsum dim (fun s => n s q * H i s) + rsum dim (fun u => n u q * H u i))).
  - rewrite (rsum_ext dim _ (fun u => lam * n i q * H u u + mu * (delta i u * rsum dim (fun s => n s q * H u s) + n u q * H u i))).
    + rewrite rsum_plus, !rsum_scale, rsum_plus. f_equal. f_equal. f_equal. apply (delta_sum dim i (fun u => rsum dim (fun s => n s q * H u s)) Hi).
    + intros u Hu. fold (H u). change (lam_on Q f t q) with lam. change (mu_on Q f t q) with mu.
      rewrite (rsum_ext dim _ (fun s => delta u s * (lam * n i q * H u s) + (mu * delta i u * (n s q * H u s) + delta i s * (mu * n u q * H u s)))) by (intros s _; unfold H; ring).
      rewrite rsum_plus, rsum_plus, rsum_scale, (delta_sum dim u (fun s => lam * n i q * H u s) Hu), (delta_sum dim i (fun s => mu * n u q * H u s) Hi). ring.
  - rewrite (rsum_ext dim (fun j => (lam * (if i =? j then 1 else 0) * _ + _) * n j q) (fun j => delta i j * (lam * rsum dim (fun r => H r r) * n j q) + mu * (n j q * H i j + n j q * H j i)))
      by (intros; unfold delta, H, lam, mu; ring).
    rewrite rsum_plus, (delta_sum dim i (fun j => lam * rsum dim (fun r => H r r) * n j q) Hi), rsum_scale, rsum_plus. ring.
Qed.
(** V^T B U for a lifting block. *)
Definition elp (c : R) (f : list nat) (t : nat) (x y : nat -> nat -> nat -> R) : R :=
  INR (dim + 1) * rsum nq (fun q => w q * (c * contract Q (lifted c f t y q) (x q))).
Lemma stest_sum c (G : nat -> nat -> R) f a V :
  rsum NB (fun K => V K * rsum nq (fun q => w q * (INR (dim + 1) * (Bon Q f a (bf E K) q * (c * G q (cp E K)))))) =
  rsum nq (fun q => w q * (INR (dim + 1) * (c * rsum dim (fun i => disp_on Q f a V q i * G q i)))).
Proof.
  rewrite (rsum_ext NB _ (fun K => rsum nq (fun q => w q * INR (dim + 1) * c * (V K * (Bon Q f a (bf E K) q * G q (cp E K)))))) by (intros; rewrite <- rsum_scale; apply rsum_ext; intros; ring).
  rewrite rsum_swap. apply rsum_ext. intros q _. rewrite rsum_scale. rewrite (component_sum E (G q)). rewrite !Rmult_assoc. reflexivity.
Qed.
Lemma sblock_pair c f t a b V U : rsum NB (fun K => V K * rsum NB (fun L => sblock c f t a b K L * U L)) =
  elp c f t (fun q i k => disp_on Q f a V q i * ep_n Q f a k q) (fun q i k => disp_on Q f b U q i * ep_n Q f b k q).
Proof.
  set (G q i := rsum dim (fun u => eside c f t (ep_n Q f a) (fun s q' => disp_on Q f b U q' u * ep_n Q f b s q') u i q)).
  rewrite (rsum_ext NB _ (fun K => V K * rsum nq (fun q => w q * (INR (dim + 1) * (Bon Q f a (bf E K) q * (c * G q (cp E K))))))).
  - rewrite stest_sum. unfold elp. rewrite <- rsum_scale. apply rsum_ext. intros q _. unfold G.
    rewrite (side_contract c f t (disp_on Q f a V q) (ep_n Q f a) (fun q' u s => disp_on Q f b U q' u * ep_n Q f b s q') q). ring.
  - intros K _. f_equal. unfold sblock.
    rewrite (rsum_ext NB _ (fun L => rsum nq (fun q => w q * (INR (dim + 1) * (Bon Q f a (bf E K) q * (c * (eside c f t (ep_n Q f a) (fun s q' => Bon Q f b (bf E L) q' * ep_n Q f b s q') (cp E L) (cp E K) q * U L)))))))
      by (intros; rewrite <- rsum_scale_r; apply rsum_ext; intros; ring).
    rewrite rsum_swap. apply rsum_ext. intros q _. rewrite !rsum_scale. f_equal. f_equal. f_equal. f_equal.
    rewrite (sum_parts E (fun l u => eside c f t (ep_n Q f a) (fun s q' => Bon Q f b l q' * ep_n Q f b s q') u (cp E K) q)). unfold G. apply rsum_ext. intros u _.
    rewrite eside_sum. apply eside_ext. intros s q' _. unfold disp_on, coef, Bon. rewrite <- rsum_scale_r. apply rsum_ext. intros. unfold ix. ring.
Qed.
Lemma contract_ext A A' B B' : (forall i k, (i < dim)%nat -> (k < dim)%nat -> A i k = A' i k /\ B i k = B' i k) -> contract Q A B = contract Q A' B'.
Proof. intro H. unfold contract. apply rsum_ext. intros i Hi. apply rsum_ext. intros k Hk. destruct (H i k Hi Hk) as [-> ->]. reflexivity. Qed.
Lemma hooke_ext l u A A' i k : (forall i k, (i < dim)%nat -> (k < dim)%nat -> A i k = A' i k) -> (i < dim)%nat -> (k < dim)%nat -> hooke Q l u A i k = hooke Q l u A' i k.
Proof. intros H Hi Hk. unfold hooke. rewrite (H i k), (H k i) by auto. f_equal. f_equal. apply rsum_ext. intros. apply H; auto. Qed.
Lemma hooke_plus l u A B i k : hooke Q l u (fun i k => A i k + B i k) i k = hooke Q l u A i k + hooke Q l u B i k.
Proof. unfold hooke. rewrite rsum_plus. ring. Qed.
Lemma elp_plus_l c f t x x' y : elp c f t (fun q i k => x q i k + x' q i k) y = elp c f t x y + elp c f t x' y.
Proof.
  unfold elp. rewrite <- Rmult_plus_distr_l. f_equal. rewrite <- rsum_plus. apply rsum_ext. intros q _. rewrite <- !Rmult_plus_distr_l. f_equal. f_equal.
  apply contract_plus.
Qed.
Lemma elp_plus_r c f t x y y' : elp c f t x (fun q i k => y q i k + y' q i k) = elp c f t x y + elp c f t x y'.
Proof.
  unfold elp. rewrite <- Rmult_plus_distr_l. f_equal. rewrite <- rsum_plus. apply rsum_ext. intros q _. rewrite <- !Rmult_plus_distr_l. f_equal. f_equal.
  unfold contract, lifted. rewrite <- rsum_plus. apply rsum_ext. intros i Hi. rewrite <- rsum_plus. apply rsum_ext. intros k Hk.
  rewrite <- Rmult_plus_distr_r. f_equal. rewrite <- hooke_plus. apply hooke_ext; auto. intros. apply ekern_plus.
Qed.
Lemma elp_ext c f t x x' y y' : (forall q i k, (q < nq)%nat -> (i < dim)%nat -> (k < dim)%nat -> x q i k = x' q i k /\ y q i k = y' q i k) -> elp c f t x y = elp c f t x' y'.
Proof.
  intro H. unfold elp. f_equal. apply rsum_ext. intros q Hq. f_equal. f_equal. apply contract_ext. intros i k Hi Hk. split; [|apply (H q i k Hq Hi Hk)].
  apply hooke_ext; auto. intros a b Ha Hb. apply ekern_ext. intros q' Hq'. apply (H q' a b Hq' Ha Hb).
Qed.
Lemma eblock_split (A B : nat -> nat -> R) V U : rsum NB (fun k => V k * rsum NB (fun l => (A k l + B k l) * U l)) =
  rsum NB (fun k => V k * rsum NB (fun l => A k l * U l)) + rsum NB (fun k => V k * rsum NB (fun l => B k l * U l)).
Proof.
  rewrite <- rsum_plus. apply rsum_ext. intros k _. rewrite <- Rmult_plus_distr_l. f_equal. rewrite <- rsum_plus. apply rsum_ext. intros. ring.
Qed.
Lemma ebr2_int_pair f g h V U :
  pairing NB [(g, g, ebr2_diag f g h g); (g, h, ebr2_off f g h g h); (h, g, ebr2_off f g h h g); (h, h, ebr2_diag f g h h)] V U =
  eint_term (eno_pen Q) f g h U V + (elp (1 / 2) f g (djump Q f g h V) (djump Q f g h U) + elp (1 / 2) f h (djump Q f g h V) (djump Q f g h U)).
Proof.
  rewrite <- (eint_pair (eno_pen Q)). unfold pairing. cbn [lsum]. unfold ebr2_diag, ebr2_off. rewrite !eblock_split, !sblock_pair.
  change (djump Q f g h V) with (fun q i k => disp_on Q f g (V g) q i * ep_n Q f g k q + disp_on Q f h (V h) q i * ep_n Q f h k q).
  change (djump Q f g h U) with (fun q i k => disp_on Q f g (U g) q i * ep_n Q f g k q + disp_on Q f h (U h) q i * ep_n Q f h k q).
  rewrite !elp_plus_l, !elp_plus_r. cbn [eno_pen ep_ref]. ring.
Qed.
Lemma ebr2_bnd_pair f g V U :
  pairing NB [(g, g, ebr2_one f g)] V U = ebnd_term (eno_pen Q) f g U V + elp 1 f g (ebjump Q f g V) (ebjump Q f g U).
Proof.
  rewrite <- (ebnd_pair (eno_pen Q)). unfold pairing. cbn [lsum]. unfold ebr2_one. rewrite !eblock_split, !sblock_pair. cbn [eno_pen ep_ref].
  change (ebjump Q f g V) with (fun q i k => disp_on Q f g (V g) q i * ep_n Q f g k q). change (ebjump Q f g U) with (fun q i k => disp_on Q f g (U g) q i * ep_n Q f g k q). ring.
Qed.

(** * The kernel is the lifting *)
Variable elems : list (list nat).
Hypothesis IM : forall g, (g < length elems)%nat -> keeps_inverse E g.
Lemma mass_sym g s t : mass_matrix E g s t = mass_matrix E g t s.
Proof. apply rsum_ext. intros. ring. Qed.
Lemma eassoc3 (A B C : nat -> nat -> R) a b : rsum N (fun s => A a s * rsum N (fun t => B s t * C t b)) = rsum N (fun t => rsum N (fun s => A a s * B s t) * C t b).
Proof.
  rewrite (rsum_ext N (fun s => A a s * _) (fun s => rsum N (fun t => A a s * B s t * C t b))) by (intros; rewrite <- rsum_scale; apply rsum_ext; intros; ring).
  rewrite rsum_swap. apply rsum_ext. intros. rewrite rsum_scale_r. reflexivity.
Qed.
Lemma einv_left g s u : (g < length elems)%nat -> (s < N)%nat -> (u < N)%nat -> rsum N (fun t => e_Minv E g s t * mass_matrix E g t u) = delta s u.
Proof. intros Hg Hs Hu. apply (IM g Hg s u Hs Hu). Qed.
Lemma einv_sym g s u : (g < length elems)%nat -> (s < N)%nat -> (u < N)%nat -> e_Minv E g s u = e_Minv E g u s.
Proof.
  intros Hg Hs Hu. set (Mi := e_Minv E g). set (M := mass_matrix E g).
  transitivity (rsum N (fun t => Mi s t * rsum N (fun r => M t r * Mi u r))).
  - rewrite (rsum_ext N _ (fun t => delta u t * Mi s t)); [rewrite delta_sum; auto|]. intros t Ht. rewrite Rmult_comm. f_equal.
    rewrite <- (einv_left g u t) by auto. apply rsum_ext. intros r _. unfold M, Mi. rewrite (mass_sym g t r). ring.
  - etransitivity; [exact (eassoc3 Mi M (fun a b => Mi b a) s u)|]. cbv beta.
    rewrite (rsum_ext N _ (fun r => delta s r * Mi u r)) by (intros; unfold Mi, M; rewrite einv_left; auto).
    exact (delta_sum N s (fun r => Mi u r) Hs).
Qed.
Lemma einv_right g s u : (g < length elems)%nat -> (s < N)%nat -> (u < N)%nat -> rsum N (fun t => mass_matrix E g s t * e_Minv E g t u) = delta s u.
Proof.
  intros Hg Hs Hu. rewrite delta_sym, <- (einv_left g u s Hg Hu Hs). apply rsum_ext. intros t Ht. rewrite (mass_sym g s t), (einv_sym g t u) by auto. ring.
Qed.
Lemma efield_test g r t : rsum (p_Nq P) (fun q => p_W P q * p_J P g q * field Q g r q * p_EQ P t q) = rsum N (fun u => mass_matrix E g t u * r u).
Proof.
  unfold mass_matrix. rewrite (rsum_ext N _ (fun u => rsum (p_Nq P) (fun q => p_EQ P t q * p_W P q * p_J P g q * p_EQ P u q * r u))) by (intros; rewrite rsum_scale_r; reflexivity).
  rewrite rsum_swap. apply rsum_ext. intros q _. unfold field.
  transitivity (rsum N (fun u => (p_EQ P t q * p_W P q * p_J P g q) * (p_EQ P u q * r u))); [rewrite rsum_scale; ring|apply rsum_ext; intros; ring].
Qed.
Definition ethe_lift (f : list nat) (g : nat) (c : R) (j : nat -> nat -> nat -> R) (i k u : nat) : R :=
  rsum N (fun t => e_Minv E g u t * (c * rsum nq (fun q => w q * j q i k * Bon Q f g t q))).
Lemma elift_exists f g c j : (g < length elems)%nat -> is_elifting Q f g c j (ethe_lift f g c j).
Proof.
  intros Hg i k t Hi Hk Ht. rewrite efield_test. unfold ethe_lift. set (b t := c * rsum nq (fun q => w q * j q i k * Bon Q f g t q)).
  etransitivity; [exact (eassoc3 (mass_matrix E g) (e_Minv E g) (fun t _ => b t) t 0)|]. cbv beta.
  rewrite (rsum_ext N _ (fun t' => delta t t' * b t')) by (intros; rewrite einv_right by auto; reflexivity). rewrite delta_sum by auto. reflexivity.
Qed.
Lemma elift_unique f g c j r : (g < length elems)%nat -> is_elifting Q f g c j r ->
  forall i k u, (i < dim)%nat -> (k < dim)%nat -> (u < N)%nat -> r i k u = ethe_lift f g c j i k u.
Proof.
  intros Hg L i k u Hi Hk Hu. unfold ethe_lift.
  rewrite (rsum_ext N _ (fun t => e_Minv E g u t * rsum N (fun v => mass_matrix E g t v * r i k v))).
  - etransitivity; [|symmetry; exact (eassoc3 (e_Minv E g) (mass_matrix E g) (fun v _ => r i k v) u 0)]. cbv beta.
    rewrite (rsum_ext N _ (fun v => delta u v * r i k v)) by (intros; rewrite einv_left by auto; reflexivity). rewrite delta_sum; auto.
  - intros t Ht. rewrite <- efield_test, (L i k t Hi Hk Ht). reflexivity.
Qed.
Lemma ekern_lift f g c j r i k q : (g < length elems)%nat -> (i < dim)%nat -> (k < dim)%nat -> is_elifting Q f g c j r ->
  ekern (elk c f g) (fun q' => j q' i k) q = field_on Q f g (r i k) q.
Proof.
  intros Hg Hi Hk L. unfold ekern, elk, field_on.
  rewrite (rsum_ext nq _ (fun q' => rsum N (fun u => Bon Q f g u q * rsum N (fun t => e_Minv E g u t * (c * w q' * Bon Q f g t q')) * j q' i k))) by (intros; rewrite rsum_scale_r; reflexivity).
  rewrite rsum_swap. apply rsum_ext. intros u Hu. rewrite (elift_unique f g c j r Hg L i k u Hi Hk Hu). unfold ethe_lift, Bon at 1.
  rewrite (rsum_ext nq _ (fun q' => p_E P (ep_loc Q f g) u q * rsum N (fun t => e_Minv E g u t * (c * w q' * Bon Q f g t q') * j q' i k))) by (intros; rewrite rsum_scale_r; ring).
  rewrite rsum_scale. f_equal. rewrite rsum_swap. apply rsum_ext. intros t _. rewrite <- !rsum_scale. apply rsum_ext. intros. ring.
Qed.
Lemma elp_lift f g c j x r : (g < length elems)%nat -> is_elifting Q f g c j r -> elp c f g x j = INR (dim + 1) * (c * elift_term Q f g x r).
Proof.
  intros Hg L. unfold elp, elift_term. f_equal. rewrite <- rsum_scale. apply rsum_ext. intros q _.
  rewrite (contract_ext (lifted c f g j q) (hooke Q (lam_on Q f g q) (mu_on Q f g q) (fun i k => field_on Q f g (r i k) q)) (x q) (x q)); [ring|].
  intros i k Hi Hk. split; [|reflexivity]. apply hooke_ext; auto. intros a b Ha Hb. apply (ekern_lift f g c j r a b q Hg Ha Hb L).
Qed.
Lemma eelem_in f g : In g (elements_of elems f) -> (g < length elems)%nat.
Proof. intro H. apply elements_of_spec in H as (plex & Ep & _). apply nth_error_Some. congruence. Qed.
Lemma ebr2_pair facets bc V U r : elifts_jump Q elems facets U r ->
  pairing NB (global_matrix elems facets bc ebr2_mat) V U = ebr2_form Q elems facets bc r U V.
Proof.
  intro LJ. unfold global_matrix, ebr2_form. rewrite !epair_app, !epair_flat. cbn [ebr2_mat f_volume f_skeleton f_boundary f_post if_some].
  rewrite (lsum_ext _ (fun g => evol_term Q g U V)) by (intros; apply evol_pair).
  rewrite (lsum_ext _ (fun f => ebr2_facet Q elems bc f (r f) U V)).
  - rewrite (lsum_zero (fun a => pairing NB [] V U)) by reflexivity. ring.
  - intros f Hf. destruct (LJ f Hf) as [L1 L2]. unfold ebr2_facet. pose proof (eelem_in f) as EI. destruct (elements_of elems f) as [|g [|h [|? ?]]]; try reflexivity.
    + destruct (bc f =? BC_Natural); cbn [if_some]; [reflexivity|]. rewrite ebr2_bnd_pair.
      rewrite (elp_lift f g 1 (ebjump Q f g U) _ (r f g)) by (auto; apply EI; cbn; auto). unfold ebr2_bnd, ebnd_term. cbn [eno_pen ep_ref ep_pen]. rewrite Rmult_1_l. f_equal.
      apply rsum_ext. intros q _. f_equal. change (contract (eno_pen Q)) with (contract Q). change (stress_on (eno_pen Q)) with (stress_on Q). change (disp_on (eno_pen Q)) with (disp_on Q).
      cbn [eno_pen ep_n]. change (ebjump Q f g V q) with (fun i k => disp_on Q f g (V g) q i * ep_n Q f g k q). change (ebjump Q f g U q) with (fun i k => disp_on Q f g (U g) q i * ep_n Q f g k q). ring.
    + cbn [if_some]. rewrite ebr2_int_pair. destruct (L2 g h eq_refl) as [Lg Lh].
      rewrite (elp_lift f g (1 / 2) (djump Q f g h U) _ (r f g)), (elp_lift f h (1 / 2) (djump Q f g h U) _ (r f h)) by (auto; apply EI; cbn; auto).
      unfold ebr2_int, eint_term. cbn [eno_pen ep_ref ep_pen]. rewrite <- Rmult_plus_distr_l. f_equal.
      apply rsum_ext. intros q _. f_equal. change (contract (eno_pen Q)) with (contract Q). change (mean_stress (eno_pen Q)) with (mean_stress Q). change (djump (eno_pen Q)) with (djump Q). ring.
Qed.

(** * Right-hand side *)
Definition sload (c : R) (f : list nat) (t a : nat) (d : nat -> nat -> R) (K : nat) : R :=
  rsum nq (fun q => w q * (INR (dim + 1) * (Bon Q f a (bf E K) q * (c * rsum dim (fun u => eside c f t (ep_n Q f a) (fun s q' => d u q' * ep_n Q f a s q') u (cp E K) q))))).
Definition ebr2_int_block (f : list nat) (g h a : nat) (K : nat) : R :=
  eload_block (eno_pen Q) (1 / 2) f a (ep_jump Q f a) K + (sload (1 / 2) f g a (ep_jump Q f a) K + sload (1 / 2) f h a (ep_jump Q f a) K).
Definition ebr2_bnd_block (f : list nat) (g : nat) (K : nat) : R := eload_block (eno_pen Q) 1 f g (ep_value Q f) K + sload 1 f g g (ep_value Q f) K.
Definition ebr2_vec : vec_form (nat -> R) := {|
  v_volume g := rhs_volume E g;
  v_skeleton f bc g h := if ehas_data Q bc then Some (ebr2_int_block f g h g, ebr2_int_block f g h h) else None;
  v_boundary f bc g := if ehas_data Q bc then Some (ebr2_bnd_block f g) else None;
  v_post _ := None |}.
Lemma ebr2_vec_symmetric : vform_symmetric ebr2_vec.
Proof.
  intros f bc g h. cbn. destruct (ehas_data Q bc); [|reflexivity].
  assert (O : forall a, ebr2_int_block f h g a = ebr2_int_block f g h a) by (intros a; apply functional_extensionality; intro; unfold ebr2_int_block; ring).
  rewrite !O. reflexivity.
Qed.
Lemma sload_pair c f t a d V : rsum NB (fun K => V K * sload c f t a d K) =
  elp c f t (fun q i k => disp_on Q f a V q i * ep_n Q f a k q) (fun q i k => d i q * ep_n Q f a k q).
Proof.
  unfold sload. rewrite (stest_sum c (fun q i => rsum dim (fun u => eside c f t (ep_n Q f a) (fun s q' => d u q' * ep_n Q f a s q') u i q))).
  unfold elp. rewrite <- rsum_scale. apply rsum_ext. intros q _.
  rewrite (side_contract c f t (disp_on Q f a V q) (ep_n Q f a) (fun q' u s => d u q' * ep_n Q f a s q') q). ring.
Qed.
Lemma evblock_split (A B V : nat -> R) : rsum NB (fun k => V k * (A k + B k)) = rsum NB (fun k => V k * A k) + rsum NB (fun k => V k * B k).
Proof. rewrite <- rsum_plus. apply rsum_ext. intros. ring. Qed.
Lemma ebr2_vpair k facets bc V r : eproblem_ok k elems facets Q -> elifts_data Q elems facets r ->
  vpairing NB (global_vector elems facets bc ebr2_vec) V = ebr2_load Q elems facets bc r V.
Proof.
  intros PO LD. unfold global_vector, ebr2_load. rewrite !evpair_app, !evpair_flat. cbn [ebr2_vec v_volume v_skeleton v_boundary v_post if_some].
  rewrite (lsum_ext _ (fun g => evol_load Q g V)) by (intros; apply evol_load_pair).
  rewrite (lsum_ext _ (fun f => ebr2_facet_load Q elems bc f (r f) V)).
  - rewrite (lsum_zero (fun a => vpairing NB [] V)) by reflexivity. ring.
  - intros f Hf. destruct (LD f Hf) as [L1 L2]. unfold ebr2_facet_load. pose proof (eelem_in f) as EI.
    destruct (elements_of elems f) as [|g [|h [|? ?]]] eqn:EL; try (destruct (ehas_data Q (bc f)); reflexivity).
    + destruct (ehas_data Q (bc f)); cbn [if_some]; [|reflexivity].
      transitivity (ebnd_load (eno_pen Q) f g V + elp 1 f g (ebjump Q f g V) (edvalue Q f g)).
      { rewrite <- (ebnd_load_pair (eno_pen Q)). unfold vpairing. cbn [lsum]. unfold ebr2_bnd_block. rewrite evblock_split, sload_pair.
        change (ebjump Q f g V) with (fun q i k => disp_on Q f g (V g) q i * ep_n Q f g k q). change (edvalue Q f g) with (fun q i k => ep_value Q f i q * ep_n Q f g k q).
        cbn [eno_pen ep_ref ep_value]. ring. }
      rewrite (elp_lift f g 1 (edvalue Q f g) _ (r f g)) by (auto; apply EI; cbn; auto).
      unfold ebr2_bnd_load, ebnd_load. cbn [eno_pen ep_ref ep_pen]. rewrite Rmult_1_l. f_equal. apply rsum_ext. intros q _. f_equal.
      change (contract (eno_pen Q)) with (contract Q). change (stress_on (eno_pen Q)) with (stress_on Q). cbn [eno_pen ep_n ep_value].
      change (edvalue Q f g q) with (fun i k => ep_value Q f i q * ep_n Q f g k q). ring.
    + destruct (ehas_data Q (bc f)); cbn [if_some]; [|reflexivity].
      assert (Hn : forall q i, ep_n Q f h i q = - ep_n Q f g i q) by (intros; apply (eo_n _ _ _ _ PO f g h); auto).
      assert (Hj : forall q i, ep_jump Q f h i q = - ep_jump Q f g i q) by (intros; apply (eo_jump _ _ _ _ PO f g h); auto).
      transitivity (eint_load (eno_pen Q) f g h V + (elp (1 / 2) f g (djump Q f g h V) (edjump Q f g) + elp (1 / 2) f h (djump Q f g h V) (edjump Q f g))).
      { rewrite <- (eint_load_pair (eno_pen Q)) by auto. unfold vpairing. cbn [lsum]. unfold ebr2_int_block. rewrite !evblock_split, !sload_pair.
        change (djump Q f g h V) with (fun q i k => disp_on Q f g (V g) q i * ep_n Q f g k q + disp_on Q f h (V h) q i * ep_n Q f h k q). rewrite !elp_plus_l.
        rewrite (elp_ext (1 / 2) f g _ (fun q i k => disp_on Q f h (V h) q i * ep_n Q f h k q) (fun q i k => ep_jump Q f h i q * ep_n Q f h k q) (edjump Q f g)) by (intros; split; auto; unfold edjump; rewrite Hn, Hj; ring).
        rewrite (elp_ext (1 / 2) f h _ (fun q i k => disp_on Q f h (V h) q i * ep_n Q f h k q) (fun q i k => ep_jump Q f h i q * ep_n Q f h k q) (edjump Q f g)) by (intros; split; auto; unfold edjump; rewrite Hn, Hj; ring).
        change (fun q i k => ep_jump Q f g i q * ep_n Q f g k q) with (edjump Q f g). cbn [eno_pen ep_ref ep_jump]. ring. }
      destruct (L2 g h eq_refl) as [Lg Lh].
      rewrite (elp_lift f g (1 / 2) (edjump Q f g) _ (r f g)), (elp_lift f h (1 / 2) (edjump Q f g) _ (r f h)) by (auto; apply EI; cbn; auto).
      unfold ebr2_int_load, eint_load. cbn [eno_pen ep_ref ep_pen]. rewrite <- Rmult_plus_distr_l. f_equal. apply rsum_ext. intros q _. f_equal.
      change (contract (eno_pen Q)) with (contract Q). change (mean_stress (eno_pen Q)) with (mean_stress Q). cbn [eno_pen ep_n ep_jump].
      change (edjump Q f g q) with (fun i k => ep_jump Q f g i q * ep_n Q f g k q). ring.
Qed.
End Blocks.
