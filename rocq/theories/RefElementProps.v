(** C67: the reference elements.  The tables of basis functions and gradients are right for every permutation of the
    indices; the mass matrices are the integrals of products; the nodal basis is one at its node. *)
Require Import List Arith Lia Reals Lra Permutation.
Require Import Verif.Base Verif.LinAlg Verif.MultiIndexModel Verif.MultiIndexProps Verif.TensorModel Verif.TensorProps Verif.CombinatoricsModel
  Verif.BasisModel Verif.BasisSpec Verif.BasisProps Verif.IntegralSpec Verif.IntegralProofs Verif.QuadratureModel Verif.QuadratureSpec Verif.QuadratureProps
  Verif.JacobiProofs Verif.RootsProps Verif.DubinerProofs Verif.SpanProofs Verif.RefElementSpec Verif.RefElementModel Verif.RefElementProofs.
Import ListNotations.
Local Open Scope R_scope.

(** A loop over AllIntegerSums<D>(N) has run through mi. *)
Definition runs_through (D N : nat) (mi : list (list nat)) : Prop :=
  exists fuel, sums_loop fuel (sums_begin D true N) (sums_end D true N) = Some mi.
(** The zeros and tables that simplexQuadratureRule<D>(m) uses are as in simplex_quadrature_rule_exact (C66). *)
Definition sound_quadrature root wv2 js wv3 (m : nat) : Prop :=
  (forall a, (a <= 2)%nat -> jacobi_roots (1 + m / 2) a 0 (root (1 + m / 2)%nat a 0%nat))
  /\ good_table 2 (wv_transform 2) wv2 /\ good_table 3 js_transform js /\ good_table 3 (wv_transform 3) wv3.

(** C67a: the modal basis consists of (N+D over D) polynomials of degree at most N, and every such polynomial is a
    combination of them in exactly one way.  evaluateBasisAt and evaluateGradientAt return packed tensors of the
    permuted shape with the values and the partial derivatives at the permuted indices, whatever the memory held
    before. *)
Theorem modal_ref_element : forall D N mi, (D = 1 \/ D = 2 \/ D = 3)%nat -> runs_through D N mi ->
  let phi bf := DubinerP D (nth bf mi []) in let nb := length mi in
  binom (N + D) D = Some nb
  /\ (forall bf, (bf < nb)%nat -> polynomial D N (phi bf))
  /\ (forall f, polynomial D N f -> exists c, (forall xi, f xi = rsum nb (fun bf => c bf * phi bf xi))
        /\ forall c', (forall xi, f xi = rsum nb (fun bf => c' bf * phi bf xi)) -> forall bf, (bf < nb)%nat -> c' bf = c bf)
  /\ (forall m0 points perm, Permutation perm [0; 1]%nat -> exists E m,
        modal_evaluateBasisAt m0 D N mi points perm = Some (E, m) /\ E = packed 0 (permuted perm [nb; length points])
        /\ forall bf p, (bf < nb)%nat -> (p < length points)%nat ->
             m (v_addr E (permuted perm [bf; p])) = phi bf (point points p))
  /\ (forall m0 points perm, Permutation perm [0; 1; 2]%nat -> exists E m,
        modal_evaluateGradientAt m0 D N mi points perm = Some (E, m) /\ E = packed 0 (permuted perm [nb; D; length points])
        /\ forall bf d p, (bf < nb)%nat -> (d < D)%nat -> (p < length points)%nat -> (D = 2 \/ D = 3)%nat ->
             partial_derivative (phi bf) d (point points p) (m (v_addr E (permuted perm [bf; d; p])))).
Proof.
  intros D N mi HD [fuel E] phi nb. destruct (sums_multiindices fuel D N mi ltac:(lia) E) as [Hmi Hb]. clear E.
  split; [exact Hb |]. split; [intros bf Hbf; now apply (phi_poly D N mi HD Hmi) |]. split; [| split].
  - intros f Hf. destruct (phi_span D N mi HD Hmi f Hf) as (c & Hc). exists c. split; [exact Hc |]. intros c' Hc' bf Hbf.
    assert (Z : c' bf + -1 * c bf = 0); [| lra].
    refine (phi_independent D N mi HD Hmi (fun j => c' j + -1 * c j) _ bf Hbf). intros xi.
    rewrite (rsum_ext _ _ (fun j => c' j * phi j xi - c j * phi j xi)) by (intros; unfold phi; ring). rewrite rsum_minus.
    fold nb. rewrite <- Hc'. unfold phi, nb. rewrite <- Hc. ring.
  - intros m0 points perm Hp. exact (modal_basis_ok m0 D N mi points perm Hb Hp).
  - intros m0 points perm Hp. destruct (modal_gradient_ok m0 D N mi points perm Hb Hp) as (E & m & Em & EE & Hm).
    exists E, m. split; [exact Em |]. split; [exact EE |]. intros bf d p Hbf Hd Hq HD'. rewrite Hm by assumption. now apply dubiner_gradient.
Qed.
Print Assumptions modal_ref_element.

Lemma modal_mass_ok : forall m0 root wv2 js wv3 D N mi, (D = 1 \/ D = 2 \/ D = 3)%nat -> multiindices D N mi ->
  binom (N + D) D = Some (length mi) -> sound_quadrature root wv2 js wv3 (2 * N) ->
  exists M Minv, modal_massMatrix m0 root wv2 js wv3 D N mi = Some M /\ modal_inverseMassMatrix m0 root wv2 js wv3 D N mi = Some Minv
  /\ (forall i j, (i < length mi)%nat -> (j < length mi)%nat -> M i j = if (i =? j)%nat then dub_norm D (nth i mi []) else 0)
  /\ (forall i j, (i < length mi)%nat -> (j < length mi)%nat -> Minv i j = if (i =? j)%nat then / dub_norm D (nth i mi []) else 0).
Proof.
  intros m0 root wv2 js wv3 D N mi HD Hmi Hb (Hr & G2 & Gj & G3).
  pose proof (proj1 (simplex_quadrature_rule_exact root wv2 js wv3 D (2 * N) Hr G2 Gj G3 HD)) as X.
  unfold modal_inverseMassMatrix, modal_massMatrix. cbv zeta in *. set (rule := sr_points _) in *.
  destruct (modal_basis_ok m0 D N mi (map fst rule) [0; 1]%nat Hb (Permutation_refl _)) as (E & m & Em & EE & Hm).
  rewrite Em. cbn [bind]. eexists; eexists. split; [reflexivity |]. split; [reflexivity |].
  assert (MM : forall i, (i < length mi)%nat ->
    fold_left (fun s q => s + nth q (map snd rule) 0 * emap m E i q * emap m E i q) (seq 0 (length rule)) 0 = dub_norm D (nth i mi [])).
  { intros i Hi. rewrite (fold_left_rsum (length rule) (fun q => nth q (map snd rule) 0 * emap m E i q * emap m E i q)), Rplus_0_l.
    apply (simplex_integral_unique D (fun xi => DubinerP D (nth i mi []) xi * DubinerP D (nth i mi []) xi)); [exact HD | |].
    - assert (P : polynomial D (2 * N) (fun xi => DubinerP D (nth i mi []) xi * DubinerP D (nth i mi []) xi)).
      { replace (2 * N)%nat with (N + N)%nat by lia. apply poly_mult; now apply (phi_poly D N mi HD Hmi). }
      specialize (X _ P). rewrite rule_sum_nth in X. erewrite rsum_ext; [exact X |]. intros q Hq. cbv beta.
      unfold emap. change [i; q] with (permuted [0; 1]%nat [i; q]). rewrite Hm by (rewrite ?map_length; assumption). ring.
    - pose proof (phi_integral D N mi HD Hmi i i Hi Hi) as I. rewrite Nat.eqb_refl in I. exact I. }
  split; intros i j Hi Hj; destruct (Nat.eqb_spec i j) as [<- | Hne]; try reflexivity; rewrite MM by assumption; [reflexivity |].
  unfold Rdiv. ring.
Qed.
(** C67b: the modal mass matrix holds the integrals of the products of basis functions over the reference simplex -
    the entries off the diagonal, that are not computed, too - and inverseMassMatrix is its inverse. *)
Theorem modal_mass_matrix : forall m0 root wv2 js wv3 D N mi, (D = 1 \/ D = 2 \/ D = 3)%nat -> runs_through D N mi ->
  sound_quadrature root wv2 js wv3 (2 * N) ->
  let phi bf := DubinerP D (nth bf mi []) in let nb := length mi in
  exists M Minv, modal_massMatrix m0 root wv2 js wv3 D N mi = Some M /\ modal_inverseMassMatrix m0 root wv2 js wv3 D N mi = Some Minv
  /\ (forall i j, (i < nb)%nat -> (j < nb)%nat -> is_simplex_integral D (fun xi => phi i xi * phi j xi) (M i j))
  /\ (forall i j, (i < nb)%nat -> (j < nb)%nat -> rsum nb (fun k => M i k * Minv k j) = if (i =? j)%nat then 1 else 0).
Proof.
  intros m0 root wv2 js wv3 D N mi HD [fuel E] Hq phi nb. destruct (sums_multiindices fuel D N mi ltac:(lia) E) as [Hmi Hb]. clear E.
  destruct (modal_mass_ok m0 root wv2 js wv3 D N mi HD Hmi Hb Hq) as (M & Minv & EM & EI & HM & HI).
  exists M, Minv. split; [exact EM |]. split; [exact EI |]. split; intros i j Hi Hj.
  - rewrite HM by assumption. apply (phi_integral D N mi HD Hmi i j Hi Hj).
  - rewrite (rsum_single nb i (fun k => M i k * Minv k j)); [| exact Hi |].
    + rewrite HM, HI, Nat.eqb_refl by assumption. destruct (i =? j)%nat; [| ring]. field. pose proof (dub_norm_pos D (nth i mi [])). lra.
    + intros k Hk Hne. rewrite HM by assumption. destruct (Nat.eqb_spec i k); [congruence | ring].
Qed.
Print Assumptions modal_mass_matrix.

(** C67c: for nodes that determine the polynomials of degree at most N there is one nodal basis; interpolation in the
    nodes reproduces every polynomial of degree at most N. *)
Theorem nodal_basis_exists_unique : forall inverse D N mi nodes, (D = 1 \/ D = 2 \/ D = 3)%nat -> runs_through D N mi ->
  length nodes = length mi -> unisolvent D N nodes -> exact_inverse inverse ->
  exists psi, nodal_basis D N nodes psi
  /\ (forall psi', nodal_basis D N nodes psi' -> forall i xi, (i < length nodes)%nat -> psi' i xi = psi i xi)
  /\ (forall f, polynomial D N f -> forall xi, f xi = rsum (length nodes) (fun i => f (point nodes i) * psi i xi))
  /\ (forall xi, rsum (length nodes) (fun i => psi i xi) = 1).
Proof.
  intros inverse D N mi nodes HD [fuel E] Hn U HI. destruct (sums_multiindices fuel D N mi ltac:(lia) E) as [Hmi Hb]. clear E.
  exists (psi0 inverse D N mi nodes). pose proof (psi0_nodal inverse D N mi nodes HD Hmi Hn U HI) as P. split; [exact P |].
  assert (Rp : forall f, polynomial D N f -> forall xi, f xi = rsum (length nodes) (fun i => f (point nodes i) * psi0 inverse D N mi nodes i xi))
    by (intros f Hf xi; now apply (nodal_reproduces D N nodes)).
  split; [| split].
  - intros psi' P' i xi Hi. now apply (nodal_unique D N nodes).
  - exact Rp.
  - intros xi. rewrite (Rp (fun _ => 1) (poly_const D 1 N) xi). apply rsum_ext. intros; ring.
Qed.
Print Assumptions nodal_basis_exists_unique.

Lemma partial_ext : forall f g d xi l, (forall x, f x = g x) -> partial_derivative f d xi l -> partial_derivative g d xi l.
Proof.
  intros f g d xi l E H. unfold partial_derivative in *. eapply derivable_pt_lim_ext_eq; [| reflexivity | exact H].
  intros t. apply E.
Qed.
Lemma partial_scale : forall f d xi l c, partial_derivative f d xi l -> partial_derivative (fun x => c * f x) d xi (c * l).
Proof. intros f d xi l c H. unfold partial_derivative in *. apply (derivable_pt_lim_scal (fun t => f (with_coord xi d t))). exact H. Qed.
Lemma partial_rsum : forall n (f : nat -> (nat -> R) -> R) d xi l, (forall k, (k < n)%nat -> partial_derivative (f k) d xi (l k)) ->
  partial_derivative (fun x => rsum n (fun k => f k x)) d xi (rsum n l).
Proof.
  induction n as [| n IH]; intros f d xi l H; cbn [rsum]; unfold partial_derivative.
  - apply derivable_pt_lim_const.
  - apply (derivable_pt_lim_plus (fun t => rsum n (fun k => f k (with_coord xi d t))) (fun t => f n (with_coord xi d t))).
    + apply IH. auto with arith.
    + apply H. lia.
Qed.

(** C67d: NodalRefElement: evaluateBasisAt returns the values and evaluateGradientAt the partial derivatives of the
    nodal basis - whichever polynomials psi are one at their node and zero at the others - for every permutation of
    the indices. *)
Theorem nodal_ref_element : forall inverse D N mi nodes psi, (D = 1 \/ D = 2 \/ D = 3)%nat -> runs_through D N mi ->
  length nodes = length mi -> unisolvent D N nodes -> exact_inverse inverse -> nodal_basis D N nodes psi ->
  let S := NodalRefElement inverse D N mi nodes in let n := length nodes in
  (forall m0 points perm, Permutation perm [0; 1]%nat -> exists E m,
      nodal_evaluateBasisAt S m0 points perm = Some (E, m) /\ E = packed 0 (permuted perm [n; length points])
      /\ forall i p, (i < n)%nat -> (p < length points)%nat ->
           m (v_addr E (permuted perm [i; p])) = psi i (point points p))
  /\ (forall m0 points perm, Permutation perm [0; 1; 2]%nat -> exists E m,
      nodal_evaluateGradientAt S m0 points perm = Some (E, m) /\ E = packed 0 (permuted perm [n; D; length points])
      /\ forall i d p, (i < n)%nat -> (d < D)%nat -> (p < length points)%nat -> (D = 2 \/ D = 3)%nat ->
           partial_derivative (psi i) d (point points p) (m (v_addr E (permuted perm [i; d; p])))).
Proof.
  intros inverse D N mi nodes psi HD [fuel E] Hn U HI HP S n. destruct (sums_multiindices fuel D N mi ltac:(lia) E) as [Hmi Hb]. clear E.
  pose proof (psi0_nodal inverse D N mi nodes HD Hmi Hn U HI) as P0.
  assert (Q : forall i, (i < n)%nat -> forall xi, psi0 inverse D N mi nodes i xi = psi i xi)
    by (intros; now apply (nodal_unique D N nodes)).
  unfold n in *. split.
  - intros m0 points perm Hp. destruct (nodal_basis_at inverse D N mi nodes Hb Hn m0 points perm Hp) as (E & m & Em & EE & Hm).
    exists E, m. split; [exact Em |]. rewrite Hn. split; [exact EE |]. intros i p Hi Hq. rewrite <- Q by lia. now apply Hm.
  - intros m0 points perm Hp. destruct (nodal_gradient_at inverse D N mi nodes HD Hb Hn m0 points perm Hp) as (E & m & Em & EE & Hm).
    exists E, m. split; [exact Em |]. rewrite Hn. split; [exact EE |]. intros i d p Hi Hd Hq HD'. rewrite Hm by assumption.
    apply (partial_ext (psi0 inverse D N mi nodes i)); [intros; apply Q; lia |]. unfold psi0, gpsi.
    apply (partial_rsum (length mi) (fun j x => ne_Vinv (NodalRefElement inverse D N mi nodes) j i * DubinerP D (nth j mi []) x)).
    intros j Hj. apply partial_scale. now apply dubiner_gradient.
Qed.
Print Assumptions nodal_ref_element.

(** C67e: the nodal mass matrix holds the integrals of the products of nodal basis functions, and inverseMassMatrix is
    its inverse. *)
Theorem nodal_mass_matrix : forall m0 root wv2 js wv3 inverse D N mi nodes psi, (D = 1 \/ D = 2 \/ D = 3)%nat -> runs_through D N mi ->
  length nodes = length mi -> unisolvent D N nodes -> exact_inverse inverse -> nodal_basis D N nodes psi ->
  sound_quadrature root wv2 js wv3 (2 * N) ->
  let S := NodalRefElement inverse D N mi nodes in let n := length nodes in
  exists M Minv, nodal_massMatrix S m0 root wv2 js wv3 = Some M /\ nodal_inverseMassMatrix S m0 root wv2 js wv3 = Some Minv
  /\ (forall i j, (i < n)%nat -> (j < n)%nat -> is_simplex_integral D (fun xi => psi i xi * psi j xi) (M i j))
  /\ (forall i j, (i < n)%nat -> (j < n)%nat -> rsum n (fun k => M i k * Minv k j) = if (i =? j)%nat then 1 else 0).
Proof.
  intros m0 root wv2 js wv3 inverse D N mi nodes psi HD [fuel E] Hn U HI HP Hquad S n.
  destruct (sums_multiindices fuel D N mi ltac:(lia) E) as [Hmi Hb]. clear E.
  pose proof (psi0_nodal inverse D N mi nodes HD Hmi Hn U HI) as P0.
  assert (Q : forall i, (i < n)%nat -> forall xi, psi0 inverse D N mi nodes i xi = psi i xi)
    by (intros; now apply (nodal_unique D N nodes)).
  destruct (modal_mass_ok m0 root wv2 js wv3 D N mi HD Hmi Hb Hquad) as (M & Minv & EM & EI & HM & HMI).
  unfold nodal_massMatrix, nodal_inverseMassMatrix. cbn [ne_dim ne_degree ne_mi ne_nodes S NodalRefElement].
  rewrite EM, EI. cbn [bind].
  change (ne_Vinv S) with (ne_Vinv (NodalRefElement inverse D N mi nodes)). change (ne_V S) with (ne_V (NodalRefElement inverse D N mi nodes)).
  pose proof (V_Vinv inverse D N mi nodes HD Hmi Hn U HI) as VVi. pose proof (Vinv_V inverse D N mi nodes HD Hmi Hn U HI) as ViV.
  set (V := ne_V (NodalRefElement inverse D N mi nodes)) in *. set (W := ne_Vinv (NodalRefElement inverse D N mi nodes)) in *.
  eexists; eexists. split; [reflexivity |]. split; [reflexivity |]. unfold n. rewrite Hn. set (nb := length mi) in *.
  set (h := fun k => dub_norm D (nth k mi [])).
  assert (Hh : forall k, h k <> 0) by (intros k; pose proof (dub_norm_pos D (nth k mi [])); unfold h; lra).
  assert (EMM : forall i j, rsum nb (fun l => rsum nb (fun k => W k i * M k l) * W l j) = rsum nb (fun l => W l i * h l * W l j)).
  { intros i j. apply rsum_ext. intros l Hl. f_equal. rewrite (rsum_single nb l (fun k => W k i * M k l)); [| exact Hl |].
    - rewrite HM, Nat.eqb_refl by assumption. reflexivity.
    - intros k Hk Hne. rewrite HM by assumption. destruct (Nat.eqb_spec k l); [congruence | ring]. }
  assert (EII : forall i j, rsum nb (fun l => rsum nb (fun k => V i k * Minv k l) * V j l) = rsum nb (fun l => V i l * / h l * V j l)).
  { intros i j. apply rsum_ext. intros l Hl. f_equal. rewrite (rsum_single nb l (fun k => V i k * Minv k l)); [| exact Hl |].
    - rewrite HMI, Nat.eqb_refl by assumption. reflexivity.
    - intros k Hk Hne. rewrite HMI by assumption. destruct (Nat.eqb_spec k l); [congruence | ring]. }
  split; intros i j Hi Hj.
  - rewrite EMM.
    pose proof (simplex_rsum D nb (fun l xi => W l i * rsum nb (fun k => W k j * (DubinerP D (nth l mi []) xi * DubinerP D (nth k mi []) xi)))
      (fun l => W l i * rsum nb (fun k => W k j * (if (l =? k)%nat then h l else 0)))) as I. cbv beta in I.
    eapply simplex_ext; [| | apply I].
    + intros x y z. rewrite <- !Q by (unfold n; lia). unfold psi0. rewrite <- rsum_scale_r. apply rsum_ext. intros l Hl.
      change (ne_Vinv (NodalRefElement inverse D N mi nodes)) with W. fold nb.
      rewrite (rsum_ext nb (fun k => W k j * (DubinerP D (nth l mi []) (pt x y z) * DubinerP D (nth k mi []) (pt x y z)))
        (fun k => DubinerP D (nth l mi []) (pt x y z) * (W k j * DubinerP D (nth k mi []) (pt x y z)))) by (intros; ring).
      rewrite rsum_scale. ring.
    + apply rsum_ext. intros l Hl. rewrite (rsum_single nb l (fun k => W k j * (if (l =? k)%nat then h l else 0))); [| exact Hl |].
      * rewrite Nat.eqb_refl. ring.
      * intros k Hk Hne. destruct (Nat.eqb_spec l k); [congruence | ring].
    + intros l Hl. apply simplex_scale.
      apply (simplex_rsum D nb (fun k xi => W k j * (DubinerP D (nth l mi []) xi * DubinerP D (nth k mi []) xi))); [| lia].
      intros k Hk. apply (simplex_scale D (fun xi => DubinerP D (nth l mi []) xi * DubinerP D (nth k mi []) xi)). apply (phi_integral D N mi HD Hmi l k Hl Hk).
    + lia.
  - rewrite (rsum_ext nb _ (fun k => rsum nb (fun l => W l i * h l * W l k) * rsum nb (fun l' => V k l' * / h l' * V j l')))
      by (intros k Hk; cbv beta; now rewrite EMM, EII).
    rewrite (rsum_ext nb _ (fun k => rsum nb (fun l => rsum nb (fun l' => W l i * h l * / h l' * V j l' * (W l k * V k l')))))
      by (intros k Hk; rewrite <- rsum_scale_r; apply rsum_ext; intros l Hl; rewrite <- rsum_scale; apply rsum_ext; intros; ring).
    rewrite rsum_swap. rewrite (rsum_ext nb _ (fun l => V j l * W l i)).
    + rewrite VVi by assumption. unfold delta. now rewrite Nat.eqb_sym.
    + intros l Hl. rewrite rsum_swap.
      rewrite (rsum_ext nb _ (fun l' => W l i * h l * / h l' * V j l' * delta l l')) by (intros l' Hl'; rewrite rsum_scale, ViV by assumption; reflexivity).
      rewrite (rsum_single nb l (fun l' => W l i * h l * / h l' * V j l' * delta l l')); [| exact Hl |].
      * unfold delta. rewrite Nat.eqb_refl. field. apply Hh.
      * intros l' Hl' Hne. unfold delta. destruct (Nat.eqb_spec l l'); [congruence | ring].
Qed.
Print Assumptions nodal_mass_matrix.
