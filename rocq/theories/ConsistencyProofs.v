(** Integration by parts on a straight mesh, with quadrature (C79). *)
Require Import List Arith Lia Bool Reals Lra FunctionalExtensionality Sorting.Sorted Permutation.
Require Import Verif.Base Verif.LinAlg Verif.SimplexModel Verif.SimplexProofs Verif.CombinatoricsProofs Verif.LocalMeshModel Verif.LocalMeshProofs Verif.TopoModel Verif.TopoSpec Verif.TopoProofs Verif.TopoProps
  Verif.AssembleModel Verif.AssembleSpec Verif.AssembleProofs Verif.AssembleProps Verif.MatFree Verif.FaultModel Verif.PoissonModel Verif.PenaltyModel
  Verif.SipSpec Verif.SipProofs Verif.SipRank Verif.SipProps Verif.CoerciveProps
  Verif.GeometryModel Verif.GeometryProofs Verif.GeometrySpec Verif.GeometryProps Verif.GeometryStraight Verif.MeshSpec Verif.MeshProofs Verif.MeshPoissonProps
  Verif.BasisSpec Verif.IntegralSpec Verif.JacobiProofs Verif.QuadratureProps Verif.RootsProps Verif.DubinerProofs Verif.NodesConform Verif.RefElementProps Verif.ErrorSpec Verif.ErrorProofs Verif.DegreeSpec Verif.DegreeProofs Verif.DegreeProps
  Verif.DivergenceProofs Verif.ConsistencySpec.
Import ListNotations.
Local Open Scope R_scope.

Lemma inverse_right D A : (D = 2 \/ D = 3)%nat -> geo_det D A <> 0 -> forall i j, (i < D)%nat -> (j < D)%nat ->
  rsum D (fun k => A i k * geo_inverse D A k j) = if (i =? j)%nat then 1 else 0.
Proof.
  intros [-> | ->] H i j Hi Hj.
  - destruct i as [|[|i]]; try lia; destruct j as [|[|j]]; try lia; cbn in *; unfold geo_inverse; cbn; field; exact H.
  - destruct i as [|[|[|i]]]; try lia; destruct j as [|[|[|j]]]; try lia; cbn in *; unfold geo_inverse; cbn; field; exact H.
Qed.
Lemma inverse_contract D A (a : nat -> R) i : (D = 2 \/ D = 3)%nat -> geo_det D A <> 0 -> (i < D)%nat ->
  rsum D (fun e => geo_inverse D A e i * rsum D (fun j => a j * A j e)) = a i.
Proof.
  intros HD H Hi. rewrite (rsum_ext D _ (fun e => rsum D (fun j => a j * (A j e * geo_inverse D A e i)))) by (intros e _; rewrite <- rsum_scale; apply rsum_ext; intros; ring).
  rewrite rsum_swap. rewrite (rsum_ext D _ (fun j => a j * (if (j =? i)%nat then 1 else 0))) by (intros j Hj; rewrite rsum_scale, inverse_right by auto; reflexivity).
  rewrite (rsum_single D i); [rewrite Nat.eqb_refl; ring|auto|]. intros j _ Hne. destruct (Nat.eqb_spec j i); [congruence|ring].
Qed.

(** Sum rule. *)
Lemma rsum_partial n (f df : nat -> (nat -> R) -> R) e x : (forall l, (l < n)%nat -> partial_derivative (f l) e x (df l x)) ->
  partial_derivative (fun y => rsum n (fun l => f l y)) e x (rsum n (fun l => df l x)).
Proof.
  induction n as [|n IH]; intro H; cbn [rsum]; [apply derivable_pt_lim_const|].
  exact (derivable_pt_lim_plus (fun t => rsum n (fun l => f l (with_coord x e t))) (fun t => f n (with_coord x e t)) _ _ _ (IH (fun l Hl => H l ltac:(lia))) (H n ltac:(lia))).
Qed.
Lemma scale_partial c f df e x : partial_derivative f e x df -> partial_derivative (fun y => c * f y) e x (c * df).
Proof. intro H. exact (derivable_pt_lim_scal (fun t => f (with_coord x e t)) c _ _ H). Qed.
Lemma mult_partial f g df dg e x : partial_derivative f e x df -> partial_derivative g e x dg -> partial_derivative (fun y => f y * g y) e x (df * g x + f x * dg).
Proof.
  intros Hf Hg. pose proof (derivable_pt_lim_mult (fun t => f (with_coord x e t)) (fun t => g (with_coord x e t)) _ _ _ Hf Hg) as M. cbv beta in M.
  rewrite NodesConform.with_coord_same in M. exact M.
Qed.

(** ** The facets of the elements are the facets of the mesh *)
Lemma lsum_position (ds : list (list nat)) (T : nat -> R) : NoDup ds -> lsum (fun f => T (position f ds)) ds = rsum (length ds) T.
Proof.
  intro ND. rewrite <- lsum_seq.
  rewrite <- (lsum_map T (fun f => position f ds)). f_equal. apply nth_ext with (d := 0%nat) (d' := 0%nat); rewrite map_length, ?seq_length; [reflexivity|].
  intros i Hi. rewrite seq_nth by auto. rewrite (nth_indep _ 0%nat (position [] ds)) by (rewrite map_length; auto). rewrite (map_nth (fun f => position f ds)).
  apply position_unique; auto. apply nth_error_nth'. auto.
Qed.
Lemma lsum_swap {A B} (b : A -> B -> bool) (e : A -> B -> R) fs gs :
  lsum (fun f => lsum (e f) (filter (b f) gs)) fs = lsum (fun g => lsum (fun f => e f g) (filter (fun f => b f g) fs)) gs.
Proof.
  induction fs as [|f fs IH]; cbn [lsum filter].
  - symmetry. apply lsum_zero. reflexivity.
  - rewrite IH, lsum_filter, <- lsum_plus. apply lsum_ext. intros g _. destruct (b f g); cbn [lsum]; ring.
Qed.
Section Regroup.
Variables (D procs : nat) (elems facets : list (list nat)) (bc : list nat -> nat) (m : nat -> topo_mesh).
Hypothesis MP : mesh_parts D procs elems facets bc m.
Lemma facets_of_elements (T : nat -> nat -> R) :
  lsum (fun g => rsum (D + 1) (T g)) (seq 0 (length elems)) = lsum (fun f => lsum (fun g => T g (facet_number D elems f g)) (elements_of elems f)) facets.
Proof.
  unfold elements_of. rewrite (lsum_swap (fun f g => forallb (fun v => existsb (Nat.eqb v) (nth g elems [])) f) (fun f g => T g (facet_number D elems f g))).
  apply lsum_ext. intros g Hg. apply in_seq in Hg. assert (Hgl : (g < length elems)%nat) by lia. clear Hg.
  destruct (mp_owned _ _ _ _ _ _ MP g Hgl) as (p & e & Hp & He & Ee). pose proof (mp_mesh _ _ _ _ _ _ MP p Hp) as O.
  destruct (mp_elem _ _ _ _ _ _ MP p e g Hp Ee) as [_ Eq]. destruct (nth_error_lt elems g Hgl) as [plex Ep].
  rewrite Ep in Eq. symmetry in Eq. destruct (to_elems _ _ O) as [_ Se]. destruct (Se plex) as [Lp Sp]; [eapply nth_error_In; eauto|].
  destruct (downward_spec D plex ltac:(lia) Sp) as (ds & Eds & Ids & Nds & B).
  assert (L : length ds = (D + 1)%nat).
  { destruct (binom_spec (D + 1) D ltac:(lia)) as (b & Eb & Hb). rewrite Lp in B. assert (b = length ds) by congruence. subst b.
    replace (D + 1 - D)%nat with 1%nat in Hb by lia. replace (D + 1)%nat with (S D) in Hb by lia.
    cbn [Factorial.fact] in Hb. rewrite Nat.mul_1_r in Hb.
    apply (Nat.mul_cancel_r _ _ (Factorial.fact D)); [apply Factorial.fact_neq_0|]. cbn in Hb. lia. }
  rewrite <- L, <- (lsum_position ds (T g) Nds).
  rewrite (lsum_ext (fun f => T g (facet_number D elems f g)) (fun f => T g (position f ds))).
  2:{ intros f _. unfold facet_number. rewrite (nth_error_nth _ _ [] Ep), Eds. reflexivity. }
  apply lsum_perm. apply NoDup_Permutation; [exact Nds|apply NoDup_filter; apply (mp_facets _ _ _ _ _ _ MP)|].
  intro f. rewrite filter_In. rewrite (nth_error_nth _ _ [] Ep). rewrite (Ids f). rewrite (mp_facets_all _ _ _ _ _ _ MP f).
  assert (X : forallb (fun v => existsb (Nat.eqb v) plex) f = true <-> incl f plex).
  { rewrite forallb_forall. split; intros H v Hv.
    - specialize (H v Hv). apply existsb_exists in H as (v' & Hv' & E). apply Nat.eqb_eq in E. subst v'. auto.
    - apply existsb_exists. exists v. split; [auto|apply Nat.eqb_refl]. }
  rewrite X. split.
  - intros (H1 & H2 & H3). split; [|exact H3]. split; [exact H1|]. split; [exact H2|]. exists plex. split; [eapply nth_error_In; eauto|exact H3].
  - intros ((H1 & H2 & _) & H3). auto.
Qed.
End Regroup.

Section Mesh.
Variables (G : geo_setup) (procs : nat) (elems facets : list (list nat)) (bc : list nat -> nat) (m : nat -> topo_mesh).
Local Notation D := (gs_D G).
Hypothesis ST : straight G.
Hypothesis MP : mesh_parts D procs elems facets bc m.
Hypothesis VG : valid_geometry G elems facets.
Variables (k : nat) (phi : nat -> (nat -> R) -> R) (R_ : pdata).
Hypothesis Hk : (1 <= k)%nat.
Hypothesis RD : reference_of_degree D k (gs_xi G) (gs_chi G) phi R_.
Local Notation N := (p_N R_). Local Notation Xi q := (gs_xi G q). Local Notation Fp s q := (facet_param D (ref_facet D s) (gs_chi G q)).
Local Notation edges g := (edge_matrix (gs_X G) (nth g elems [])).
Local Notation inv g := (geo_inverse D (edges g)).
Let HD := dims G elems facets VG.

Lemma det_nonzero g : (g < length elems)%nat -> geo_det D (edges g) <> 0.
Proof.
  intros Hg E. pose proof (element_pos G procs elems facets bc m ST MP VG k phi R_ RD g Hg) as P. unfold volume_element in P. rewrite E, Rabs_R0 in P. lra.
Qed.
(** Normal of facet s of element g, and the divergence theorem on an element. *)
Definition side_normal (g s i : nat) : R := geo_normal D (geo_det D (edges g)) (inv g) (ref_normal D (ref_facet D s)) i.
Lemma mesh_side_normal f g i q : (i < D)%nat -> mesh_normal G elems f g i q = side_normal g (facet_number D elems f g) i.
Proof.
  intro Hi. unfold mesh_normal, components. rewrite (proj2 (Nat.ltb_lt i D) Hi). unfold mesh_point, point_data, prepare_bndskl. cbn [fq_normal]. unfold side_normal, geo_normal.
  rewrite (geo_det_ext D _ (edges g) HD (fun i j => jac G ST _ _ i j)). f_equal. apply rsum_ext. intros j Hj. f_equal.
  apply geo_inverse_ext; auto. intros. apply jac; auto.
Qed.
Lemma rule_divergence f df e : (e < D)%nat -> polynomial D (2 * k) f -> polynomial D (2 * k) df -> (forall x, partial_derivative f e x (df x)) ->
  rsum (p_Nq R_) (fun q => p_W R_ q * df (Xi q)) = rsum (D + 1) (fun s => ref_normal D (ref_facet D s) e * rsum (p_nq R_) (fun q => p_w R_ q * f (Fp s q))).
Proof.
  intros He Hf Hdf Hd. apply (reference_divergence D (2 * k) f df e _ _ HD He Hf Hdf Hd (rd_volume _ _ _ _ _ _ RD df Hdf)).
  intros s Hs. apply (rd_facet _ _ _ _ _ _ RD (fun chi => f (facet_param D (ref_facet D s) chi))).
  apply (poly_through D (D - 1)); [exact Hf|]. intros i Hi. apply facet_param_poly. destruct HD; lia.
Qed.
Lemma element_divergence g (F : nat -> vec -> R) (dF : nat -> nat -> vec -> R) :
  (forall i, (i < D)%nat -> polynomial D (2 * k) (F i)) -> (forall i e, (i < D)%nat -> (e < D)%nat -> polynomial D (2 * k) (dF i e)) ->
  (forall i e x, (i < D)%nat -> (e < D)%nat -> partial_derivative (F i) e x (dF i e x)) ->
  rsum (p_Nq R_) (fun q => p_W R_ q * volume_element G elems g * rsum D (fun i => rsum D (fun e => inv g e i * dF i e (Xi q))))
  = rsum (D + 1) (fun s => rsum (p_nq R_) (fun q => p_w R_ q * rsum D (fun i => side_normal g s i * F i (Fp s q)))).
Proof.
  intros HF HdF Hd.
  transitivity (rsum D (fun i => rsum D (fun e => volume_element G elems g * inv g e i * rsum (p_Nq R_) (fun q => p_W R_ q * dF i e (Xi q))))).
  { rewrite (rsum_ext (p_Nq R_) _ (fun q => rsum D (fun i => rsum D (fun e => volume_element G elems g * inv g e i * (p_W R_ q * dF i e (Xi q)))))).
    - rewrite rsum_swap. apply rsum_ext. intros i Hi. rewrite rsum_swap. apply rsum_ext. intros e He. rewrite rsum_scale. reflexivity.
    - intros q _. rewrite <- rsum_scale. apply rsum_ext. intros i Hi. rewrite <- rsum_scale. apply rsum_ext. intros e He. ring. }
  transitivity (rsum D (fun i => rsum D (fun e => rsum (D + 1) (fun s => volume_element G elems g * inv g e i * (ref_normal D (ref_facet D s) e * rsum (p_nq R_) (fun q => p_w R_ q * F i (Fp s q))))))).
  { apply rsum_ext. intros i Hi. apply rsum_ext. intros e He. rewrite (rule_divergence (F i) (dF i e) e He (HF i Hi) (HdF i e Hi He)) by (intro x; apply Hd; auto).
    rewrite <- rsum_scale. reflexivity. }
  transitivity (rsum (D + 1) (fun s => rsum D (fun i => side_normal g s i * rsum (p_nq R_) (fun q => p_w R_ q * F i (Fp s q))))).
  { rewrite (rsum_ext D _ (fun i => rsum (D + 1) (fun s => rsum D (fun e => volume_element G elems g * inv g e i * (ref_normal D (ref_facet D s) e * rsum (p_nq R_) (fun q => p_w R_ q * F i (Fp s q))))))) by (intros; apply rsum_swap).
    rewrite rsum_swap. apply rsum_ext. intros s Hs. apply rsum_ext. intros i Hi. unfold side_normal, geo_normal. fold (volume_element G elems g).
    rewrite <- (rsum_scale _ (volume_element G elems g)), <- (rsum_scale_r D (rsum _ _)). apply rsum_ext. intros e He. ring. }
  apply rsum_ext. intros s Hs. rewrite (rsum_ext (p_nq R_) _ (fun q => rsum D (fun i => side_normal g s i * (p_w R_ q * F i (Fp s q))))) by (intros q _; rewrite <- rsum_scale; apply rsum_ext; intros; ring).
  rewrite rsum_swap. apply rsum_ext. intros i Hi. rewrite rsum_scale. reflexivity.
Qed.

(** Functions with coefficients u, and their derivatives. *)
Definition fem (u : nat -> R) (x : vec) : R := rsum N (fun l => u l * phi l x).
Lemma fem_poly u : polynomial D k (fem u).
Proof. apply poly_rsum. intros l Hl. apply poly_scale. apply (rd_phi _ _ _ _ _ _ RD l Hl). Qed.
Lemma basis_derivatives : exists d : nat -> nat -> vec -> R,
  (forall l e, (l < N)%nat -> (e < D)%nat -> polynomial D (k - 1) (d l e) /\ forall x, partial_derivative (phi l) e x (d l e x)) /\
  (forall l e q, (l < N)%nat -> (e < D)%nat -> (q < p_Nq R_)%nat -> p_DxiQ R_ l e q = d l e (Xi q)) /\
  (forall s l e q, (s < D + 1)%nat -> (l < N)%nat -> (e < D)%nat -> (q < p_nq R_)%nat -> p_Dxi R_ s l e q = d l e (Fp s q)).
Proof.
  destruct (finite_choice N (nat -> (nat -> R) -> R) (fun _ _ => 0) (fun l d => forall e, (e < D)%nat -> polynomial D (k - 1) (d e) /\ forall x, partial_derivative (phi l) e x (d e x))) as (d & Hd).
  { intros l Hl. destruct (finite_choice D ((nat -> R) -> R) (fun _ => 0) (fun e g => polynomial D (k - 1) g /\ forall x, partial_derivative (phi l) e x (g x))) as (d & Hd); [|exists d; exact Hd].
    intros e He. destruct (poly_partial D k (phi l) e (rd_phi _ _ _ _ _ _ RD l Hl) He) as (g & G1 & _ & G2). exists g. split; assumption. }
  exists d. split; [intros l e Hl He; apply (Hd l Hl e He)|]. split.
  - intros l e q Hl He Hq. eapply uniqueness_limite; [apply (rd_DxiQ _ _ _ _ _ _ RD l e q Hl He Hq)|apply (Hd l Hl e He)].
  - intros s l e q Hs Hl He Hq. eapply uniqueness_limite; [apply (rd_Dxi _ _ _ _ _ _ RD s l e q Hs Hl He Hq)|apply (Hd l Hl e He)].
Qed.
(** Derivative dx i of a function with coefficients u on element g. *)
Lemma fem_gradient g u : exists (du : nat -> vec -> R) (dx : nat -> vec -> R),
  (forall e, (e < D)%nat -> polynomial D (k - 1) (du e) /\ forall x, partial_derivative (fem u) e x (du e x)) /\
  (forall i x, dx i x = rsum D (fun e => inv g e i * du e x)) /\
  (forall i q, (i < D)%nat -> (q < p_Nq R_)%nat -> rsum N (fun l => rsum D (fun e => p_GQ (with_geometry G elems R_) g e i q * p_DxiQ R_ l e q) * u l) = dx i (Xi q)) /\
  (forall f i q, (i < D)%nat -> (facet_number D elems f g < D + 1)%nat -> (q < p_nq R_)%nat ->
     rsum N (fun l => rsum D (fun e => mesh_inverse G elems f g e i q * p_Dxi R_ (facet_number D elems f g) l e q) * u l) = dx i (Fp (facet_number D elems f g) q)).
Proof.
  destruct basis_derivatives as (d & D1 & D2 & D3).
  exists (fun e x => rsum N (fun l => u l * d l e x)), (fun i x => rsum D (fun e => inv g e i * rsum N (fun l => u l * d l e x))).
  assert (SW : forall i x, rsum D (fun e => inv g e i * rsum N (fun l => u l * d l e x)) = rsum N (fun l => rsum D (fun e => inv g e i * d l e x) * u l)).
  { intros i x. rewrite (rsum_ext D _ (fun e => rsum N (fun l => inv g e i * d l e x * u l))) by (intros; rewrite <- rsum_scale; apply rsum_ext; intros; ring).
    rewrite rsum_swap. apply rsum_ext. intros l Hl. rewrite <- rsum_scale_r. reflexivity. }
  split; [|split; [reflexivity|split]].
  - intros e He. split.
    + apply poly_rsum. intros l Hl. apply poly_scale. apply (D1 l e Hl He).
    + intro x. apply (rsum_partial N (fun l y => u l * phi l y) (fun l y => u l * d l e y)). intros l Hl. apply scale_partial. apply (D1 l e Hl He).
  - intros i q Hi Hq. rewrite SW. apply rsum_ext. intros l Hl. f_equal. apply rsum_ext. intros e He. rewrite D2 by auto. f_equal.
    change (geo_inverse D (jacobian_at G (nth g elems []) (Xi q)) e i = inv g e i). apply geo_inverse_ext; auto. intros. apply jac; auto.
  - intros f i q Hi Hs Hq. rewrite SW. apply rsum_ext. intros l Hl. f_equal. apply rsum_ext. intros e He. rewrite D3 by auto. f_equal.
    unfold mesh_inverse. apply geo_inverse_ext; auto. intros. apply jac; auto.
Qed.

(** The map to space is affine, so that polynomials in space are polynomials on the reference element;
    the chain rule. *)
Lemma place_poly g i : (i < D)%nat -> polynomial D 1 (fun xi => place_in G elems g xi i).
Proof.
  intro Hi. set (X := gs_X G). set (plex := nth g elems []).
  apply (poly_eq D 1 (fun xi => X (nth 0 plex 0%nat) i + rsum D (fun d => (X (nth (S d) plex 0%nat) i - X (nth 0 plex 0%nat) i) * xi d))).
  - intro xi. unfold place_in. fold plex. rewrite (proj1 (straight_elements G plex xi i ST Hi)). fold X.
    rewrite (rsum_ext D (fun d => (X (nth (S d) plex 0%nat) i - X (nth 0 plex 0%nat) i) * xi d) (fun d => xi d * X (nth (S d) plex 0%nat) i - X (nth 0 plex 0%nat) i * xi d)) by (intros; ring).
    rewrite rsum_minus, rsum_scale. ring.
  - apply poly_plus; [apply poly_const|]. apply poly_rsum. intros d Hd. apply poly_scale. apply poly_coord. auto.
Qed.
Lemma place_jacobian g xi : jacobian_of D (place_in G elems g) xi (edges g).
Proof.
  intros i e Hi He. unfold edge_matrix. set (X := gs_X G). set (plex := nth g elems []).
  apply (partial_ext (fun y => X (nth 0 plex 0%nat) i + rsum D (fun d => (X (nth (S d) plex 0%nat) i - X (nth 0 plex 0%nat) i) * y d))).
  - intro y. unfold place_in. fold plex. rewrite (proj1 (straight_elements G plex y i ST Hi)). fold X.
    rewrite (rsum_ext D (fun d => (X (nth (S d) plex 0%nat) i - X (nth 0 plex 0%nat) i) * y d) (fun d => y d * X (nth (S d) plex 0%nat) i - X (nth 0 plex 0%nat) i * y d)) by (intros; ring).
    rewrite rsum_minus, rsum_scale. ring.
  - replace (X (nth (S e) plex 0%nat) i - X (nth 0 plex 0%nat) i) with (0 + rsum D (fun d => (X (nth (S d) plex 0%nat) i - X (nth 0 plex 0%nat) i) * (if (d =? e)%nat then 1 else 0))).
    2:{ rewrite (rsum_single D e); [rewrite Nat.eqb_refl; ring|auto|]. intros d _ Hne. destruct (Nat.eqb_spec d e); [congruence|ring]. }
    apply (derivable_pt_lim_plus (fun _ => X (nth 0 plex 0%nat) i)); [apply derivable_pt_lim_const|].
    apply (rsum_partial D (fun d y => (X (nth (S d) plex 0%nat) i - X (nth 0 plex 0%nat) i) * y d) (fun d y => (X (nth (S d) plex 0%nat) i - X (nth 0 plex 0%nat) i) * (if (d =? e)%nat then 1 else 0))).
    intros d Hd. apply (scale_partial _ (fun y => y d)). unfold partial_derivative, with_coord. destruct (d =? e)%nat; [apply derivable_pt_lim_id|apply derivable_pt_lim_const].
Qed.
Lemma place_chain g u w xi gr a l : (a < D)%nat -> (forall x, w (place_in G elems g x) = u x) -> gradient_at D w (place_in G elems g xi) gr -> partial_derivative u a xi l ->
  l = rsum D (fun i => gr i * edges g i a).
Proof.
  intros Ha E Hg Hu. apply (chain D (place_in G elems g) u w xi (edges g) gr a l Ha (place_jacobian g xi)); auto.
  exists 1. split; [lra|]. auto.
Qed.
(** A flux on element g -- D polynomials of degree k in reference coordinates, equal to the function [s] in
    space with gradients [ds] -- against a function with coefficients v. *)
Lemma flux_parts g (s : vec -> vec) (ds : vec -> nat -> vec) (v : nat -> R) dv dxv : (g < length elems)%nat ->
  (forall i, (i < D)%nat -> polynomial D k (fun xi => s (place_in G elems g xi) i)) ->
  (forall i x, (i < D)%nat -> gradient_at D (fun y => s y i) x (ds x i)) ->
  (forall e, (e < D)%nat -> polynomial D (k - 1) (dv e) /\ forall x, partial_derivative (fem v) e x (dv e x)) ->
  (forall i x, dxv i x = rsum D (fun e => inv g e i * dv e x)) ->
  rsum (p_Nq R_) (fun q => p_W R_ q * volume_element G elems g *
     (rsum D (fun i => ds (place_in G elems g (Xi q)) i i) * fem v (Xi q) + rsum D (fun i => s (place_in G elems g (Xi q)) i * dxv i (Xi q))))
  = rsum (D + 1) (fun t => rsum (p_nq R_) (fun q => p_w R_ q * (rsum D (fun i => side_normal g t i * s (place_in G elems g (Fp t q)) i) * fem v (Fp t q)))).
Proof.
  intros Hg Hs Hds Hdv Hdx.
  destruct (finite_choice D (nat -> vec -> R) (fun _ _ => 0) (fun i dS => forall e, (e < D)%nat -> polynomial D (k - 1) (dS e) /\
    forall x, partial_derivative (fun xi => s (place_in G elems g xi) i) e x (dS e x))) as (dS & HdS).
  { intros i Hi. destruct (finite_choice D (vec -> R) (fun _ => 0) (fun e dS => polynomial D (k - 1) dS /\ forall x, partial_derivative (fun xi => s (place_in G elems g xi) i) e x (dS x))) as (dS & HdS); [|exists dS; exact HdS].
    intros e He. destruct (poly_partial D k _ e (Hs i Hi) He) as (h & H1 & _ & H2). exists h. auto. }
  rewrite <- (rsum_ext (D + 1) (fun t => rsum (p_nq R_) (fun q => p_w R_ q * rsum D (fun i => side_normal g t i * (s (place_in G elems g (Fp t q)) i * fem v (Fp t q)))))).
  2:{ intros t _. apply rsum_ext. intros q _. f_equal. rewrite <- rsum_scale_r. apply rsum_ext. intros; ring. }
  rewrite <- (element_divergence g (fun i x => s (place_in G elems g x) i * fem v x) (fun i e x => dS i e x * fem v x + s (place_in G elems g x) i * dv e x)).
  - apply rsum_ext. intros q _. f_equal. set (x := Xi q).
    rewrite (rsum_ext D (fun i => rsum D (fun e => inv g e i * (dS i e x * fem v x + s (place_in G elems g x) i * dv e x)))
      (fun i => rsum D (fun e => inv g e i * dS i e x) * fem v x + s (place_in G elems g x) i * dxv i x)).
    + rewrite rsum_plus. f_equal. rewrite <- rsum_scale_r. apply rsum_ext. intros i Hi. f_equal.
      rewrite (rsum_ext D _ (fun e => inv g e i * rsum D (fun j => ds (place_in G elems g x) i j * edges g j e))).
      * symmetry. apply inverse_contract; auto. apply det_nonzero. exact Hg.
      * intros e He. f_equal. apply (place_chain g (fun xi => s (place_in G elems g xi) i) (fun y => s y i) x); auto. apply (HdS i Hi e He).
    + intros i Hi. rewrite Hdx, <- rsum_scale, <- rsum_scale_r, <- rsum_plus. apply rsum_ext. intros; ring.
  - intros i Hi. replace (2 * k)%nat with (k + k)%nat by lia. apply poly_mult; [apply Hs; auto|apply fem_poly].
  - intros i e Hi He. apply poly_plus.
    + apply (poly_le D (k - 1 + k)); [lia|]. apply poly_mult; [apply (HdS i Hi e He)|apply fem_poly].
    + apply (poly_le D (k + (k - 1))); [lia|]. apply poly_mult; [apply Hs; auto|apply (Hdv e He)].
  - intros i e x Hi He. apply mult_partial; [apply (HdS i Hi e He)|apply (Hdv e He)].
Qed.
End Mesh.
