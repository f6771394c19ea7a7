(** Nodal bases restricted to facets: elements whose nodes contain the same facet nodes on every facet fit together. *)
Require Import List Arith Lia Reals Lra FunctionalExtensionality.
Require Import Verif.Base Verif.LinAlg Verif.CombinatoricsModel Verif.CombinatoricsProps Verif.SimplexModel Verif.TopoModel Verif.FaultModel Verif.GeometryModel Verif.GeometrySpec Verif.GeometryProofs
  Verif.BasisModel Verif.BasisSpec Verif.JacobiProofs Verif.BasisProps Verif.IntegralSpec Verif.IntegralProofs Verif.RootsProps Verif.DubinerProofs Verif.SpanProofs
  Verif.RefElementSpec Verif.RefElementModel Verif.RefElementProofs Verif.RefElementProps Verif.UnisolventProps Verif.ErrorSpec.
Import ListNotations.
Local Open Scope R_scope.

(** ** Polynomials *)
Lemma poly_ext : forall D d f, polynomial D d f -> forall x y, (forall e, (e < D)%nat -> x e = y e) -> f x = f y.
Proof.
  intros D d f H. induction H; intros x y E; auto.
  - now rewrite (IHpolynomial1 x y E), (IHpolynomial2 x y E).
  - now rewrite (IHpolynomial1 x y E), (IHpolynomial2 x y E).
  - rewrite <- !H. auto.
Qed.
Lemma poly_through : forall D D' d f (X : (nat -> R) -> nat -> R), polynomial D d f -> (forall i, (i < D)%nat -> polynomial D' 1 (fun xi => X xi i)) -> polynomial D' d (fun xi => f (X xi)).
Proof.
  intros D D' d f X H HX. induction H.
  - apply poly_const.
  - now apply HX.
  - apply poly_plus; assumption.
  - apply poly_mult; assumption.
  - eapply poly_le; eassumption.
  - eapply poly_eq; [| exact IHpolynomial]. intros xi. apply H.
Qed.
Lemma poly_gradient : forall D d f, polynomial D d f -> exists g : nat -> (nat -> R) -> R, forall x, gradient_at D f x (fun e => g e x).
Proof.
  intros D d f H. induction H.
  - exists (fun _ _ => 0). intros x c0 t0 v Hc Hv. rewrite rsum_zero by (intros; ring). apply derivable_pt_lim_const.
  - exists (fun i _ => if (i =? e)%nat then 1 else 0). intros x c0 t0 v Hc Hv.
    rewrite (rsum_single D e (fun i => (if (i =? e)%nat then 1 else 0) * v i)); [| assumption | intros i _ Hne; destruct (Nat.eqb_spec i e); [congruence | ring]].
    rewrite Nat.eqb_refl, Rmult_1_l. now apply Hv.
  - destruct IHpolynomial1 as (a & Ha). destruct IHpolynomial2 as (b & Hb). exists (fun e x => a e x + b e x). intros x c0 t0 v Hc Hv.
    rewrite (rsum_ext D _ (fun i => a i x * v i + b i x * v i)) by (intros; ring). rewrite rsum_plus.
    apply (derivable_pt_lim_plus (fun t => f (c0 t)) (fun t => g (c0 t))); [now apply (Ha x) | now apply (Hb x)].
  - destruct IHpolynomial1 as (a & Ha). destruct IHpolynomial2 as (b & Hb). exists (fun e x => a e x * g x + f x * b e x). intros x c0 t0 v Hc Hv.
    rewrite (rsum_ext D _ (fun i => g x * (a i x * v i) + f x * (b i x * v i))) by (intros; ring). rewrite rsum_plus, !rsum_scale.
    pose proof (derivable_pt_lim_mult (fun t => f (c0 t)) (fun t => g (c0 t)) t0 _ _ (Ha x c0 t0 v Hc Hv) (Hb x c0 t0 v Hc Hv)) as M. cbv beta in M. rewrite Hc in M.
    replace (g x * rsum D (fun i => a i x * v i) + f x * rsum D (fun i => b i x * v i)) with (rsum D (fun i => a i x * v i) * g x + f x * rsum D (fun i => b i x * v i)) by ring. exact M.
  - exact IHpolynomial.
  - destruct IHpolynomial as (a & Ha). exists a. intros x c0 t0 v Hc Hv. eapply derivable_pt_lim_ext_eq; [| reflexivity | apply (Ha x c0 t0 v Hc Hv)]. intros t. apply H.
Qed.
Lemma with_coord_same : forall x d, with_coord x d (x d) = x.
Proof. intros x d. apply functional_extensionality. intros e. unfold with_coord. destruct (Nat.eqb_spec e d); congruence. Qed.
Lemma gradient_partial : forall D f x g d, gradient_at D f x g -> (d < D)%nat -> partial_derivative f d x (g d).
Proof.
  intros D f x g d H Hd. unfold partial_derivative.
  pose proof (H (fun t => with_coord x d t) (x d) (fun e => if (e =? d)%nat then 1 else 0) (with_coord_same x d)) as K. cbv beta in K.
  rewrite (rsum_single D d (fun i => g i * (if (i =? d)%nat then 1 else 0))) in K; [| exact Hd | intros i _ Hne; destruct (Nat.eqb_spec i d); [congruence | ring]].
  rewrite Nat.eqb_refl, Rmult_1_r in K. apply K. intros i Hi. unfold with_coord. destruct (Nat.eqb_spec i d); [apply derivable_pt_lim_id | apply derivable_pt_lim_const].
Qed.
(** Partial derivatives of a polynomial make a gradient. *)
Lemma partials_gradient : forall D n f x g, polynomial D n f -> (forall d, (d < D)%nat -> partial_derivative f d x (g d)) -> gradient_at D f x g.
Proof.
  intros D n f x g Hf Hg. destruct (poly_gradient D n f Hf) as (g' & Hg'). intros c t0 v Hc Hv.
  rewrite (rsum_ext D _ (fun i => g' i x * v i)); [now apply (Hg' x) |]. intros i Hi. f_equal.
  eapply uniqueness_limite; [apply Hg; exact Hi |]. exact (gradient_partial D f x (fun e => g' e x) i (Hg' x) Hi).
Qed.

(** ** Facets *)
Lemma facet_param_poly : forall D f i, (0 < D)%nat -> polynomial (D - 1) 1 (fun chi => facet_param D f chi i).
Proof.
  intros D f i HD. unfold facet_param. apply poly_plus.
  - apply (poly_eq (D - 1) 1 (fun chi => ref_vertex (nth 0 f 0%nat) i * (1 + -1 * rsum (D - 1) chi))); [intros; ring |]. apply poly_scale. apply poly_plus; [apply poly_const |]. apply poly_scale.
    apply (poly_rsum (D - 1) 1 (D - 1) (fun d chi => chi d)). intros k Hk. now apply poly_coord.
  - apply (poly_rsum (D - 1) 1 (D - 1) (fun d chi => chi d * ref_vertex (nth (S d) f 0%nat) i)). intros k Hk.
    apply (poly_eq (D - 1) 1 (fun chi => ref_vertex (nth (S k) f 0%nat) i * chi k)); [intros; ring |]. apply poly_scale. now apply poly_coord.
Qed.
Lemma facet_param_deriv : forall D f chi d i, (0 < d < D)%nat ->
  derivable_pt_lim (fun t => facet_param D f (with_coord chi (d - 1) t) i) (chi (d - 1)%nat) (ref_edge f d i).
Proof.
  intros D f chi d i Hd. set (e := (d - 1)%nat). set (r0 := ref_vertex (nth 0 f 0%nat) i). set (r := fun k => ref_vertex (nth (S k) f 0%nat) i).
  apply (affine_deriv (facet_param D f (with_coord chi e 0) i) (ref_edge f d i)). intros t. unfold facet_param, ref_edge, vdiff. fold r0.
  assert (Sx : forall u (w : nat -> R), rsum (D - 1) (fun k => with_coord chi e u k * w k) = rsum (D - 1) (fun k => (if (k =? e)%nat then 0 else chi k * w k)) + u * w e).
  { intros u w. rewrite (rsum_ext (D - 1) (fun k => with_coord chi e u k * w k) (fun k => (if (k =? e)%nat then 0 else chi k * w k) + (if (k =? e)%nat then u * w e else 0))).
    - rewrite rsum_plus, (rsum_single (D - 1) e (fun k => if (k =? e)%nat then u * w e else 0)) by (try (unfold e; lia); intros k _ Hne; destruct (Nat.eqb_spec k e); congruence). now rewrite Nat.eqb_refl.
    - intros k Hk. unfold with_coord. destruct (Nat.eqb_spec k e) as [-> |]; ring. }
  assert (S1 : forall u, rsum (D - 1) (with_coord chi e u) = rsum (D - 1) (fun k => (if (k =? e)%nat then 0 else chi k * 1)) + u * 1).
  { intros u. rewrite <- (Sx u (fun _ => 1)). apply rsum_ext. intros; ring. }
  pose proof (Sx t r) as St. pose proof (Sx 0 r) as S0. unfold r at 1 in St. unfold r at 1 in S0. pose proof (S1 t) as T1. pose proof (S1 0) as T0.
  match type of St with ?a = _ => replace a with (rsum (D - 1) (fun k => if (k =? e)%nat then 0 else chi k * r k) + t * r e) by (symmetry; exact St) end.
  match type of S0 with ?a = _ => replace a with (rsum (D - 1) (fun k => if (k =? e)%nat then 0 else chi k * r k) + 0 * r e) by (symmetry; exact S0) end.
  rewrite T1, T0.
  replace (ref_vertex (nth d f 0%nat) i) with (r e) by (unfold r, e; f_equal; f_equal; f_equal; lia). ring.
Qed.

Section Conforming.
Variables (D N : nat) (nodes fnodes : list (nat -> R)) (psi : nat -> (nat -> R) -> R) (fpsi : nat -> (nat -> R) -> R) (fdpsi : nat -> nat -> (nat -> R) -> R).
Hypothesis HD : (0 < D)%nat.
Hypothesis Hpsi : nodal_basis D N nodes psi.
Hypothesis Ufn : unisolvent (D - 1) N fnodes.
Hypothesis Hfpsi : nodal_basis (D - 1) N fnodes fpsi.
Hypothesis Hfdpsi : forall c d chi, (c < length fnodes)%nat -> (0 < d < D)%nat -> partial_derivative (fpsi c) (d - 1) chi (fdpsi c d chi).
Lemma trace_poly : forall f j, (j < length nodes)%nat -> polynomial (D - 1) N (fun chi => psi j (facet_param D f chi)).
Proof. intros f j Hj. apply (poly_through D (D - 1) N (psi j)); [now apply (proj1 Hpsi) |]. intros i Hi. now apply facet_param_poly. Qed.
Lemma trace_values : forall f j chi, (j < length nodes)%nat ->
  psi j (facet_param D f chi) = rsum (length fnodes) (fun c => psi j (facet_param D f (point fnodes c)) * fpsi c chi).
Proof. intros f j chi Hj. exact (nodal_reproduces (D - 1) N fnodes fpsi (fun chi => psi j (facet_param D f chi)) Ufn Hfpsi (trace_poly f j Hj) chi). Qed.
Lemma trace_derivative : forall f j d chi g, (j < length nodes)%nat -> (0 < d < D)%nat -> (forall e, (e < D)%nat -> partial_derivative (psi j) e (facet_param D f chi) (g e)) ->
  rsum D (fun e => g e * ref_edge f d e) = rsum (length fnodes) (fun c => psi j (facet_param D f (point fnodes c)) * fdpsi c d chi).
Proof.
  intros f j d chi g Hj Hd Hg.
  pose proof (partials_gradient D N (psi j) (facet_param D f chi) g (proj1 Hpsi j Hj) Hg) as G.
  pose proof (G (fun t => facet_param D f (with_coord chi (d - 1) t)) (chi (d - 1)%nat) (ref_edge f d)) as A.
  cbv beta in A. specialize (A (f_equal (facet_param D f) (with_coord_same chi (d - 1))) (fun i Hi => facet_param_deriv D f chi d i Hd)).
  apply (uniqueness_limite (fun t => psi j (facet_param D f (with_coord chi (d - 1) t))) (chi (d - 1)%nat)); [exact A |].
  pose proof (partial_rsum (length fnodes) (fun c chi => psi j (facet_param D f (point fnodes c)) * fpsi c chi) (d - 1) chi (fun c => psi j (facet_param D f (point fnodes c)) * fdpsi c d chi)) as B.
  eapply derivable_pt_lim_ext_eq; [| reflexivity | apply B].
  - intros t. cbv beta. symmetry. now apply trace_values.
  - intros c Hc. apply partial_scale. now apply Hfdpsi.
Qed.
End Conforming.

(** The first facet: the vertices 0 .. D-1; vertex D is not in it. *)
Definition first_facet (D : nat) : list nat := seq 0 D.
Lemma first_facet_param : forall D chi i, (0 < D)%nat -> (i < D)%nat -> facet_param D (first_facet D) chi i = if (i =? D - 1)%nat then 0 else chi i.
Proof.
  intros D chi i HD Hi. unfold facet_param, first_facet. rewrite seq_nth by lia. unfold ref_vertex at 1. cbn [Nat.add Nat.eqb]. rewrite Rmult_0_r, Rplus_0_l.
  destruct (Nat.eqb_spec i (D - 1)) as [-> | Hne].
  - apply rsum_zero. intros k Hk. rewrite seq_nth by lia. unfold ref_vertex. destruct (Nat.eqb_spec (0 + S k) (S (D - 1))); [lia | ring].
  - rewrite (rsum_single (D - 1) i (fun d => chi d * ref_vertex (nth (S d) (seq 0 D) 0%nat) i)); [| lia |].
    + rewrite seq_nth by lia. unfold ref_vertex. rewrite Nat.add_0_l, Nat.eqb_refl. ring.
    + intros k Hk Hk'. rewrite seq_nth by lia. unfold ref_vertex. destruct (Nat.eqb_spec (0 + S k) (S i)); [lia | ring].
Qed.
(** A polynomial that is zero where coordinate e is not is zero. *)
Lemma zero_off_plane : forall D n f e, polynomial D n f -> (forall x, x e <> 0 -> f x = 0) -> forall x, f x = 0.
Proof.
  intros D n f e Hf Hz x. destruct (Req_dec (x e) 0) as [E0 | E0]; [| now apply Hz].
  destruct (Req_dec (f x) 0) as [| Hne]; [assumption | exfalso].
  destruct (poly_gradient D n f Hf) as (g & Hg).
  assert (C : derivable_pt_lim (fun t => f (with_coord x e t)) (x e) (rsum D (fun i => g i x * (if (i =? e)%nat then 1 else 0)))).
  { apply (Hg x (fun t => with_coord x e t) (x e) (fun i => if (i =? e)%nat then 1 else 0)); [apply with_coord_same |].
    intros i Hi. unfold with_coord. destruct (Nat.eqb_spec i e); [apply derivable_pt_lim_id | apply derivable_pt_lim_const]. }
  assert (CT : continuity_pt (fun t => f (with_coord x e t)) (x e)) by (apply derivable_continuous_pt; eexists; exact C).
  assert (P : 0 < Rabs (f x)) by now apply Rabs_pos_lt.
  destruct (CT (Rabs (f x)) P) as (alp & Pa & Ha).
  specialize (Ha (x e + alp / 2)). cbv beta in Ha. simpl in Ha. unfold R_dist, D_x, no_cond in Ha. rewrite with_coord_same in Ha.
  rewrite (Hz (with_coord x e (x e + alp / 2))) in Ha; [| unfold with_coord; rewrite Nat.eqb_refl; lra].
  assert (K : Rabs (0 - f x) < Rabs (f x)).
  { apply Ha. split; [split; [exact I | lra] |]. replace (x e + alp / 2 - x e) with (alp / 2) by ring. rewrite Rabs_pos_eq; lra. }
  replace (0 - f x) with (- f x) in K by ring. rewrite Rabs_Ropp in K. lra.
Qed.
(** Nodes on the first facet determine polynomials on the facet, if all nodes determine polynomials in the element and
    the nodes elsewhere are as many as there are polynomials of one degree less. *)
Lemma trace_unisolvent : forall D N mi nodes fnodes rest, (D = 1 \/ D = 2 \/ D = 3)%nat -> (1 <= N)%nat -> multiindices D (N - 1) mi -> length rest = length mi ->
  unisolvent D N nodes -> (forall x, In x nodes -> In x rest \/ exists c, In c fnodes /\ forall d, (d < D)%nat -> x d = facet_param D (first_facet D) c d) ->
  unisolvent (D - 1) N fnodes.
Proof.
  intros D N mi nodes fnodes rest HD HN Hmi HL U HX q Hq Hz chi.
  set (e := (D - 1)%nat). set (n := length mi). set (phi := fun j => DubinerP D (nth j mi [])).
  set (P := fun xi : nat -> R => q xi). assert (HP : polynomial D N P).
  { apply (poly_through (D - 1) D N q (fun xi => xi) Hq). intros i Hi. apply poly_coord. lia. }
  set (A := fun k j => nth k rest (fun _ => 0) e * phi j (nth k rest (fun _ => 0))).
  assert (PL : forall c, polynomial D (N - 1) (fun xi => rsum n (fun j => c j * phi j xi))).
  { intros c. apply (poly_rsum D (N - 1) n (fun j xi => c j * phi j xi)). intros j Hj. apply poly_scale. apply (phi_poly D (N - 1) mi HD Hmi j). exact Hj. }
  assert (PT : forall c, polynomial D N (fun xi => xi e * rsum n (fun j => c j * phi j xi))).
  { intros c. apply (poly_le D (1 + (N - 1)) N); [lia |]. apply (poly_mult D 1 (N - 1) (fun xi => xi e)); [apply poly_coord; unfold e; lia | apply PL]. }
  assert (OF : forall x c, In c fnodes -> (forall d, (d < D)%nat -> x d = facet_param D (first_facet D) c d) -> x e = 0 /\ P x = 0).
  { intros x c Hc Ex. split.
    - rewrite Ex by (unfold e; lia). rewrite first_facet_param by (unfold e; lia). unfold e. now rewrite Nat.eqb_refl.
    - rewrite <- (Hz c Hc). unfold P. apply (poly_ext (D - 1) N q Hq). intros d Hd. rewrite Ex by lia. rewrite first_facet_param by lia. destruct (Nat.eqb_spec d (D - 1)); [lia | reflexivity]. }
  assert (NS : nonsingular n A).
  { intros c Hc. apply (phi_independent D (N - 1) mi HD Hmi). apply (zero_off_plane D (N - 1) _ e (PL c)). intros x Hx.
    assert (Z : x e * rsum n (fun j => c j * phi j x) = 0); [| apply Rmult_integral in Z; destruct Z; [contradiction | assumption]].
    refine (U (fun xi => xi e * rsum n (fun j => c j * phi j xi)) (PT c) _ x). intros y Hy. destruct (HX y Hy) as [Hr | (c' & Hc' & Ey)].
    - destruct (In_nth rest y (fun _ => 0) Hr) as (k & Hk & <-). etransitivity; [| exact (Hc k ltac:(unfold n; lia))]. unfold mat_vec, A. rewrite <- rsum_scale. apply rsum_ext. intros; ring.
    - destruct (OF y c' Hc' Ey) as [-> _]. ring. }
  set (b := fun k => P (nth k rest (fun _ => 0))). pose proof (gauss_exact n A b NS) as Hs. set (c := gauss n A b) in Hs.
  assert (Z : forall xi, P xi + -1 * (xi e * rsum n (fun j => c j * phi j xi)) = 0).
  { apply (U (fun xi => P xi + -1 * (xi e * rsum n (fun j => c j * phi j xi)))).
    - apply poly_plus; [exact HP |]. apply poly_scale. apply PT.
    - intros y Hy. destruct (HX y Hy) as [Hr | (c' & Hc' & Ey)].
      + destruct (In_nth rest y (fun _ => 0) Hr) as (k & Hk & <-). specialize (Hs k ltac:(unfold n; lia)). unfold mat_vec, A, b in Hs. rewrite <- Hs, <- rsum_scale.
        match goal with |- rsum n ?f + -1 * rsum n ?g = 0 => rewrite (rsum_ext n f g) by (intros; ring) end. ring.
      + destruct (OF y c' Hc' Ey) as [-> ->]. ring. }
  specialize (Z (with_coord chi e 0)). assert (W0 : with_coord chi e 0 e = 0) by (unfold with_coord; now rewrite Nat.eqb_refl). rewrite W0 in Z.
  rewrite Rmult_0_l, Rmult_0_r, Rplus_0_r in Z. transitivity (P (with_coord chi e 0)); [| exact Z]. unfold P. apply (poly_ext (D - 1) N q Hq). intros d Hd. unfold with_coord. destruct (Nat.eqb_spec d e); [unfold e in *; lia | reflexivity].
Qed.
