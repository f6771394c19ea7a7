(** Displacements without strain: polynomial displacements whose symmetric gradient vanishes and which
    vanish on a facet are zero (C82). *)
Require Import List Arith Lia Bool Reals Lra Psatz FunctionalExtensionality.
Require Import Verif.Base Verif.LinAlg Verif.SimplexModel Verif.GeometryModel Verif.GeometryProofs Verif.BasisSpec Verif.JacobiProofs Verif.IntegralSpec
  Verif.ErrorSpec Verif.DubinerProofs Verif.NodesConform Verif.MeshSpec Verif.ConsistencyProofs Verif.DivergenceProofs Verif.DefiniteProofs.
Import ListNotations.
Local Open Scope R_scope.

Lemma rsum_delta D e (a : nat -> R) : (e < D)%nat -> rsum D (fun i => (if (i =? e)%nat then 1 else 0) * a i) = a e.
Proof. intro He. rewrite (rsum_single D e); [rewrite Nat.eqb_refl; ring|exact He|]. intros i _ Hi. destruct (Nat.eqb_spec i e); [congruence|ring]. Qed.
Lemma rsum_delta' D e (a : nat -> R) : (e < D)%nat -> rsum D (fun i => (if (e =? i)%nat then 1 else 0) * a i) = a e.
Proof. intro He. rewrite (rsum_single D e); [rewrite Nat.eqb_refl; ring|exact He|]. intros i _ Hi. destruct (Nat.eqb_spec e i); [congruence|ring]. Qed.
Lemma antisymmetric_zero D (H : nat -> nat -> R) (d : nat -> R) : (forall p i, (p < D)%nat -> (i < D)%nat -> H p i + H i p = 0) ->
  rsum D (fun p => rsum D (fun i => H p i * d i) * d p) = 0.
Proof.
  intro A. set (S := rsum D (fun p => rsum D (fun i => H p i * d i) * d p)).
  assert (E : S = rsum D (fun p => rsum D (fun i => H p i * d i * d p))) by (apply rsum_ext; intros; rewrite <- rsum_scale_r; reflexivity).
  assert (E' : S = rsum D (fun p => rsum D (fun i => H i p * d i * d p))) by (rewrite E, rsum_swap; apply rsum_ext; intros; apply rsum_ext; intros; ring).
  assert (S + S = 0); [|lra]. rewrite E at 1. rewrite E', <- rsum_plus. apply rsum_zero. intros p Hp. rewrite <- rsum_plus. apply rsum_zero. intros i Hi.
  replace (H p i * d i * d p + H i p * d i * d p) with ((H p i + H i p) * (d i * d p)) by ring. rewrite A by auto. ring.
Qed.

Section Rigid.
Variables (D k : nat) (A : nat -> nat -> R).
Hypothesis HD : (D = 2 \/ D = 3)%nat.
Hypothesis DN : geo_det D A <> 0.
Local Notation inv := (geo_inverse D A).
Variables (u : nat -> (nat -> R) -> R) (du : nat -> nat -> (nat -> R) -> R).
Hypothesis PU : forall p, (p < D)%nat -> polynomial D k (u p).
Hypothesis DU : forall p e x, (p < D)%nat -> (e < D)%nat -> partial_derivative (u p) e x (du p e x).
Hypothesis SK : forall p i x, (p < D)%nat -> (i < D)%nat -> rsum D (fun e => inv e i * du p e x) + rsum D (fun e => inv e p * du i e x) = 0.

(** Differences of the displacement are orthogonal to differences of the points. *)
Lemma rigid_line x z : rsum D (fun p => (u p x - u p z) * rsum D (fun e => A p e * (x e - z e))) = 0.
Proof.
  set (d p := rsum D (fun e => A p e * (x e - z e))). set (at_ t := fun e => z e + t * (x e - z e)). set (f t := rsum D (fun p => u p (at_ t) * d p)).
  assert (IV : forall e, (e < D)%nat -> x e - z e = rsum D (fun i => inv e i * d i)).
  { intros e He. unfold d. rewrite (rsum_ext D _ (fun i => rsum D (fun e' => inv e i * A i e' * (x e' - z e')))) by (intros; rewrite <- rsum_scale; apply rsum_ext; intros; ring).
    rewrite rsum_swap, (rsum_ext D _ (fun e' => (if (e =? e')%nat then 1 else 0) * (x e' - z e'))).
    - rewrite (rsum_delta' D e (fun e' => x e' - z e')) by exact He. reflexivity.
    - intros e' He'. rewrite rsum_scale_r. f_equal. apply inverse_left; auto. }
  assert (Df : forall t, derivable_pt_lim f t 0).
  { intro t. assert (Dp : forall p, (p < D)%nat -> derivable_pt_lim (fun s => u p (at_ s)) t (rsum D (fun e => du p e (at_ t) * (x e - z e)))).
    { intros p Hp. pose proof (partials_gradient D k (u p) (at_ t) (fun e => du p e (at_ t)) (PU p Hp) (fun e He => DU p e (at_ t) Hp He)) as Gr.
      apply (Gr at_ t (fun e => x e - z e) eq_refl). intros i Hi.
      apply (derivable_pt_lim_ext_eq (fun s => z i + s * (x i - z i)) (fun s => at_ s i) t (0 + (1 * (x i - z i) + t * 0)) (x i - z i)); [reflexivity|ring|].
      apply (derivable_pt_lim_plus (fun _ => z i) (fun s => s * (x i - z i))); [apply derivable_pt_lim_const|].
      apply (derivable_pt_lim_mult (fun s => s) (fun _ => x i - z i)); [apply derivable_pt_lim_id|apply derivable_pt_lim_const]. }
    assert (Ds : forall n, (n <= D)%nat -> derivable_pt_lim (fun s => rsum n (fun p => u p (at_ s) * d p)) t (rsum n (fun p => rsum D (fun e => du p e (at_ t) * (x e - z e)) * d p))).
    { induction n as [|n IH]; intro Hn; [apply derivable_pt_lim_const|]. cbn [rsum].
      apply (derivable_pt_lim_plus (fun s => rsum n (fun p => u p (at_ s) * d p)) (fun s => u n (at_ s) * d n)); [apply IH; lia|].
      apply (derivable_pt_lim_ext_eq (fun s => u n (at_ s) * d n) (fun s => u n (at_ s) * d n) t (rsum D (fun e => du n e (at_ t) * (x e - z e)) * d n + u n (at_ t) * 0)); [reflexivity|ring|].
      apply (derivable_pt_lim_mult (fun s => u n (at_ s)) (fun _ => d n)); [apply Dp; lia|apply derivable_pt_lim_const]. }
    specialize (Ds D (Nat.le_refl _)). eapply derivable_pt_lim_ext_eq; [intro; reflexivity| |exact Ds].
    rewrite <- (antisymmetric_zero D (fun p i => rsum D (fun e => inv e i * du p e (at_ t))) d) by (intros; apply SK; auto). apply rsum_ext. intros p Hp. f_equal.
    rewrite (rsum_ext D (fun i => rsum D (fun e => inv e i * du p e (at_ t)) * d i) (fun i => rsum D (fun e => du p e (at_ t) * (inv e i * d i)))) by (intros; rewrite <- rsum_scale_r; apply rsum_ext; intros; ring).
    rewrite rsum_swap. apply rsum_ext. intros e He. rewrite rsum_scale, <- IV by exact He. reflexivity. }
  assert (E : f 1 = f 0).
  { assert (pr : derivable f) by (intro t; exists 0; apply Df). apply (null_derivative_1 f pr). intro t. apply derive_pt_eq_0. apply Df. }
  unfold f in E. rewrite (rsum_ext D _ (fun p => u p (at_ 1) * d p - u p (at_ 0) * d p)).
  - rewrite rsum_minus. unfold d at 1 2 in E. unfold d at 1 2. lra.
  - intros p Hp. unfold d. replace (at_ 1) with x by (apply functional_extensionality; intro; unfold at_; ring). replace (at_ 0) with z by (apply functional_extensionality; intro; unfold at_; ring). ring.
Qed.
(** The points of a facet span, with any other point. *)
Lemma facet_spans s (x w : nat -> R) : (s < D + 1)%nat -> (forall c, rsum D (fun e => w e * (x e - facet_param D (ref_facet D s) c e)) = 0) -> forall e, (e < D)%nat -> bary D s x * w e = 0.
Proof.
  intros Hs H e He. pose (c0 := fun _ : nat => 0). pose (c1 := fun i : nat => if (i =? 0)%nat then 1 else 0). pose (c2 := fun i : nat => if (i =? 1)%nat then 1 else 0).
  pose proof (H c0) as H0. pose proof (H c1) as H1. pose proof (H c2) as H2. clear H. unfold bary. destruct HD as [-> | ->].
  - destruct ref_facets_2 as (E0 & E1 & E2).
    destruct s as [|[|[|s]]]; try lia; rewrite ?E0, ?E1, ?E2 in *; cbn in H0, H1, H2 |- *; unfold facet_param, ref_vertex, c0, c1, c2 in *; cbn in H0, H1, H2; (destruct e as [|[|e]]; [| |lia]).
    all: try (assert (w 0%nat = 0) by lra); try (assert (w 1%nat = 0) by lra); try (assert (w 0%nat = w 1%nat) by lra); try nra.
  - destruct ref_facets_3 as (E0 & E1 & E2 & E3).
    destruct s as [|[|[|[|s]]]]; try lia; rewrite ?E0, ?E1, ?E2, ?E3 in *; cbn in H0, H1, H2 |- *; unfold facet_param, ref_vertex, c0, c1, c2 in *; cbn in H0, H1, H2; (destruct e as [|[|[|e]]]; [| | |lia]).
    all: try (assert (w 0%nat = 0) by lra); try (assert (w 1%nat = 0) by lra); try (assert (w 2%nat = 0) by lra); try (assert (w 0%nat = w 1%nat) by lra); try (assert (w 0%nat = w 2%nat) by lra); try nra.
  all: match goal with Ha : ?a = ?b, Hb : ?a = ?c |- _ => rewrite <- Ha, <- Hb in H0; try rewrite <- Ha; try rewrite <- Hb; lra end.
Qed.
Lemma on_facet s (x : nat -> R) : (s < D + 1)%nat -> bary D s x = 0 -> exists c, forall e, (e < D)%nat -> facet_param D (ref_facet D s) c e = x e.
Proof.
  unfold bary. intros Hs B. destruct HD as [-> | ->].
  - destruct ref_facets_2 as (E0 & E1 & E2). destruct s as [|[|[|s]]]; try lia; rewrite ?E0, ?E1, ?E2; cbn in B.
    + exists (fun _ => x 0%nat). intros [|[|e]] He; try lia; cbn; unfold facet_param, ref_vertex; cbn; lra.
    + exists (fun _ => x 1%nat). intros [|[|e]] He; try lia; cbn; unfold facet_param, ref_vertex; cbn; lra.
    + exists (fun _ => x 1%nat). intros [|[|e]] He; try lia; cbn; unfold facet_param, ref_vertex; cbn; lra.
  - destruct ref_facets_3 as (E0 & E1 & E2 & E3). destruct s as [|[|[|[|s]]]]; try lia; rewrite ?E0, ?E1, ?E2, ?E3; cbn in B.
    + exists (fun i => x i). intros [|[|[|e]]] He; try lia; cbn; unfold facet_param, ref_vertex; cbn; lra.
    + exists (fun i => if (i =? 0)%nat then x 0%nat else x 2%nat). intros [|[|[|e]]] He; try lia; cbn; unfold facet_param, ref_vertex; cbn; lra.
    + exists (fun i => x (S i)). intros [|[|[|e]]] He; try lia; cbn; unfold facet_param, ref_vertex; cbn; lra.
    + exists (fun i => x (S i)). intros [|[|[|e]]] He; try lia; cbn; unfold facet_param, ref_vertex; cbn; lra.
Qed.
Theorem rigid_zero s : (s < D + 1)%nat -> (forall p c, (p < D)%nat -> u p (facet_param D (ref_facet D s) c) = 0) -> forall p x, (p < D)%nat -> u p x = 0.
Proof.
  intros Hs Z p x Hp. destruct (Req_dec (bary D s x) 0) as [B|B].
  - destruct (on_facet s x Hs B) as (c & Hc). rewrite <- (Z p c Hp). symmetry. apply (poly_ext D k (u p) (PU p Hp)). exact Hc.
  - set (w e := rsum D (fun p => u p x * A p e)).
    assert (W : forall e, (e < D)%nat -> w e = 0).
    { intros e He. assert (X : bary D s x * w e = 0); [|apply Rmult_integral in X; tauto]. apply (facet_spans s x w Hs); [|exact He]. intro c.
      rewrite <- (rigid_line x (facet_param D (ref_facet D s) c)).
      rewrite (rsum_ext D (fun p => (u p x - _) * _) (fun p => rsum D (fun e => u p x * A p e * (x e - facet_param D (ref_facet D s) c e)))).
      - rewrite rsum_swap. apply rsum_ext. intros e' _. unfold w. rewrite <- rsum_scale_r. reflexivity.
      - intros q Hq. rewrite Z by exact Hq. rewrite Rminus_0_r, <- rsum_scale. apply rsum_ext. intros. ring. }
    rewrite <- (inverse_contract D A (fun p => u p x) p HD DN Hp). apply rsum_zero. intros e He. change (inv e p * w e = 0). rewrite W by exact He. ring.
Qed.
End Rigid.
