(** Lemmas about the problem that belongs to a mesh (C63). *)
Require Import List Arith Lia Bool Reals Lra FunctionalExtensionality Sorting.Sorted.
Require Import Verif.Base Verif.LinAlg Verif.SimplexModel Verif.SimplexProofs Verif.LocalMeshModel Verif.LocalMeshProps Verif.TopoModel Verif.TopoSpec Verif.TopoProofs Verif.TopoProps
  Verif.AssembleModel Verif.AssembleSpec Verif.AssembleProofs Verif.AssembleProps Verif.MatFree Verif.FaultModel Verif.PoissonModel Verif.PenaltyModel
  Verif.SipSpec Verif.SipProofs Verif.SipRank Verif.SipProps Verif.CoerciveProps
  Verif.GeometryModel Verif.GeometryProofs Verif.GeometrySpec Verif.GeometryProps Verif.MeshSpec.
Import ListNotations.
Local Open Scope R_scope.

Lemma position_spec f ds : In f ds -> nth_error ds (position f ds) = Some f.
Proof.
  induction ds as [|d t IH]; intros []; cbn [position].
  - subst. destruct (list_eq_dec Nat.eq_dec f f); [reflexivity|contradiction].
  - destruct (list_eq_dec Nat.eq_dec d f); [subst; reflexivity|cbn; auto].
Qed.
Lemma position_unique f ds l : NoDup ds -> nth_error ds l = Some f -> position f ds = l.
Proof.
  intros N E. pose proof (position_spec f ds (nth_error_In _ _ E)) as P.
  apply (proj1 (NoDup_nth_error ds) N); [apply nth_error_Some; congruence|congruence].
Qed.
Lemma smallest_min n f : (0 < n)%nat -> smallest n f = min_element n f.
Proof.
  intro H. assert (A : forall n x, fold_right Rmin x (map f (seq 0 (S n))) = Rmin (min_element (S n) f) x).
  { clear. induction n as [|n IH]; intro x; [cbn; reflexivity|].
    replace (seq 0 (S (S n))) with (seq 0 (S n) ++ [S n]) by (rewrite <- seq_S; reflexivity). rewrite map_app, fold_right_app, IH. cbn [map fold_right].
    change (min_element (S (S n)) f) with (Rmin (min_element (S n) f) (f (S n))). rewrite Rmin_assoc. reflexivity. }
  destruct n as [|n]; [lia|]. unfold smallest. rewrite A. apply Rmin_left. apply min_le. lia.
Qed.
Lemma largest_max n f : (0 < n)%nat -> largest n f = max_element n f.
Proof.
  intro H. assert (A : forall n x, fold_right Rmax x (map f (seq 0 (S n))) = Rmax (max_element (S n) f) x).
  { clear. induction n as [|n IH]; intro x; [cbn; reflexivity|].
    replace (seq 0 (S (S n))) with (seq 0 (S n) ++ [S n]) by (rewrite <- seq_S; reflexivity). rewrite map_app, fold_right_app, IH. cbn [map fold_right].
    change (max_element (S (S n)) f) with (Rmax (max_element (S n) f) (f (S n))). rewrite Rmax_assoc. reflexivity. }
  destruct n as [|n]; [lia|]. unfold largest. rewrite A. apply Rmax_left. apply max_ge. lia.
Qed.
(** Interpolated values lie between nodal values. *)
Lemma convex_between n c f : (0 < n)%nat -> convex n c -> (exists l, (l < n)%nat /\ f l <= rsum n (fun l => f l * c l)) /\ (exists l, (l < n)%nat /\ rsum n (fun l => f l * c l) <= f l).
Proof.
  intros Hn [C1 C2].
  assert (Mn : exists l, (l < n)%nat /\ forall k, (k < n)%nat -> f l <= f k).
  { clear C1 C2. induction n as [|[|n] IH]; [lia|exists 0%nat; split; [lia|]; intros k Hk; replace k with 0%nat by lia; lra|].
    destruct (IH ltac:(lia)) as (l & Hl & L). destruct (Rle_dec (f l) (f (S n))) as [h|h].
    - exists l. split; [lia|]. intros k Hk. destruct (Nat.eq_dec k (S n)) as [->|]; [auto|apply L; lia].
    - exists (S n). split; [lia|]. intros k Hk. destruct (Nat.eq_dec k (S n)) as [->|]; [lra|]. pose proof (L k ltac:(lia)). lra. }
  assert (Mx : exists l, (l < n)%nat /\ forall k, (k < n)%nat -> f k <= f l).
  { clear C1 C2 Mn. induction n as [|[|n] IH]; [lia|exists 0%nat; split; [lia|]; intros k Hk; replace k with 0%nat by lia; lra|].
    destruct (IH ltac:(lia)) as (l & Hl & L). destruct (Rle_dec (f (S n)) (f l)) as [h|h].
    - exists l. split; [lia|]. intros k Hk. destruct (Nat.eq_dec k (S n)) as [->|]; [auto|apply L; lia].
    - exists (S n). split; [lia|]. intros k Hk. destruct (Nat.eq_dec k (S n)) as [->|]; [lra|]. pose proof (L k ltac:(lia)). lra. }
  split.
  - destruct Mn as (l & Hl & L). exists l. split; auto. rewrite <- (Rmult_1_r (f l)) at 1. rewrite <- C2, <- rsum_scale. apply rsum_le. intros k Hk. apply Rmult_le_compat_r; auto.
  - destruct Mx as (l & Hl & L). exists l. split; auto. rewrite <- (Rmult_1_r (f l)) at 1. rewrite <- C2, <- rsum_scale. apply rsum_le. intros k Hk. apply Rmult_le_compat_r; auto.
Qed.
Lemma good_weights_pos n w x : good_weights n w -> (forall q, (q < n)%nat -> 0 < x q) -> 0 < rsum n (fun q => w q * x q).
Proof.
  intros [W0 (q & Hq & Wq)] X0.
  assert (N0 : 0 <= rsum n (fun q => w q * x q)) by (apply rsum_nonneg; intros i Hi; pose proof (W0 i Hi); pose proof (X0 i Hi); nra).
  destruct N0 as [|Z]; auto. exfalso. pose proof (rsum_nonneg_zero n (fun q => w q * x q)) as Y.
  assert (w q * x q = 0) by (apply Y; auto; intros i Hi; pose proof (W0 i Hi); pose proof (X0 i Hi); nra).
  pose proof (X0 q Hq). nra.
Qed.

Section Mesh.
Variables (G : geo_setup) (procs : nat) (elems facets : list (list nat)) (bc : list nat -> nat) (m : nat -> topo_mesh).
Local Notation D := (gs_D G).
Hypothesis MP : mesh_parts D procs elems facets bc m.
Hypothesis VG : valid_geometry G elems facets.
Lemma facet_number_spec f g plex : In f facets -> nth_error elems g = Some plex -> incl f plex ->
  exists ds, downward D plex = Some ds /\ nth_error ds (facet_number D elems f g) = Some f.
Proof.
  intros Hf Eg I. apply (mp_facets_all _ _ _ _ _ _ MP) in Hf as (Lf & Sf & _).
  destruct (proj2 (vg_elems _ _ _ VG) plex) as [L S]; [eapply nth_error_In; eauto|].
  destruct (downward_spec D plex ltac:(lia) S) as (ds & Ed & Id & _). exists ds. split; auto.
  unfold facet_number. rewrite (nth_error_nth _ _ [] Eg), Ed. apply position_spec. apply Id. auto.
Qed.
Lemma facet_number_lt f g : In f facets -> In g (elements_of elems f) -> (facet_number D elems f g < D + 1)%nat.
Proof.
  intros Hf Hg. apply elements_of_spec in Hg as (plex & Eg & I). destruct (facet_number_spec f g plex Hf Eg I) as (ds & Ed & El).
  destruct (proj2 (vg_elems _ _ _ VG) plex) as [L S]; [eapply nth_error_In; eauto|].
  assert (Hl : (facet_number D elems f g < length ds)%nat) by (apply nth_error_Some; congruence).
  destruct (downward_spec D plex ltac:(lia) S) as (ds' & Ed' & _ & _ & B). assert (ds' = ds) by congruence. subst ds'.
  rewrite L in B. destruct (vg_dim _ _ _ VG) as [E|E]; rewrite E in *; cbn in B; injection B as B; lia.
Qed.
Variable R_ : pdata.
Hypothesis Hdim : p_dim R_ = D.
Lemma mesh_geometry : problem_geometry G elems facets (with_geometry G elems R_) (facet_number D elems) (mesh_normal G elems) (mesh_length G elems) (mesh_inverse G elems).
Proof.
  split.
  - exact Hdim.
  - exact facet_number_spec.
  - intros g plex Eg. cbn. rewrite (nth_error_nth _ _ [] Eg). reflexivity.
  - intros g plex Eg. cbn. rewrite (nth_error_nth _ _ [] Eg). reflexivity.
  - intros f g plex fs fl Hf Eg I Ef El.
    assert (P : forall q, mesh_point G elems f g q = point_data G plex fl plex fl q).
    { intro q. unfold mesh_point, ref_facet. rewrite (nth_error_nth _ _ [] Eg), Ef, (nth_error_nth _ _ [] El). reflexivity. }
    split; [|split].
    + apply functional_extensionality. intro i. apply functional_extensionality. intro q. unfold mesh_normal. rewrite P. reflexivity.
    + apply functional_extensionality. intro e. apply functional_extensionality. intro i. apply functional_extensionality. intro q.
      unfold mesh_inverse, ref_facet. rewrite (nth_error_nth _ _ [] Eg), Ef, (nth_error_nth _ _ [] El). reflexivity.
    + intros rest E. apply functional_extensionality. intro q. unfold mesh_length. rewrite E, P. reflexivity.
Qed.
(** Opposite normals, positive volumes and areas. *)
Lemma mesh_good :
  (forall f g h i q, In f facets -> elements_of elems f = [g; h] -> mesh_normal G elems f h i q = - mesh_normal G elems f g i q) /\
  (forall g q, (g < length elems)%nat -> 0 < p_J (with_geometry G elems R_) g q) /\
  (forall f q, In f facets -> 0 < mesh_length G elems f q) /\
  (forall f g q, In f facets -> In g (elements_of elems f) ->
     rsum D (fun i => mesh_normal G elems f g i q * mesh_normal G elems f g i q) = mesh_length G elems f q * mesh_length G elems f q).
Proof.
  rewrite <- Hdim. change (p_dim R_) with (p_dim (with_geometry G elems R_)).
  apply (geometry_of_problem G elems facets _ _ _ _ _ VG mesh_geometry).
  intros f Hf. apply (facet_one_or_two D procs elems facets bc m MP f Hf).
Qed.
End Mesh.
