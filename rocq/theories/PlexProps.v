(** C28: the distance from a point to a simplex.  C29: the affine maps between the reference simplex
    and a simplex. *)
Require Import Arith Reals Lra Lia List.
From Verif Require Import Base LinAlg PlexModel PlexSpec PlexProofs.
Import ListNotations.
Local Open Scope R_scope.

(** C28: for every simplex with affinely independent vertices (of any dimension, in a space of any
    dimension) and every point, SimplexDistance::closest terminates and returns a point of the
    simplex, its barycentric coordinates and its distance, and no point of the simplex is closer.
    LU factorisation and arithmetic are exact; some vertex has a squared distance below the largest
    double. *)
Theorem closest_point : forall solve D V vertices huge point,
  exact_solver solve -> affinely_independent D V vertices ->
  (exists i, (i < V)%nat /\ distance2 D (vertices i) point < huge) ->
  exists r, closest solve D V vertices huge point = Some r /\
    convex_coords D V vertices (bary r) (xi r) /\ dist r = distance D (xi r) point /\
    forall y, in_simplex D V vertices y -> dist r <= distance D y point.
Proof. intros. apply closest_spec; assumption. Qed.
Print Assumptions closest_point.

(** The reported distance is zero exactly for the points of the simplex, and then the point itself is
    returned. *)
Theorem closest_zero : forall solve D V vertices huge point r,
  exact_solver solve -> affinely_independent D V vertices ->
  (exists i, (i < V)%nat /\ distance2 D (vertices i) point < huge) ->
  closest solve D V vertices huge point = Some r ->
  (dist r = 0 <-> in_simplex D V vertices point) /\
  (dist r = 0 -> forall d, (d < D)%nat -> xi r d = point d).
Proof.
  intros solve D V vertices huge point r Hs Hi Hv E.
  destruct (closest_point solve D V vertices huge point Hs Hi Hv) as (r' & E' & Hc & Hd & Hmin).
  assert (r' = r) by congruence. subst r'. clear E'.
  assert (Hself : distance D point point = 0).
  { unfold distance, distance2. rewrite rsum_zero; [apply sqrt_0 |]. intros. ring. }
  assert (Hnn : 0 <= distance2 D (xi r) point).
  { apply rsum_nonneg. intros d _. apply Rle_0_sqr. }
  assert (Hpt : dist r = 0 -> forall d, (d < D)%nat -> xi r d = point d).
  { intros Z d Hd'. rewrite Hd in Z. unfold distance in Z. apply sqrt_eq_0 in Z; auto.
    pose proof (rsum_nonneg_zero D _ (fun d _ => Rle_0_sqr (xi r d - point d)) Z d Hd') as Q.
    cbn beta in Q. apply Rsqr_0_uniq in Q. lra. }
  split; [split |]; auto.
  - intros Z. destruct Hc as (A & B & C). exists (bary r). split; auto. split; auto.
    intros d Hd'. rewrite <- Hpt by auto. auto.
  - intros Hin. specialize (Hmin point Hin). rewrite Hself in Hmin.
    assert (0 <= dist r) by (rewrite Hd; apply sqrt_pos). lra.
Qed.
Print Assumptions closest_zero.

(** A segment in the plane, seen from above its middle and from beyond its end. *)
Definition segment (i d : nat) : R := match i, d with 1%nat, 0%nat => 2 | _, _ => 0 end.
Example segment_independent : affinely_independent 2 2 segment.
Proof.
  intros c H1 Hd i Hi. specialize (Hd 0%nat ltac:(lia)). unfold weighted in Hd. cbn in Hd, H1.
  destruct i as [| [| i]]; [lra | lra | lia].
Qed.
Example segment_closest : forall point, point 0%nat = 1 -> point 1%nat = 1 ->
  exists r, closest gauss 2 2 segment 1000 point = Some r /\ dist r = 1.
Proof.
  intros point H0 H1.
  destruct (closest_point gauss 2 2 segment 1000 point gauss_exact segment_independent) as (r & E & Hc & Hd & Hmin).
  - exists 0%nat. split; [lia |]. unfold distance2. cbn. rewrite H0, H1. lra.
  - exists r. split; auto. apply Rle_antisym.
    + rewrite <- sqrt_1. replace 1 with (distance2 2 (fun d => match d with O => 1 | _ => 0 end) point).
      * apply Hmin. exists (fun _ => / 2). split; [intros; lra |]. split; [cbn; lra |].
        intros [| [| d]] Hd'; unfold weighted; cbn; try lra; lia.
      * unfold distance2. cbn. rewrite H0, H1. ring.
    + destruct Hc as (_ & _ & Hx). pose proof (Hx 1%nat ltac:(lia)) as Hy. unfold weighted in Hy. cbn in Hy.
      rewrite Hd. rewrite <- sqrt_1 at 1. apply sqrt_le_1_alt. unfold distance2. cbn. rewrite H1, Hy.
      pose proof (Rle_0_sqr (xi r 0%nat - point 0%nat)) as Q. unfold Rsqr in Q. nra.
Qed.

(** ** C29 *)
(** The vertices of the reference simplex: the origin and the unit vectors. *)
Definition ref_vertex (k d : nat) : R := if (k =? S d)%nat then 1 else 0.
Definition in_ref_simplex (D : nat) (xi : nat -> R) : Prop :=
  (forall d, (d < D)%nat -> 0 <= xi d) /\ rsum D xi <= 1.

Lemma ref_value : forall D verts xi d,
  ref_to_general D verts xi d = (1 - rsum D xi) * verts 0%nat d + rsum D (fun j => xi j * verts (S j) d).
Proof.
  intros. unfold ref_to_general. rewrite (fold_points xi (fun j => verts (S j))). reflexivity.
Qed.

(** C29a: vertices are mapped to vertices. *)
Theorem ref_vertices : forall D verts k, (k <= D)%nat ->
  forall d, ref_to_general D verts (ref_vertex k) d = verts k d.
Proof.
  intros D verts k Hk d. rewrite ref_value. destruct k as [| k].
  - rewrite !rsum_zero; [ring | |]; intros i _; unfold ref_vertex; cbn; ring.
  - assert (E : rsum D (ref_vertex (S k)) = 1).
    { rewrite (rsum_single D k); [unfold ref_vertex; rewrite Nat.eqb_refl; reflexivity | lia |].
      intros i _ Hne. unfold ref_vertex. destruct (Nat.eqb_spec (S k) (S i)); [lia | reflexivity]. }
    rewrite E, (rsum_single D k); [unfold ref_vertex; rewrite Nat.eqb_refl; ring | lia |].
    intros i _ Hne. unfold ref_vertex. destruct (Nat.eqb_spec (S k) (S i)); [lia | ring].
Qed.
Print Assumptions ref_vertices.

(** C29b: the image of the reference simplex is the simplex. *)
Theorem ref_simplex_image : forall D verts,
  (forall xi, in_ref_simplex D xi -> in_simplex D (S D) verts (ref_to_general D verts xi)) /\
  (forall x, in_simplex D (S D) verts x -> exists xi, in_ref_simplex D xi /\
     forall d, (d < D)%nat -> ref_to_general D verts xi d = x d).
Proof.
  intros D verts. split.
  - intros xi [Hp Hs]. exists (fun i => match i with O => 1 - rsum D xi | S j => xi j end).
    split; [intros [| i] Hi; [lra | apply Hp; lia] |]. split.
    + rewrite rsum_head. rewrite (rsum_ext D (fun i => xi i) xi) by reflexivity. ring.
    + intros d _. rewrite ref_value. unfold weighted. rewrite rsum_head. reflexivity.
  - intros x (mu & Hp & Hs & Hx). rewrite rsum_head in Hs. exists (fun d => mu (S d)). split.
    + split; [intros; apply Hp; lia |]. specialize (Hp 0%nat ltac:(lia)). lra.
    + intros d Hd. rewrite ref_value, Hx by auto. unfold weighted. rewrite rsum_head.
      replace (1 - rsum D (fun d => mu (S d))) with (mu 0%nat) by lra. reflexivity.
Qed.
Print Assumptions ref_simplex_image.

Lemma edges_nonsingular : forall D verts, affinely_independent D (S D) verts ->
  nonsingular D (edge_matrix verts).
Proof.
  intros D verts H x Hx j Hj.
  apply (H (fun i => match i with O => - rsum D x | S j => x j end)) with (i := S j).
  - rewrite rsum_head. rewrite (rsum_ext D (fun i => x i) x) by reflexivity. ring.
  - intros d Hd. unfold weighted. rewrite rsum_head. rewrite <- (Hx d Hd). unfold mat_vec, edge_matrix.
    rewrite (rsum_ext D (fun j => (verts (S j) d - verts 0%nat d) * x j)
                        (fun j => x j * verts (S j) d - x j * verts 0%nat d)) by (intros; ring).
    rewrite rsum_minus, rsum_scale_r. ring.
  - lia.
Qed.
Lemma edges_value : forall D verts xi i,
  ref_to_general D verts xi i - verts 0%nat i = mat_vec D (edge_matrix verts) xi i.
Proof.
  intros. rewrite ref_value. unfold mat_vec, edge_matrix.
  rewrite (rsum_ext D (fun j => (verts (S j) i - verts 0%nat i) * xi j)
                      (fun j => xi j * verts (S j) i - xi j * verts 0%nat i)) by (intros; ring).
  rewrite rsum_minus, rsum_scale_r. ring.
Qed.

(** C29c: for a simplex that is not degenerate, the two maps are inverse to each other on the whole
    space. *)
Theorem affine_inverse : forall solve D verts, exact_solver solve -> affinely_independent D (S D) verts ->
  (forall xi d, (d < D)%nat -> general_to_ref solve D verts (ref_to_general D verts xi) d = xi d) /\
  (forall x d, (d < D)%nat -> ref_to_general D verts (general_to_ref solve D verts x) d = x d).
Proof.
  intros solve D verts Hs Hi. pose proof (edges_nonsingular D verts Hi) as Hns. split.
  - intros xi d Hd. unfold general_to_ref. apply solver_unique; auto. intros i Hi1. unfold psub. rewrite edges_value. reflexivity.
  - intros x d Hd. pose proof (edges_value D verts (general_to_ref solve D verts x) d) as E.
    unfold general_to_ref at 2 in E. rewrite Hs in E by auto. unfold psub in E. lra.
Qed.
Print Assumptions affine_inverse.

(** A triangle. *)
Definition triangle (i d : nat) : R :=
  match i, d with 0%nat, 0%nat => 1 | 0%nat, 1%nat => 1 | 1%nat, 0%nat => 3 | 1%nat, 1%nat => 1
                | 2%nat, 0%nat => 1 | 2%nat, 1%nat => 4 | _, _ => 0 end.
Example triangle_independent : affinely_independent 2 3 triangle.
Proof.
  intros c H1 Hd i Hi. pose proof (Hd 0%nat ltac:(lia)) as E0. pose proof (Hd 1%nat ltac:(lia)) as E1.
  unfold weighted in E0, E1. cbn in E0, E1, H1. destruct i as [| [| [| i]]]; [lra | lra | lra | lia].
Qed.
Example triangle_centre : forall d, (d < 2)%nat ->
  ref_to_general 2 triangle (fun _ => / 2) d = match d with O => 2 | _ => 5 / 2 end.
Proof. intros [| [| d]] H; rewrite ref_value; cbn; try lra; lia. Qed.
