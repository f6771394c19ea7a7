(** Lemmas about element geometry: barycentric coordinates on facets, cofactors, normals. *)
Require Import List Arith Lia Bool Reals Lra Sorting.Sorted.
Require Import Verif.Base Verif.CombinatoricsModel Verif.CombinatoricsProofs Verif.LinAlg Verif.SimplexModel Verif.SimplexProofs Verif.FaultModel Verif.GeometryModel.
Import ListNotations.
Local Open Scope R_scope.

(** * Facets of an element and of the reference element *)
Lemma pick_seq plex c v : pick (seq 0 (length plex)) c = Some v ->
  v = c /\ pick plex c = Some (map (fun j => nth j plex 0%nat) c).
Proof.
  revert v. induction c as [|j c IH]; intros v E; cbn in *; [injection E as <-; auto|].
  destruct (nth_error (seq 0 (length plex)) j) as [a|] eqn:Ea; cbn in E; [|discriminate].
  destruct (pick (seq 0 (length plex)) c) as [r|] eqn:Er; cbn in E; [|discriminate]. injection E as <-.
  destruct (IH r eq_refl) as [-> P].
  assert (Hj : (j < length plex)%nat). { rewrite <- (seq_length (length plex) 0). apply nth_error_Some. congruence. }
  assert (a = j). { rewrite (nth_error_nth' _ 0%nat) in Ea by (rewrite seq_length; auto). injection Ea as <-. rewrite seq_nth; auto. } subst a.
  split; [reflexivity|]. rewrite (nth_error_nth' plex 0%nat Hj). cbn. rewrite P. reflexivity.
Qed.
Lemma pick_all_seq plex cs vs : pick_all (seq 0 (length plex)) cs = Some vs ->
  vs = cs /\ pick_all plex cs = Some (map (map (fun j => nth j plex 0%nat)) cs).
Proof.
  revert vs. induction cs as [|c cs IH]; intros vs E; cbn in *; [injection E as <-; auto|].
  destruct (pick (seq 0 (length plex)) c) as [v|] eqn:Ev; cbn in E; [|discriminate].
  destruct (pick_all (seq 0 (length plex)) cs) as [r|] eqn:Er; cbn in E; [|discriminate]. injection E as <-.
  destruct (pick_seq _ _ _ Ev) as [-> P]. destruct (IH r eq_refl) as [-> Q]. rewrite P. cbn. rewrite Q. auto.
Qed.
Lemma seq_sorted n : forall a, StronglySorted lt (seq a n).
Proof.
  induction n as [|n IH]; intro a; cbn; [constructor|]. constructor; [apply IH|]. apply Forall_forall. intros x Hx. apply in_seq in Hx. lia.
Qed.
(** The facets of an element are the facets of the reference element with its vertices put in. *)
Lemma downward_ref D plex : length plex = (D + 1)%nat -> StronglySorted lt plex ->
  exists fs, f2v D = Some fs /\ downward D plex = Some (map (map (fun j => nth j plex 0%nat)) fs).
Proof.
  intros L S. destruct (downward_spec D (referenceSimplex D)) as (fs & E & _).
  { unfold referenceSimplex. rewrite seq_length. lia. } { apply seq_sorted. }
  exists fs. split; [exact E|]. unfold downward, referenceSimplex in E |- *. rewrite seq_length in E. rewrite L.
  destruct (choose_all ((D + 1) ^ D) (D + 1) (choose_begin D)) as [cs|]; cbn in E |- *; [|discriminate].
  rewrite <- L in E. destruct (pick_all_seq _ _ _ E) as [-> P]. exact P.
Qed.
Lemma f2v_facet D fs f : f2v D = Some fs -> In f fs -> length f = D /\ StronglySorted lt f /\ forall v, In v f -> (v <= D)%nat.
Proof.
  intros E Hf. destruct (downward_spec D (referenceSimplex D)) as (l & E' & I & _).
  { unfold referenceSimplex. rewrite seq_length. lia. } { apply seq_sorted. }
  unfold f2v in E. assert (l = fs) by congruence. subst l. apply I in Hf as (L & S & C). split; [auto|]. split; [auto|].
  intros v Hv. apply C in Hv. unfold referenceSimplex in Hv. apply in_seq in Hv. lia.
Qed.

(** * Affine maps *)
Lemma ref_vertex_0 d : ref_vertex 0 d = 0.
Proof. reflexivity. Qed.
Lemma rsum_ref_vertex D v c : (v <= D)%nat -> rsum D (fun d => ref_vertex v d * c d) = match v with O => 0 | S d => c d end.
Proof.
  intro Hv. destruct v as [|e].
  - apply rsum_zero. intros. unfold ref_vertex. cbn. ring.
  - rewrite (rsum_single D e); [|lia|].
    + unfold ref_vertex. rewrite Nat.eqb_refl. ring.
    + intros i _ Hi. unfold ref_vertex. destruct (Nat.eqb_spec (S e) (S i)); [congruence|ring].
Qed.
Lemma affine_at_vertex D verts v i : (v <= D)%nat -> affine_map D verts (ref_vertex v) i = verts v i.
Proof.
  intro Hv. unfold affine_map. rewrite (rsum_ref_vertex D v (fun d => verts (S d) i)) by auto.
  rewrite (rsum_ext D (ref_vertex v) (fun d => ref_vertex v d * 1)) by (intros; ring).
  rewrite (rsum_ref_vertex D v (fun _ => 1)) by auto. destruct v; ring.
Qed.
Lemma affine_combination D verts m (b : nat -> R) (y : nat -> vec) i : rsum m b = 1 ->
  affine_map D verts (fun e => rsum m (fun j => b j * y j e)) i = rsum m (fun j => b j * affine_map D verts (y j) i).
Proof.
  intro Hb. unfold affine_map.
  rewrite (rsum_ext m (fun j => b j * _) (fun j => b j * verts 0%nat i - b j * rsum D (y j) * verts 0%nat i + rsum D (fun d => b j * y j d * verts (S d) i))).
  2:{ intros j _. rewrite (rsum_ext D (fun d => b j * y j d * verts (S d) i) (fun d => b j * (y j d * verts (S d) i))) by (intros; ring). rewrite rsum_scale. ring. }
  rewrite rsum_plus, rsum_minus, !rsum_scale_r, Hb, (rsum_swap D m).
  rewrite (rsum_ext m (fun j => rsum D (fun i0 => b j * y j i0)) (fun j => b j * rsum D (y j))) by (intros; apply rsum_scale).
  rewrite (rsum_swap m D). f_equal; [ring|]. apply rsum_ext. intros d _. rewrite <- rsum_scale_r. reflexivity.
Qed.
(** Barycentric coordinates of a point of the reference facet. *)
Definition bary (D : nat) (chi : vec) (j : nat) : R := match j with O => 1 - rsum (D - 1) chi | S d => chi d end.
Lemma bary_sum D chi : (0 < D)%nat -> rsum D (bary D chi) = 1.
Proof. intro H. destruct D as [|D]; [lia|]. rewrite rsum_head. cbn [bary]. replace (S D - 1)%nat with D by lia. change (rsum D (fun i => chi i)) with (rsum D chi). ring. Qed.
Lemma facet_param_bary D f chi : (0 < D)%nat -> forall i, facet_param D f chi i = rsum D (fun j => bary D chi j * ref_vertex (nth j f 0%nat) i).
Proof. intros H i. destruct D as [|D]; [lia|]. unfold facet_param. rewrite rsum_head. cbn [bary]. replace (S D - 1)%nat with D by lia. reflexivity. Qed.
Lemma affine_map_ext D verts verts' x y i : (forall v, (v <= D)%nat -> verts v i = verts' v i) -> (forall d, (d < D)%nat -> x d = y d) ->
  affine_map D verts x i = affine_map D verts' y i.
Proof.
  intros Hv Hx. unfold affine_map. rewrite (rsum_ext D x y) by auto. rewrite Hv by lia. f_equal. apply rsum_ext. intros d Hd. rewrite Hx, Hv by lia. reflexivity.
Qed.
Lemma affine_on_facet D verts f chi i : (0 < D)%nat -> length f = D -> (forall v, In v f -> (v <= D)%nat) ->
  affine_map D verts (facet_param D f chi) i = rsum D (fun j => bary D chi j * verts (nth j f 0%nat) i).
Proof.
  intros H L I. rewrite (affine_map_ext D verts verts _ (fun e => rsum D (fun j => bary D chi j * ref_vertex (nth j f 0%nat) e))).
  - rewrite affine_combination by (apply bary_sum; auto). apply rsum_ext. intros j Hj. rewrite affine_at_vertex; [reflexivity|]. apply I, nth_In. lia.
  - reflexivity.
  - intros. apply facet_param_bary. auto.
Qed.

(** * Two and three dimensions *)
(** The vector A v. *)
Definition push (D : nat) (A : nat -> nat -> R) (v : vec) : vec := fun i => rsum D (fun e => A i e * v e).
Definition rotated (D : nat) (t1 t2 : vec) : vec :=
  match D with 2 => fun i => match i with O => - t1 1%nat | _ => t1 0%nat end | _ => cross t1 t2 end.
Ltac nums := repeat match goal with |- context [Rlt_dec ?a ?b] => destruct (Rlt_dec a b); try (exfalso; cbn in *; lra) end.

Lemma f2v_2 : f2v 2 = Some [[0;1];[0;2];[1;2]]%nat. Proof. reflexivity. Qed.
Lemma f2v_3 : f2v 3 = Some [[0;1;2];[0;1;3];[0;2;3];[1;2;3]]%nat. Proof. reflexivity. Qed.

Definition sgn_det (D : nat) (A : nat -> nat -> R) : R := Rabs (geo_det D A) / geo_det D A.
Lemma sgn_det_sq D A : geo_det D A <> 0 -> sgn_det D A * sgn_det D A = 1.
Proof.
  intro H. unfold sgn_det. unfold Rabs. destruct (Rcase_abs _); field; auto.
Qed.
Lemma sgn_det_abs D A : geo_det D A <> 0 -> sgn_det D A * geo_det D A = Rabs (geo_det D A).
Proof. intro H. unfold sgn_det. field. auto. Qed.
Lemma normal_cofactor D A N i : geo_det D A <> 0 ->
  geo_normal D (geo_det D A) (geo_inverse D A) N i = sgn_det D A * rsum D (fun j => geo_cofactor D A i j * N j).
Proof.
  intro H. unfold geo_normal, geo_inverse, sgn_det. rewrite (rsum_ext D (fun j => geo_cofactor D A i j / geo_det D A * N j) (fun j => / geo_det D A * (geo_cofactor D A i j * N j))) by (intros; unfold Rdiv; ring).
  rewrite rsum_scale. field. auto.
Qed.
(** The reference normals, facet by facet. *)
Lemma ref_normal_2 f : In f [[0;1];[0;2];[1;2]]%nat ->
  exists s, s * s = 1 /\ (forall i, (i < 2)%nat -> ref_normal 2 f i = s * rotated 2 (vdiff (ref_vertex (nth 1 f 0%nat)) (ref_vertex (nth 0 f 0%nat))) (fun _ => 0) i) /\
  vdot 2 (ref_normal 2 f) (vdiff (ref_vertex (missing_vertex 2 f)) (ref_vertex (nth 0 f 0%nat))) = -1.
Proof.
  intros [<-|[<-|[<-|[]]]]; unfold ref_normal; cbv zeta;
  match goal with |- context [Rlt_dec ?a ?b] => destruct (Rlt_dec a b) as [h|h]; cbn in h; unfold vdiff, ref_vertex in h; cbn in h; try (exfalso; lra) end.
  - exists (-1). split; [ring|]. split; [intros [|[|i]] Hi; try lia|]; cbn; unfold vdiff, ref_vertex; cbn; ring.
  - exists 1. split; [ring|]. split; [intros [|[|i]] Hi; try lia|]; cbn; unfold vdiff, ref_vertex; cbn; ring.
  - exists (-1). split; [ring|]. split; [intros [|[|i]] Hi; try lia|]; cbn; unfold vdiff, ref_vertex; cbn; ring.
Qed.
Lemma ref_normal_3 f : In f [[0;1;2];[0;1;3];[0;2;3];[1;2;3]]%nat ->
  exists s, s * s = 1 /\ (forall i, (i < 3)%nat -> ref_normal 3 f i = s * cross (vdiff (ref_vertex (nth 1 f 0%nat)) (ref_vertex (nth 0 f 0%nat))) (vdiff (ref_vertex (nth 2 f 0%nat)) (ref_vertex (nth 0 f 0%nat))) i) /\
  vdot 3 (ref_normal 3 f) (vdiff (ref_vertex (missing_vertex 3 f)) (ref_vertex (nth 0 f 0%nat))) = -1.
Proof.
  intros [<-|[<-|[<-|[<-|[]]]]]; unfold ref_normal; cbv zeta;
  match goal with |- context [Rlt_dec ?a ?b] => destruct (Rlt_dec a b) as [h|h]; cbn in h; unfold vdiff, cross, ref_vertex in h; cbn in h; try (exfalso; lra) end.
  - exists (-1). split; [ring|]. split; [intros [|[|[|i]]] Hi; try lia|]; cbn; unfold vdiff, ref_vertex; cbn; ring.
  - exists 1. split; [ring|]. split; [intros [|[|[|i]]] Hi; try lia|]; cbn; unfold vdiff, ref_vertex; cbn; ring.
  - exists (-1). split; [ring|]. split; [intros [|[|[|i]]] Hi; try lia|]; cbn; unfold vdiff, ref_vertex; cbn; ring.
  - exists 1. split; [ring|]. split; [intros [|[|[|i]]] Hi; try lia|]; cbn; unfold vdiff, ref_vertex; cbn; ring.
Qed.
(** Cofactors take the rotated tangents of the reference facet to those of the facet. *)
Lemma cofactor_rotated D A t1 t2 i : (D = 2 \/ D = 3)%nat -> (i < D)%nat ->
  rsum D (fun j => geo_cofactor D A i j * rotated D t1 t2 j) = rotated D (push D A t1) (push D A t2) i.
Proof.
  intros [-> | ->] Hi.
  - destruct i as [|[|i]]; try lia; cbn; unfold push; cbn; ring.
  - destruct i as [|[|[|i]]]; try lia; cbn; unfold push, cross; cbn; ring.
Qed.
Lemma cofactor_dot D A N v : (D = 2 \/ D = 3)%nat ->
  vdot D (fun i => rsum D (fun j => geo_cofactor D A i j * N j)) (push D A v) = geo_det D A * vdot D N v.
Proof. intros [-> | ->]; unfold vdot, push; cbn; ring. Qed.
Lemma ref_normal_spec D fs f : (D = 2 \/ D = 3)%nat -> f2v D = Some fs -> In f fs ->
  exists s, s * s = 1 /\
  (forall i, (i < D)%nat -> ref_normal D f i = s * rotated D (vdiff (ref_vertex (nth 1 f 0%nat)) (ref_vertex (nth 0 f 0%nat))) (vdiff (ref_vertex (nth 2 f 0%nat)) (ref_vertex (nth 0 f 0%nat))) i) /\
  vdot D (ref_normal D f) (vdiff (ref_vertex (missing_vertex D f)) (ref_vertex (nth 0 f 0%nat))) = -1.
Proof.
  intros [-> | ->] E Hf.
  - rewrite f2v_2 in E. injection E as <-. apply ref_normal_2. exact Hf.
  - rewrite f2v_3 in E. injection E as <-. apply ref_normal_3. exact Hf.
Qed.
Lemma vdot_ext D a b c d : (forall i, (i < D)%nat -> a i = c i) -> (forall i, (i < D)%nat -> b i = d i) -> vdot D a b = vdot D c d.
Proof. intros H1 H2. apply rsum_ext. intros i Hi. rewrite H1, H2 by auto. reflexivity. Qed.
Lemma vdot_scale_l D c a b : vdot D (fun i => c * a i) b = c * vdot D a b.
Proof. unfold vdot. rewrite <- rsum_scale. apply rsum_ext. intros. ring. Qed.
Lemma vdot_comm D a b : vdot D a b = vdot D b a.
Proof. apply rsum_ext. intros. ring. Qed.
(** The normal of a facet in terms of the images of its edges. *)
Lemma facet_normal D fs f A : (D = 2 \/ D = 3)%nat -> f2v D = Some fs -> In f fs -> geo_det D A <> 0 ->
  let n := geo_normal D (geo_det D A) (geo_inverse D A) (ref_normal D f) in
  let t j := push D A (vdiff (ref_vertex (nth j f 0%nat)) (ref_vertex (nth 0 f 0%nat))) in
  (exists s, s * s = 1 /\ forall i, (i < D)%nat -> n i = s * rotated D (t 1%nat) (t 2%nat) i) /\
  vdot D n (push D A (vdiff (ref_vertex (missing_vertex D f)) (ref_vertex (nth 0 f 0%nat)))) = - Rabs (geo_det D A).
Proof.
  intros HD E Hf HA n t. destruct (ref_normal_spec D fs f HD E Hf) as (s & Hs & HN & Hm). split.
  - exists (sgn_det D A * s). split.
    + replace (sgn_det D A * s * (sgn_det D A * s)) with (sgn_det D A * sgn_det D A * (s * s)) by ring. rewrite sgn_det_sq, Hs by auto. ring.
    + intros i Hi. unfold n. rewrite normal_cofactor by auto. unfold t. rewrite <- cofactor_rotated by auto.
      rewrite Rmult_assoc. f_equal. rewrite <- rsum_scale. apply rsum_ext. intros j Hj. rewrite HN by auto. ring.
  - rewrite (vdot_ext D n _ (fun i => sgn_det D A * rsum D (fun j => geo_cofactor D A i j * ref_normal D f j)) (push D A (vdiff (ref_vertex (missing_vertex D f)) (ref_vertex (nth 0 f 0%nat))))).
    + rewrite vdot_scale_l, cofactor_dot, Hm by auto. rewrite <- sgn_det_abs by auto. ring.
    + intros i Hi. apply normal_cofactor. auto.
    + reflexivity.
Qed.
Lemma rotated_perp D t1 t2 : (D = 2 \/ D = 3)%nat -> vdot D (rotated D t1 t2) t1 = 0 /\ (D = 3%nat -> vdot D (rotated D t1 t2) t2 = 0).
Proof. intros [-> | ->]; split; try discriminate; intros; unfold vdot, rotated, cross; cbn; ring. Qed.
Lemma rotated_ext D t1 t2 u1 u2 : (D = 2 \/ D = 3)%nat -> (forall i, (i < D)%nat -> t1 i = u1 i) -> (D = 3%nat -> forall i, (i < D)%nat -> t2 i = u2 i) ->
  forall i, (i < D)%nat -> rotated D t1 t2 i = rotated D u1 u2 i.
Proof.
  intros [-> | ->] H1 H2 i Hi.
  - cbn. destruct i; [rewrite H1 by lia|rewrite H1 by lia]; reflexivity.
  - cbn. specialize (H2 eq_refl). unfold cross. destruct i as [|[|[|i]]]; try lia; rewrite !H1, !H2 by lia; reflexivity.
Qed.
(** A vector perpendicular to the edges of a facet is a multiple of the rotated edges. *)
Lemma perp_multiple D t1 t2 m : (D = 2 \/ D = 3)%nat -> vdot D m t1 = 0 -> (D = 3%nat -> vdot D m t2 = 0) ->
  let r := rotated D t1 t2 in forall i, (i < D)%nat -> vdot D r r * m i = vdot D r m * r i.
Proof.
  intros [-> | ->] H1 H2 r i Hi; unfold r; clear r.
  - unfold vdot in *. cbn in *. assert (X : forall u, u * (0 + m 0%nat * t1 0%nat + m 1%nat * t1 1%nat) = 0) by (intro; rewrite H1; ring).
    destruct i as [|[|i]]; try lia; cbn; [pose proof (X (t1 0%nat)) | pose proof (X (t1 1%nat))]; nra.
  - specialize (H2 eq_refl). unfold vdot in *. cbn in *. unfold cross. 
    set (a := t1 0%nat) in *. set (b := t1 1%nat) in *. set (c := t1 2%nat) in *. set (d := t2 0%nat) in *. set (e := t2 1%nat) in *. set (f := t2 2%nat) in *.
    set (x := m 0%nat) in *. set (y := m 1%nat) in *. set (z := m 2%nat) in *.
    assert (X : forall u, u * (0 + x * a + y * b + z * c) = 0) by (intro; rewrite H1; ring).
    assert (Y : forall u, u * (0 + x * d + y * e + z * f) = 0) by (intro; rewrite H2; ring).
    destruct i as [|[|[|i]]]; try lia; cbn.
    + pose proof (X (a * (d * d + e * e + f * f) - d * (a * d + b * e + c * f))). pose proof (Y (d * (a * a + b * b + c * c) - a * (a * d + b * e + c * f))). fold x. nra.
    + pose proof (X (b * (d * d + e * e + f * f) - e * (a * d + b * e + c * f))). pose proof (Y (e * (a * a + b * b + c * c) - b * (a * d + b * e + c * f))). fold y. nra.
    + pose proof (X (c * (d * d + e * e + f * f) - f * (a * d + b * e + c * f))). pose proof (Y (f * (a * a + b * b + c * c) - c * (a * d + b * e + c * f))). fold z. nra.
Qed.

(** Two outward normals at a point of a facet with the same edges are opposite if the elements lie on
    different sides. *)
Lemma opposite_normals D t1 t2 n n' v v' m s s' : (D = 2 \/ D = 3)%nat ->
  s * s = 1 -> (forall i, (i < D)%nat -> n i = s * rotated D t1 t2 i) ->
  s' * s' = 1 -> (forall i, (i < D)%nat -> n' i = s' * rotated D t1 t2 i) ->
  vdot D m t1 = 0 -> (D = 3%nat -> vdot D m t2 = 0) ->
  vdot D m v < 0 -> 0 < vdot D m v' -> vdot D n v < 0 -> vdot D n' v' < 0 ->
  forall i, (i < D)%nat -> n' i = - n i.
Proof.
  intros HD Hs Hn Hs' Hn' M1 M2 Mv Mv' Nv Nv' i Hi. set (r := rotated D t1 t2) in *.
  rewrite (vdot_ext D n v (fun i => s * r i) v) in Nv by auto. rewrite (vdot_ext D n' v' (fun i => s' * r i) v') in Nv' by auto.
  rewrite vdot_scale_l in Nv, Nv'.
  pose proof (perp_multiple D t1 t2 m HD M1 M2) as PM. cbv zeta in PM. fold r in PM.
  assert (PV : forall w, vdot D r r * vdot D m w = vdot D r m * vdot D r w).
  { intro w. rewrite <- !vdot_scale_l. apply vdot_ext; [exact PM|reflexivity]. }
  pose proof (PV v) as A. pose proof (PV v') as B. clear PV PM.
  assert (RR : 0 <= vdot D r r) by (apply rsum_nonneg; intros; apply Rle_0_sqr).
  assert (S : s = 1 \/ s = -1) by (destruct (Rlt_dec s 0); [right|left]; nra).
  assert (S' : s' = 1 \/ s' = -1) by (destruct (Rlt_dec s' 0); [right|left]; nra).
  rewrite Hn, Hn' by auto.
  set (x := vdot D r r) in *. set (y := vdot D r m) in *. set (a := vdot D m v) in *. set (b := vdot D m v') in *. set (p := vdot D r v) in *. set (q := vdot D r v') in *.
  assert (s' = - s).
  { destruct S as [-> | ->], S' as [-> | ->]; try ring; exfalso.
    - assert (p < 0) by lra. assert (q < 0) by lra.
      assert (x = 0 \/ 0 < x) as [Z|Z] by lra; [|assert (0 < x * b) by (apply Rmult_lt_0_compat; lra); assert (0 < x * - a) by (apply Rmult_lt_0_compat; lra); destruct (Rle_dec y 0); nra].
      assert (Rz : forall i, (i < D)%nat -> r i * r i = 0) by (apply rsum_nonneg_zero; [intros; apply Rle_0_sqr|exact Z]).
      assert (p = 0). { unfold p, vdot. apply rsum_zero. intros k Hk. specialize (Rz k Hk). assert (r k = 0) by nra. rewrite H1. ring. } lra.
    - assert (0 < p) by lra. assert (0 < q) by lra.
      assert (x = 0 \/ 0 < x) as [Z|Z] by lra; [|assert (0 < x * b) by (apply Rmult_lt_0_compat; lra); assert (0 < x * - a) by (apply Rmult_lt_0_compat; lra); destruct (Rle_dec y 0); nra].
      assert (Rz : forall i, (i < D)%nat -> r i * r i = 0) by (apply rsum_nonneg_zero; [intros; apply Rle_0_sqr|exact Z]).
      assert (p = 0). { unfold p, vdot. apply rsum_zero. intros k Hk. specialize (Rz k Hk). assert (r k = 0) by nra. rewrite H1. ring. } lra. }
  rewrite H. ring.
Qed.
Lemma inverse_left D A : (D = 2 \/ D = 3)%nat -> geo_det D A <> 0 -> forall i j, (i < D)%nat -> (j < D)%nat ->
  rsum D (fun k => geo_inverse D A i k * A k j) = if (i =? j)%nat then 1 else 0.
Proof.
  intros [-> | ->] H i j Hi Hj.
  - destruct i as [|[|i]]; try lia; destruct j as [|[|j]]; try lia; unfold geo_inverse; cbn in *; field; auto.
  - destruct i as [|[|[|i]]]; try lia; destruct j as [|[|[|j]]]; try lia; unfold geo_inverse; cbn in *; field; auto.
Qed.
Lemma normals_closed D A i fs : (D = 2 \/ D = 3)%nat -> f2v D = Some fs -> geo_det D A <> 0 -> (i < D)%nat ->
  fold_right (fun f acc => geo_normal D (geo_det D A) (geo_inverse D A) (ref_normal D f) i + acc) 0 fs = 0.
Proof.
  intros HD E HA Hi.
  assert (RN : forall j, (j < D)%nat -> fold_right (fun f acc => ref_normal D f j + acc) 0 fs = 0).
  { intros j Hj. destruct HD as [-> | ->].
    - rewrite f2v_2 in E. injection E as <-. cbn [fold_right]. unfold ref_normal. cbv zeta.
      repeat match goal with |- context [Rlt_dec ?a ?b] => destruct (Rlt_dec a b) as [h|h]; cbn in h; unfold vdiff, ref_vertex in h; cbn in h; try (exfalso; lra); clear h end.
      destruct j as [|[|j]]; try lia; unfold vdiff, ref_vertex; cbn; ring.
    - rewrite f2v_3 in E. injection E as <-. cbn [fold_right]. unfold ref_normal. cbv zeta.
      repeat match goal with |- context [Rlt_dec ?a ?b] => destruct (Rlt_dec a b) as [h|h]; cbn in h; unfold vdiff, cross, ref_vertex in h; cbn in h; try (exfalso; lra); clear h end.
      destruct j as [|[|[|j]]]; try lia; unfold vdiff, cross, ref_vertex; cbn; ring. }
  clear E. assert (G : fold_right (fun f acc => geo_normal D (geo_det D A) (geo_inverse D A) (ref_normal D f) i + acc) 0 fs =
    sgn_det D A * rsum D (fun j => geo_cofactor D A i j * fold_right (fun f acc => ref_normal D f j + acc) 0 fs)).
  { clear RN. induction fs as [|f fs IH]; cbn [fold_right].
    - rewrite rsum_zero; [ring|]. intros. ring.
    - rewrite IH, normal_cofactor by auto.
      rewrite (rsum_ext D (fun j => geo_cofactor D A i j * (ref_normal D f j + _)) (fun j => geo_cofactor D A i j * ref_normal D f j + geo_cofactor D A i j * fold_right (fun f acc => ref_normal D f j + acc) 0 fs)) by (intros; ring).
      rewrite rsum_plus. ring. }
  rewrite G, rsum_zero; [ring|]. intros j Hj. rewrite RN by auto. ring.
Qed.
