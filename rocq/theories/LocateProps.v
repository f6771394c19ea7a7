(** C30 and C51: point location. *)
Require Import Arith Bool Reals Lra Lia List.
From Verif Require Import Base LinAlg PlexModel PlexSpec PlexProofs PlexProps LocatorModel.
Import ListNotations.
Local Open Scope R_scope.

Lemma pnorm_distance : forall D x y, pnorm D (psub x y) = distance D x y.
Proof. reflexivity. Qed.

Section Locate.
Variable solve : nat -> (nat -> nat -> R) -> (nat -> R) -> nat -> R.
Variable D : nat.
Variable X : nat -> pt -> pt.
Variable Jac : nat -> pt -> nat -> nat -> R.
Variable nodes : list pt.
Variables huge lowest atol rtol bbox_factor : R.
Variable max_its : nat.
Notation inside := (inside_bbox D X nodes huge lowest bbox_factor).
Notation xinv := (x_inv solve D X Jac atol rtol max_its).
Notation loc := (locate solve D X Jac nodes huge lowest atol rtol bbox_factor max_its).
Notation vis := (visit solve D X Jac nodes huge lowest atol rtol bbox_factor max_its).
Notation visall := (visit_all solve D X Jac nodes huge lowest atol rtol bbox_factor max_its).

(** Element e, found in the box, is examined with the outcome (xi, x, d): Newton's method gives some
    reference point, xi is the closest point of the reference simplex, x its image and d the distance
    of x from the point. *)
Definition reported (point : pt) (e : nat) (xi' x : pt) (d : R) : Prop :=
  inside e point = true /\ exists xi0 c, xinv e point = Some xi0 /\
    closest solve D (S D) ref_vertices_of huge xi0 = Some c /\ xi' = xi c /\ x = X e xi' /\ d = distance D x point.

Lemma visit_cases : forall point r e r', vis point r e = Some r' ->
  (inside e point = false /\ r' = r) \/
  exists xi' x d, reported point e xi' x d /\
    ((d < l_dist r /\ r' = {| l_no := Some e; l_dist := d; l_xi := xi'; l_x := x |}) \/ (l_dist r <= d /\ r' = r)).
Proof.
  intros point r e r' E. unfold visit in E. destruct (inside e point) eqn:Ei; [| left; split; congruence].
  right. destruct (xinv e point) as [xi0 |] eqn:Ex; [| discriminate]. cbn in E.
  destruct (closest solve D (S D) ref_vertices_of huge xi0) as [c |] eqn:Ec; [| discriminate]. cbn in E.
  exists (xi c), (X e (xi c)), (distance D (X e (xi c)) point). split.
  - split; auto. exists xi0, c. auto.
  - rewrite pnorm_distance in E. destruct (Rlt_dec (distance D (X e (xi c)) point) (l_dist r)) as [C | C]; [left | right].
    + split; congruence.
    + split; [lra | congruence].
Qed.

Lemma visit_all_spec : forall point els r0 r, visall point els r0 = Some r ->
  l_dist r <= l_dist r0 /\
  (forall e, In e els -> inside e point = true -> exists xi' x d, reported point e xi' x d /\ l_dist r <= d) /\
  (r = r0 \/ exists pre e post, els = pre ++ e :: post /\ l_no r = Some e /\ l_dist r < l_dist r0 /\
     reported point e (l_xi r) (l_x r) (l_dist r) /\
     forall e', In e' pre -> inside e' point = true -> exists xi' x d, reported point e' xi' x d /\ l_dist r < d).
Proof.
  intros point els. induction els as [| e els IH]; intros r0 r E; cbn in E.
  - injection E as <-. split; [lra |]. split; auto. intros e [].
  - destruct (vis point r0 e) as [r1 |] eqn:E1; [| discriminate]. cbn in E.
    destruct (IH r1 r E) as (A & B & C). apply visit_cases in E1.
    assert (Hle : l_dist r1 <= l_dist r0).
    { destruct E1 as [[_ ->] | (xi' & x & d & _ & [[H ->] | [_ ->]])]; cbn; lra. }
    assert (Hhere : inside e point = true -> exists xi' x d, reported point e xi' x d /\ l_dist r1 <= d).
    { intros Hi. destruct E1 as [[Hf _] | (xi' & x & d & Hr & [[H ->] | [H ->]])]; [congruence | |];
        exists xi', x, d; split; auto; cbn; lra. }
    split; [lra |]. split.
    + intros e' [-> | Hin] Hi; [| auto]. destruct (Hhere Hi) as (xi' & x & d & Hr & Hd). exists xi', x, d. split; auto. lra.
    + destruct C as [-> | (pre & e' & post & -> & Hno & Hlt & Hrep & Hpre)].
      * destruct E1 as [[_ ->] | (xi' & x & d & Hr & [[H ->] | [_ ->]])]; auto.
        right. exists [], e, els. cbn. split; auto. split; auto. split; auto. split; auto. intros ? [].
      * right. exists (e :: pre), e', post. split; auto. split; auto. split; [lra |]. split; auto.
        intros e2 [-> | Hin] Hi; [| auto]. destruct (Hhere Hi) as (xi' & x & d & Hr & Hd). exists xi', x, d. split; auto. lra.
Qed.

(** C30e: the locator returns the first of the elements of least reported distance, with the
    reference coordinates, position and distance reported for it; without an element below the largest
    double it returns the marker for "none". *)
Theorem locate_minimal : forall point els r, loc point els = Some r ->
  (forall e, In e els -> inside e point = true -> exists xi' x d, reported point e xi' x d /\ l_dist r <= d) /\
  match l_no r with
  | None => l_dist r = huge
  | Some e => exists pre post, els = pre ++ e :: post /\ l_dist r < huge /\
      reported point e (l_xi r) (l_x r) (l_dist r) /\
      forall e', In e' pre -> inside e' point = true -> exists xi' x d, reported point e' xi' x d /\ l_dist r < d
  end.
Proof.
  intros point els r E. apply visit_all_spec in E. cbn [l_dist] in E. destruct E as (_ & B & C). split; auto.
  destruct C as [-> | (pre & e & post & Hels & Hno & Hlt & Hrep & Hpre)]; [reflexivity |].
  rewrite Hno. exists pre, post. auto.
Qed.
End Locate.
Print Assumptions locate_minimal.

(** ** Affine meshes *)
(** The maps of the elements and their Jacobians: element e has the vertices verts e. *)
Definition affine_map (D : nat) (verts : nat -> nat -> pt) (e : nat) : pt -> pt := ref_to_general D (verts e).
Definition affine_jac (verts : nat -> nat -> pt) (e : nat) (_ : pt) : nat -> nat -> R := edge_matrix (verts e).
Section Affine.
Variable solve : nat -> (nat -> nat -> R) -> (nat -> R) -> nat -> R.
Hypothesis Hsolve : exact_solver solve.
(** The dimension is S D, the vertices of element e are verts e. *)
Variable D : nat.
Variable verts : nat -> nat -> pt.
Notation X := (affine_map (S D) verts).
Notation Jac := (affine_jac verts).
Variables huge lowest atol rtol bbox_factor : R.
Variable nodes : list pt.
Hypothesis Hnodes : forall k, (k <= S D)%nat -> exists n, In n nodes /\ forall d, (d < S D)%nat -> n d = ref_vertices_of k d.
Hypothesis Hatol : 0 < atol.
Hypothesis Hrtol : 0 <= rtol.
Hypothesis Hfactor : 1 <= bbox_factor.
Notation inside := (inside_bbox (S D) X nodes huge lowest bbox_factor).

Lemma ref_ext : forall e a b, (forall d, (d < S D)%nat -> a d = b d) -> forall d, X e a d = X e b d.
Proof.
  intros e a b H d. unfold affine_map. rewrite !ref_value. rewrite (rsum_ext (S D) a b) by auto.
  rewrite (rsum_ext (S D) (fun j => a j * verts e (S j) d) (fun j => b j * verts e (S j) d)); [reflexivity |].
  intros i Hi. rewrite H; auto.
Qed.
Lemma fold_min_le : forall (g : pt -> R) l b, fold_left (fun b n => Rmin b (g n)) l b <= b /\
  forall n, In n l -> fold_left (fun b n => Rmin b (g n)) l b <= g n.
Proof.
  intros g l. induction l as [| a l IH]; intros b; cbn; [split; [lra | intros n []] |].
  destruct (IH (Rmin b (g a))) as [A B]. pose proof (Rmin_l b (g a)). pose proof (Rmin_r b (g a)). split; [lra |].
  intros n [-> | Hn]; [lra | auto].
Qed.
Lemma fold_max_ge : forall (g : pt -> R) l b, b <= fold_left (fun b n => Rmax b (g n)) l b /\
  forall n, In n l -> g n <= fold_left (fun b n => Rmax b (g n)) l b.
Proof.
  intros g l. induction l as [| a l IH]; intros b; cbn; [split; [lra | intros n []] |].
  destruct (IH (Rmax b (g a))) as [A B]. pose proof (Rmax_l b (g a)). pose proof (Rmax_r b (g a)). split; [lra |].
  intros n [-> | Hn]; [lra | auto].
Qed.
Lemma rsum_const_bounds : forall n mu g lo hi, (forall i, (i < n)%nat -> 0 <= mu i) -> rsum n mu = 1 ->
  (forall i, (i < n)%nat -> lo <= g i <= hi) -> lo <= rsum n (fun i => mu i * g i) <= hi.
Proof.
  intros n mu g lo hi Hmu H1 Hg.
  assert (A : rsum n (fun i => mu i * lo) <= rsum n (fun i => mu i * g i)).
  { apply rsum_le. intros i Hi. specialize (Hmu i Hi). specialize (Hg i Hi). nra. }
  assert (B : rsum n (fun i => mu i * g i) <= rsum n (fun i => mu i * hi)).
  { apply rsum_le. intros i Hi. specialize (Hmu i Hi). specialize (Hg i Hi). nra. }
  rewrite rsum_scale_r, H1 in A, B. lra.
Qed.
(** The box contains the element. *)
Lemma bbox_contains : forall e point, in_simplex (S D) (S (S D)) (verts e) point -> inside e point = true.
Proof.
  intros e point (mu & Hmu & H1 & Hx). unfold inside_bbox.
  assert (G : forall d, (d < S D)%nat ->
    fst (bbox X nodes huge lowest bbox_factor e d) <= point d <= snd (bbox X nodes huge lowest bbox_factor e d)).
  { intros d Hd. unfold bbox. cbn [fst snd].
    destruct (fold_min_le (fun n => X e n d) nodes huge) as [_ Hmin].
    destruct (fold_max_ge (fun n => X e n d) nodes lowest) as [_ Hmax].
    set (b0 := fold_left _ nodes huge) in *. set (b1 := fold_left _ nodes lowest) in *. clearbody b0 b1.
    assert (Hv : forall k, (k < S (S D))%nat -> b0 <= verts e k d <= b1).
    { intros k Hk. destruct (Hnodes k ltac:(lia)) as (n & Hn & Hnd). specialize (Hmin n Hn). specialize (Hmax n Hn).
      cbn beta in Hmin, Hmax. rewrite (ref_ext e n (ref_vertex k) Hnd d) in Hmin, Hmax. unfold affine_map in Hmin, Hmax.
      rewrite (ref_vertices (S D) (verts e) k ltac:(lia)) in Hmin, Hmax. lra. }
    rewrite Hx by auto. unfold weighted.
    pose proof (rsum_const_bounds (S (S D)) mu (fun i => verts e i d) b0 b1 Hmu H1 Hv) as B.
    pose proof (Hv 0%nat ltac:(lia)). set (x := rsum _ _) in *. clearbody x. nra. }
  assert (F : forall l, (forall d, In d l -> (d < S D)%nat) ->
    fold_left (fun ins d => ins && (if Rge_dec (point d) (fst (bbox X nodes huge lowest bbox_factor e d)) then true else false)
       && (if Rle_dec (point d) (snd (bbox X nodes huge lowest bbox_factor e d)) then true else false)) l true = true).
  { induction l as [| d l IH]; intros Hl; cbn [fold_left]; auto. specialize (G d (Hl d (or_introl eq_refl))).
    destruct (Rge_dec _ _) as [|C]; [| exfalso; apply C; apply Rle_ge; apply G].
    destruct (Rle_dec _ _) as [|C']; [| exfalso; apply C'; apply G].
    cbn [andb]. apply IH. intros; apply Hl; right; auto. }
  apply F. intros d Hd. apply in_seq in Hd. lia.
Qed.

Lemma residual_last : forall e point xi, residual2 (S D) X e point xi = (point D - X e xi D) * (point D - X e xi D).
Proof. intros. unfold residual2. rewrite seq_S, fold_left_app. reflexivity. Qed.

(** One Newton step solves an affine equation. *)
Lemma newton_step : forall e point xi, affinely_independent (S D) (S (S D)) (verts e) ->
  forall d, (d < S D)%nat -> X e (padd xi (solve (S D) (edge_matrix (verts e)) (psub point (X e xi)))) d = point d.
Proof.
  intros e point xi Hi d Hd. pose proof (edges_nonsingular (S D) (verts e) Hi) as Hns.
  set (h := solve (S D) (edge_matrix (verts e)) (psub point (X e xi))).
  pose proof (Hsolve (S D) (edge_matrix (verts e)) (psub point (X e xi)) Hns d Hd) as Eh. fold h in Eh.
  pose proof (edges_value (S D) (verts e) (padd xi h) d) as E1. pose proof (edges_value (S D) (verts e) xi d) as E2.
  assert (E3 : mat_vec (S D) (edge_matrix (verts e)) (padd xi h) d =
     mat_vec (S D) (edge_matrix (verts e)) xi d + mat_vec (S D) (edge_matrix (verts e)) h d).
  { unfold mat_vec. rewrite <- rsum_plus. apply rsum_ext. intros. unfold padd. ring. }
  unfold psub in Eh. unfold affine_map in *. lra.
Qed.
Lemma ref_independent : affinely_independent (S D) (S (S D)) ref_vertices_of.
Proof.
  intros c H1 Hd.
  assert (A : forall j, (j < S D)%nat -> c (S j) = 0).
  { intros j Hj. rewrite <- (Hd j Hj). unfold weighted. rewrite (rsum_single (S (S D)) (S j)); [| lia |].
    - unfold ref_vertices_of. rewrite Nat.eqb_refl. ring.
    - intros i _ Hne. unfold ref_vertices_of. destruct (Nat.eqb_spec i (S j)); [congruence | ring]. }
  intros [| i] Hi; [| apply A; lia]. rewrite rsum_head in H1. rewrite rsum_zero in H1; [lra |]. auto.
Qed.
(** Images of reference points of the reference simplex lie in the element, and conversely. *)
Lemma ref_convex : forall mu y, convex_coords (S D) (S (S D)) ref_vertices_of mu y -> in_ref_simplex (S D) y.
Proof.
  intros mu y (Hmu & H1 & Hy).
  assert (E : forall j, (j < S D)%nat -> y j = mu (S j)).
  { intros j Hj. rewrite Hy by auto. unfold weighted. rewrite (rsum_single (S (S D)) (S j)); [| lia |].
    - unfold ref_vertices_of. rewrite Nat.eqb_refl. ring.
    - intros i _ Hne. unfold ref_vertices_of. destruct (Nat.eqb_spec i (S j)); [congruence | ring]. }
  split; [intros d Hd; rewrite E by auto; apply Hmu; lia |].
  rewrite rsum_head in H1. rewrite (rsum_ext (S D) y (fun i => mu (S i))) by auto.
  specialize (Hmu 0%nat ltac:(lia)). lra.
Qed.
Lemma convex_ref : forall y, in_ref_simplex (S D) y -> in_simplex (S D) (S (S D)) ref_vertices_of y.
Proof.
  intros y [Hp Hs]. exists (fun i => match i with O => 1 - rsum (S D) y | S j => y j end).
  split; [intros [| i] Hi; [lra | apply Hp; lia] |]. split.
  - rewrite rsum_head. rewrite (rsum_ext (S D) (fun i => y i) y) by reflexivity. ring.
  - intros d Hd. unfold weighted. rewrite (rsum_single (S (S D)) (S d)); [| lia |].
    + unfold ref_vertices_of. rewrite Nat.eqb_refl. ring.
    + intros i _ Hne. unfold ref_vertices_of. destruct (Nat.eqb_spec i (S d)); [congruence | ring].
Qed.

Variable max_its : nat.
Hypothesis Hits : (2 <= max_its)%nat.
Notation xinv := (x_inv solve (S D) X Jac atol rtol max_its).
Lemma x_inv_exact : forall e point, affinely_independent (S D) (S (S D)) (verts e) ->
  atol + rtol <= residual2 (S D) X e point third ->
  exists xi0, xinv e point = Some xi0 /\ forall d, (d < S D)%nat -> X e xi0 d = point d.
Proof.
  intros e point Hi Hres. unfold x_inv. destruct max_its as [| [| m]]; [lia | lia |]. cbn [newton].
  set (r0 := residual2 (S D) X e point third) in *. clearbody r0.
  assert (C0 : converged atol rtol r0 r0 = false).
  { unfold converged. destruct (Req_EM_T r0 0); [lra |].
    destruct (Rlt_dec r0 (atol + rtol * r0 / r0)) as [C | _]; [exfalso | reflexivity].
    replace (rtol * r0 / r0) with rtol in C by (field; lra). lra. }
  rewrite C0. pose proof (newton_step e point third Hi) as Hstep.
  set (xi1 := padd third _) in *. clearbody xi1.
  assert (R1 : residual2 (S D) X e point xi1 = 0) by (rewrite residual_last, Hstep by lia; ring).
  rewrite R1. unfold converged. destruct (Req_EM_T r0 0); [lra |].
  destruct (Rlt_dec 0 (atol + rtol * 0 / r0)) as [_ | C]; [exists xi1; auto |].
  exfalso. apply C. replace (rtol * 0 / r0) with 0 by (field; lra). lra.
Qed.
(** Every distance met during the search is below the largest double. *)
Definition no_overflow (e : nat) (point : pt) : Prop :=
  (forall xi0, (forall d, (d < S D)%nat -> X e xi0 d = point d) -> distance2 (S D) (ref_vertices_of 0) xi0 < huge).
Notation loc := (locate solve (S D) X Jac nodes huge lowest atol rtol bbox_factor max_its).
Notation vis := (visit solve (S D) X Jac nodes huge lowest atol rtol bbox_factor max_its).

Lemma dist_zero : forall x y, (forall d, (d < S D)%nat -> x d = y d) -> distance (S D) x y = 0.
Proof.
  intros x y H. unfold distance, distance2. rewrite rsum_zero; [apply sqrt_0 |]. intros d Hd. rewrite H by auto. ring.
Qed.
Lemma dist_zero_inv : forall x y, distance (S D) x y = 0 -> forall d, (d < S D)%nat -> x d = y d.
Proof.
  intros x y H d Hd. unfold distance in H.
  assert (N : 0 <= distance2 (S D) x y) by (apply rsum_nonneg; intros; apply Rle_0_sqr).
  apply sqrt_eq_0 in H; auto.
  pose proof (rsum_nonneg_zero (S D) _ (fun d _ => Rle_0_sqr (x d - y d)) H d Hd) as Q.
  cbn beta in Q. apply Rsqr_0_uniq in Q. lra.
Qed.

(** What is known of every examined element. *)
Lemma reported_affine : forall e point, affinely_independent (S D) (S (S D)) (verts e) -> no_overflow e point ->
  atol + rtol <= residual2 (S D) X e point third ->
  exists xi0 c, xinv e point = Some xi0 /\ closest solve (S D) (S (S D)) ref_vertices_of huge xi0 = Some c /\
    in_ref_simplex (S D) (xi c) /\
    (in_simplex (S D) (S (S D)) (verts e) point -> distance (S D) (X e (xi c)) point = 0).
Proof.
  intros e point Hi Hh Hres. destruct (x_inv_exact e point Hi Hres) as (xi0 & E0 & Hx0).
  destruct (closest_point solve (S D) (S (S D)) ref_vertices_of huge xi0 Hsolve ref_independent) as (c & Ec & Hc & Hd & Hmin).
  { exists 0%nat. split; [lia |]. apply Hh; auto. }
  exists xi0, c. split; auto. split; auto. split; [eapply ref_convex; eauto |].
  intros Hin. destruct (ref_simplex_image (S D) (verts e)) as [_ Hsurj].
  destruct (Hsurj point Hin) as (eta & Heta & Eeta).
  destruct (affine_inverse solve (S D) (verts e) Hsolve Hi) as [Hinv _].
  assert (Heq : forall d, (d < S D)%nat -> xi0 d = eta d).
  { intros d Hd'. rewrite <- (Hinv xi0 d Hd'), <- (Hinv eta d Hd'). unfold general_to_ref.
    pose proof (edges_nonsingular (S D) (verts e) Hi) as Hns.
    apply solver_unique; auto. intros i Hi'. rewrite Hsolve by auto. unfold psub. rewrite Eeta by auto. rewrite <- (Hx0 i Hi'). reflexivity. }
  assert (Hz : dist c = 0).
  { apply (closest_zero solve (S D) (S (S D)) ref_vertices_of huge xi0 c); auto using ref_independent.
    - exists 0%nat. split; [lia |]. apply Hh; auto.
    - destruct (convex_ref eta Heta) as (mu & A & B & C). exists mu. split; auto. split; auto.
      intros d Hd'. rewrite Heq by auto. auto. }
  rewrite Hd in Hz. pose proof (dist_zero_inv _ _ Hz) as Hxi.
  apply dist_zero. intros d Hd'. rewrite (ref_ext e (xi c) xi0 Hxi d). apply Hx0. auto.
Qed.

(** C51a: elements whose map is affine, not degenerate, with the point in general position: its last
    coordinate differs from that of the image of (1/3, ..., 1/3), by at least sqrt(atol + rtol), in every
    element examined.  The search does not throw.  A point of some examined element is found: the result
    is an element that contains the point, at distance zero, with the point as position and as image of
    the reference coordinates, which lie in the reference simplex.  Otherwise the result (if any) is a
    point of the element named, at the reported distance. *)
Theorem locate_affine : forall point els,
  (forall e, In e els -> affinely_independent (S D) (S (S D)) (verts e) /\ no_overflow e point /\
     atol + rtol <= (point D - X e third D) * (point D - X e third D)) ->
  0 < huge ->
  exists r, loc point els = Some r /\
    ((exists e, In e els /\ in_simplex (S D) (S (S D)) (verts e) point) ->
       exists e, l_no r = Some e /\ In e els /\ in_simplex (S D) (S (S D)) (verts e) point /\ l_dist r = 0 /\
         in_ref_simplex (S D) (l_xi r) /\
         forall d, (d < S D)%nat -> l_x r d = point d /\ ref_to_general (S D) (verts e) (l_xi r) d = point d) /\
    match l_no r with
    | None => l_dist r = huge
    | Some e => In e els /\ in_simplex (S D) (S (S D)) (verts e) (l_x r) /\ l_dist r = distance (S D) (l_x r) point
    end.
Proof.
  intros point els Hels Hh.
  assert (Htot : exists r, loc point els = Some r).
  { unfold locate. generalize {| l_no := None; l_dist := huge; l_xi := fun _ => 0; l_x := fun _ => 0 |}.
    revert Hels. induction els as [| e els IH]; intros Hels r0; cbn [visit_all]; [eauto |].
    assert (exists r1, vis point r0 e = Some r1) as (r1 & ->).
    { unfold visit. destruct (inside e point); [| eauto].
      destruct (Hels e (or_introl eq_refl)) as (A & B & C). rewrite <- residual_last in C.
      destruct (reported_affine e point A B C) as (xi0 & c & -> & Ec & _). cbn [bind].
      rewrite Ec. cbn [bind]. eauto. }
    cbn [bind]. apply IH. intros; apply Hels; right; auto. }
  destruct Htot as (r & Er). exists r. split; auto.
  destruct (locate_minimal _ _ _ _ _ _ _ _ _ _ _ _ _ _ Er) as [Hmin Hres].
  assert (Hrep : forall e xi' x d, In e els ->
    reported solve (S D) X Jac nodes huge lowest atol rtol bbox_factor max_its point e xi' x d ->
    in_ref_simplex (S D) xi' /\ x = X e xi' /\ d = distance (S D) x point /\
    (in_simplex (S D) (S (S D)) (verts e) point -> d = 0)).
  { intros e xi' x d He (_ & xi0 & c & E0 & Ec & -> & -> & ->).
    destruct (Hels e He) as (A & B & C). rewrite <- residual_last in C.
    destruct (reported_affine e point A B C) as (xi0' & c' & E0' & Ec' & Hin & Hz).
    rewrite E0 in E0'. injection E0' as <-. rewrite Ec in Ec'. injection Ec' as <-. auto. }
  assert (Hsome : match l_no r with
    | None => l_dist r = huge
    | Some e => In e els /\ in_ref_simplex (S D) (l_xi r) /\ l_x r = X e (l_xi r) /\ l_dist r = distance (S D) (l_x r) point
    end).
  { destruct (l_no r) as [e |]; auto. destruct Hres as (pre & post & -> & _ & Hr & _).
    assert (He : In e (pre ++ e :: post)) by (apply in_or_app; right; left; auto).
    destruct (Hrep e _ _ _ He Hr) as (A & B & C & _). auto. }
  split.
  - intros (e0 & He0 & Hin0). destruct (Hmin e0 He0 (bbox_contains e0 point Hin0)) as (xi' & x & d & Hr & Hle).
    destruct (Hrep e0 _ _ _ He0 Hr) as (_ & _ & _ & Hz). rewrite (Hz Hin0) in Hle.
    destruct (l_no r) as [e |] eqn:Eno; [| lra]. destruct Hsome as (He & Hxi & Hx & Hdist).
    assert (Hz' : l_dist r = 0) by (rewrite Hdist in *; assert (0 <= distance (S D) (l_x r) point) by apply sqrt_pos; lra).
    rewrite Hdist in Hz'. pose proof (dist_zero_inv _ _ Hz') as Hpt. rewrite Hx in Hpt.
    exists e. split; auto. split; auto. split.
    + destruct (ref_simplex_image (S D) (verts e)) as [Him _]. destruct (Him _ Hxi) as (mu & A & B & C).
      exists mu. split; auto. split; auto. intros d' Hd'. rewrite <- Hpt by auto. exact (C d' Hd').
    + split; [congruence |]. split; auto. intros d' Hd'. rewrite Hx. split; apply Hpt; auto.
  - destruct (l_no r) as [e |]; auto. destruct Hsome as (He & Hxi & Hx & Hdist). split; auto. split; auto.
    rewrite Hx. apply ref_simplex_image. auto.
Qed.

(** A finding: if the last coordinate of the point coincides with that of the image of (1/3, ..., 1/3),
    the convergence test compares with 0 / 0 and Newton's method throws, for every number of
    iterations, although its first step is exact. *)
Theorem x_inv_throws : forall e point, affinely_independent (S D) (S (S D)) (verts e) ->
  point D = X e third D -> xinv e point = None.
Proof.
  intros e point Hi Hlast. unfold x_inv.
  assert (R0 : residual2 (S D) X e point third = 0) by (rewrite residual_last, Hlast; ring). rewrite R0.
  assert (G : forall n xi, point D = X e xi D -> newton solve (S D) X Jac atol rtol n e point 0 xi = None).
  { induction n as [| n IH]; intros xi Hxi; cbn [newton]; [reflexivity |].
    assert (R : residual2 (S D) X e point xi = 0) by (rewrite residual_last, Hxi; ring). rewrite R.
    unfold converged. destruct (Req_EM_T 0 0); [| contradiction].
    apply IH. rewrite newton_step by (auto; lia). reflexivity. }
  apply G. auto.
Qed.
(** A finding: if the last coordinates differ by less than sqrt(atol + rtol), the centre of the
    element is taken for the point. *)
Theorem x_inv_stops_early : forall e point, point D <> X e third D ->
  (point D - X e third D) * (point D - X e third D) < atol + rtol -> xinv e point = Some third.
Proof.
  intros e point Hne Hlt. unfold x_inv. destruct max_its as [| m]; [lia |]. cbn [newton].
  rewrite residual_last. set (r := (point D - X e third D) * (point D - X e third D)) in *.
  assert (Hr : r <> 0) by (unfold r; intros C; apply Rmult_integral in C; lra).
  clearbody r. unfold converged. destruct (Req_EM_T r 0); [contradiction |].
  destruct (Rlt_dec r (atol + rtol * r / r)) as [_ | C]; [reflexivity |]. exfalso. apply C.
  replace (rtol * r / r) with rtol by (field; auto). auto.
Qed.
End Affine.
Print Assumptions locate_affine.
Print Assumptions x_inv_throws.
Print Assumptions x_inv_stops_early.

(** ** Examples and counterexamples: triangles *)
(** Element 0 is the unit triangle, element 1 the unit triangle moved by (10, 10). *)
Definition two_tri (e k : nat) : pt := fun d => ref_vertices_of k d + (if (e =? 1)%nat then 10 else 0).
Definition tri_nodes : list pt := [ref_vertices_of 0; ref_vertices_of 1; ref_vertices_of 2].
Example tri_nodes_ok : forall k, (k <= 2)%nat -> exists n, In n tri_nodes /\ forall d, (d < 2)%nat -> n d = ref_vertices_of k d.
Proof. intros [| [| [| k]]] H; try lia; eexists; (split; [| reflexivity]); cbn; auto. Qed.
Lemma two_tri_independent : forall e, affinely_independent 2 3 (two_tri e).
Proof.
  intros e c H1 Hd i Hi. pose proof (Hd 0%nat ltac:(lia)) as E0. pose proof (Hd 1%nat ltac:(lia)) as E1.
  unfold weighted, two_tri, ref_vertices_of in E0, E1. cbn in E0, E1, H1.
  set (s := if (e =? 1)%nat then 10 else 0) in *. clearbody s.
  assert (E0' : c 1%nat + s * (c 0%nat + c 1%nat + c 2%nat) = 0) by lra.
  assert (E1' : c 2%nat + s * (c 0%nat + c 1%nat + c 2%nat) = 0) by lra.
  replace (c 0%nat + c 1%nat + c 2%nat) with 0 in * by lra.
  destruct i as [| [| [| i]]]; [lra | lra | lra | lia].
Qed.
Lemma two_tri_map : forall e xi d, (d < 2)%nat ->
  affine_map 2 two_tri e xi d = xi d + (if (e =? 1)%nat then 10 else 0).
Proof.
  intros e xi d Hd. unfold affine_map. rewrite ref_value. unfold two_tri, ref_vertices_of. cbn.
  set (s := if (e =? 1)%nat then 10 else 0). clearbody s.
  destruct d as [| [| d]]; cbn; [ring | ring | lia].
Qed.
Definition xy (x y : R) : pt := fun d => match d with O => x | _ => y end.
Lemma unit_contains : forall x y, 0 <= x -> 0 <= y -> x + y <= 1 -> in_simplex 2 3 (two_tri 0) (xy x y).
Proof.
  intros x y Hx Hy Hs. exists (fun i => match i with O => 1 - x - y | 1%nat => x | _ => y end).
  split; [intros [| [| i]] Hi; lra |]. split; [cbn; ring |].
  intros [| [| d]] Hd; unfold weighted, two_tri, ref_vertices_of; cbn; [ring | ring | lia].
Qed.

(** Both elements and the point (1/2, 1/2) satisfy the hypotheses of C51. *)
Example locate_affine_ex : exists r,
  locate gauss 2 (affine_map 2 two_tri) (affine_jac two_tri) tri_nodes 1000 (-1000) (1 / 10000000000) (1 / 1000000000) (3 / 2) 100
    (xy (1 / 2) (1 / 2)) [1%nat; 0%nat] = Some r /\ l_dist r = 0.
Proof.
  destruct (locate_affine gauss gauss_exact 1 two_tri 1000 (-1000) (1 / 10000000000) (1 / 1000000000) (3 / 2) tri_nodes
    tri_nodes_ok ltac:(lra) ltac:(lra) ltac:(lra) 100 ltac:(lia) (xy (1 / 2) (1 / 2)) [1%nat; 0%nat]) as (r & Er & Hin & _).
  - intros e He. split; [apply two_tri_independent |]. split.
    + intros xi0 Hx. pose proof (Hx 0%nat ltac:(lia)) as E0. pose proof (Hx 1%nat ltac:(lia)) as E1.
      rewrite two_tri_map in E0, E1 by lia. cbn [xy] in E0, E1.
      destruct He as [<- | [<- | []]]; cbn in E0, E1; unfold distance2, ref_vertices_of; cbn; nra.
    + rewrite two_tri_map by lia. unfold third, xy. destruct He as [<- | [<- | []]]; cbn; lra.
  - lra.
  - exists r. split; auto. destruct Hin as (e & _ & _ & _ & Hz & _); auto.
    exists 0%nat. split; [right; left; auto |]. apply unit_contains; lra.
Qed.

(** A finding (with the default parameters of the locator): for the point (1/6, 1/3) of the unit
    triangle the locator throws "xInv did not converge". *)
Theorem locate_throws_refuted : exists verts point els,
  (forall e, affinely_independent 2 3 (verts e)) /\
  (exists e, In e els /\ in_simplex 2 3 (verts e) point) /\
  locate gauss 2 (affine_map 2 verts) (affine_jac verts) tri_nodes 1000 (-1000) (1 / 10000000000) (1 / 1000000000) (3 / 2) 100 point els = None.
Proof.
  exists two_tri, (xy (1 / 6) (1 / 3)), [0%nat].
  assert (Hin : in_simplex 2 3 (two_tri 0) (xy (1 / 6) (1 / 3))) by (apply unit_contains; lra).
  split; [apply two_tri_independent |]. split; [exists 0%nat; split; [left; auto | auto] |].
  unfold locate. cbn [visit_all]. unfold visit.
  rewrite (bbox_contains 1 two_tri 1000 (-1000) (3 / 2) tri_nodes tri_nodes_ok ltac:(lra) 0%nat _ Hin).
  rewrite (x_inv_throws gauss gauss_exact 1 two_tri (1 / 10000000000) (1 / 1000000000) 100 0%nat).
  - reflexivity.
  - apply two_tri_independent.
  - rewrite two_tri_map by lia. unfold third, xy. cbn. lra.
Qed.
Print Assumptions locate_throws_refuted.

(** A finding: the point (1/100, 1/3 + 1/100000) of the unit triangle is reported as the centre of the
    triangle, at a distance of more than 3/10. *)
Theorem locate_inexact_refuted : exists verts point els r,
  (forall e, affinely_independent 2 3 (verts e)) /\
  (exists e, In e els /\ in_simplex 2 3 (verts e) point) /\
  locate gauss 2 (affine_map 2 verts) (affine_jac verts) tri_nodes 1000 (-1000) (1 / 10000000000) (1 / 1000000000) (3 / 2) 100 point els = Some r /\
  3 / 10 < l_dist r.
Proof.
  set (point := xy (1 / 100) (1 / 3 + 1 / 100000)).
  assert (Hin : in_simplex 2 3 (two_tri 0) point) by (apply unit_contains; lra).
  assert (Hth : in_simplex 2 3 ref_vertices_of third).
  { apply (convex_ref 1). split; [intros; unfold third; lra | unfold third; cbn; lra]. }
  assert (Hov : exists i, (i < 3)%nat /\ distance2 2 (ref_vertices_of i) third < 1000).
  { exists 0%nat. split; [lia |]. unfold distance2, ref_vertices_of, third. cbn. lra. }
  destruct (closest_point gauss 2 3 ref_vertices_of 1000 third gauss_exact (ref_independent 1) Hov) as (c & Ec & _ & Hd & _).
  destruct (closest_zero gauss 2 3 ref_vertices_of 1000 third c gauss_exact (ref_independent 1) Hov Ec) as [[_ Hz] Hxi].
  specialize (Hxi (Hz Hth)).
  assert (Hfar : 3 / 10 < distance 2 (affine_map 2 two_tri 0 (xi c)) point).
  { unfold distance. rewrite <- (sqrt_Rsqr (3 / 10)) by lra. apply sqrt_lt_1_alt. unfold Rsqr, distance2.
    cbn [rsum]. rewrite !two_tri_map by lia. rewrite !Hxi by lia. unfold third, point, xy. cbn. lra. }
  assert (Hclose : distance 2 (affine_map 2 two_tri 0 (xi c)) point < 1000).
  { unfold distance. rewrite <- (sqrt_Rsqr 1000) by lra. apply sqrt_lt_1_alt. unfold Rsqr, distance2.
    cbn [rsum]. rewrite !two_tri_map by lia. rewrite !Hxi by lia. unfold third, point, xy. cbn. lra. }
  exists two_tri, point, [0%nat], {| l_no := Some 0%nat; l_dist := distance 2 (affine_map 2 two_tri 0 (xi c)) point;
                           l_xi := xi c; l_x := affine_map 2 two_tri 0 (xi c) |}.
  split; [apply two_tri_independent |]. split; [exists 0%nat; split; [left; auto | auto] |]. split; [| exact Hfar].
  unfold locate. cbn [visit_all]. unfold visit.
  rewrite (bbox_contains 1 two_tri 1000 (-1000) (3 / 2) tri_nodes tri_nodes_ok ltac:(lra) 0%nat _ Hin).
  rewrite (x_inv_stops_early gauss 1 two_tri (1 / 10000000000) (1 / 1000000000) 100 ltac:(lia) 0%nat).
  - cbn [bind]. rewrite Ec. cbn [bind]. rewrite pnorm_distance. cbn [l_dist].
    destruct (Rlt_dec _ 1000) as [_ | C]; [reflexivity | contradiction].
  - rewrite two_tri_map by lia. unfold third, point, xy. cbn. lra.
  - rewrite two_tri_map by lia. unfold third, point, xy. cbn. lra.
Qed.
Print Assumptions locate_inexact_refuted.
