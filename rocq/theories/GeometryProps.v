(** Property theorems: the elements fit together geometrically (C62). *)
Require Import List Arith Lia Bool Reals Lra Sorting.Sorted FunctionalExtensionality.
Require Import Verif.Base Verif.CombinatoricsProofs Verif.LinAlg Verif.SimplexModel Verif.SimplexProofs Verif.LocalMeshModel Verif.LocalMeshProps
  Verif.TopoModel Verif.TopoSpec Verif.TopoProofs Verif.TopoProps Verif.AssembleModel Verif.AssembleSpec Verif.AssembleProofs Verif.AssembleProps
  Verif.FaultModel Verif.GeometryModel Verif.GeometryProofs Verif.MatFree Verif.PoissonModel Verif.PenaltyModel Verif.SipSpec Verif.SipProofs Verif.SipRank
  Verif.CoerciveProps Verif.GeometrySpec.
Import ListNotations.
Local Open Scope R_scope.

Lemma image_push D A v : image D A v = push D A v. Proof. reflexivity. Qed.
Lemma lagrange2 t1 t2 : vdot 3 (cross t1 t2) (cross t1 t2) = vdot 3 t1 t1 * vdot 3 t2 t2 - vdot 3 t1 t2 * vdot 3 t1 t2.
Proof. unfold vdot, cross. cbn. ring. Qed.
Lemma rotated_gram D t1 t2 : (D = 2 \/ D = 3)%nat -> sqrt (vdot D (rotated D t1 t2) (rotated D t1 t2)) = surface_element D t1 t2.
Proof.
  intros [-> | ->]; unfold surface_element; f_equal.
  - unfold vdot. cbn. ring.
  - apply lagrange2.
Qed.

(** C62: the normal that is stored for a point of a facet is perpendicular to the facet, points out of
    the first element, and its length is the surface element of the facet; the stored unit vector has
    this direction and length one, the stored inverse is the inverse of the Jacobian. *)
Theorem facet_normal_is_outward : forall D fs f J0 J1 x0, (D = 2 \/ D = 3)%nat -> f2v D = Some fs -> In f fs -> geo_det D J0 <> 0 ->
  let p := prepare_bndskl D f J0 J1 x0 in
  let edge j := image D J0 (ref_edge f j) in
  (forall j, (0 < j < D)%nat -> vdot D (fq_normal p) (edge j) = 0) /\
  vdot D (fq_normal p) (image D J0 (ref_inward D f)) < 0 /\
  fq_length p = surface_element D (edge 1%nat) (edge 2%nat) /\ 0 < fq_length p /\
  (forall i, fq_normal p i = fq_length p * fq_unit p i) /\ vdot D (fq_unit p) (fq_unit p) = 1 /\
  (forall i j, (i < D)%nat -> (j < D)%nat -> rsum D (fun k => fq_jInv0 p i k * J0 k j) = if (i =? j)%nat then 1 else 0).
Proof.
  intros D fs f J0 J1 x0 HD E Hf HJ p edge. destruct (facet_normal D fs f J0 HD E Hf HJ) as [(s & Hs & Hn) Hm].
  pose proof (rotated_perp D (edge 1%nat) (edge 2%nat) HD) as [P1 P2].
  assert (Z : forall v, vdot D (fq_normal p) v = s * vdot D (rotated D (edge 1%nat) (edge 2%nat)) v).
  { intro v. rewrite <- vdot_scale_l. apply vdot_ext; [exact Hn|reflexivity]. }
  assert (NN : vdot D (fq_normal p) (fq_normal p) = vdot D (rotated D (edge 1%nat) (edge 2%nat)) (rotated D (edge 1%nat) (edge 2%nat))).
  { rewrite Z, vdot_comm, Z, <- Rmult_assoc, Hs. ring. }
  assert (Lt : vdot D (fq_normal p) (image D J0 (ref_inward D f)) < 0).
  { change (vdot D (fq_normal p) (image D J0 (ref_inward D f)) = - Rabs (geo_det D J0)) in Hm. rewrite Hm. pose proof (Rabs_pos_lt _ HJ). lra. }
  assert (Npos : 0 < vdot D (fq_normal p) (fq_normal p)).
  { destruct (Rle_lt_dec (vdot D (fq_normal p) (fq_normal p)) 0) as [H|H]; [|auto]. exfalso.
    assert (Z0 : forall i, (i < D)%nat -> fq_normal p i * fq_normal p i = 0).
    { apply rsum_nonneg_zero; [intros; apply Rle_0_sqr|]. apply Rle_antisym; [exact H|apply rsum_nonneg; intros; apply Rle_0_sqr]. }
    assert (vdot D (fq_normal p) (image D J0 (ref_inward D f)) = 0); [|lra].
    apply rsum_zero. intros i Hi. specialize (Z0 i Hi). assert (Zi : fq_normal p i = 0) by nra. rewrite Zi. ring. }
  assert (Lp : 0 < fq_length p) by (apply sqrt_lt_R0; exact Npos).
  split; [|split; [exact Lt|split; [|split; [exact Lp|split; [|split]]]]].
  - intros j Hj. rewrite Z. assert (j = 1 \/ j = 2)%nat as [-> | ->] by lia; [rewrite P1; ring|]. rewrite P2 by lia. ring.
  - change (fq_length p) with (sqrt (vdot D (fq_normal p) (fq_normal p))). rewrite NN. apply rotated_gram. auto.
  - intro i. change (fq_unit p) with (normalized D (fq_normal p)). unfold normalized. destruct (Rlt_dec 0 (vdot D (fq_normal p) (fq_normal p))); [|contradiction].
    change (vnorm D (fq_normal p)) with (fq_length p). field. lra.
  - change (fq_unit p) with (normalized D (fq_normal p)). unfold normalized. destruct (Rlt_dec 0 (vdot D (fq_normal p) (fq_normal p))); [|contradiction].
    rewrite (vdot_ext D _ _ (fun i => / fq_length p * fq_normal p i) (fun i => fq_normal p i / fq_length p)).
    + rewrite vdot_scale_l, vdot_comm. rewrite (vdot_ext D _ _ (fun i => / fq_length p * fq_normal p i) (fq_normal p)).
      * rewrite vdot_scale_l. assert (Sq : fq_length p * fq_length p = vdot D (fq_normal p) (fq_normal p)) by (apply sqrt_sqrt; lra). rewrite <- Sq. field. lra.
      * intros. unfold Rdiv. ring.
      * reflexivity.
    + intros. change (vnorm D (fq_normal p)) with (fq_length p). unfold Rdiv. ring.
    + reflexivity.
  - intros i j Hi Hj. apply inverse_left; auto.
Qed.
Print Assumptions facet_normal_is_outward.

(** The normals of a straight-sided element, weighted with the areas of its facets, add up to zero. *)
Theorem element_surface_closed : forall D fs J x i, (D = 2 \/ D = 3)%nat -> f2v D = Some fs -> geo_det D J <> 0 -> (i < D)%nat ->
  fold_right (fun f acc => fq_normal (prepare_bndskl D f J J x) i + acc) 0 fs = 0.
Proof. intros. apply normals_closed; auto. Qed.
Print Assumptions element_surface_closed.

Section Conforming.
Variable G : geo_setup.
Local Notation D := (gs_D G).
Variables (nf : nat) (C : nat -> vec) (psi : nat -> vec -> R) (dpsi : nat -> nat -> vec -> R).
Hypothesis CB : conforming_basis G nf C psi dpsi.

(** Position and edges on a facet depend only on the coordinates of its vertices. *)
Definition facet_node (f : list nat) (c : nat) : vec := gs_T G (fun i => rsum D (fun j => bary D (C c) j * gs_X G (nth j f 0%nat) i)).
Lemma node_on_facet fs fl f plex c j i : (0 < D)%nat -> f2v D = Some fs -> In fl fs -> map (fun v => nth v plex 0%nat) fl = f ->
  (j < gs_nb G)%nat -> (forall d, (d < D)%nat -> gs_node G j d = facet_param D fl (C c) d) -> (i < D)%nat ->
  positions G plex j i = facet_node f c i.
Proof.
  intros HD E Hf Em Hj En Hi. unfold positions, geo_nodes, facet_node. apply (cb_text _ _ _ _ _ CB); [|exact Hi]. intros d Hd.
  destruct (f2v_facet D fs fl E Hf) as (L & _ & I).
  rewrite (affine_map_ext D _ (geo_verts (gs_X G) plex) (gs_node G j) (facet_param D fl (C c))) by auto.
  rewrite affine_on_facet by auto. apply rsum_ext. intros a Ha. f_equal. unfold geo_verts. rewrite <- Em.
  rewrite (nth_indep (map (fun v => nth v plex 0%nat) fl) 0%nat (nth 0 plex 0%nat)) by (rewrite map_length; lia).
  rewrite (map_nth (fun v => nth v plex 0%nat) fl 0%nat a). reflexivity.
Qed.
Lemma sum_at_nodes fs fl f plex c i : (0 < D)%nat -> f2v D = Some fs -> In fl fs -> map (fun v => nth v plex 0%nat) fl = f -> (c < nf)%nat -> (i < D)%nat ->
  rsum (gs_nb G) (fun j => positions G plex j i * gs_phi G j (facet_param D fl (C c))) = facet_node f c i.
Proof.
  intros HD E Hf Em Hc Hi. destruct (cb_nodes _ _ _ _ _ CB fs fl c E Hf Hc) as (j & Hj & En).
  assert (Ph : forall a, (a < gs_nb G)%nat -> gs_phi G a (facet_param D fl (C c)) = if (j =? a)%nat then 1 else 0).
  { intros a Ha. rewrite <- (cb_nodal _ _ _ _ _ CB j a Hj Ha). symmetry. apply (cb_ext _ _ _ _ _ CB); [exact Ha|exact En]. }
  rewrite (rsum_single _ j); [|auto|].
  - rewrite Ph, Nat.eqb_refl by auto. rewrite (node_on_facet fs fl f plex c j i); auto. ring.
  - intros a Ha Ne. rewrite Ph by auto. destruct (Nat.eqb_spec j a); [congruence|ring].
Qed.
Lemma position_on_facet fs fl f plex chi i : (0 < D)%nat -> f2v D = Some fs -> In fl fs -> map (fun v => nth v plex 0%nat) fl = f -> (i < D)%nat ->
  position_at G plex (facet_param D fl chi) i = rsum nf (fun c => facet_node f c i * psi c chi).
Proof.
  intros HD E Hf Em Hi. unfold position_at, geo_map.
  rewrite (rsum_ext _ _ (fun j => rsum nf (fun c => positions G plex j i * gs_phi G j (facet_param D fl (C c)) * psi c chi))).
  - rewrite rsum_swap. apply rsum_ext. intros c Hc. rewrite rsum_scale_r. f_equal. apply (sum_at_nodes fs); auto.
  - intros j Hj. rewrite (cb_trace _ _ _ _ _ CB fs fl j chi E Hf Hj), <- rsum_scale. apply rsum_ext. intros. ring.
Qed.
Lemma edge_on_facet fs fl f plex chi d i : (0 < D)%nat -> f2v D = Some fs -> In fl fs -> map (fun v => nth v plex 0%nat) fl = f -> (0 < d < D)%nat -> (i < D)%nat ->
  image D (jacobian_at G plex (facet_param D fl chi)) (ref_edge fl d) i = rsum nf (fun c => facet_node f c i * dpsi c d chi).
Proof.
  intros HD E Hf Em Hd Hi. unfold image, jacobian_at, geo_jacobian.
  rewrite (rsum_ext D _ (fun e => rsum (gs_nb G) (fun j => positions G plex j i * (gs_dphi G j e (facet_param D fl chi) * ref_edge fl d e)))) by (intros e He; rewrite <- rsum_scale_r; apply rsum_ext; intros; ring).
  rewrite rsum_swap.
  rewrite (rsum_ext (gs_nb G) _ (fun j => rsum nf (fun c => positions G plex j i * gs_phi G j (facet_param D fl (C c)) * dpsi c d chi))).
  - rewrite rsum_swap. apply rsum_ext. intros c Hc. rewrite rsum_scale_r. f_equal. apply (sum_at_nodes fs); auto.
  - intros j Hj. rewrite rsum_scale, (cb_dtrace _ _ _ _ _ CB fs fl j d chi E Hf Hj Hd), <- rsum_scale. apply rsum_ext. intros. ring.
Qed.
End Conforming.

(** C62: the mesh has no gaps.  Elements that share a facet map every point of its parametrisation to the
    same place, whatever the degree of the elements and the transformation of the mesh; the edges of the
    facet have the same images. *)
Theorem shared_facets_coincide : forall G nf C psi dpsi fs f1 f2 plex1 plex2 chi, conforming_basis G nf C psi dpsi -> (0 < gs_D G)%nat ->
  f2v (gs_D G) = Some fs -> In f1 fs -> In f2 fs ->
  map (fun v => nth v plex1 0%nat) f1 = map (fun v => nth v plex2 0%nat) f2 ->
  let p1 := facet_param (gs_D G) f1 chi in let p2 := facet_param (gs_D G) f2 chi in
  forall i, (i < gs_D G)%nat -> position_at G plex1 p1 i = position_at G plex2 p2 i /\
    forall d, (0 < d < gs_D G)%nat ->
      image (gs_D G) (jacobian_at G plex1 p1) (ref_edge f1 d) i = image (gs_D G) (jacobian_at G plex2 p2) (ref_edge f2 d) i.
Proof.
  intros G nf C psi dpsi fs f1 f2 plex1 plex2 chi CB HD E H1 H2 Em p1 p2 i Hi. split.
  - unfold p1, p2. rewrite (position_on_facet G nf C psi dpsi CB fs f1 _ plex1 chi i HD E H1 Em Hi), (position_on_facet G nf C psi dpsi CB fs f2 _ plex2 chi i HD E H2 eq_refl Hi). reflexivity.
  - intros d Hd. unfold p1, p2. rewrite (edge_on_facet G nf C psi dpsi CB fs f1 _ plex1 chi d i HD E H1 Em Hd Hi), (edge_on_facet G nf C psi dpsi CB fs f2 _ plex2 chi d i HD E H2 eq_refl Hd Hi). reflexivity.
Qed.
Print Assumptions shared_facets_coincide.

(** The quadrature points of a facet that operators use are the same seen from either element, and the
    normals are opposite. *)
Theorem shared_normals_opposite : forall G nf C psi dpsi fs f1 f2 plex1 plex2 q, conforming_basis G nf C psi dpsi -> (gs_D G = 2 \/ gs_D G = 3)%nat ->
  f2v (gs_D G) = Some fs -> In f1 fs -> In f2 fs ->
  map (fun v => nth v plex1 0%nat) f1 = map (fun v => nth v plex2 0%nat) f2 ->
  geo_det (gs_D G) (jacobian_at G plex1 (facet_param (gs_D G) f1 (gs_chi G q))) <> 0 ->
  geo_det (gs_D G) (jacobian_at G plex2 (facet_param (gs_D G) f2 (gs_chi G q))) <> 0 ->
  on_different_sides G plex1 f1 plex2 f2 (gs_chi G q) ->
  let a := point_data G plex1 f1 plex2 f2 q in let b := point_data G plex2 f2 plex1 f1 q in
  forall i, (i < gs_D G)%nat -> fq_coords a i = fq_coords b i /\ fq_normal b i = - fq_normal a i /\ fq_length b = fq_length a.
Proof.
  intros G nf C psi dpsi fs f1 f2 plex1 plex2 q CB HD E H1 H2 Em D1 D2 (m & M0 & M1 & M2) a b.
  set (D := gs_D G) in *. set (chi := gs_chi G q) in *. assert (HD0 : (0 < D)%nat) by (destruct HD as [-> | ->]; lia).
  pose proof (shared_facets_coincide G nf C psi dpsi fs f1 f2 plex1 plex2 chi CB HD0 E H1 H2 Em) as SF. cbv zeta in SF. fold D in SF.
  destruct (facet_normal D fs f1 _ HD E H1 D1) as [(s & Hs & Hn) _]. destruct (facet_normal D fs f2 _ HD E H2 D2) as [(s' & Hs' & Hn') _].
  destruct (facet_normal_is_outward D fs f1 _ (jacobian_at G plex2 (facet_param D f2 chi)) (position_at G plex1 (facet_param D f1 chi)) HD E H1 D1) as (_ & O1 & _).
  destruct (facet_normal_is_outward D fs f2 _ (jacobian_at G plex1 (facet_param D f1 chi)) (position_at G plex2 (facet_param D f2 chi)) HD E H2 D2) as (_ & O2 & _).
  assert (Op : forall i, (i < D)%nat -> fq_normal b i = - fq_normal a i).
  { apply (opposite_normals D (image D (jacobian_at G plex1 (facet_param D f1 chi)) (ref_edge f1 1)) (image D (jacobian_at G plex1 (facet_param D f1 chi)) (ref_edge f1 2)) _ _
      (image D (jacobian_at G plex1 (facet_param D f1 chi)) (ref_inward D f1)) (image D (jacobian_at G plex2 (facet_param D f2 chi)) (ref_inward D f2)) m s s'); auto.
    - intros i Hi. change (fq_normal b i) with (geo_normal D (geo_det D (jacobian_at G plex2 (facet_param D f2 chi))) (geo_inverse D (jacobian_at G plex2 (facet_param D f2 chi))) (ref_normal D f2) i).
      rewrite Hn' by auto. f_equal. apply rotated_ext; auto.
      + intros j Hj. symmetry. apply (proj2 (SF j Hj) 1%nat). destruct HD as [-> | ->]; lia.
      + intros D3 j Hj. symmetry. apply (proj2 (SF j Hj) 2%nat). lia.
    - apply M0. destruct HD as [-> | ->]; lia.
    - intros D3. apply M0. lia. }
  intros i Hi. split; [apply (proj1 (SF i Hi))|]. split; [auto|].
  change (fq_length b) with (sqrt (vdot D (fq_normal b) (fq_normal b))). change (fq_length a) with (sqrt (vdot D (fq_normal a) (fq_normal a))). f_equal.
  apply rsum_ext. intros j Hj. rewrite Op by auto. ring.
Qed.
Print Assumptions shared_normals_opposite.

(** The position of a facet in its element, and the facet of the reference element there. *)
Lemma facet_in_reference D plex f ds l : length plex = (D + 1)%nat -> StronglySorted lt plex -> downward D plex = Some ds -> nth_error ds l = Some f ->
  exists fs fl, f2v D = Some fs /\ nth_error fs l = Some fl /\ In fl fs /\ map (fun v => nth v plex 0%nat) fl = f.
Proof.
  intros L S Ed El. destruct (downward_ref D plex L S) as (fs & Ef & Ed'). assert (ds = map (map (fun j => nth j plex 0%nat)) fs) by congruence. subst ds.
  rewrite nth_error_map in El. destruct (nth_error fs l) as [fl|] eqn:Efl; [|discriminate]. injection El as El.
  exists fs, fl. split; [auto|]. split; [auto|]. split; [eapply nth_error_In; eauto|auto].
Qed.

Section Problem.
Variable G : geo_setup.
Local Notation D := (gs_D G).
Variables (elems facets : list (list nat)).
Hypothesis VG : valid_geometry G elems facets.
Variables (P : pdata) (loc : list nat -> nat -> nat) (n : list nat -> nat -> nat -> nat -> R) (nl : list nat -> nat -> R) (Gm : list nat -> nat -> nat -> nat -> nat -> R).
Hypothesis PG : problem_geometry G elems facets P loc n nl Gm.

Lemma in_reference f g plex : In f facets -> nth_error elems g = Some plex -> incl f plex ->
  exists fs fl, f2v D = Some fs /\ nth_error fs (loc f g) = Some fl /\ In fl fs /\ map (fun v => nth v plex 0%nat) fl = f.
Proof.
  intros Hf Eg I. destruct (pg_loc _ _ _ _ _ _ _ _ PG f g plex Hf Eg I) as (ds & Ed & El).
  destruct (proj2 (vg_elems _ _ _ VG) plex) as [L S]; [eapply nth_error_In; eauto|].
  apply (facet_in_reference D plex f ds); auto.
Qed.
Lemma problem_normals f g h plex1 plex2 fs f1 f2 q : In f facets -> elements_of elems f = [g; h] -> nth_error elems g = Some plex1 -> nth_error elems h = Some plex2 ->
  f2v D = Some fs -> In f1 fs -> In f2 fs -> map (fun v => nth v plex1 0%nat) f1 = f -> map (fun v => nth v plex2 0%nat) f2 = f ->
  (forall i, (i < D)%nat -> fq_normal (point_data G plex2 f2 plex1 f1 q) i = - fq_normal (point_data G plex1 f1 plex2 f2 q) i) /\
  fq_length (point_data G plex2 f2 plex1 f1 q) = fq_length (point_data G plex1 f1 plex2 f2 q).
Proof.
  intros Hf El E1 E2 Ef I1 I2 M1 M2. destruct (vg_basis _ _ _ VG) as (nf & C & psi & dpsi & CB).
  assert (S : on_different_sides G plex1 f1 plex2 f2 (gs_chi G q)) by (apply (vg_sides _ _ _ VG f g h); auto; exists fs; auto).
  assert (D1 : geo_det D (jacobian_at G plex1 (facet_param D f1 (gs_chi G q))) <> 0) by (apply (vg_fct _ _ _ VG _ fs); auto; eapply nth_error_In; eauto).
  assert (D2 : geo_det D (jacobian_at G plex2 (facet_param D f2 (gs_chi G q))) <> 0) by (apply (vg_fct _ _ _ VG _ fs); auto; eapply nth_error_In; eauto).
  pose proof (shared_normals_opposite G nf C psi dpsi fs f1 f2 plex1 plex2 q CB (vg_dim _ _ _ VG) Ef I1 I2 ltac:(congruence) D1 D2 S) as O. cbv zeta in O.
  split; [intros i Hi; apply (O i Hi)|]. apply (O 0%nat). destruct (vg_dim _ _ _ VG) as [-> | ->]; lia.
Qed.
Lemma facet_positive f g plex fs fl q : In f facets -> nth_error elems g = Some plex -> f2v D = Some fs -> In fl fs ->
  0 < fq_length (point_data G plex fl plex fl q) /\
  rsum D (fun i => fq_normal (point_data G plex fl plex fl q) i * fq_normal (point_data G plex fl plex fl q) i)
    = fq_length (point_data G plex fl plex fl q) * fq_length (point_data G plex fl plex fl q).
Proof.
  intros Hf Eg Ef If.
  assert (D1 : geo_det D (jacobian_at G plex (facet_param D fl (gs_chi G q))) <> 0) by (apply (vg_fct _ _ _ VG _ fs); auto; eapply nth_error_In; eauto).
  destruct (facet_normal_is_outward D fs fl _ (jacobian_at G plex (facet_param D fl (gs_chi G q))) (position_at G plex (facet_param D fl (gs_chi G q))) (vg_dim _ _ _ VG) Ef If D1) as (_ & _ & _ & Lp & _).
  split; [exact Lp|]. symmetry. apply sqrt_sqrt. apply rsum_nonneg. intros. apply Rle_0_sqr.
Qed.
Lemma components_sum v : rsum D (fun i => components G v i * components G v i) = rsum D (fun i => v i * v i).
Proof. apply rsum_ext. intros i Hi. unfold components. destruct (Nat.ltb_spec i D); [reflexivity|lia]. Qed.

(** The length does not depend on the side. *)
Lemma problem_length f g plex fs fl q : In f facets -> In g (elements_of elems f) -> (exists a b, elements_of elems f = [a] \/ elements_of elems f = [a; b]) ->
  nth_error elems g = Some plex -> incl f plex -> f2v D = Some fs -> nth_error fs (loc f g) = Some fl ->
  nl f q = fq_length (point_data G plex fl plex fl q).
Proof.
  intros Hf Hg (a & b & Hab) Eg I Ef Efl.
  destruct Hab as [El | El]; rewrite El in Hg.
  - destruct Hg as [<- | []]. destruct (pg_facet _ _ _ _ _ _ _ _ PG f a plex fs fl Hf Eg I Ef Efl) as (_ & _ & L). rewrite (L [] El). reflexivity.
  - destruct Hg as [<- | [<- | []]].
    + destruct (pg_facet _ _ _ _ _ _ _ _ PG f a plex fs fl Hf Eg I Ef Efl) as (_ & _ & L). rewrite (L [b] El). reflexivity.
    + assert (Ha : In a (elements_of elems f)) by (rewrite El; cbn; auto). apply elements_of_spec in Ha as (plexa & Ea & Ia).
      destruct (in_reference f a plexa Hf Ea Ia) as (fs' & fa & Ef' & Efa & Ifa & Ma). assert (fs' = fs) by congruence. subst fs'.
      destruct (pg_facet _ _ _ _ _ _ _ _ PG f a plexa fs fa Hf Ea Ia Ef Efa) as (_ & _ & L). rewrite (L [b] El).
      destruct (in_reference f b plex Hf Eg I) as (fs' & fl' & Ef'' & Efl' & Ifl & Ml). assert (fs' = fs) by congruence. subst fs'. assert (fl' = fl) by congruence. subst fl'.
      symmetry. apply (proj2 (problem_normals f a b plexa plex fs fa fl q Hf El Ea Eg Ef Ifa Ifl Ma Ml)).
Qed.
End Problem.

(** C62: what the theorems on the discretisation ask of the geometry (opposite normals, positive volumes
    and areas, lengths of normals) holds on every valid mesh. *)
Theorem geometry_of_problem : forall G elems facets P loc n nl Gm, valid_geometry G elems facets -> problem_geometry G elems facets P loc n nl Gm ->
  (forall f, In f facets -> exists a b, elements_of elems f = [a] \/ elements_of elems f = [a; b]) ->
  (forall f g h i q, In f facets -> elements_of elems f = [g; h] -> n f h i q = - n f g i q) /\
  (forall g q, (g < length elems)%nat -> 0 < p_J P g q) /\
  (forall f q, In f facets -> 0 < nl f q) /\
  (forall f g q, In f facets -> In g (elements_of elems f) ->
     rsum (p_dim P) (fun i => n f g i q * n f g i q) = nl f q * nl f q).
Proof.
  intros G elems facets P loc n nl Gm VG PG Two. split; [|split; [|split]].
  - intros f g h i q Hf El.
    assert (Hg : In g (elements_of elems f)) by (rewrite El; cbn; auto). apply elements_of_spec in Hg as (plex1 & E1 & I1).
    assert (Hh : In h (elements_of elems f)) by (rewrite El; cbn; auto). apply elements_of_spec in Hh as (plex2 & E2 & I2).
    destruct (in_reference G elems facets VG P loc n nl Gm PG f g plex1 Hf E1 I1) as (fs & f1 & Ef & Ef1 & If1 & M1).
    destruct (in_reference G elems facets VG P loc n nl Gm PG f h plex2 Hf E2 I2) as (fs' & f2 & Ef' & Ef2 & If2 & M2). assert (fs' = fs) by congruence. subst fs'.
    rewrite (proj1 (pg_facet _ _ _ _ _ _ _ _ PG f g plex1 fs f1 Hf E1 I1 Ef Ef1)), (proj1 (pg_facet _ _ _ _ _ _ _ _ PG f h plex2 fs f2 Hf E2 I2 Ef Ef2)).
    unfold components. destruct (Nat.ltb_spec i (gs_D G)) as [Hi|Hi]; [|ring].
    apply (proj1 (problem_normals G elems facets VG f g h plex1 plex2 fs f1 f2 q Hf El E1 E2 Ef If1 If2 M1 M2) i Hi).
  - intros g q Hg. destruct (nth_error_lt elems g Hg) as [plex E]. rewrite (pg_J _ _ _ _ _ _ _ _ PG g plex E). apply Rabs_pos_lt, (vg_vol _ _ _ VG). eapply nth_error_In; eauto.
  - intros f q Hf. destruct (Two f Hf) as (a & b & Hab). assert (Ha : In a (elements_of elems f)) by (destruct Hab as [-> | ->]; cbn; auto).
    pose proof Ha as Ha'. apply elements_of_spec in Ha' as (plex & E & I). destruct (in_reference G elems facets VG P loc n nl Gm PG f a plex Hf E I) as (fs & fl & Ef & Efl & Ifl & _).
    rewrite (problem_length G elems facets VG P loc n nl Gm PG f a plex fs fl q Hf Ha ltac:(eauto) E I Ef Efl). apply (proj1 (facet_positive G elems facets VG f a plex fs fl q Hf E Ef Ifl)).
  - intros f g q Hf Hg. pose proof Hg as Hg'. apply elements_of_spec in Hg' as (plex & E & I). destruct (in_reference G elems facets VG P loc n nl Gm PG f g plex Hf E I) as (fs & fl & Ef & Efl & Ifl & _).
    rewrite (problem_length G elems facets VG P loc n nl Gm PG f g plex fs fl q Hf Hg (Two f Hf) E I Ef Efl), (pg_dim _ _ _ _ _ _ _ _ PG), (proj1 (pg_facet _ _ _ _ _ _ _ _ PG f g plex fs fl Hf E I Ef Efl)).
    rewrite components_sum. apply (proj2 (facet_positive G elems facets VG f g plex fs fl q Hf E Ef Ifl)).
Qed.
Print Assumptions geometry_of_problem.

(** C62: every rank, whichever elements it has and in whichever order, computes the geometric data of the
    problem. *)
Theorem rank_geometry_is_problem : forall G procs elems facets bc m P loc n nl Gm Pr, mesh_parts (gs_D G) procs elems facets bc m ->
  valid_geometry G elems facets -> problem_geometry G elems facets P loc n nl Gm ->
  (forall p, (p < procs)%nat -> rank_geometry G (m p) (Pr p)) ->
  forall p, (p < procs)%nat ->
  (forall e g, nth_error (tm_l2cg (m p)) e = Some g -> p_J (Pr p) e = p_J P g /\ p_GQ (Pr p) e = p_GQ P g) /\
  (forall i f x, (i < tm_num_local_facets (m p))%nat -> nth_error (tm_facets (m p)) i = Some f -> facet_record_ok (gs_D G) (m p) i x ->
     p_n (Pr p) i = n f (fi_g0 x) /\ p_nl (Pr p) i = nl f /\
     p_G0 (Pr p) i = Gm f (fi_g0 x) /\ p_G1 (Pr p) i = Gm f (fi_g1 x)).
Proof.
  intros G procs elems facets bc m P loc n nl Gm Pr MP VG PG RG p Hp. specialize (RG p Hp). pose proof (mp_mesh _ _ _ _ _ _ MP p Hp) as O. split.
  - intros e g Eg. destruct (mp_elem _ _ _ _ _ _ MP p e g Hp Eg) as [Hg Eq]. destruct (nth_error_lt elems g Hg) as [plex E].
    rewrite E in Eq. symmetry in Eq. destruct (rg_vol _ _ _ RG e plex Eq) as [H1 H2].
    rewrite H1, H2, (pg_J _ _ _ _ _ _ _ _ PG g plex E), (pg_GQ _ _ _ _ _ _ _ _ PG g plex E). auto.
  - intros i f x Hi Ef R.
    assert (Side : forall e l g, facet_at (gs_D G) (m p) e l i -> nth_error (tm_l2cg (m p)) e = Some g ->
      exists plex fs fl, nth_error (tm_elems (m p)) e = Some plex /\ nth_error elems g = Some plex /\ incl f plex /\ In f facets /\ f2v (gs_D G) = Some fs /\ nth_error fs l = Some fl /\ l = loc f g).
    { intros e l g Fa Eg. destruct (facet_at_contains (gs_D G) (m p) O e l i Fa) as [(plex & f' & Ep & Ef' & I) _]. assert (f' = f) by congruence. subst f'.
      destruct (mp_elem _ _ _ _ _ _ MP p e g Hp Eg) as [_ Eq]. rewrite Ep in Eq.
      assert (Hf : In f facets).
      { apply (mp_facets_all _ _ _ _ _ _ MP). destruct (proj2 (to_facets _ _ O) f) as [Lf Sf]; [eapply nth_error_In; eauto|].
        split; auto. split; auto. exists plex. split; auto. eapply nth_error_In; eauto. }
      destruct (facet_at_downward (gs_D G) (m p) e l i f plex O Fa Ef Ep) as (ds & Eds & El & Nd).
      assert (Lo : l = loc f g).
      { destruct (pg_loc _ _ _ _ _ _ _ _ PG f g plex Hf Eq I) as (ds' & Eds' & El'). assert (ds' = ds) by congruence. subst ds'.
        apply (proj1 (NoDup_nth_error ds) Nd); [apply nth_error_Some; congruence | congruence]. }
      destruct (in_reference G elems facets VG P loc n nl Gm PG f g plex Hf Eq I) as (fs & fl & E1 & E2 & _). exists plex, fs, fl. rewrite <- Lo in E2. auto 10. }
    destruct (Side _ _ _ (fr_local0 _ _ _ _ R) (fr_g0 _ _ _ _ R)) as (plex0 & fs & f0 & A0 & B0 & I0 & Hf & Efs & E0 & L0).
    destruct (Side _ _ _ (fr_local1 _ _ _ _ R) (fr_g1 _ _ _ _ R)) as (plex1 & fs' & f1 & A1 & B1 & I1 & _ & Efs' & E1 & L1). assert (fs' = fs) by congruence. subst fs'.
    destruct (rg_fct _ _ _ RG i x plex0 plex1 fs f0 f1 Hi R A0 A1 Efs E0 E1) as (H1 & H2 & H3 & H4).
    rewrite L0 in E0. rewrite L1 in E1.
    destruct (pg_facet _ _ _ _ _ _ _ _ PG f _ plex0 fs f0 Hf B0 I0 Efs E0) as (N0 & G0 & _). destruct (pg_facet _ _ _ _ _ _ _ _ PG f _ plex1 fs f1 Hf B1 I1 Efs E1) as (_ & G1 & _).
    rewrite H1, H2, H3, H4, N0, G0, G1. split; [reflexivity|]. split; [|split; reflexivity].
    destruct (facet_one_or_two (gs_D G) procs elems facets bc m MP f Hf) as (a & b & Hab).
    apply functional_extensionality. intro q.
    symmetry. apply (problem_length G elems facets VG P loc n nl Gm PG f (fi_g0 x) plex0 fs f0 q Hf); eauto. apply elements_of_spec. eauto.
Qed.
Print Assumptions rank_geometry_is_problem.
