(** Meshes with straight-sided elements: the geometry is that of the vertices (C62). *)
Require Import List Arith Lia Bool Reals Lra Sorting.Sorted.
Require Import Verif.Base Verif.LinAlg Verif.SimplexModel Verif.LocalMeshModel Verif.LocalMeshProps Verif.AssembleSpec Verif.AssembleProofs
  Verif.FaultModel Verif.GeometryModel Verif.GeometryProofs Verif.GeometrySpec Verif.GeometryProps.
Import ListNotations.
Local Open Scope R_scope.

(** No transformation, and a basis that reproduces linear functions. *)
Record straight (G : geo_setup) : Prop := {
  st_T : forall x, gs_T G x = x;
  st_one : forall xi, rsum (gs_nb G) (fun j => gs_phi G j xi) = 1;
  st_id : forall xi d, (d < gs_D G)%nat -> rsum (gs_nb G) (fun j => gs_node G j d * gs_phi G j xi) = xi d;
  st_done : forall xi e, (e < gs_D G)%nat -> rsum (gs_nb G) (fun j => gs_dphi G j e xi) = 0;
  st_did : forall xi d e, (d < gs_D G)%nat -> (e < gs_D G)%nat -> rsum (gs_nb G) (fun j => gs_node G j d * gs_dphi G j e xi) = if (d =? e)%nat then 1 else 0 }.
(** The vectors from the first vertex of an element to the others, as columns. *)
Definition edge_matrix (X : nat -> vec) (plex : list nat) : nat -> nat -> R := fun i e => X (nth (S e) plex 0%nat) i - X (nth 0 plex 0%nat) i.

Lemma positions_straight G plex j i : straight G -> positions G plex j i = gs_X G (nth 0 plex 0%nat) i + rsum (gs_D G) (fun e => gs_node G j e * edge_matrix (gs_X G) plex i e).
Proof.
  intro S. unfold positions, geo_nodes. rewrite (st_T _ S). unfold affine_map, geo_verts, edge_matrix.
  rewrite (rsum_ext (gs_D G) (fun e => gs_node G j e * (gs_X G (nth (Datatypes.S e) plex 0%nat) i - gs_X G (nth 0 plex 0%nat) i))
    (fun e => gs_node G j e * gs_X G (nth (Datatypes.S e) plex 0%nat) i - gs_node G j e * gs_X G (nth 0 plex 0%nat) i)) by (intros; ring).
  rewrite rsum_minus, rsum_scale_r. ring.
Qed.
(** C62: on a straight-sided mesh the elements are the convex combinations of their vertices and the
    Jacobian has the edges of the element as columns, whatever the degree of the basis. *)
Theorem straight_elements : forall G plex xi i, straight G -> (i < gs_D G)%nat ->
  position_at G plex xi i = (1 - rsum (gs_D G) xi) * gs_X G (nth 0 plex 0%nat) i + rsum (gs_D G) (fun d => xi d * gs_X G (nth (S d) plex 0%nat) i) /\
  forall e, (e < gs_D G)%nat -> jacobian_at G plex xi i e = gs_X G (nth (S e) plex 0%nat) i - gs_X G (nth 0 plex 0%nat) i.
Proof.
  intros G plex xi i S Hi. split.
  - unfold position_at, geo_map.
    rewrite (rsum_ext _ _ (fun j => gs_X G (nth 0 plex 0%nat) i * gs_phi G j xi + rsum (gs_D G) (fun e => edge_matrix (gs_X G) plex i e * (gs_node G j e * gs_phi G j xi)))).
    2:{ intros j _. rewrite positions_straight by auto. rewrite Rmult_plus_distr_r. f_equal. rewrite <- rsum_scale_r. apply rsum_ext. intros. ring. }
    rewrite rsum_plus, rsum_scale, (st_one _ S), rsum_swap.
    rewrite (rsum_ext (gs_D G) (fun j => rsum (gs_nb G) (fun i0 => edge_matrix (gs_X G) plex i j * (gs_node G i0 j * gs_phi G i0 xi))) (fun e => xi e * gs_X G (nth (Datatypes.S e) plex 0%nat) i - xi e * gs_X G (nth 0 plex 0%nat) i)).
    2:{ intros e He. rewrite rsum_scale, (st_id _ S) by auto. unfold edge_matrix. ring. }
    rewrite rsum_minus, rsum_scale_r. ring.
  - intros e He. unfold jacobian_at, geo_jacobian.
    rewrite (rsum_ext _ _ (fun j => gs_X G (nth 0 plex 0%nat) i * gs_dphi G j e xi + rsum (gs_D G) (fun d => edge_matrix (gs_X G) plex i d * (gs_node G j d * gs_dphi G j e xi)))).
    2:{ intros j _. rewrite positions_straight by auto. rewrite Rmult_plus_distr_r. f_equal. rewrite <- rsum_scale_r. apply rsum_ext. intros. ring. }
    rewrite rsum_plus, rsum_scale, (st_done _ S) by auto. rewrite rsum_swap, (rsum_single (gs_D G) e); [|auto|].
    + rewrite rsum_scale, (st_did _ S), Nat.eqb_refl by auto. unfold edge_matrix. ring.
    + intros d Hd Ne. rewrite rsum_scale, (st_did _ S) by auto. destruct (Nat.eqb_spec d e); [contradiction|ring].
Qed.
Print Assumptions straight_elements.

Lemma geo_det_ext D A B : (D = 2 \/ D = 3)%nat -> (forall i j, (i < D)%nat -> (j < D)%nat -> A i j = B i j) -> geo_det D A = geo_det D B.
Proof. intros [-> | ->] H; cbn; rewrite !H by lia; reflexivity. Qed.
Lemma image_ref D X plex v w i : (v <= D)%nat -> (w <= D)%nat ->
  rsum D (fun e => edge_matrix X plex i e * vdiff (ref_vertex v) (ref_vertex w) e) = X (nth v plex 0%nat) i - X (nth w plex 0%nat) i.
Proof.
  intros Hv Hw. unfold vdiff. rewrite (rsum_ext D _ (fun e => ref_vertex v e * edge_matrix X plex i e - ref_vertex w e * edge_matrix X plex i e)) by (intros; ring).
  rewrite rsum_minus, !rsum_ref_vertex by auto. unfold edge_matrix. destruct v, w; ring.
Qed.
(** The vertex of an element that is not on a facet. *)
Definition opposite_vertex (D : nat) (plex fl : list nat) : nat := nth (missing_vertex D fl) plex 0%nat.
(** The planes through facets separate the elements. *)
Definition separated (D : nat) (X : nat -> vec) (f : list nat) (a b : nat) : Prop :=
  exists m, (forall v, In v f -> vdot D m (vdiff (X v) (X (nth 0 f 0%nat))) = 0) /\
    vdot D m (vdiff (X a) (X (nth 0 f 0%nat))) < 0 /\ 0 < vdot D m (vdiff (X b) (X (nth 0 f 0%nat))).

Lemma missing_le D f : (missing_vertex D f <= D)%nat.
Proof.
  unfold missing_vertex, referenceSimplex. set (l := filter _ _). destruct l as [|a r] eqn:E; cbn; [lia|].
  assert (In a l) by (rewrite E; cbn; auto). unfold l in H. apply filter_In in H as [H _]. apply in_seq in H. lia.
Qed.

(** * Linear elements *)
(** Vertices as nodes, barycentric coordinates as basis functions. *)
Definition linear_setup (D : nat) (X : nat -> vec) (xi chi : nat -> vec) : geo_setup :=
  {| gs_D := D; gs_X := X; gs_T := fun x => x; gs_nb := D + 1; gs_node := ref_vertex;
     gs_phi := fun j x => match j with O => 1 - rsum D x | S d => x d end;
     gs_dphi := fun j e x => match j with O => -1 | S d => if (d =? e)%nat then 1 else 0 end;
     gs_xi := xi; gs_chi := chi |}.
Lemma linear_straight D X xi chi : straight (linear_setup D X xi chi).
Proof.
  split; cbn [linear_setup gs_D gs_X gs_T gs_nb gs_node gs_phi gs_dphi]; rewrite ?(Nat.add_comm D 1); cbn [Nat.add]; intros; rewrite ?rsum_head.
  - reflexivity.
  - change (fun i => xi0 i) with xi0. ring.
  - rewrite ref_vertex_0. rewrite (rsum_single D d (fun i => ref_vertex (S i) d * xi0 i)); [|auto|].
    + unfold ref_vertex. rewrite Nat.eqb_refl. ring.
    + intros i Hi Ne. unfold ref_vertex. destruct (Nat.eqb_spec (S i) (S d)); [congruence|ring].
  - rewrite (rsum_single D e); [|auto|].
    + rewrite Nat.eqb_refl. ring.
    + intros i Hi Ne. destruct (Nat.eqb_spec i e); [congruence|ring].
  - rewrite ref_vertex_0. rewrite (rsum_single D d); [|auto|].
    + unfold ref_vertex. rewrite Nat.eqb_refl. destruct (Nat.eqb_spec d e); ring.
    + intros i Hi Ne. unfold ref_vertex. destruct (Nat.eqb_spec (S i) (S d)); [congruence|ring].
Qed.
Lemma bary_ref D c j : (c < D)%nat -> (j < D)%nat -> bary D (ref_vertex c) j = if (j =? c)%nat then 1 else 0.
Proof.
  intros Hc Hj. destruct j as [|d]; cbn [bary].
  - rewrite (rsum_ext (D - 1) (ref_vertex c) (fun d => ref_vertex c d * 1)) by (intros; ring). rewrite rsum_ref_vertex by lia. destruct c; cbn; ring.
  - unfold ref_vertex. rewrite Nat.eqb_sym. reflexivity.
Qed.
Lemma facet_param_vertex D f c d : (0 < D)%nat -> (c < D)%nat -> facet_param D f (ref_vertex c) d = ref_vertex (nth c f 0%nat) d.
Proof.
  intros HD Hc. rewrite facet_param_bary by auto. rewrite (rsum_single D c); [|auto|].
  - rewrite bary_ref, Nat.eqb_refl by auto. ring.
  - intros j Hj Ne. rewrite bary_ref by auto. destruct (Nat.eqb_spec j c); [contradiction|ring].
Qed.
Lemma linear_phi_combination D X xi chi j m b (y : nat -> vec) : rsum m b = 1 ->
  gs_phi (linear_setup D X xi chi) j (fun e => rsum m (fun k => b k * y k e)) = rsum m (fun k => b k * gs_phi (linear_setup D X xi chi) j (y k)).
Proof.
  intro Hb. cbn. destruct j as [|d]; [|reflexivity].
  rewrite (rsum_ext m (fun k => b k * (1 - rsum D (y k))) (fun k => b k - b k * rsum D (y k))) by (intros; ring).
  rewrite rsum_minus, Hb, rsum_swap. f_equal. apply rsum_ext. intros. apply rsum_scale.
Qed.
Lemma linear_conforming D X xi chi : (0 < D)%nat ->
  conforming_basis (linear_setup D X xi chi) D ref_vertex (fun c chi => bary D chi c) (fun c d _ => (if (c =? d)%nat then 1 else 0) - (if (c =? 0)%nat then 1 else 0)).
Proof.
  intro HD. set (G := linear_setup D X xi chi).
  assert (PE : forall j x y, (j < D + 1)%nat -> (forall d, (d < D)%nat -> x d = y d) -> gs_phi G j x = gs_phi G j y).
  { intros j x y Hj H. cbn. destruct j as [|d]; [|apply H; lia]. f_equal. apply rsum_ext. auto. }
  assert (PV : forall i j, (i < D + 1)%nat -> (j < D + 1)%nat -> gs_phi G j (ref_vertex i) = if (i =? j)%nat then 1 else 0).
  { intros i j Hi Hj. cbn. destruct j as [|d].
    - rewrite (rsum_ext D (ref_vertex i) (fun d => ref_vertex i d * 1)) by (intros; ring). rewrite rsum_ref_vertex by lia. destruct i; cbn; ring.
    - reflexivity. }
  split.
  - exact PE.
  - intros x y H i Hi. apply H. exact Hi.
  - exact PV.
  - intros fs f c E Hf Hc. destruct (f2v_facet D fs f E Hf) as (L & _ & I). exists (nth c f 0%nat). split.
    + cbn. specialize (I (nth c f 0%nat) ltac:(apply nth_In; lia)). lia.
    + intros d Hd. cbn. rewrite facet_param_vertex by auto. reflexivity.
  - intros fs f j c' E Hf Hj. change (gs_nb G) with (D + 1)%nat in Hj.
    rewrite (PE j _ (fun e => rsum D (fun k => bary D c' k * ref_vertex (nth k f 0%nat) e)) Hj) by (intros; apply facet_param_bary; auto).
    unfold G at 1. rewrite linear_phi_combination by (apply bary_sum; auto). fold G. apply rsum_ext. intros k Hk. rewrite Rmult_comm. f_equal.
    apply PE; [auto|]. intros d Hd. cbn. rewrite facet_param_vertex by auto. reflexivity.
  - intros fs f j d c' E Hf Hj Hd. change (gs_nb G) with (D + 1)%nat in Hj. destruct (f2v_facet D fs f E Hf) as (L & _ & I).
    rewrite (rsum_ext D (fun c => gs_phi G j (facet_param (gs_D G) f (ref_vertex c)) * _)
      (fun c => gs_phi G j (ref_vertex (nth c f 0%nat)) * (if (c =? d)%nat then 1 else 0) - gs_phi G j (ref_vertex (nth c f 0%nat)) * (if (c =? 0)%nat then 1 else 0))).
    2:{ intros c Hc. rewrite (PE j (facet_param (gs_D G) f (ref_vertex c)) (ref_vertex (nth c f 0%nat)) Hj) by (intros; apply facet_param_vertex; auto). ring. }
    rewrite rsum_minus, (rsum_single D d (fun c => gs_phi G j (ref_vertex (nth c f 0%nat)) * (if (c =? d)%nat then 1 else 0))),
      (rsum_single D 0 (fun c => gs_phi G j (ref_vertex (nth c f 0%nat)) * (if (c =? 0)%nat then 1 else 0))); try (change (gs_D G) with D in Hd; lia).
    + rewrite !Nat.eqb_refl, !Rmult_1_r.
      assert (Lin : forall v, (v <= D)%nat -> rsum D (fun e => gs_dphi G j e (facet_param D f c') * ref_vertex v e) = gs_phi G j (ref_vertex v) - gs_phi G j (fun _ => 0)).
      { intros v Hv. rewrite (rsum_ext D _ (fun e => ref_vertex v e * gs_dphi G j e (facet_param D f c'))) by (intros; ring). rewrite rsum_ref_vertex by auto.
        rewrite PV by lia. cbn. rewrite (rsum_zero D (fun _ => 0)) by auto. destruct v as [|v], j as [|j]; cbn; try ring. destruct (Nat.eqb_spec j v), (Nat.eqb_spec v j); try congruence; ring. }
      change (gs_D G) with D. change (gs_D G) with D in Hd. unfold ref_edge, vdiff.
      rewrite (rsum_ext D _ (fun e => gs_dphi G j e (facet_param D f c') * ref_vertex (nth d f 0%nat) e - gs_dphi G j e (facet_param D f c') * ref_vertex (nth 0 f 0%nat) e)) by (intros; ring).
      rewrite rsum_minus, !Lin by (apply I, nth_In; lia). ring.
    + intros c Hc Ne. destruct (Nat.eqb_spec c 0); [contradiction|ring].
    + intros c Hc Ne. destruct (Nat.eqb_spec c d); [contradiction|ring].
Qed.

(** C62: a mesh of linear elements with vertices X is valid if no element is degenerate and any two elements
    that share a facet are on different sides of the line or plane through it. *)
Theorem straight_mesh_valid : forall D X xi chi elems facets, (D = 2 \/ D = 3)%nat -> plex_list (D + 1) elems -> plex_list D facets ->
  (forall plex, In plex elems -> geo_det D (edge_matrix X plex) <> 0) ->
  (forall f g h plex1 plex2 a b, In f facets -> elements_of elems f = [g; h] -> nth_error elems g = Some plex1 -> nth_error elems h = Some plex2 ->
     In a plex1 -> ~ In a f -> In b plex2 -> ~ In b f -> separated D X f a b) ->
  valid_geometry (linear_setup D X xi chi) elems facets.
Proof.
  intros D X xi chi elems facets HD PE PF ND SEP. set (G := linear_setup D X xi chi). assert (HD0 : (0 < D)%nat) by (destruct HD as [-> | ->]; lia).
  assert (ST : straight G) by apply linear_straight.
  assert (Jac : forall plex x i e, (i < D)%nat -> (e < D)%nat -> jacobian_at G plex x i e = edge_matrix X plex i e).
  { intros plex x i e Hi He. apply (proj2 (straight_elements G plex x i ST Hi) e He). }
  assert (Det : forall plex x, In plex elems -> geo_det D (jacobian_at G plex x) <> 0).
  { intros plex x H. rewrite (geo_det_ext D _ (edge_matrix X plex)); auto. }
  assert (Im : forall plex x v w i, (v <= D)%nat -> (w <= D)%nat -> (i < D)%nat ->
    image D (jacobian_at G plex x) (vdiff (ref_vertex v) (ref_vertex w)) i = vdiff (X (nth v plex 0%nat)) (X (nth w plex 0%nat)) i).
  { intros plex x v w i Hv Hw Hi. unfold image. rewrite (rsum_ext D _ (fun e => edge_matrix X plex i e * vdiff (ref_vertex v) (ref_vertex w) e)) by (intros; rewrite Jac by auto; reflexivity).
    apply image_ref; auto. }
  split.
  - exact HD.
  - exact PE.
  - exact PF.
  - exists D, ref_vertex. eexists. eexists. apply linear_conforming. auto.
  - intros plex q Hp. apply Det. auto.
  - intros plex fs f q Hp _ _. apply Det. auto.
  - intros f g h plex1 plex2 f1 f2 q Hf El E1 E2 M1 M2 (fs & Ef & I1 & I2). change (f2v D = Some fs) in Ef.
    destruct (f2v_facet D fs f1 Ef I1) as (L1 & S1 & B1). destruct (f2v_facet D fs f2 Ef I2) as (L2 & S2 & B2).
    destruct (proj2 PE plex1) as [Lp1 Sp1]; [eapply nth_error_In; eauto|]. destruct (proj2 PE plex2) as [Lp2 Sp2]; [eapply nth_error_In; eauto|].
    assert (Opp : forall plex fl, In fl fs -> length plex = (D + 1)%nat -> StronglySorted lt plex -> map (fun v => nth v plex 0%nat) fl = f ->
      In (nth (missing_vertex D fl) plex 0%nat) plex /\ ~ In (nth (missing_vertex D fl) plex 0%nat) f).
    { intros plex fl Hfl Lp Sp Mf. pose proof (missing_le D fl) as ML. split; [apply nth_In; lia|]. rewrite <- Mf. intro H. apply in_map_iff in H as (v & Ev & Hv).
      destruct (f2v_facet D fs fl Ef Hfl) as (Lf & Sf & Bf). specialize (Bf v Hv).
      assert (v = missing_vertex D fl). { apply (proj1 (NoDup_nth plex 0%nat) (SimplexProofs.sorted_lt_NoDup _ Sp)); auto; lia. } subst v.
      destruct HD as [-> | ->].
      - rewrite f2v_2 in Ef. injection Ef as <-. cbn in Hfl. destruct Hfl as [<-|[<-|[<-|[]]]]; cbn in Hv; intuition congruence.
      - rewrite f2v_3 in Ef. injection Ef as <-. cbn in Hfl. destruct Hfl as [<-|[<-|[<-|[<-|[]]]]]; cbn in Hv; intuition congruence. }
    destruct (Opp plex1 f1 I1 Lp1 Sp1 M1) as [A1 A2]. destruct (Opp plex2 f2 I2 Lp2 Sp2 M2) as [C1 C2].
    destruct (SEP f g h plex1 plex2 _ _ Hf El E1 E2 A1 A2 C1 C2) as (m & H0 & H1 & H2).
    assert (Nth : forall plex fl j, map (fun v => nth v plex 0%nat) fl = f -> length fl = D -> (j < D)%nat -> nth (nth j fl 0%nat) plex 0%nat = nth j f 0%nat).
    { intros plex fl j Mf Lf Hj. rewrite <- Mf. rewrite (nth_indep (map (fun v => nth v plex 0%nat) fl) 0%nat (nth 0 plex 0%nat)) by (rewrite map_length; lia).
      rewrite (map_nth (fun v => nth v plex 0%nat) fl 0%nat j). reflexivity. }
    assert (Lf : length f = D) by (rewrite <- M1, map_length; auto).
    exists m. change (gs_D G) with D. split; [|split].
    + intros d Hd. unfold ref_edge. rewrite (vdot_ext D m _ m (vdiff (X (nth d f 0%nat)) (X (nth 0 f 0%nat)))); [|reflexivity|].
      * apply H0, nth_In. lia.
      * intros i Hi. rewrite Im by (auto; apply B1, nth_In; lia). rewrite !(Nth plex1 f1) by (auto; lia). reflexivity.
    + rewrite (vdot_ext D m _ m (vdiff (X (nth (missing_vertex D f1) plex1 0%nat)) (X (nth 0 f 0%nat)))); [exact H1|reflexivity|].
      intros i Hi. unfold ref_inward. rewrite Im by (auto; try apply missing_le; apply B1, nth_In; lia). rewrite !(Nth plex1 f1) by (auto; lia). reflexivity.
    + rewrite (vdot_ext D m _ m (vdiff (X (nth (missing_vertex D f2) plex2 0%nat)) (X (nth 0 f 0%nat)))); [exact H2|reflexivity|].
      intros i Hi. unfold ref_inward. rewrite Im by (auto; try apply missing_le; apply B2, nth_In; lia). rewrite !(Nth plex2 f2) by (auto; lia). reflexivity.
Qed.
Print Assumptions straight_mesh_valid.
