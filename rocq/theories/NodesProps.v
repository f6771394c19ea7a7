(** C70: nodes of Legendre-Gauss-Lobatto type, warped and blended nodes of triangles and tetrahedra, and meshes of elements
    with such nodes. *)
Require Import List Arith Lia Reals Lra Permutation.
Require Import Verif.Base Verif.LinAlg Verif.CombinatoricsModel Verif.CombinatoricsProps Verif.SimplexModel Verif.TopoModel Verif.FaultModel Verif.GeometryModel Verif.GeometrySpec Verif.GeometryProofs Verif.GeometryProps Verif.PlexModel Verif.PlexSpec
  Verif.BasisModel Verif.BasisSpec Verif.IntegralSpec Verif.QuadratureModel Verif.QuadratureSpec Verif.RootsProps Verif.SpanProofs
  Verif.RefElementSpec Verif.RefElementModel Verif.RefElementProofs Verif.RefElementProps Verif.UnisolventProps Verif.ElasticModeProps Verif.NodesSpec Verif.NodesModel Verif.NodesProofs Verif.NodesFacets Verif.NodesConform.
Import ListNotations.
Local Open Scope R_scope.
Local Open Scope opt_scope.

(** C70a: the Legendre-Gauss-Lobatto points of degree N are N+1 different points: -1, 1 and the points in between where
    Legendre's polynomial of degree N is stationary.  They are in increasing order and symmetric, if Newton's iteration
    finds the roots in decreasing order. *)
Theorem lobatto_points : forall root N, (1 <= N)%nat -> jacobi_roots (N - 1) 1 1 (root (N - 1)%nat 1%nat 1%nat) ->
  exists gl, LegendreGaussLobattoPoints root (N + 1) 0 0 = Some gl /\ length gl = (N + 1)%nat /\ nth 0 gl 0 = -1 /\ nth N gl 0 = 1
  /\ (forall i, (0 < i < N)%nat -> -1 < nth i gl 0 < 1 /\ derivable_pt_lim (jacobi N 0 0) (nth i gl 0) 0)
  /\ (forall i j, (i <= N)%nat -> (j <= N)%nat -> nth i gl 0 = nth j gl 0 -> i = j)
  /\ (decreasing_roots root N -> (forall i j, (i < j <= N)%nat -> nth i gl 0 < nth j gl 0) /\ forall i, (i <= N)%nat -> nth (N - i) gl 0 = - nth i gl 0).
Proof.
  intros root N HN Hr. destruct (lobatto_list root N HN) as (gl & E & _). exists gl. split; [exact E |].
  split; [exact (gl_length root N gl HN E) |]. split; [exact (gl_first root N gl HN E) |]. split; [exact (gl_last root N gl HN E) |]. split; [| split].
  - intros i Hi. split; [exact (gl_inside root N gl HN Hr E i Hi) |]. exact (gl_stationary root N gl i HN Hr E Hi).
  - exact (gl_distinct root N gl HN Hr E).
  - intros Hd. split; [exact (gl_increasing root N gl HN Hr E Hd) | exact (gl_symmetric root N gl HN Hr Hd E)].
Qed.
Print Assumptions lobatto_points.

Lemma unisolvent_ext : forall D N nodes nodes', unisolvent D N nodes -> (forall x, In x nodes -> exists y : nat -> R, In y nodes' /\ forall d, (d < D)%nat -> x d = y d) -> unisolvent D N nodes'.
Proof.
  intros D N nodes nodes' U H f Hf Hz. apply (U f Hf). intros x Hx. destruct (H x Hx) as (y & Hy & E). rewrite <- (Hz y Hy). now apply (poly_ext D N f Hf).
Qed.
Lemma interval_to_ref : forall solve x, exact_solver solve -> general_to_ref solve 1 interval_verts (fun _ => x) 0%nat = (1 + x) / 2.
Proof.
  intros solve x Hs. rewrite (to_ref_bary solve 1 interval_verts (fun c => match c with 0%nat => (1 - x) / 2 | _ => (1 + x) / 2 end)); [reflexivity | exact Hs | exact interval_independent | | | lia].
  - cbn [rsum]. field.
  - intros d Hd. cbn [rsum interval_verts]. field.
Qed.
(** C70b: on the interval, warped and blended nodes are the Lobatto points and Gauss-Legendre nodes are the roots of
    Legendre's polynomial, both mapped to [0, 1]; either determine polynomials of degree N. *)
Theorem interval_nodes : forall solve root N, exact_solver solve ->
  (jacobi_roots (N - 1) 1 1 (root (N - 1)%nat 1%nat 1%nat) -> exists nodes, warp_and_blend_1 solve root N = Some nodes /\ length nodes = (N + 1)%nat /\ unisolvent 1 N nodes
     /\ forall k, (k <= N)%nat -> 0 <= nth k nodes (fun _ => 0) 0%nat <= 1
        /\ (forall gl, (1 <= N)%nat -> LegendreGaussLobattoPoints root (N + 1) 0 0 = Some gl -> nth k nodes (fun _ => 0) 0%nat = (1 + nth k gl 0) / 2))
  /\ (jacobi_roots (N + 1) 0 0 (root (N + 1)%nat 0%nat 0%nat) -> let nodes := gauss_legendre_nodes solve root N in length nodes = (N + 1)%nat /\ unisolvent 1 N nodes
     /\ forall k, (k <= N)%nat -> 0 < nth k nodes (fun _ => 0) 0%nat < 1 /\ jacobi (N + 1) 0 0 (2 * nth k nodes (fun _ => 0) 0%nat - 1) = 0).
Proof.
  intros solve root N Hs.
  assert (U : forall (x : nat -> R), (forall i j, (i <= N)%nat -> (j <= N)%nat -> x i = x j -> i = j) ->
     let nodes := map (fun i => general_to_ref solve 1 interval_verts (fun _ => x i)) (seq 0 (N + 1)) in
     length nodes = (N + 1)%nat /\ unisolvent 1 N nodes /\ forall k, (k <= N)%nat -> nth k nodes (fun _ => 0) 0%nat = (1 + x k) / 2).
  { intros x Hx nodes. split; [unfold nodes; now rewrite map_length, seq_length |]. split.
    - apply (unisolvent_ext 1 N (map (fun i => IntegralSpec.pt ((1 + x i) / 2) 0 0) (seq 0 (N + 1)))).
      + apply (interval_unisolvent N (fun i => (1 + x i) / 2)). intros i j Hi Hj E. apply Hx; auto. lra.
      + intros y Hy. apply in_map_iff in Hy as (i & <- & Hi). exists (general_to_ref solve 1 interval_verts (fun _ => x i)). split; [unfold nodes; apply in_map_iff; eauto |].
        intros d Hd. replace d with 0%nat by lia. rewrite interval_to_ref by exact Hs. reflexivity.
    - intros k Hk. unfold nodes. set (g := fun i => general_to_ref solve 1 interval_verts (fun _ => x i)). 
      rewrite (nth_indep (map g (seq 0 (N + 1))) (fun _ => 0) (g 0%nat)) by (rewrite map_length, seq_length; lia). rewrite map_nth, seq_nth by lia. unfold g. now apply interval_to_ref. }
  split.
  - intros Hr. unfold warp_and_blend_1. destruct (Nat.ltb_spec 0 N) as [HN | HN].
    + destruct (lobatto_points root N HN Hr) as (gl & -> & L & F & La & In & Di & _). cbn [bind]. eexists. split; [reflexivity |].
      destruct (U (fun i => nth i gl 0) Di) as (A & B & C).
      assert (EM : map (fun x => general_to_ref solve 1 interval_verts (fun _ => x)) gl = map (fun i => general_to_ref solve 1 interval_verts (fun _ => nth i gl 0)) (seq 0 (N + 1))).
      { apply (nth_ext _ _ (general_to_ref solve 1 interval_verts (fun _ => 0)) (general_to_ref solve 1 interval_verts (fun _ => nth 0%nat gl 0))); [rewrite !map_length, seq_length; lia |].
        intros n Hn. rewrite map_length in Hn. rewrite (map_nth (fun x => general_to_ref solve 1 interval_verts (fun _ => x)) gl 0).
        rewrite (map_nth (fun i => general_to_ref solve 1 interval_verts (fun _ => nth i gl 0)) (seq 0 (N + 1)) 0%nat). rewrite seq_nth by lia. reflexivity. }
      rewrite EM. split; [exact A |]. split; [exact B |]. intros k Hk. rewrite C by exact Hk. split.
      * destruct (Nat.eq_dec k 0) as [-> | K0]; [rewrite F; lra |]. destruct (Nat.eq_dec k N) as [-> | KN]; [rewrite La; lra |]. destruct (In k ltac:(lia)). lra.
      * intros gl' _ E. injection E as <-. reflexivity.
    + assert (N = 0)%nat by lia. subst N. cbn [bind]. eexists. split; [reflexivity |].
      destruct (U (fun _ => 0) ltac:(intros; lia)) as (A & B & C). cbn [map seq Nat.add] in A, B, C. split; [exact A |]. split; [exact B |].
      intros k Hk. cbn [map]. rewrite C by exact Hk. split; [lra | intros; lia].
  - intros Hr nodes. unfold nodes, gauss_legendre_nodes. cbn [ir_x GaussJacobi]. set (x := root (N + 1)%nat 0%nat 0%nat) in *.
    assert (Di : forall i j, (i <= N)%nat -> (j <= N)%nat -> x i = x j -> i = j) by (intros i j Hi Hj; apply (proj2 Hr); lia).
    destruct (U x Di) as (A & B & C). split; [exact A |]. split; [exact B |]. intros k Hk. rewrite C by exact Hk. split.
    + pose proof (roots_inside (N + 1) 0 0 x k Hr ltac:(lia)). lra.
    + replace (2 * ((1 + x k) / 2) - 1) with (x k) by field. apply (proj1 Hr). lia.
Qed.
Print Assumptions interval_nodes.

(** ** Facets of warped and blended nodes *)
Lemma map_opt_total {A B} (f : A -> option B) l : (forall a, In a l -> exists b, f a = Some b) -> exists r, map_opt f l = Some r /\ length r = length l
  /\ (forall a b, In a l -> f a = Some b -> In b r) /\ forall b, In b r -> exists a, In a l /\ f a = Some b.
Proof.
  induction l as [| a l IH]; intros H; cbn [map_opt].
  - exists []. cbn. repeat split; auto; intros; contradiction.
  - destruct (H a ltac:(now left)) as (b & Eb). destruct IH as (r & -> & L & I1 & I2); [intros; apply H; now right |]. rewrite Eb. cbn [bind]. exists (b :: r). split; [reflexivity |]. split; [cbn; lia |]. split.
    + intros a' b' [<- | Ha] E'; [left; congruence | right; eauto].
    + intros b' [<- | Hb]; [exists a; split; auto; now left | destruct (I2 b' Hb) as (a' & Ha & E'); exists a'; split; auto; now right].
Qed.
Lemma eps_small : forall solve root eps N, (1 <= N)%nat -> sound_numerics solve root eps N -> 0 < eps < / INR N.
Proof.
  intros solve root eps N HN [_ _ P S]. split; [exact P |]. assert (N1 : 1 <= INR N) by (change 1 with (INR 1); now apply le_INR). set (n := INR N) in *.
  apply (Rmult_lt_reg_r n); [lra |]. rewrite Rinv_l by lra. assert (n * 1 <= n * (n * n)) by (apply Rmult_le_compat_l; [lra |]; nra).
  assert (eps * n <= eps * (n * n * n)) by (apply Rmult_le_compat_l; lra). lra.
Qed.
(** The multi-index of a node of facet f, from its index on the facet. *)
Definition facet_index (D N : nat) (f i : list nat) : list nat :=
  map (fun d => fold_left (fun s j => if (nth j f 0 =? S d)%nat then (s + match j with 0 => N - list_sum i | S e => nth e i 0 end)%nat else s) (seq 0 D) 0%nat) (seq 0 D).
Lemma edge_rows : forall N f k, (1 <= N)%nat -> (k <= N)%nat -> In f [[0; 1]; [0; 2]; [1; 2]]%nat -> let L := node_row 2 N (facet_index 2 N f [k]) in
  (length (facet_index 2 N f [k]) = 2 /\ list_sum (facet_index 2 N f [k]) <= N)%nat /\ L (missing_vertex 2 f) = 0 /\ L (nth 1 f 0%nat) = INR k / INR N.
Proof.
  intros N f k HN Hk Hf. assert (P : INR N <> 0) by (apply not_0_INR; lia).
  destruct Hf as [<- | [<- | [<- | []]]]; cbn; rewrite ?Nat.add_0_r; (split; [split; [reflexivity | lia] |]); split; try reflexivity; try (unfold Rdiv; ring).
  rewrite minus_INR by lia. field. exact P.
Qed.
Lemma face_rows : forall N f i, (1 <= N)%nat -> length i = 2%nat -> (list_sum i <= N)%nat -> In f [[0; 1; 2]; [0; 1; 3]; [0; 2; 3]; [1; 2; 3]]%nat -> let L := node_row 3 N (facet_index 3 N f i) in
  (length (facet_index 3 N f i) = 3 /\ list_sum (facet_index 3 N f i) <= N)%nat /\ L (missing_vertex 3 f) = 0 /\ forall c, (c < 3)%nat -> L (nth c f 0%nat) = node_row 2 N i c.
Proof.
  intros N f [| a [| b [| ]]] HN L2 Hs Hf; try discriminate L2. cbn in Hs. rewrite Nat.add_0_r in Hs. assert (P : INR N <> 0) by (apply not_0_INR; lia).
  assert (M : INR (N - (a + b)) = INR N - INR a - INR b) by (rewrite minus_INR, plus_INR by lia; ring).
  destruct Hf as [<- | [<- | [<- | [<- | []]]]]; cbn; rewrite ?Nat.add_0_r; (split; [split; [reflexivity | lia] |]);
  (split; [rewrite ?M; field; exact P || (unfold Rdiv; ring) |]); intros [| [| [| c]]] Hc; try lia; cbn; rewrite ?M; try reflexivity; field; exact P.
Qed.

(** C70c: on every edge of the triangle lie the warped and blended nodes of the interval. *)
Theorem triangle_edge_nodes : forall solve root eps alpha N mi, (1 <= N)%nat -> runs_through 2 N mi -> sound_numerics solve root eps N ->
  exists nodes1 nodes2, warp_and_blend_1 solve root N = Some nodes1 /\ warp_and_blend_2 solve root eps alpha N mi = Some nodes2
  /\ length nodes2 = length mi /\ on_facets 2 nodes2 nodes1.
Proof.
  intros solve root eps alpha N mi HN [fuel E] SN. destruct (sums_multiindices fuel 2 N mi ltac:(lia) E) as [Hmi Hb]. clear E.
  pose proof (eps_small solve root eps N HN SN) as He. destruct SN as [Hs Hr _ _].
  destruct (proj1 (interval_nodes solve root N Hs) Hr) as (nodes1 & E1 & L1 & _ & X1).
  destruct (lobatto_points root N HN Hr) as (gl & Hgl & _). unfold warp_and_blend_2. replace (0 <? N)%nat with true by (symmetry; apply Nat.ltb_lt; lia).
  destruct (map_opt_total (fun i => node2 solve root eps N alpha (node_row 2 N i)) mi) as (nodes2 & E2 & L2 & I2 & _).
  { intros i Hi. destruct (node2_value solve root eps N gl Hs Hgl alpha (node_row 2 N i) (row_sum 2 N i)) as (x & Ex & _). eauto. }
  exists nodes1, nodes2. split; [exact E1 |]. split; [exact E2 |]. split; [exact L2 |].
  intros fs f c Hfs Hf Hc. rewrite f2v_2 in Hfs. injection Hfs as <-. destruct (In_nth nodes1 c (fun _ => 0) Hc) as (k & Hk & <-). rewrite L1 in Hk. destruct (X1 k ltac:(lia)) as [_ X]. specialize (X gl HN Hgl).
  destruct (edge_rows N f k HN ltac:(lia) Hf) as ([LI SI] & Z & B).
  destruct (node_on_edge solve root eps N gl HN Hs Hgl He alpha _ f k Hf ltac:(lia) Z B (row_sum 2 N _)) as (x & Ex & Vx).
  exists x. split; [apply (I2 (facet_index 2 N f [k])); [now apply (proj2 Hmi) | exact Ex] |].
  intros d Hd. rewrite Vx by exact Hd. unfold facet_param. cbn [Nat.sub rsum]. now rewrite X.
Qed.
Print Assumptions triangle_edge_nodes.

(** The node of a tetrahedron for a row of L. *)
Definition node3 (solve : nat -> (nat -> nat -> R) -> (nat -> R) -> nat -> R) (root : nat -> nat -> nat -> nat -> R) (eps : R) (N : nat) (alpha : R) (L : nat -> R) : option (nat -> R) :=
  do facets <- f2v 3;
  do shift <- fold_left (fun r facet => do result <- r; blend_facet solve root eps N alpha L result facet) facets (Some (fun _ => 0));
  Some (general_to_ref solve 3 equilateralTetrahedron (fun d => shift d + rsum 4 (fun c => L c * equilateralTetrahedron c d))).
Lemma node3_total : forall solve root eps N gl alpha L, LegendreGaussLobattoPoints root (N + 1) 0 0 = Some gl -> exists x, node3 solve root eps N alpha L = Some x.
Proof.
  intros solve root eps N gl alpha L Hgl. unfold node3. rewrite f2v_3. cbn [bind fold_left].
  destruct (blend_face solve root eps N gl Hgl alpha L [0; 1; 2]%nat (fun _ => 0) (fun _ => 0) ltac:(cbn; tauto)) as (r1 & -> & R1); [intros d Hd; rewrite rsum_zero; auto; intros; ring |]. cbn [bind].
  destruct (blend_face solve root eps N gl Hgl alpha L [0; 1; 3]%nat r1 _ ltac:(cbn; tauto) R1) as (r2 & -> & R2). cbn [bind].
  destruct (blend_face solve root eps N gl Hgl alpha L [0; 2; 3]%nat r2 _ ltac:(cbn; tauto) R2) as (r3 & -> & R3). cbn [bind].
  destruct (blend_face solve root eps N gl Hgl alpha L [1; 2; 3]%nat r3 _ ltac:(cbn; tauto) R3) as (r4 & -> & R4). cbn [bind]. eauto.
Qed.
Lemma node3_face : forall solve root eps N gl alpha L f, (1 <= N)%nat -> sound_numerics solve root eps N -> LegendreGaussLobattoPoints root (N + 1) 0 0 = Some gl ->
  lattice_row N 3 L -> In f [[0; 1; 2]; [0; 1; 3]; [0; 2; 3]; [1; 2; 3]]%nat -> L (missing_vertex 3 f) = 0 ->
  exists x y, node3 solve root eps N alpha L = Some x /\ node2 solve root eps N alpha (on_face L f) = Some y /\ forall d, (d < 3)%nat -> x d = facet_param 3 f y d.
Proof.
  intros solve root eps N gl alpha L f HN SN Hgl HL Hf Z. pose proof (eps_small solve root eps N HN SN) as He. destruct SN as [Hs Hr Pe Hsm].
  destruct (shift_on_face solve root eps N gl HN Hgl He Hsm alpha L f HL Hf Z) as (r & Er & Vr).
  assert (S1 : rsum 3 (on_face L f) = 1).
  { destruct HL as [_ S1]. cbn [rsum] in *. unfold on_face. destruct Hf as [<- | [<- | [<- | [<- | []]]]]; cbv [missing_vertex referenceSimplex nth filter existsb negb Nat.eqb seq orb Nat.add] in Z; cbn [nth]; lra. }
  destruct (node2_value solve root eps N gl Hs Hgl alpha (on_face L f) S1) as (y & Ey & Vy).
  unfold node3. rewrite f2v_3. cbn [bind]. rewrite Er. cbn [bind]. eexists; exists y. split; [reflexivity |]. split; [exact Ey |].
  intros d Hd. rewrite (to_ref_bary solve 3 equilateralTetrahedron (fun c => L c + face_shift solve eps N gl alpha L f c)); [| exact Hs | exact equilateral_3 | | | exact Hd].
  - pose proof (shift_sum solve eps N gl alpha (on_face L f)) as S0. unfold face_shift, facet_param. cbn [rsum Nat.sub] in *. rewrite !Vy by lia. set (s := tri_shift solve eps N gl alpha (on_face L f)) in *.
    unfold on_face in *. destruct HL as [_ SL]. cbn [rsum] in SL.
    destruct Hf as [<- | [<- | [<- | [<- | []]]]]; cbv [missing_vertex referenceSimplex nth filter existsb negb Nat.eqb seq orb Nat.add] in Z; destruct d as [| [| [| d]]]; try lia; unfold ref_vertex; cbn [nth Nat.eqb] in *; lra.
  - rewrite rsum_plus. pose proof (shift_sum solve eps N gl alpha (on_face L f)) as S0. rewrite (proj2 HL). unfold face_shift. cbn [rsum] in *. set (s := tri_shift solve eps N gl alpha (on_face L f)) in *.
    destruct Hf as [<- | [<- | [<- | [<- | []]]]]; cbn [nth Nat.eqb]; lra.
  - intros e Hed. rewrite Vr by exact Hed. rewrite <- rsum_plus. apply rsum_ext. intros; ring.
Qed.
Lemma row_lattice : forall N i, (1 <= N)%nat -> length i = 3%nat -> (list_sum i <= N)%nat -> lattice_row N 3 (node_row 3 N i).
Proof.
  intros N [| a [| b [| c [|]]]] HN LI SI; try discriminate LI. cbn in SI. rewrite Nat.add_0_r in SI. split; [| apply row_sum]. intros v Hv.
  assert (P : INR N <> 0) by (apply not_0_INR; lia).
  destruct v as [| [| [| [| v]]]]; try lia; [exists (N - (a + (b + c)))%nat | exists a | exists b | exists c]; cbn; try reflexivity.
  rewrite minus_INR, !plus_INR by lia. field. exact P.
Qed.
Lemma tri_shift_ext : forall solve eps N gl alpha L L' c, (forall d, (d < 3)%nat -> L d = L' d) -> tri_shift solve eps N gl alpha L c = tri_shift solve eps N gl alpha L' c.
Proof. intros solve eps N gl alpha L L' c H. unfold tri_shift, edge_warp. rewrite !H by lia. reflexivity. Qed.

(** C70d: on every face of the tetrahedron lie the warped and blended nodes of the triangle, made with the same alpha. *)
Theorem tetrahedron_face_nodes : forall solve root eps alpha N mi2 mi3, (1 <= N)%nat -> runs_through 2 N mi2 -> runs_through 3 N mi3 -> sound_numerics solve root eps N ->
  exists nodes2 nodes3, warp_and_blend_2 solve root eps alpha N mi2 = Some nodes2 /\ warp_and_blend_3 solve root eps alpha N mi3 = Some nodes3
  /\ length nodes3 = length mi3 /\ on_facets 3 nodes3 nodes2.
Proof.
  intros solve root eps alpha N mi2 mi3 HN [fuel2 F2] [fuel3 F3] SN. destruct (sums_multiindices fuel2 2 N mi2 ltac:(lia) F2) as [Hmi2 _]. destruct (sums_multiindices fuel3 3 N mi3 ltac:(lia) F3) as [Hmi3 _]. clear F2 F3.
  pose proof (sn_solve _ _ _ _ SN) as Hs. destruct (lobatto_points root N HN (sn_roots _ _ _ _ SN)) as (gl & Hgl & _).
  unfold warp_and_blend_2, warp_and_blend_3. replace (0 <? N)%nat with true by (symmetry; apply Nat.ltb_lt; lia).
  destruct (map_opt_total (fun i => node2 solve root eps N alpha (node_row 2 N i)) mi2) as (nodes2 & E2 & L2 & _ & I2).
  { intros i Hi. destruct (node2_value solve root eps N gl Hs Hgl alpha (node_row 2 N i) (row_sum 2 N i)) as (x & Ex & _). eauto. }
  destruct (map_opt_total (fun i => node3 solve root eps N alpha (node_row 3 N i)) mi3) as (nodes3 & E3 & L3 & I3 & _).
  { intros i Hi. eapply node3_total. exact Hgl. }
  exists nodes2, nodes3. split; [exact E2 |]. split; [exact E3 |]. split; [exact L3 |].
  intros fs f c Hfs Hf Hc. rewrite f2v_3 in Hfs. injection Hfs as <-. destruct (I2 c Hc) as (i & Hi & Ec). apply (proj2 Hmi2) in Hi as [LI SI].
  destruct (face_rows N f i HN LI SI Hf) as ([LJ SJ] & Z & B).
  destruct (node3_face solve root eps N gl alpha _ f HN SN Hgl (row_lattice N _ HN LJ SJ) Hf Z) as (x & y & Ex & Ey & Vx).
  exists x. split; [apply (I3 (facet_index 3 N f i)); [now apply (proj2 Hmi3) | exact Ex] |].
  intros d Hd. rewrite Vx by exact Hd.
  destruct (node2_value solve root eps N gl Hs Hgl alpha (node_row 2 N i) (row_sum 2 N i)) as (c' & Ec' & Vc). rewrite Ec in Ec'. injection Ec' as <-.
  assert (S1 : rsum 3 (on_face (node_row 3 N (facet_index 3 N f i)) f) = 1) by (rewrite <- (row_sum 2 N i); apply rsum_ext; intros k Hk; unfold on_face; now apply B).
  destruct (node2_value solve root eps N gl Hs Hgl alpha (on_face (node_row 3 N (facet_index 3 N f i)) f) S1) as (y' & Ey' & Vy). rewrite Ey in Ey'. injection Ey' as <-.
  assert (Q : forall e, (e < 2)%nat -> y e = c e).
  { intros e He. rewrite Vy, Vc by exact He. unfold on_face at 1. rewrite B by lia. f_equal. apply tri_shift_ext. intros k Hk. unfold on_face. now apply B. }
  unfold facet_param. cbn [Nat.sub rsum]. now rewrite !Q by lia.
Qed.
Print Assumptions tetrahedron_face_nodes.
