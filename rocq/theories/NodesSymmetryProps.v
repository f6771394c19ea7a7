(** C70: symmetry of warped and blended nodes; degrees one and two. *)
Require Import List Arith Lia Reals Lra Permutation.
Require Import Verif.Base Verif.LinAlg Verif.CombinatoricsModel Verif.CombinatoricsProps Verif.SimplexModel Verif.TopoModel Verif.FaultModel Verif.GeometryModel Verif.GeometrySpec Verif.GeometryProofs Verif.GeometryProps Verif.PlexModel Verif.PlexSpec
  Verif.BasisModel Verif.BasisSpec Verif.IntegralSpec Verif.QuadratureModel Verif.QuadratureSpec Verif.RootsProps Verif.SpanProofs
  Verif.RefElementSpec Verif.RefElementModel Verif.RefElementProofs Verif.RefElementProps Verif.UnisolventProps Verif.ElasticModeProps Verif.NodesSpec Verif.NodesModel Verif.NodesProofs Verif.NodesFacets Verif.NodesConform Verif.NodesProps.
Import ListNotations.
Local Open Scope R_scope.
Local Open Scope opt_scope.

Section Symmetry.
Variables (solve : nat -> (nat -> nat -> R) -> (nat -> R) -> nat -> R) (root : nat -> nat -> nat -> nat -> R) (eps : R) (N : nat) (gl : list R).
Hypothesis HN : (1 <= N)%nat.
Hypothesis SN : sound_numerics solve root eps N.
Hypothesis Hdec : decreasing_roots root N.
Hypothesis Hgl : LegendreGaussLobattoPoints root (N + 1) 0 0 = Some gl.
Local Notation W := (warpfactor solve eps N gl).
Lemma W_odd : forall a b, W (a - b) = - W (b - a).
Proof.
  intros a b. replace (a - b) with (- (b - a)) by ring. apply (warpfactor_odd solve eps N gl HN (sn_solve _ _ _ _ SN)).
  exact (gl_symmetric root N gl HN (sn_roots _ _ _ _ SN) Hdec Hgl).
Qed.
Lemma shift_symmetric : forall alpha L s c, (forall c, (c < 3)%nat -> (s c < 3)%nat) -> (forall c c', (c < 3)%nat -> (c' < 3)%nat -> s c = s c' -> c = c') -> (c < 3)%nat ->
  tri_shift solve eps N gl alpha (fun c => L (s c)) c = tri_shift solve eps N gl alpha L (s c).
Proof.
  intros alpha L s c Hr Hi Hc.
  pose proof (Hr 0%nat ltac:(lia)) as R0. pose proof (Hr 1%nat ltac:(lia)) as R1. pose proof (Hr 2%nat ltac:(lia)) as R2.
  pose proof (Hi 0%nat 1%nat ltac:(lia) ltac:(lia)) as D01. pose proof (Hi 0%nat 2%nat ltac:(lia) ltac:(lia)) as D02. pose proof (Hi 1%nat 2%nat ltac:(lia) ltac:(lia)) as D12.
  pose proof (W_odd (L 0%nat) (L 1%nat)) as W01. pose proof (W_odd (L 0%nat) (L 2%nat)) as W02. pose proof (W_odd (L 1%nat) (L 2%nat)) as W12.
  unfold tri_shift, edge_warp. destruct (s 0%nat) as [| [| [| s0]]] eqn:E0; try lia; destruct (s 1%nat) as [| [| [| s1]]] eqn:E1; try lia; destruct (s 2%nat) as [| [| [| s2]]] eqn:E2; try lia;
  destruct c as [| [| [| c]]]; try lia; rewrite ?E0, ?E1, ?E2, ?W01, ?W02, ?W12; field.
Qed.
End Symmetry.

(** C70h: the warped and blended nodes of the triangle are the same whichever way its vertices are numbered: permuting the
    barycentric coordinates of a node gives a node. *)
Theorem triangle_nodes_symmetric : forall solve root eps alpha N mi nodes s, (1 <= N)%nat -> runs_through 2 N mi -> sound_numerics solve root eps N -> decreasing_roots root N ->
  warp_and_blend_2 solve root eps alpha N mi = Some nodes ->
  (forall c, (c < 3)%nat -> (s c < 3)%nat) -> (forall c c', (c < 3)%nat -> (c' < 3)%nat -> s c = s c' -> c = c') ->
  forall x, In x nodes -> exists y, In y nodes /\ forall c, (c < 3)%nat -> bcoord 2 y c = bcoord 2 x (s c).
Proof.
  intros solve root eps alpha N mi nodes s HN [fuel Em] SN Hdec E Hr Hi x Hx. destruct (sums_multiindices fuel 2 N mi ltac:(lia) Em) as [Hmi _]. clear Em.
  pose proof (sn_solve _ _ _ _ SN) as Hs. destruct (lobatto_points root N HN (sn_roots _ _ _ _ SN)) as (gl & Hgl & _).
  unfold warp_and_blend_2 in E. replace (0 <? N)%nat with true in E by (symmetry; apply Nat.ltb_lt; lia).
  destruct (map_opt_total (fun i => node2 solve root eps N alpha (node_row 2 N i)) mi) as (n2 & En2 & _ & I2 & I2').
  { intros j Hj. destruct (node2_value solve root eps N gl Hs Hgl alpha (node_row 2 N j) (row_sum 2 N j)) as (z & Ez & _). eauto. }
  assert (EQ : Some nodes = Some n2) by (rewrite <- E, <- En2; reflexivity). injection EQ as ->. clear E En2.
  assert (BC : forall i z, node2 solve root eps N alpha (node_row 2 N i) = Some z -> forall c, (c < 3)%nat -> bcoord 2 z c = node_row 2 N i c + tri_shift solve eps N gl alpha (node_row 2 N i) c).
  { intros i z Ez c Hc. destruct (node2_value solve root eps N gl Hs Hgl alpha (node_row 2 N i) (row_sum 2 N i)) as (z' & Ez' & V). rewrite Ez in Ez'. injection Ez' as <-.
    destruct c as [| c]; [| cbn [bcoord]; apply V; lia]. cbn [bcoord rsum]. rewrite !V by lia. pose proof (row_sum 2 N i) as S1. pose proof (shift_sum solve eps N gl alpha (node_row 2 N i)) as S0. cbn [rsum] in S0, S1. lra. }
  destruct (I2' x Hx) as (i & Hin & Ex). apply (proj2 Hmi) in Hin as [LI SI]. destruct i as [| a [| b [|]]]; try discriminate LI. cbn in SI. rewrite Nat.add_0_r in SI.
  set (full := [N - (a + b); a; b]%nat). set (j := [nth (s 1%nat) full 0; nth (s 2%nat) full 0]%nat).
  assert (P : INR N <> 0) by (apply not_0_INR; lia).
  assert (M : INR (N - (a + b)) = INR N - INR a - INR b) by (rewrite minus_INR, plus_INR by lia; ring).
  pose proof (Hr 0%nat ltac:(lia)) as R0. pose proof (Hr 1%nat ltac:(lia)) as R1. pose proof (Hr 2%nat ltac:(lia)) as R2.
  pose proof (Hi 0%nat 1%nat ltac:(lia) ltac:(lia)) as D01. pose proof (Hi 0%nat 2%nat ltac:(lia) ltac:(lia)) as D02. pose proof (Hi 1%nat 2%nat ltac:(lia) ltac:(lia)) as D12.
  assert (J : (length j = 2 /\ list_sum j <= N)%nat /\ forall c, (c < 3)%nat -> node_row 2 N j c = node_row 2 N [a; b] (s c)).
  { unfold j, full. clear I2 I2' BC Hx Ex.
    destruct (s 0%nat) as [| [| [| s0]]] eqn:E0; try lia; destruct (s 1%nat) as [| [| [| s1]]] eqn:E1; try lia; destruct (s 2%nat) as [| [| [| s2]]] eqn:E2; try lia; cbn [nth length list_sum fold_right];
    (split; [cbn; lia |]); intros [| [| [| c]]] Hc; try lia; rewrite ?E0, ?E1, ?E2; cbn [node_row rsum nth]; rewrite ?M; try reflexivity; field; exact P. }
  destruct J as ([LJ SJ] & J). destruct (node2_value solve root eps N gl Hs Hgl alpha (node_row 2 N j) (row_sum 2 N j)) as (y & Ey & _).
  exists y. split; [apply (I2 j); [now apply (proj2 Hmi) | exact Ey] |]. intros c Hc. rewrite (BC j y Ey c Hc), (BC [a; b] x Ex (s c) (Hr c Hc)), J by exact Hc. f_equal.
  rewrite (tri_shift_ext solve eps N gl alpha _ (fun c => node_row 2 N [a; b] (s c)) c J).
  now apply (shift_symmetric solve root eps N gl HN SN Hdec Hgl).
Qed.
Print Assumptions triangle_nodes_symmetric.

(** ** Degrees one and two *)
Lemma low_points : forall root N gl k, (1 <= N <= 2)%nat -> jacobi_roots (N - 1) 1 1 (root (N - 1)%nat 1%nat 1%nat) -> LegendreGaussLobattoPoints root (N + 1) 0 0 = Some gl -> (k <= N)%nat ->
  (1 + nth k gl 0) / 2 = INR k / INR N.
Proof.
  intros root N gl k HN Hr Hgl Hk. pose proof (gl_first root N gl ltac:(lia) Hgl) as F. pose proof (gl_last root N gl ltac:(lia) Hgl) as La.
  destruct (Nat.eq_dec k 0) as [-> | K0]; [rewrite F; simpl (INR 0); unfold Rdiv; ring |].
  destruct (Nat.eq_dec k N) as [-> | KN]; [rewrite La; field; apply not_0_INR; lia |].
  assert (N = 2 /\ k = 1)%nat as [-> ->] by lia. rewrite (gl_inner root 2 gl ltac:(lia) Hgl 1%nat ltac:(lia)). cbn [Nat.sub] in *.
  pose proof (proj1 Hr 0%nat ltac:(lia)) as Z. unfold jacobi, jacobi_coeff, factR in Z. cbn [rsum Nat.add Nat.sub] in Z.
  replace (root 1%nat 1%nat 1%nat 0%nat) with 0; [simpl; field |]. simpl in Z. lra.
Qed.
Lemma lattice_sum : forall N D L, (1 <= N)%nat -> lattice_row N D L -> exists m : nat -> nat, (forall c, (c <= D)%nat -> L c = INR (m c) / INR N) /\ rsum (S D) (fun c => INR (m c)) = INR N.
Proof.
  intros N D L HN [H S1]. assert (P : INR N <> 0) by (apply not_0_INR; lia).
  assert (C : forall n, (n <= S D)%nat -> exists m : nat -> nat, forall c, (c < n)%nat -> L c = INR (m c) / INR N).
  { induction n as [| n IH]; intros Hn; [exists (fun _ => 0%nat); lia |]. destruct (IH ltac:(lia)) as (m & Hm). destruct (H n ltac:(lia)) as (k & Hk).
    exists (fun c => if (c =? n)%nat then k else m c). intros c Hc. destruct (Nat.eqb_spec c n) as [-> |]; [exact Hk | apply Hm; lia]. }
  destruct (C (S D) ltac:(lia)) as (m & Hm). exists m. split; [intros c Hc; apply Hm; lia |].
  rewrite (rsum_ext (S D) L (fun c => / INR N * INR (m c))) in S1 by (intros c Hc; rewrite Hm by exact Hc; unfold Rdiv; ring). rewrite rsum_scale in S1.
  apply (Rmult_eq_reg_l (/ INR N)); [| now apply Rinv_neq_0_compat]. rewrite S1. field. exact P.
Qed.
Lemma sum3 : forall a b c N, 0 + INR a + INR b + INR c = INR N -> (a + b + c = N)%nat.
Proof. intros a b c N H. apply INR_eq. rewrite !plus_INR. lra. Qed.
Lemma sum4 : forall a b c d N, 0 + INR a + INR b + INR c + INR d = INR N -> (a + b + c + d = N)%nat.
Proof. intros a b c d N H. apply INR_eq. rewrite !plus_INR. lra. Qed.
Lemma low_triangle : forall solve root eps N alpha L, (1 <= N <= 2)%nat -> sound_numerics solve root eps N -> lattice_row N 2 L ->
  exists x, node2 solve root eps N alpha L = Some x /\ forall d, (d < 2)%nat -> x d = L (S d).
Proof.
  intros solve root eps N alpha L HN SN HL. pose proof (eps_small solve root eps N ltac:(lia) SN) as He. destruct SN as [Hs Hr _ _].
  destruct (lobatto_points root N ltac:(lia) Hr) as (gl & Hgl & _). destruct (lattice_sum N 2 L ltac:(lia) HL) as (m & Hm & Sm). cbn [rsum] in Sm. apply sum3 in Sm.
  assert (P : INR N <> 0) by (apply not_0_INR; lia). destruct HL as [_ S1]. pose proof S1 as S2. cbn [rsum] in S2.
  assert (Z : forall v, (v <= 2)%nat -> m v = 0%nat -> L v = 0) by (intros v Hv E; rewrite Hm, E by exact Hv; simpl (INR 0); unfold Rdiv; ring).
  assert (K : m 2%nat = 0%nat \/ m 1%nat = 0%nat \/ m 0%nat = 0%nat) by lia. destruct K as [K | [K | K]].
  - destruct (node_on_edge solve root eps N gl ltac:(lia) Hs Hgl He alpha L [0; 1]%nat (m 1%nat) ltac:(cbn; tauto) ltac:(lia)) as (x & Ex & V); [apply Z; auto | apply Hm; auto | exact S1 |].
    exists x. split; [exact Ex |]. intros d Hd. rewrite V, (low_points root N gl (m 1%nat)) by (auto; lia). rewrite <- Hm by lia. pose proof (Z 2%nat ltac:(lia) K) as L2.
    unfold facet_param. cbn [Nat.sub rsum nth]. destruct d as [| [| d]]; try lia; unfold ref_vertex; cbn [Nat.eqb]; lra.
  - destruct (node_on_edge solve root eps N gl ltac:(lia) Hs Hgl He alpha L [0; 2]%nat (m 2%nat) ltac:(cbn; tauto) ltac:(lia)) as (x & Ex & V); [apply Z; auto | apply Hm; auto | exact S1 |].
    exists x. split; [exact Ex |]. intros d Hd. rewrite V, (low_points root N gl (m 2%nat)) by (auto; lia). rewrite <- Hm by lia. pose proof (Z 1%nat ltac:(lia) K) as L2.
    unfold facet_param. cbn [Nat.sub rsum nth]. destruct d as [| [| d]]; try lia; unfold ref_vertex; cbn [Nat.eqb]; lra.
  - destruct (node_on_edge solve root eps N gl ltac:(lia) Hs Hgl He alpha L [1; 2]%nat (m 2%nat) ltac:(cbn; tauto) ltac:(lia)) as (x & Ex & V); [apply Z; auto; lia | apply Hm; auto | exact S1 |].
    exists x. split; [exact Ex |]. intros d Hd. rewrite V, (low_points root N gl (m 2%nat)) by (auto; lia). rewrite <- Hm by lia. pose proof (Z 0%nat ltac:(lia) K) as L2.
    unfold facet_param. cbn [Nat.sub rsum nth]. destruct d as [| [| d]]; try lia; unfold ref_vertex; cbn [Nat.eqb]; lra.
Qed.
Lemma low_tetrahedron : forall solve root eps N alpha L, (1 <= N <= 2)%nat -> sound_numerics solve root eps N -> lattice_row N 3 L ->
  exists x, node3 solve root eps N alpha L = Some x /\ forall d, (d < 3)%nat -> x d = L (S d).
Proof.
  intros solve root eps N alpha L HN SN HL. destruct (lobatto_points root N ltac:(lia) (sn_roots _ _ _ _ SN)) as (gl & Hgl & _).
  destruct (lattice_sum N 3 L ltac:(lia) HL) as (m & Hm & Sm). cbn [rsum] in Sm. apply sum4 in Sm. pose proof (proj2 HL) as S1. cbn [rsum] in S1.
  assert (Z : forall v, (v <= 3)%nat -> m v = 0%nat -> L v = 0) by (intros v Hv E; rewrite Hm, E by exact Hv; simpl (INR 0); unfold Rdiv; ring).
  assert (F : exists f, In f [[0; 1; 2]; [0; 1; 3]; [0; 2; 3]; [1; 2; 3]]%nat /\ L (missing_vertex 3 f) = 0).
  { assert (K : m 3%nat = 0%nat \/ m 2%nat = 0%nat \/ m 1%nat = 0%nat \/ m 0%nat = 0%nat) by lia.
    destruct K as [K | [K | [K | K]]]; [exists [0; 1; 2]%nat | exists [0; 1; 3]%nat | exists [0; 2; 3]%nat | exists [1; 2; 3]%nat]; (split; [cbn; tauto |]); apply Z; auto; cbn; lia. }
  destruct F as (f & Hf & Zf). destruct (node3_face solve root eps N gl alpha L f ltac:(lia) SN Hgl HL Hf Zf) as (x & y & Ex & Ey & V).
  exists x. split; [exact Ex |]. intros d Hd. rewrite V by exact Hd.
  assert (LR : lattice_row N 2 (on_face L f)).
  { split.
    - intros c Hc. unfold on_face. apply (proj1 HL). destruct Hf as [<- | [<- | [<- | [<- | []]]]]; destruct c as [| [| [| c]]]; cbn; lia.
    - unfold on_face. cbn [rsum]. destruct Hf as [<- | [<- | [<- | [<- | []]]]]; cbv [missing_vertex referenceSimplex nth filter existsb negb Nat.eqb seq orb Nat.add] in Zf; cbn [nth]; lra. }
  destruct (low_triangle solve root eps N alpha (on_face L f) HN SN LR) as (y' & Ey' & Vy). rewrite Ey in Ey'. injection Ey' as <-.
  unfold facet_param. cbn [Nat.sub rsum]. rewrite !Vy by lia. unfold on_face.
  destruct Hf as [<- | [<- | [<- | [<- | []]]]]; cbv [missing_vertex referenceSimplex nth filter existsb negb Nat.eqb seq orb Nat.add] in Zf; destruct d as [| [| [| d]]]; try lia; unfold ref_vertex; cbn [nth Nat.eqb]; lra.
Qed.
Lemma row_lattice_2 : forall N i, (1 <= N)%nat -> length i = 2%nat -> (list_sum i <= N)%nat -> lattice_row N 2 (node_row 2 N i).
Proof.
  intros N [| a [| b [|]]] HN LI SI; try discriminate LI. cbn in SI. rewrite Nat.add_0_r in SI. split; [| apply row_sum]. intros v Hv.
  assert (P : INR N <> 0) by (apply not_0_INR; lia).
  destruct v as [| [| [| v]]]; try lia; [exists (N - (a + b))%nat | exists a | exists b]; cbn; try reflexivity.
  rewrite minus_INR, !plus_INR by lia. field. exact P.
Qed.
(** C70i: for degrees one and two the warped and blended nodes are the equidistant nodes, and determine the polynomials. *)
Theorem low_degree_nodes : forall solve root eps alpha D N mi, (D = 2 \/ D = 3)%nat -> (1 <= N <= 2)%nat -> runs_through D N mi -> sound_numerics solve root eps N ->
  exists nodes, (if (D =? 2)%nat then warp_and_blend_2 solve root eps alpha N mi else warp_and_blend_3 solve root eps alpha N mi) = Some nodes
  /\ length nodes = length mi /\ unisolvent D N nodes
  /\ forall x, In x nodes -> exists i, length i = D /\ (list_sum i <= N)%nat /\ forall d, (d < D)%nat -> x d = INR (nth d i 0%nat) / INR N.
Proof.
  intros solve root eps alpha D N mi HD HN RT SN. pose proof RT as [fuel Em]. destruct (sums_multiindices fuel D N mi ltac:(lia) Em) as [Hmi _]. clear Em.
  set (node := fun i => if (D =? 2)%nat then node2 solve root eps N alpha (node_row D N i) else node3 solve root eps N alpha (node_row D N i)).
  assert (NV : forall i, In i mi -> exists x, node i = Some x /\ forall d, (d < D)%nat -> x d = INR (nth d i 0%nat) / INR N).
  { intros i Hi. apply (proj2 Hmi) in Hi as [LI SI]. unfold node. destruct HD as [-> | ->]; cbn [Nat.eqb].
    - destruct (low_triangle solve root eps N alpha _ HN SN (row_lattice_2 N i ltac:(lia) LI SI)) as (x & Ex & V). eauto.
    - destruct (low_tetrahedron solve root eps N alpha _ HN SN (row_lattice N i ltac:(lia) LI SI)) as (x & Ex & V). eauto. }
  destruct (map_opt_total node mi) as (nodes & E & L & I1 & I2); [intros i Hi; destruct (NV i Hi) as (x & Ex & _); eauto |].
  exists nodes. split; [| split; [exact L |]].
  - unfold warp_and_blend_2, warp_and_blend_3. replace (0 <? N)%nat with true by (symmetry; apply Nat.ltb_lt; lia). unfold node in E. destruct HD as [-> | ->]; exact E.
  - split.
    + destruct (equidistant_unisolvent D EquidistantModel.VTK N mi ltac:(lia) ltac:(lia) RT) as [_ U]. apply (unisolvent_ext D N _ nodes U). intros x Hx. apply in_map_iff in Hx as (l & <- & Hl).
      destruct (EquidistantProps.equidistant_nodes_enumerate D EquidistantModel.VTK N ltac:(lia) ltac:(lia)) as (idx & [_ II] & EI & _). rewrite EI in Hl. apply in_map_iff in Hl as (a & <- & Ha). apply II in Ha as [La Sa].
      destruct a as [| a0 a]; [cbn in La; lia |]. cbn [length] in La. change (list_sum (a0 :: a)) with (a0 + list_sum a)%nat in Sa.
      destruct (NV a ltac:(apply (proj2 Hmi); lia)) as (y & Ey & V). exists y. split; [apply (I1 a); [apply (proj2 Hmi); lia | exact Ey] |].
      intros d Hd. rewrite V by exact Hd. unfold of_list, EquidistantProps.lattice_point. cbn [tl]. set (g := fun x => INR x / INR N). rewrite (nth_indep (map g a) 0 (g 0%nat)) by (rewrite map_length; lia). now rewrite map_nth.
    + intros x Hx. destruct (I2 x Hx) as (i & Hi & Ex). destruct (NV i Hi) as (x' & Ex' & V). rewrite Ex in Ex'. injection Ex' as <-. exists i. apply (proj2 Hmi) in Hi as [LI SI]. auto.
Qed.
Print Assumptions low_degree_nodes.
