(** C70: meshes of elements with warped and blended, or equidistant, nodes have no gaps. *)
Require Import List Arith Lia Reals Lra Permutation.
Require Import Verif.Base Verif.LinAlg Verif.CombinatoricsModel Verif.CombinatoricsProps Verif.SimplexModel Verif.TopoModel Verif.FaultModel Verif.GeometryModel Verif.GeometrySpec Verif.GeometryProofs Verif.GeometryProps Verif.PlexModel Verif.PlexSpec
  Verif.EquidistantModel Verif.EquidistantProps Verif.BasisModel Verif.BasisSpec Verif.IntegralSpec Verif.QuadratureModel Verif.QuadratureSpec Verif.RootsProps Verif.SpanProofs
  Verif.RefElementSpec Verif.RefElementModel Verif.RefElementProofs Verif.RefElementProps Verif.UnisolventProps Verif.ElasticModeProps Verif.ErrorSpec Verif.NodesSpec Verif.NodesModel Verif.NodesProofs Verif.NodesFacets Verif.NodesConform Verif.NodesProps.
Import ListNotations.
Local Open Scope R_scope.
Local Open Scope opt_scope.

Lemma finite_choice {T} (P : nat -> T -> Prop) : forall n, (forall c, (c < n)%nat -> exists g, P c g) -> T -> exists G, forall c, (c < n)%nat -> P c (G c).
Proof.
  induction n as [| n IH]; intros H t; [exists (fun _ => t); lia |]. destruct (IH (fun c Hc => H c ltac:(lia)) t) as (G & HG). destruct (H n ltac:(lia)) as (g & Hg).
  exists (fun c => if (c =? n)%nat then g else G c). intros c Hc. destruct (Nat.eqb_spec c n) as [-> |]; [exact Hg | apply HG; lia].
Qed.
(** C70e: if every facet carries the same nodes, and these determine polynomials of degree N on the facet, then elements
    that interpolate between their nodes have the same image of a shared facet: the mesh has no gaps, whatever the
    coordinates of the vertices and the transformation of the mesh. *)
Theorem facet_nodes_conform : forall D N mi nodes fnodes G, (D = 2 \/ D = 3)%nat -> runs_through (D - 1) N mi -> length fnodes = length mi ->
  nodal_setup D N nodes G -> unisolvent (D - 1) N fnodes -> on_facets D nodes fnodes ->
  (exists nf C psi dpsi, conforming_basis G nf C psi dpsi) /\ no_gaps G.
Proof.
  intros D N mi nodes fnodes G HD RT HL NS U OF.
  assert (CB : exists nf C psi dpsi, conforming_basis G nf C psi dpsi).
  { destruct (nodal_basis_exists_unique _ (D - 1) N mi fnodes ltac:(lia) RT HL U gauss_inverse_exact) as (fpsi & Hf & _).
    destruct (finite_choice (fun c g => forall x, gradient_at (D - 1) (fpsi c) x (fun e => g e x)) (length fnodes)) as (g & Hg).
    { intros c Hc. apply (poly_gradient (D - 1) N). now apply (proj1 Hf). }
    { exact (fun _ _ => 0). }
    destruct NS as [ND NB NN NP Nd NT]. exists (length fnodes), (point fnodes), fpsi, (fun c d chi => g c (d - 1)%nat chi).
    assert (Hd : forall c d chi, (c < length fnodes)%nat -> (0 < d < D)%nat -> partial_derivative (fpsi c) (d - 1) chi (g c (d - 1)%nat chi)).
    { intros c d chi Hc Hdd. apply (gradient_partial (D - 1) (fpsi c) chi (fun e => g c e chi)); [now apply Hg | lia]. }
    split; rewrite ?ND, ?NB.
    - intros j x y Hj E. apply (poly_ext D N); [now apply (proj1 NP) | exact E].
    - exact NT.
    - intros i j Hi Hj. rewrite NN by exact Hi. rewrite (proj2 NP) by assumption. now rewrite Nat.eqb_sym.
    - intros fs f c Hfs Hin Hc. destruct (OF fs f (point fnodes c) Hfs Hin) as (x & Hx & Ex); [now apply nth_In |].
      destruct (In_nth nodes x (fun _ => 0) Hx) as (j & Hj & Ej). exists j. split; [exact Hj |]. intros d Hdd. rewrite NN by exact Hj. rewrite Ej. now apply Ex.
    - intros fs f j chi Hfs Hin Hj. now apply (trace_values D N nodes fnodes (gs_phi G) fpsi ltac:(lia) NP U Hf f j chi).
    - intros fs f j d chi Hfs Hin Hj Hdd. apply (trace_derivative D N nodes fnodes (gs_phi G) fpsi (fun c d chi => g c (d - 1)%nat chi) ltac:(lia) NP U Hf Hd f j d chi (fun e => gs_dphi G j e (facet_param D f chi)) Hj Hdd).
      intros e He. now apply Nd. }
  split; [exact CB |]. destruct CB as (nf & C & psi & dpsi & CB). intros fs f1 f2 plex1 plex2 chi Hfs H1 H2 E.
  apply (shared_facets_coincide G nf C psi dpsi fs f1 f2 plex1 plex2 chi CB); auto. rewrite (ns_dim _ _ _ _ NS). lia.
Qed.
Print Assumptions facet_nodes_conform.

Lemma setup_unisolvent : forall D N mi nodes G, (D = 1 \/ D = 2 \/ D = 3)%nat -> multiindices D N mi -> length nodes = length mi -> nodal_setup D N nodes G -> unisolvent D N nodes.
Proof. intros D N mi nodes G HD Hmi HL NS. apply (nodal_unisolvent D N mi nodes (gs_phi G)); auto. apply (ns_phi _ _ _ _ NS). Qed.
(** Multi-indices with a positive last entry are those of one degree less. *)
Lemma count_rest : forall N mi mi', (1 <= N)%nat -> multiindices 3 N mi -> multiindices 3 (N - 1) mi' -> length (filter (fun i => negb (nth 2 i 0 =? 0)%nat) mi) = length mi'.
Proof.
  intros N mi mi' HN [ND1 H1] [ND2 H2]. set (bump := fun i : list nat => [nth 0 i 0; nth 1 i 0; S (nth 2 i 0)]%nat). rewrite <- (map_length bump mi'). apply Permutation_length. apply NoDup_Permutation.
  - now apply NoDup_filter.
  - apply NoDup_map_on; [exact ND2 |]. intros x y Hx Hy E. apply H2 in Hx as [Lx _], Hy as [Ly _].
    destruct x as [| a [| b [| c [|]]]]; try discriminate Lx. destruct y as [| a' [| b' [| c' [|]]]]; try discriminate Ly. unfold bump in E. cbn in E. now injection E as -> -> ->.
  - intros x. rewrite filter_In, in_map_iff, H1. split.
    + intros [[Lx Sx] Hx]. destruct x as [| a [| b [| c [|]]]]; try discriminate Lx. cbn in Hx. destruct c as [| c]; [discriminate Hx |]. exists [a; b; c]. split; [reflexivity |]. apply H2. cbn in *. lia.
    + intros (y & <- & Hy). apply H2 in Hy as [Ly Sy]. destruct y as [| a [| b [| c [|]]]]; try discriminate Ly. unfold bump. cbn in *. repeat split. lia.
Qed.
(** On the face without vertex 3. *)
Lemma tetrahedron_first_face : forall solve root eps N gl alpha i nodes2 mi2, (1 <= N)%nat -> sound_numerics solve root eps N -> LegendreGaussLobattoPoints root (N + 1) 0 0 = Some gl ->
  multiindices 2 N mi2 -> (forall a b, In a mi2 -> node2 solve root eps N alpha (node_row 2 N a) = Some b -> In b nodes2) ->
  length i = 3%nat -> (list_sum i <= N)%nat -> nth 2 i 0%nat = 0%nat -> forall x, node3 solve root eps N alpha (node_row 3 N i) = Some x ->
  exists c, In c nodes2 /\ forall d, (d < 3)%nat -> x d = facet_param 3 (first_facet 3) c d.
Proof.
  intros solve root eps N gl alpha i nodes2 mi2 HN SN Hgl Hmi2 I2 LI SI Z x Ex. pose proof (sn_solve _ _ _ _ SN) as Hs.
  destruct (node3_face solve root eps N gl alpha (node_row 3 N i) [0; 1; 2]%nat HN SN Hgl (row_lattice N i HN LI SI) ltac:(cbn; tauto)) as (x' & y & Ex' & Ey & V).
  { change (missing_vertex 3 [0; 1; 2]%nat) with 3%nat. cbn [node_row]. rewrite Z. cbn. unfold Rdiv. ring. }
  rewrite Ex in Ex'. injection Ex' as <-. destruct i as [| a [| b [| c [|]]]]; try discriminate LI. cbn in Z. subst c. cbn in SI.
  destruct (node2_value solve root eps N gl Hs Hgl alpha (node_row 2 N [a; b]) (row_sum 2 N [a; b])) as (c & Ec & Vc).
  exists c. split; [apply (I2 [a; b]); [apply (proj2 Hmi2); cbn; lia | exact Ec] |]. intros d Hd. rewrite V by exact Hd. unfold first_facet, facet_param. cbn [seq Nat.sub rsum].
  assert (B : forall k, (k < 3)%nat -> on_face (node_row 3 N [a; b; 0%nat]) [0; 1; 2]%nat k = node_row 2 N [a; b] k) by (intros [| [| [| k]]] Hk; try lia; cbn; try reflexivity; unfold Rdiv; ring).
  assert (S1 : rsum 3 (on_face (node_row 3 N [a; b; 0%nat]) [0; 1; 2]%nat) = 1) by (rewrite <- (row_sum 2 N [a; b]); apply rsum_ext; exact B).
  destruct (node2_value solve root eps N gl Hs Hgl alpha _ S1) as (y' & Ey' & Vy). rewrite Ey in Ey'. injection Ey' as <-.
  assert (Q : forall e, (e < 2)%nat -> y e = c e) by (intros e He; rewrite Vy, Vc, B by lia; f_equal; apply tri_shift_ext; exact B).
  now rewrite !Q by lia.
Qed.
(** C70f: a mesh of triangles or tetrahedra with warped and blended nodes of any degree has no gaps, whenever the nodal
    basis exists. *)
Theorem warp_and_blend_conform : forall solve root eps alpha N, (1 <= N)%nat -> sound_numerics solve root eps N ->
  (forall mi nodes G, runs_through 2 N mi -> warp_and_blend_2 solve root eps alpha N mi = Some nodes -> nodal_setup 2 N nodes G ->
     (exists nf C psi dpsi, conforming_basis G nf C psi dpsi) /\ no_gaps G)
  /\ (forall mi nodes G, runs_through 3 N mi -> warp_and_blend_3 solve root eps alpha N mi = Some nodes -> nodal_setup 3 N nodes G ->
     (exists nf C psi dpsi, conforming_basis G nf C psi dpsi) /\ no_gaps G).
Proof.
  intros solve root eps alpha N HN SN. pose proof (sn_solve _ _ _ _ SN) as Hs. pose proof (sn_roots _ _ _ _ SN) as Hr. split.
  - intros mi nodes G RT E NS. destruct (triangle_edge_nodes solve root eps alpha N mi HN RT SN) as (nodes1 & nodes2 & E1 & E2 & L2 & OF). rewrite E in E2. injection E2 as <-.
    destruct (proj1 (interval_nodes solve root N Hs) Hr) as (n1 & En & L1 & U1 & _). rewrite E1 in En. injection En as <-.
    destruct (integer_sums_enumerate 1 N true ltac:(lia)) as (fuel & mi1 & Em & _). destruct (sums_multiindices fuel 1 N mi1 ltac:(lia) Em) as [Hmi1 _].
    apply (facet_nodes_conform 2 N mi1 nodes nodes1 G); auto; [exists fuel; exact Em |]. rewrite L1. symmetry. exact (multiindices_1 N mi1 Hmi1).
  - intros mi nodes G RT E NS. destruct (integer_sums_enumerate 2 N true ltac:(lia)) as (fuel & mi2 & Em & _). destruct (sums_multiindices fuel 2 N mi2 ltac:(lia) Em) as [Hmi2 _].
    assert (RT2 : runs_through 2 N mi2) by (exists fuel; exact Em).
    destruct (tetrahedron_face_nodes solve root eps alpha N mi2 mi HN RT2 RT SN) as (nodes2 & nodes3 & E2 & E3 & L3 & OF). rewrite E in E3. injection E3 as <-.
    destruct (triangle_edge_nodes solve root eps alpha N mi2 HN RT2 SN) as (n1 & n2 & _ & En & L2 & _). rewrite E2 in En. injection En as <-.
    apply (facet_nodes_conform 3 N mi2 nodes nodes2 G); auto.
    destruct RT as [fuel3 Em3]. destruct (sums_multiindices fuel3 3 N mi ltac:(lia) Em3) as [Hmi _].
    destruct (integer_sums_enumerate 3 (N - 1) true ltac:(lia)) as (fuel' & mi' & Em' & _). destruct (sums_multiindices fuel' 3 (N - 1) mi' ltac:(lia) Em') as [Hmi' _].
    destruct (lobatto_points root N HN Hr) as (gl & Hgl & _).
    destruct (map_opt_total (fun i => node3 solve root eps N alpha (node_row 3 N i)) (filter (fun i => negb (nth 2 i 0 =? 0)%nat) mi)) as (rest & Er & Lr & Ir & _).
    { intros i Hi. eapply node3_total. exact Hgl. }
    unfold warp_and_blend_2 in E2. unfold warp_and_blend_3 in E. replace (0 <? N)%nat with true in E, E2 by (symmetry; apply Nat.ltb_lt; lia).
    apply (trace_unisolvent 3 N mi' nodes nodes2 rest); auto.
    + rewrite Lr. now apply (count_rest N).
    + now apply (setup_unisolvent 3 N mi nodes G); auto.
    + intros x Hx. destruct (map_opt_in_inv _ mi nodes x E Hx) as (i & Hi & Ex). change (node3 solve root eps N alpha (node_row 3 N i) = Some x) in Ex.
      apply (proj2 Hmi) in Hi as [LI SI]. destruct (Nat.eq_dec (nth 2 i 0%nat) 0) as [Z | Z].
      * right. apply (tetrahedron_first_face solve root eps N gl alpha i nodes2 mi2); auto. intros a b Ha Eb.
        destruct (map_opt_total (fun i => node2 solve root eps N alpha (node_row 2 N i)) mi2) as (n2 & En2 & _ & I2 & _).
        { intros j Hj. destruct (node2_value solve root eps N gl Hs Hgl alpha (node_row 2 N j) (row_sum 2 N j)) as (z & Ez & _). eauto. }
        assert (EQ : Some nodes2 = Some n2) by (rewrite <- E2, <- En2; reflexivity). injection EQ as ->. now apply (I2 a).
      * left. apply (Ir i); [| exact Ex]. apply filter_In. split; [now apply (proj2 Hmi) |]. destruct (Nat.eqb_spec (nth 2 i 0%nat) 0); [contradiction | reflexivity].
Qed.
Print Assumptions warp_and_blend_conform.

(** ** Equidistant nodes *)
Lemma facet_index_full : forall D N f i, (D = 2 \/ D = 3)%nat -> (1 <= N)%nat -> length i = D -> list_sum i = N -> (exists fs, f2v D = Some fs /\ In f fs) ->
  let a := facet_index D N f (tl i) in (length a = D /\ list_sum a <= N)%nat
  /\ forall d, (d < D)%nat -> INR (nth d a 0%nat) / INR N = facet_param D f (of_list (lattice_point N i)) d.
Proof.
  intros D N f i HD HN LI SI (fs & Hfs & Hf). assert (P : INR N <> 0) by (apply not_0_INR; lia).
  destruct HD as [-> | ->].
  - rewrite f2v_2 in Hfs. injection Hfs as <-. destruct i as [| a [| b [|]]]; try discriminate LI. cbn in SI.
    assert (M : INR (N - b) = INR N - INR b) by (rewrite minus_INR by lia; ring).
    destruct Hf as [<- | [<- | [<- | []]]]; cbn; rewrite ?Nat.add_0_r; (split; [split; [reflexivity | lia] |]); intros [| [| d]] Hd; try lia; unfold facet_param, of_list, lattice_point; cbn [Nat.sub rsum tl map nth]; unfold ref_vertex; cbn [nth Nat.eqb]; rewrite ?M; cbn [INR]; field; exact P.
  - rewrite f2v_3 in Hfs. injection Hfs as <-. destruct i as [| a [| b [| c [|]]]]; try discriminate LI. cbn in SI.
    assert (M : INR (N - (b + c)) = INR N - INR b - INR c) by (rewrite minus_INR, plus_INR by lia; ring).
    destruct Hf as [<- | [<- | [<- | [<- | []]]]]; cbn; rewrite ?Nat.add_0_r; (split; [split; [reflexivity | lia] |]); intros [| [| [| d]]] Hd; try lia; unfold facet_param, of_list, lattice_point; cbn [Nat.sub rsum tl map nth]; unfold ref_vertex; cbn [nth Nat.eqb]; rewrite ?M; cbn [INR]; field; exact P.
Qed.
(** C70g: the same for equidistant nodes, in either numbering and for every degree; here the nodal basis exists. *)
Theorem equidistant_conform : forall D conv N G, (D = 2 \/ D = 3)%nat -> (1 <= N)%nat -> nodal_setup D N (map of_list (equidistant_nodes D conv N)) G ->
  (exists nf C psi dpsi, conforming_basis G nf C psi dpsi) /\ no_gaps G.
Proof.
  intros D conv N G HD HN NS. destruct (integer_sums_enumerate (D - 1) N true ltac:(lia)) as (fuel & mi & Em & _).
  assert (RT : runs_through (D - 1) N mi) by (exists fuel; exact Em).
  destruct (equidistant_unisolvent (D - 1) conv N mi ltac:(lia) HN RT) as [L U].
  apply (facet_nodes_conform D N mi (map of_list (equidistant_nodes D conv N)) (map of_list (equidistant_nodes (D - 1) conv N)) G); auto.
  intros fs f c Hfs Hf Hc. apply in_map_iff in Hc as (l & <- & Hl).
  destruct (equidistant_nodes_enumerate (D - 1) conv N ltac:(lia) HN) as (idx & [_ I1] & E1 & _). rewrite E1 in Hl. apply in_map_iff in Hl as (i & <- & Hi). apply I1 in Hi as [LI SI].
  destruct (equidistant_nodes_enumerate D conv N ltac:(lia) HN) as (idx' & [_ I2] & E2 & _). rewrite E2.
  destruct (facet_index_full D N f i HD HN ltac:(lia) SI ltac:(eauto)) as ([LA SA] & V). set (a := facet_index D N f (tl i)) in *.
  exists (of_list (lattice_point N ((N - list_sum a)%nat :: a))). split.
  - apply in_map. apply in_map. apply I2. cbn [length]. split; [lia |]. change (list_sum ((N - list_sum a)%nat :: a)) with (N - list_sum a + list_sum a)%nat. lia.
  - intros d Hd. rewrite <- V by exact Hd. unfold of_list, lattice_point. cbn [tl]. set (g := fun x => INR x / INR N). rewrite (nth_indep (map g a) 0 (g 0%nat)) by (rewrite map_length; lia). now rewrite map_nth.
Qed.
Print Assumptions equidistant_conform.
