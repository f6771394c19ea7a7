(** Ranks that meet the hypotheses exist for every mesh; a concrete mesh (C63). *)
Require Import List Arith Lia Bool Reals Lra FunctionalExtensionality Sorting.Sorted.
Require Import Verif.Base Verif.LinAlg Verif.SimplexModel Verif.SimplexProofs Verif.LocalMeshModel Verif.LocalMeshProps Verif.TopoModel Verif.TopoSpec Verif.TopoProofs Verif.TopoProps
  Verif.AssembleModel Verif.AssembleSpec Verif.AssembleProofs Verif.AssembleProps Verif.MatFree Verif.FaultModel Verif.PoissonModel Verif.PenaltyModel
  Verif.SipSpec Verif.SipProofs Verif.SipRank Verif.SipProps Verif.SipExamples Verif.CoerciveProps Verif.CoerciveExamples
  Verif.GeometryModel Verif.GeometryProofs Verif.GeometrySpec Verif.GeometryProps Verif.GeometryStraight Verif.GeometryExamples Verif.MeshSpec Verif.MeshProofs Verif.MeshPoissonProps.
Import ListNotations.
Local Open Scope R_scope.

Lemma record_unique' k m i x y : topo_ok k m -> facet_record_ok k m i x -> facet_record_ok k m i y ->
  fi_up0 x = fi_up0 y /\ fi_up1 x = fi_up1 y /\ fi_local0 x = fi_local0 y /\ fi_local1 x = fi_local1 y.
Proof.
  intros O Rx Ry. pose proof (fr_order _ _ _ _ Rx) as Ox. pose proof (fr_order _ _ _ _ Ry) as Oy.
  pose proof (proj1 (fr_up _ _ _ _ Rx _) (proj2 (fr_up _ _ _ _ Ry (fi_up0 y)) (or_introl eq_refl))).
  pose proof (proj1 (fr_up _ _ _ _ Rx _) (proj2 (fr_up _ _ _ _ Ry (fi_up1 y)) (or_intror eq_refl))).
  pose proof (proj1 (fr_up _ _ _ _ Ry _) (proj2 (fr_up _ _ _ _ Rx (fi_up0 x)) (or_introl eq_refl))).
  pose proof (proj1 (fr_up _ _ _ _ Ry _) (proj2 (fr_up _ _ _ _ Rx (fi_up1 x)) (or_intror eq_refl))).
  assert (E0 : fi_up0 x = fi_up0 y) by lia. assert (E1 : fi_up1 x = fi_up1 y) by lia.
  assert (U : forall e l l', facet_at k m e l i -> facet_at k m e l' i -> l = l').
  { intros e l l' F F'. destruct (facet_at_contains k m O e l i F) as [(plex & f & Ep & Ef & _) _].
    destruct (facet_at_downward k m e l i f plex O F Ef Ep) as (ds & Ed & El & N). destruct (facet_at_downward k m e l' i f plex O F' Ef Ep) as (ds' & Ed' & El' & _).
    assert (ds' = ds) by congruence. subst ds'. apply (proj1 (NoDup_nth_error ds) N); [apply nth_error_Some; congruence|congruence]. }
  split; [auto|]. split; [auto|]. split.
  - apply (U (fi_up0 x)); [apply (fr_local0 _ _ _ _ Rx)|rewrite E0; apply (fr_local0 _ _ _ _ Ry)].
  - apply (U (fi_up1 x)); [apply (fr_local1 _ _ _ _ Rx)|rewrite E1; apply (fr_local1 _ _ _ _ Ry)].
Qed.

Section Rank.
Variables (G : geo_setup) (R_ : pdata) (degree : nat) (m : topo_mesh) (fi : list facet_info).
Local Notation D := (gs_D G).
Definition rank_point (i q : nat) : facet_point := let x := nth i fi dummy_record in
  point_data G (nth (fi_up0 x) (tm_elems m) []) (ref_facet D (fi_local0 x)) (nth (fi_up1 x) (tm_elems m) []) (ref_facet D (fi_local1 x)) q.
Definition mesh_rank0 : pdata := {|
  p_dim := p_dim R_; p_N := p_N R_; p_Nq := p_Nq R_; p_nq := p_nq R_; p_method := IP;
  p_W := p_W R_; p_w := p_w R_; p_EQ := p_EQ R_; p_DxiQ := p_DxiQ R_; p_matEQ := p_matEQ R_;
  p_E := p_E R_; p_Dxi := p_Dxi R_; p_matE := p_matE R_; p_MinvRef := p_MinvRef R_;
  p_J := fun e q => Rabs (geo_det D (jacobian_at G (nth e (tm_elems m) []) (gs_xi G q)));
  p_GQ := fun e k i q => geo_inverse D (jacobian_at G (nth e (tm_elems m) []) (gs_xi G q)) k i;
  p_K := fun e => p_K R_ (nth e (tm_l2cg m) 0%nat);
  p_n := fun i a q => components G (fq_normal (rank_point i q)) a; p_nu := fun i a q => fq_unit (rank_point i q) a;
  p_nl := fun i q => fq_length (rank_point i q); p_G0 := fun i e a q => fq_jInv0 (rank_point i q) e a; p_G1 := fun i e a q => fq_jInv1 (rank_point i q) e a;
  p_pen := fun _ => 0; p_force := fun _ _ => 0; p_dir := fun _ _ _ => 0; p_slip := fun _ _ _ => 0 |}.
Definition mesh_rank : pdata := let B := mesh_rank0 in {|
  p_dim := p_dim B; p_N := p_N B; p_Nq := p_Nq B; p_nq := p_nq B; p_method := p_method B;
  p_W := p_W B; p_w := p_w B; p_EQ := p_EQ B; p_DxiQ := p_DxiQ B; p_matEQ := p_matEQ B;
  p_E := p_E B; p_Dxi := p_Dxi B; p_matE := p_matE B; p_MinvRef := p_MinvRef B;
  p_J := p_J B; p_GQ := p_GQ B; p_K := p_K B; p_n := p_n B; p_nu := p_nu B; p_nl := p_nl B; p_G0 := p_G0 B; p_G1 := p_G1 B;
  p_pen := fun i => prepare_penalty mesh_rank0 degree i (nth i fi dummy_record); p_force := p_force B; p_dir := p_dir B; p_slip := p_slip B |}.
Lemma mesh_rank_geo P : topo_ok D m -> facet_table D m = Some fi ->
  p_J P = p_J mesh_rank0 -> p_GQ P = p_GQ mesh_rank0 -> p_n P = p_n mesh_rank0 -> p_nl P = p_nl mesh_rank0 -> p_G0 P = p_G0 mesh_rank0 -> p_G1 P = p_G1 mesh_rank0 ->
  rank_geometry G m P.
Proof.
  intros O T E1 E2 E3 E4 E5 E6. split.
  - intros e plex E. rewrite E1, E2. cbn [mesh_rank0 p_J p_GQ]. rewrite (nth_error_nth _ _ [] E). auto.
  - intros i x plex0 plex1 fs f0 f1 Hi R P0 P1 Fs F0 F1 pt.
    destruct (facet_table_correct D m O) as (fi' & Efi' & _ & RS). assert (fi' = fi) by congruence. subst fi'.
    destruct (RS i Hi) as (y & Ey & Ry). destruct (record_unique' D m i x y O R Ry) as (U0 & U1 & L0 & L1).
    assert (Pt : rank_point i = pt).
    { apply functional_extensionality. intro q. unfold rank_point. rewrite (nth_error_nth _ _ dummy_record Ey). unfold ref_facet. rewrite Fs.
      rewrite <- U0, <- U1, <- L0, <- L1, (nth_error_nth _ _ [] P0), (nth_error_nth _ _ [] P1), (nth_error_nth _ _ [] F0), (nth_error_nth _ _ [] F1). reflexivity. }
    rewrite E3, E4, E5, E6. cbn [mesh_rank0 p_n p_nl p_G0 p_G1]. rewrite Pt. auto.
Qed.
Lemma mesh_rank_ok : topo_ok D m -> facet_table D m = Some fi -> poisson_rank G R_ degree m fi mesh_rank.
Proof.
  intros O T. split; auto.
  - split; reflexivity.
  - apply mesh_rank_geo; auto.
  - intros e g E. cbn. rewrite (nth_error_nth _ _ 0%nat E). reflexivity.
  - intros i x E. cbn [mesh_rank p_pen]. rewrite (nth_error_nth _ _ dummy_record E). reflexivity.
Qed.
End Rank.

(** The strip of three triangles on two ranks, now with coordinates. *)
Definition strip_X (v : nat) : vec := fun i => match v, i with
  | 1%nat, 0%nat => 1 | 2%nat, 1%nat => 1 | 3%nat, 0%nat => 1 | 3%nat, 1%nat => 1 | 4%nat, 1%nat => 2 | _, _ => 0 end.
Lemma strip_separated f g h plex1 plex2 a b : In f ex_facets -> elements_of ex_elems f = [g; h] -> nth_error ex_elems g = Some plex1 -> nth_error ex_elems h = Some plex2 ->
  In a plex1 -> ~ In a f -> In b plex2 -> ~ In b f -> separated 2 strip_X f a b.
Proof.
  intros Hf El E1 E2 Ha Hna Hb Hnb. unfold ex_facets in Hf.
  repeat (destruct Hf as [<- | Hf]; [cbn in El; try discriminate; injection El as <- <-; cbn in E1, E2; injection E1 as <-; injection E2 as <-|]).
  - assert (a = 0)%nat by (cbn in *; intuition congruence). assert (b = 3)%nat by (cbn in *; intuition congruence). subst a b.
    exists (fun _ => 1). split; [intros v [<-|[<-|[]]]|split]; unfold vdot, vdiff, strip_X; cbn; lra.
  - assert (a = 1)%nat by (cbn in *; intuition congruence). assert (b = 4)%nat by (cbn in *; intuition congruence). subst a b.
    exists (fun i => match i with 1%nat => 1 | _ => 0 end). split; [intros v [<-|[<-|[]]]|split]; unfold vdot, vdiff, strip_X; cbn; lra.
  - destruct Hf.
Qed.
Lemma strip_plexes : plex_list 3 ex_elems.
Proof.
  split; [repeat constructor; cbn; intuition congruence|].
  intros x [<-|[<-|[<-|[]]]]; split; try reflexivity; apply sorted3; lia.
Qed.
Lemma strip_linear : linear_reference 2 ex_lin.
Proof.
  split; try reflexivity.
  - split; [intros; cbn; lra|exists 0%nat; cbn; split; [lia|lra]].
  - split; [intros; cbn; lra|exists 0%nat; cbn; split; [lia|lra]].
  - intros [|l] e q; reflexivity.
  - intros f [|l] e q; reflexivity.
  - intros q Hq. split; [intros; cbn; lra|cbn; lra].
  - intros l q Hl Hq. split; [intros k Hk; cbn [ex_lin p_matE]; destruct (k =? 2 - l)%nat; lra|]. destruct l as [|[|[|l]]]; try lia; cbn; lra.
Qed.
Definition strip_setup : geo_setup := linear_setup 2 strip_X (fun _ _ => 1 / 3) (fun _ _ => 1 / 2).
Definition strip_rank (p : nat) : pdata := mesh_rank strip_setup ex_lin 1 (ex_part p) (ex_part_fi p).
Example strip_positive : exists A,
  (forall p, (p < 2)%nat -> map_opt (to_global (ex_part p)) (assemble (ex_part p) (ex_part_fi p) (poisson_mat (strip_rank p))) = Some (A p)) /\
  (forall U V, pairing 3 (flat_map A (seq 0 2)) V U = pairing 3 (flat_map A (seq 0 2)) U V) /\
  (forall U, 0 <= pairing 3 (flat_map A (seq 0 2)) U U).
Proof.
  apply (straight_mesh_matrix_positive 2 strip_X (fun _ _ => 1 / 3) (fun _ _ => 1 / 2) 2 ex_elems ex_facets ex_bc ex_part ex_lin ex_part_fi strip_rank).
  - auto.
  - apply ex_parts.
  - apply strip_plexes.
  - intros plex [<-|[<-|[<-|[]]]]; cbn; unfold edge_matrix, strip_X; cbn; lra.
  - apply strip_separated.
  - apply strip_linear.
  - intros g l _ _. change (0 < INR (S l)). apply lt_0_INR. lia.
  - intros p Hp. apply mesh_rank_ok.
    + apply (mp_mesh _ _ _ _ _ _ ex_parts p Hp).
    + destruct p as [|[|p]]; try lia; vm_compute; reflexivity.
Qed.
