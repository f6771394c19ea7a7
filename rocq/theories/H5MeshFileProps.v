(** C16: from a PUMGen file to the global mesh. *)
Require Import List Arith ZArith Bool Lia Reals Permutation Sorting.Sorted.
Require Import Verif.Base Verif.CombinatoricsModel Verif.CombinatoricsProofs Verif.SimplexModel Verif.SimplexProofs Verif.SimplexProps.
Require Import Verif.GmshModel Verif.BuilderModel Verif.BuilderProofs Verif.BuilderRun Verif.BuilderProps.
Require Import Verif.EquidistantProofs Verif.H5MeshModel Verif.H5MeshProofs Verif.H5MeshProps.
Import ListNotations.

(** The simplex with the given vertex numbers. *)
Definition simplex_of (nodes : list Z) : list nat := mk_simplex (map Z.to_nat nodes).

Section Mesh.
  Variable num : Type.
  Variable zero : num.
  Variable tol : R.
  Notation do_calls := (do_calls num zero 3 tol).
  Notation empty := (empty_builder num).

  Definition linear (b : builder num) : Prop := high_order_nodes b = None /\ (type_ b = 0%Z \/ type_ b = 4%Z).

  Lemma run_triangles : forall fs b, Forall (fun x => length (fst x) = 3) fs -> linear b ->
    exists b', do_calls (triangle_part num fs) b = Done b' /\ linear b' /\ vertices b' = vertices b.
  Proof.
    induction fs as [|[f t] fs IH]; intros b F Hl; [exists b; cbn; auto|].
    pose proof (Forall_inv F) as Lf. apply Forall_inv_tail in F. cbn [fst] in Lf.
    destruct f as [|f0 [|f1 [|f2 [|]]]]; try discriminate.
    cbn [triangle_part map BuilderModel.do_calls do_call fst snd]. unfold addElement.
    change (is_gmsh_simplex 3 2) with false. change (is_gmsh_simplex (3 - 1) 2) with true. cbn [length Nat.ltb Nat.leb andthen].
    match goal with |- exists b', BuilderModel.do_calls _ _ _ _ _ ?b1 = _ /\ _ => destruct (IH b1 F) as (b' & H1 & H2 & H3) end.
    { exact Hl. }
    exists b'. split; [exact H1|]. split; auto.
  Qed.
  Lemma run_tets : forall tets groups b, Forall (fun x => length x = 4) tets -> linear b ->
    exists b', do_calls (tet_part num tets groups) b = Done b' /\ linear b' /\ vertices b' = vertices b.
  Proof.
    induction tets as [|t tets IH]; intros [|g groups] b F Hl; try (exists b; cbn; auto; fail).
    pose proof (Forall_inv F) as Lf. apply Forall_inv_tail in F. cbn beta in Lf.
    destruct t as [|f0 [|f1 [|f2 [|f3 [|]]]]]; try discriminate.
    unfold tet_part. cbn [combine map BuilderModel.do_calls do_call fst snd]. unfold addElement.
    change (is_gmsh_simplex 3 4) with true. destruct Hl as [Hh Ht].
    assert (E : (if (type_ b =? 0)%Z then 4%Z else type_ b) = 4%Z) by (destruct Ht as [-> | ->]; reflexivity).
    rewrite E. cbn [Z.eqb Pos.eqb negb length Nat.ltb Nat.leb NumVerts Nat.add andthen].
    match goal with |- exists b', BuilderModel.do_calls _ _ _ _ _ ?b1 = _ /\ _ => destruct (IH groups b1 F) as (b' & H1 & H2 & H3) end.
    { split; [exact Hh|]. right. reflexivity. }
    exists b'. split; [exact H1|]. split; auto.
  Qed.

  Lemma added_triangles : forall dim fs, added dim (triangle_part num fs) =
    if is_gmsh_simplex dim 2 then map (fun x => (snd x, fst x)) fs else [].
  Proof.
    intros dim fs. unfold added, triangle_part. destruct (is_gmsh_simplex dim 2) eqn:E; induction fs as [|x fs IH]; cbn [map flat_map]; auto; rewrite E; cbn [app]; rewrite IH; reflexivity.
  Qed.
  Lemma added_tets : forall dim tets groups, added dim (tet_part num tets groups) =
    if is_gmsh_simplex dim 4 then map (fun x => (snd x, fst x)) (combine tets groups) else [].
  Proof.
    intros dim tets groups. unfold added, tet_part. destruct (is_gmsh_simplex dim 4) eqn:E; induction (combine tets groups) as [|x fs IH]; cbn [map flat_map]; auto; rewrite E; cbn [app]; rewrite IH; reflexivity.
  Qed.
  Lemma added_vertices : forall dim vs, added dim (vertex_part num vs) = [].
  Proof.
    intros. unfold added, vertex_part. cbn [flat_map]. induction (combine _ _) as [|x l IH]; cbn; auto.
  Qed.

  Lemma run_vertices : forall vs, Forall (fun v => length v = 3) vs ->
    exists b, do_calls (vertex_part num vs) empty = Done b /\ linear b /\ vertices b = vs.
  Proof.
    intros vs F. unfold vertex_part. cbn [BuilderModel.do_calls do_call setNumVertices andthen].
    match goal with |- exists b, BuilderModel.do_calls _ _ _ _ _ ?b1 = _ /\ _ => set (b0 := b1) end.
    assert (L0 : length (vertices b0) = length vs) by (cbn; unfold resize; rewrite firstn_nil; cbn; rewrite repeat_length; lia).
    set (ivs := map (fun x => (Z.of_nat (fst x), snd x)) (combine (seq 0 (length vs)) vs)).
    assert (Ei : map fst ivs = map Z.of_nat (seq 0 (length vs))).
    { unfold ivs. rewrite map_map. cbn [fst]. rewrite <- (map_map fst Z.of_nat). f_equal.
      generalize (seq_length (length vs) 0). generalize (seq 0 (length vs)). clear. intros l. revert vs.
      induction l as [|i l IH]; intros [|v vs] L; try discriminate; cbn; auto. f_equal. apply IH. cbn in L. lia. }
    destruct (set_vertices num zero 3 (or_intror eq_refl) tol ivs b0) as (b' & B1 & B2 & B3 & B4 & B5).
    { rewrite L0. apply Forall_forall. intros [id x] Hi. unfold in_file. cbn [fst]. apply (in_map fst) in Hi. rewrite Ei in Hi.
      apply in_map_iff in Hi as (i & E & Hi). cbn in E. subst. apply in_seq in Hi. lia. }
    { rewrite Ei. apply FinFun.Injective_map_NoDup; [intros a b; apply Nat2Z.inj|apply seq_NoDup]. }
    exists b'. split.
    - rewrite <- B1. f_equal. unfold vertex_calls, ivs. rewrite map_map. reflexivity.
    - destruct B2 as (_ & _ & _ & _ & E5 & _ & _ & E8). split; [split; [rewrite E5; reflexivity|left; rewrite E8; reflexivity]|].
      apply nth_error_ext. intros i. destruct (nth_error vs i) as [v|] eqn:Ev.
      + rewrite <- (Nat2Z.id i). rewrite (B4 (Z.of_nat i) v).
        * f_equal. apply firstn_all2. rewrite Forall_forall in F. rewrite (F v); auto. eapply nth_error_In; eauto.
        * unfold ivs. apply in_map_iff. exists (i, v). split; auto. apply nth_error_In with i.
          assert (Hi : i < length vs) by (apply nth_error_Some; congruence).
          rewrite (nth_error_nth' _ (0, [])) by (rewrite combine_length, seq_length; lia). rewrite combine_nth by (rewrite seq_length; auto).
          rewrite seq_nth by auto. rewrite (nth_error_nth _ _ _ Ev). reflexivity.
      + apply nth_error_None. apply nth_error_None in Ev. lia.
  Qed.

  Lemma face_length : forall tets bs f t, Forall (fun t => length t = 4) tets -> In (f, t) (tagged_faces tets bs) -> length f = 3.
  Proof.
    intros tets bs f t F H. apply in_flat_map in H as ([tet b] & H1 & H2). apply in_combine_l in H1, H2. cbn [fst] in H2.
    rewrite Forall_forall in F. specialize (F _ H1). destruct tet as [|t0 [|t1 [|t2 [|t3 [|]]]]]; try discriminate.
    cbn in H2. destruct H2 as [<- |[<- |[<- |[<- |[]]]]]; reflexivity.
  Qed.

  (** The four faces of the format are the faces the mesh code enumerates. *)
  Lemma faces_enumerated : forall tet, length tet = 4 -> NoDup tet -> Forall (fun x => 0 <= x)%Z tet ->
    exists faces, downward 3 (simplex_of tet) = Some faces /\
      (forall g, In g faces <-> exists face, In face (pumgen_faces tet) /\ g = simplex_of face).
  Proof.
    intros tet L N P. destruct tet as [|a [|b [|c [|d [|]]]]]; try discriminate. clear L.
    assert (Hz : forall x, In x [a; b; c; d] -> (0 <= x)%Z) by (apply Forall_forall; auto).
    assert (N' : NoDup (map Z.to_nat [a; b; c; d])).
    {
      clear P. cbn [map]. repeat match goal with H : NoDup (_ :: _) |- _ => inversion H; clear H; subst end.
      repeat constructor; cbn in *; intros H;
        repeat match goal with H : _ \/ _ |- _ => destruct H as [H|H] end; auto;
        apply Z2Nat.inj in H; try (apply Hz; cbn; tauto); subst; tauto. }
    destruct (downward_lists_faces (map Z.to_nat [a; b; c; d]) 3 N' ltac:(cbn; lia)) as (l & L1 & _ & _ & L4).
    exists l. split; [exact L1|]. intros g. rewrite L4. clear L1 L4.
    assert (Hone : forall face, In face (pumgen_faces [a; b; c; d]) ->
      length (simplex_of face) = 3 /\ NoDup (simplex_of face) /\ StronglySorted le (simplex_of face) /\ incl (simplex_of face) (map Z.to_nat [a; b; c; d])).
    { intros face Hf. unfold simplex_of, mk_simplex. pose proof (sort_perm (map Z.to_nat face)) as Pf.
      rewrite <- (Permutation_length Pf). split; [|split; [|split]].
      - cbn in Hf. destruct Hf as [<- |[<- |[<- |[<- |[]]]]]; reflexivity.
      - eapply Permutation_NoDup; [exact Pf|]. cbn [map] in *.
        repeat match goal with H : NoDup (_ :: _) |- _ => inversion H; clear H; subst end.
        cbn in *. destruct Hf as [<- |[<- |[<- |[<- |[]]]]]; repeat constructor; cbn in *; intuition congruence.
      - apply sort_sorted.
      - intros v Hv. apply (Permutation_in _ (Permutation_sym Pf)) in Hv. cbn in *. destruct Hf as [<- |[<- |[<- |[<- |[]]]]]; cbn in Hv; tauto. }
    split.
    - intros (G1 & G2 & G3 & G4).
      (* the vertex that is missing *)
      assert (Hm : exists v, In v (map Z.to_nat [a; b; c; d]) /\ ~ In v g).
      { destruct (in_dec Nat.eq_dec (Z.to_nat a) g), (in_dec Nat.eq_dec (Z.to_nat b) g), (in_dec Nat.eq_dec (Z.to_nat c) g), (in_dec Nat.eq_dec (Z.to_nat d) g);
          try (eexists; split; [|eassumption]; cbn; tauto).
        exfalso. assert (H : length (map Z.to_nat [a; b; c; d]) <= length g); [|cbn in H; lia].
        apply NoDup_incl_length; auto. intros v Hv. cbn in Hv. intuition congruence. }
      destruct Hm as (v & Hv & Hg).
      assert (Hex : exists face, In face (pumgen_faces [a; b; c; d]) /\ incl g (map Z.to_nat face)).
      { cbn [pumgen_faces]. cbn in Hv. destruct Hv as [<- |[<- |[<- |[<- |[]]]]].
        - exists [b; c; d]. split; [cbn; tauto|]. intros w Hw. assert (w <> Z.to_nat a) by congruence. apply G4 in Hw. cbn in *. intuition congruence.
        - exists [a; d; c]. split; [cbn; tauto|]. intros w Hw. assert (w <> Z.to_nat b) by congruence. apply G4 in Hw. cbn in *. intuition congruence.
        - exists [a; b; d]. split; [cbn; tauto|]. intros w Hw. assert (w <> Z.to_nat c) by congruence. apply G4 in Hw. cbn in *. intuition congruence.
        - exists [a; c; b]. split; [cbn; tauto|]. intros w Hw. assert (w <> Z.to_nat d) by congruence. apply G4 in Hw. cbn in *. intuition congruence. }
      destruct Hex as (face & Hf & Hi). exists face. split; auto. destruct (Hone face Hf) as (F1 & F2 & F3 & _).
      apply sorted_unique; auto. unfold simplex_of, mk_simplex in *.
      apply NoDup_Permutation_bis; auto; [lia|]. intros w Hw. eapply Permutation_in; [apply sort_perm|]. auto.
    - intros (face & Hf & ->). apply Hone; auto.
  Qed.

  Lemma simplex_of_perm : forall f g, Forall (fun x => 0 <= x)%Z f -> Forall (fun x => 0 <= x)%Z g ->
    (simplex_of f = simplex_of g <-> Permutation f g).
  Proof.
    intros f g Hf Hg. unfold simplex_of. split; intros H.
    - assert (P : Permutation (map Z.to_nat f) (map Z.to_nat g)).
      { eapply perm_trans; [apply sort_perm|]. unfold mk_simplex in H. rewrite H. apply Permutation_sym, sort_perm. }
      apply (Permutation_map Z.of_nat) in P. rewrite !map_map in P.
      assert (E : forall l, Forall (fun x => 0 <= x)%Z l -> map (fun x => Z.of_nat (Z.to_nat x)) l = l).
      { clear. intros l F. rewrite <- (map_id l) at 2. apply map_ext_in. intros x Hx. apply Z2Nat.id. rewrite Forall_forall in F. auto. }
      rewrite !E in P; auto.
    - apply sorted_unique; try apply sort_sorted. eapply perm_trans; [apply Permutation_sym, sort_perm|].
      eapply perm_trans; [apply Permutation_map; exact H|]. apply sort_perm.
  Qed.
  Lemma face_nonneg : forall tets bs f t, Forall (Forall (fun x => 0 <= x)%Z) tets -> In (f, t) (tagged_faces tets bs) -> Forall (fun x => 0 <= x)%Z f.
  Proof.
    intros tets bs f t F H. apply in_flat_map in H as ([tet b] & H1 & H2). apply in_combine_l in H1, H2. cbn [fst] in H2.
    rewrite Forall_forall in F. specialize (F _ H1). rewrite Forall_forall in F.
    destruct tet as [|t0 [|t1 [|t2 [|t3 [|]]]]]; try contradiction.
    apply Forall_forall. intros x Hx. apply F. cbn in *. destruct H2 as [<- |[<- |[<- |[<- |[]]]]]; cbn in Hx; tauto.
  Qed.

  (** The file is read on one process, the others have nothing.  The elements of the mesh are the tetrahedra, in order and
      with their groups; the vertices are those of the file.  Every face of every element is in the list of facets exactly
      once; if the tetrahedra that have the face agree about its tag, the condition there is the one the tag stands for.
      Nothing else is in the list. *)
  Theorem hdf5_mesh : forall (file : h5file num) vs tets bs groups others, pumgen_file file vs tets bs groups ->
    tets <> [] -> Forall (@NoDup Z) tets -> Forall (Forall (fun x => 0 <= x)%Z) tets ->
    exists cs b m ms, parseFile num zero file = Done (true, cs, []) /\ do_calls cs empty = Done b /\
      create num zero 3 (b :: repeat empty others) = Done (m :: ms) /\
      m_elements m = map simplex_of tets /\ m_tags m = groups /\ m_vertices m = vs /\ m_high m = None /\
      (forall i tet, nth_error tets i = Some tet -> exists faces, downward 3 (simplex_of tet) = Some faces /\
         forall g, In g faces -> exists! k, nth_error (m_facets m) k = Some g) /\
      (forall i j tet face b tag k, nth_error tets i = Some tet -> nth_error (pumgen_faces tet) j = Some face ->
         nth_error bs i = Some b -> nth_error b j = Some tag -> nth_error (m_facets m) k = Some (simplex_of face) ->
         (forall f' t', In (f', t') (tagged_faces tets bs) -> Permutation face f' -> t' = tag) ->
         exists bc, nth_error (m_bcs m) k = Some bc /\ tag_meaning tag bc) /\
      (forall g, In g (m_facets m) -> exists tet faces, In tet tets /\ downward 3 (simplex_of tet) = Some faces /\ In g faces).
  Proof.
    intros file vs tets bs groups others Hfile Hne Hnd Hpos. pose proof Hfile as (_ & Fv & _ & Ft & _ & Fb & Lb & _ & Lg).
    destruct (hdf5_mesh_calls num zero file vs tets bs groups Hfile) as (fs & Hfs & Hp). pose proof Hfs as (O1 & O2 & O3).
    assert (Hfsin : forall f t, In (f, t) fs -> In (f, t) (tagged_faces tets bs)).
    { intros f t H. apply In_nth_error in H as (i & Hi). destruct (O1 _ _ _ Hi) as (k & Hk & _). eapply nth_error_In; eauto. }
    assert (Ffs : Forall (fun x => length (fst x) = 3) fs).
    { apply Forall_forall. intros [f t] H. cbn. eapply face_length; eauto. }
    destruct (run_vertices vs Fv) as (b1 & B1 & L1 & V1).
    destruct (run_triangles fs b1 Ffs L1) as (b2 & B2 & L2 & V2).
    destruct (run_tets tets groups b2 Ft L2) as (b3 & B3 & L3 & V3).
    set (cs := vertex_part num vs ++ triangle_part num fs ++ tet_part num tets groups) in *.
    assert (Hrun : do_calls cs empty = Done b3).
    { unfold cs. rewrite do_calls_app, B1. cbn [andthen]. rewrite do_calls_app, B2. exact B3. }
    destruct (builder_collects num zero 3 (or_intror eq_refl) tol cs b3 Hrun) as (C1 & C2 & C3 & C4).
    assert (A3 : added 3 cs = map (fun x => (snd x, fst x)) (combine tets groups)).
    { unfold cs. rewrite !added_app, added_vertices, added_triangles, added_tets. reflexivity. }
    assert (A2 : added (3 - 1) cs = map (fun x => (snd x, fst x)) fs).
    { unfold cs. rewrite !added_app, added_vertices, added_triangles, added_tets. cbn [app].
      change (is_gmsh_simplex (3 - 1) 2) with true. change (is_gmsh_simplex (3 - 1) 4) with false. cbn iota. apply app_nil_r. }
    rewrite A3 in C1, C2. rewrite A2 in C3, C4. rewrite map_map in C1, C2, C3, C4. cbn [fst snd] in C1, C2, C3, C4.
    assert (E1 : elements b3 = map simplex_of tets).
    { rewrite C1. clear - Lg Ft. revert groups Lg. induction tets as [|t tets IH]; intros [|g groups] L; try discriminate; cbn [combine map]; auto.
      f_equal; [|apply IH; [inversion Ft; auto|cbn in L; lia]]. unfold simplex_of, ids. cbn [fst]. rewrite firstn_all2; auto.
      rewrite (Forall_inv Ft). lia. }
    assert (E2 : volume_tags b3 = groups).
    { rewrite C2. clear - Lg. revert groups Lg. induction tets as [|t tets IH]; intros [|g groups] L; try discriminate; cbn [combine map]; auto.
      f_equal. apply IH. cbn in L. lia. }
    assert (E3 : facets b3 = map (fun x => simplex_of (fst x)) fs).
    { rewrite C3. apply map_ext_in. intros [f t] H. unfold simplex_of, ids. cbn [fst]. rewrite firstn_all2; auto.
      rewrite Forall_forall in Ffs. apply Ffs in H. cbn in H. lia. }
    assert (Hfs0 : fs <> []).
    { intros ->. destruct tets as [|t tets]; [congruence|]. destruct bs as [|b bs]; [discriminate|].
      pose proof (Forall_inv Ft) as Lt. destruct (Forall_inv Fb) as [Lb' _]. cbn beta in Lt.
      destruct t as [|t0 [|t1 [|t2 [|t3 [|]]]]]; try discriminate. destruct b as [|w0 b]; try discriminate.
      destruct (O2 [t0; t2; t1] w0) as (? & ? & [] & _). cbn. left. reflexivity. }
    exists cs, b3.
    exists {| m_elements := elements b3; m_vertices := vertices b3; m_high := None; m_tags := volume_tags b3; m_facets := facets b3; m_bcs := bcs b3 |}.
    exists (repeat {| m_elements := []; m_vertices := []; m_high := None; m_tags := []; m_facets := []; m_bcs := [] |} others).
    split; [exact Hp|]. split; [exact Hrun|]. split.
    { unfold create. cbn [map]. rewrite !sum_cons.
      replace (length (elements b3)) with (S (length (elements b3) - 1)) by (rewrite E1, map_length; destruct tets; [congruence|cbn; lia]).
      replace (length (bcs b3)) with (S (length (bcs b3) - 1)).
      2:{ assert (Hl : length (map (fun x : list Z * Z => snd x) fs) = length (bcs b3)) by (clear - C4; induction C4; cbn; auto).
          rewrite <- Hl, map_length. destruct fs; [congruence|cbn; lia]. }
      cbn [Nat.add Nat.eqb].
      assert (Ec : list_max (cols num b3 :: map (cols num) (repeat empty others)) = 0).
      { destruct L3 as [H3 _]. unfold cols at 1. rewrite H3. clear. induction others; cbn in *; auto. }
      rewrite Ec. apply all_done_spec. cbn [map]. f_equal.
      clear. induction others as [|n IH]; [reflexivity|]. cbn [repeat map]. f_equal. exact IH. }
    cbn [m_elements m_tags m_vertices m_high m_facets m_bcs]. split; [exact E1|]. split; [exact E2|]. split; [congruence|]. split; [reflexivity|].
    assert (Hnn : forall i f t, nth_error fs i = Some (f, t) -> Forall (fun x => 0 <= x)%Z f).
    { intros i f t H. eapply face_nonneg; eauto. apply Hfsin. eapply nth_error_In; eauto. }
    assert (Hget : forall k g, nth_error (facets b3) k = Some g <-> exists f t, nth_error fs k = Some (f, t) /\ g = simplex_of f).
    { intros k g. rewrite E3, nth_error_map. split.
      - destruct (nth_error fs k) as [[f t]|]; [|discriminate]. intros [= <-]. eauto.
      - intros (f & t & -> & ->). reflexivity. }
    assert (Hface : forall i j tet face, nth_error tets i = Some tet -> nth_error (pumgen_faces tet) j = Some face ->
      exists b tag, nth_error bs i = Some b /\ nth_error b j = Some tag /\ Forall (fun x => 0 <= x)%Z face).
    { intros i j tet face Hi Hj.
      assert (Hib : i < length bs) by (rewrite Lb; apply nth_error_Some; congruence). apply nth_error_Some in Hib.
      destruct (nth_error bs i) as [b|] eqn:Eb; [|congruence]. rewrite Forall_forall in Fb, Ft, Hpos.
      destruct (Fb b) as [Lb4 _]; [eapply nth_error_In; eauto|].
      pose proof (Ft tet (nth_error_In _ _ Hi)) as L4. pose proof (Hpos tet (nth_error_In _ _ Hi)) as P4. rewrite Forall_forall in P4.
      destruct tet as [|t0 [|t1 [|t2 [|t3 [|]]]]]; try discriminate.
      assert (Hj4 : j < 4) by (apply (nth_error_Some (pumgen_faces [t0; t1; t2; t3]) j); congruence). rewrite <- Lb4 in Hj4. apply nth_error_Some in Hj4.
      destruct (nth_error b j) as [tag|] eqn:Ej; [|congruence]. exists b, tag. split; auto. split; auto.
      apply Forall_forall. intros x Hx. apply P4. apply nth_error_In in Hj. cbn in *. destruct Hj as [<- |[<- |[<- |[<- |[]]]]]; cbn in Hx; tauto. }
    split; [|split].
    - intros i tet Hi. pose proof (nth_error_In _ _ Hi) as Hin. rewrite Forall_forall in Ft, Hnd, Hpos.
      destruct (faces_enumerated tet (Ft _ Hin) (Hnd _ Hin) (Hpos _ Hin)) as (faces & D1 & D2). exists faces. split; auto.
      intros g Hg. apply D2 in Hg as (face & Hf & ->). apply In_nth_error in Hf as [j Hj].
      destruct (Hface i j tet face Hi Hj) as (b & tag & Hb & Ht & Hnonneg).
      destruct (hdf5_face_tags tets bs fs i j tet face tag b Fb Lb Hfs Hi Hj Hb Ht) as (k & (f & t & K1 & K2 & _) & Ku).
      exists k. split.
      + apply Hget. exists f, t. split; auto. apply simplex_of_perm; eauto.
      + intros k' Hk'. apply Hget in Hk' as (f' & t' & K1' & E). eapply O3; eauto. apply simplex_of_perm in E; eauto.
        eapply perm_trans; [apply Permutation_sym, K2|exact E].
    - intros i j tet face b tag k Hi Hj Hb Ht Hk Hagree.
      destruct (Hface i j tet face Hi Hj) as (_ & _ & _ & _ & Hnonneg).
      apply Hget in Hk as (f & t & K1 & E). apply simplex_of_perm in E; eauto.
      assert (t = tag). { apply (Hagree f t); auto. apply Hfsin. eapply nth_error_In; eauto. }
      subst t. clear - C4 K1.
      assert (Hk : nth_error (map (fun x : list Z * Z => snd x) fs) k = Some tag) by (rewrite nth_error_map, K1; reflexivity).
      clear K1. revert k Hk. induction C4; intros [|k] Hk; try discriminate.
      + injection Hk as ->. eexists. split; [reflexivity|]. auto.
      + cbn in Hk. apply IHC4. auto.
    - intros g Hg. apply In_nth_error in Hg as [k Hk]. apply Hget in Hk as (f & t & K1 & ->). apply nth_error_In, Hfsin in K1.
      apply in_flat_map in K1 as ([tet b] & H1 & H2). apply in_combine_l in H1, H2. cbn [fst] in H2. rewrite Forall_forall in Ft, Hnd, Hpos.
      destruct (faces_enumerated tet (Ft _ H1) (Hnd _ H1) (Hpos _ H1)) as (faces & D1 & D2). exists tet, faces. split; auto. split; auto.
      apply D2. eauto.
  Qed.
End Mesh.

(** Two tetrahedra with a common face that both call a fault (tag 3). *)
Definition ex_tets : list (list Z) := [[0; 1; 2; 3]; [4; 2; 1; 3]]%Z.
Definition ex_bytes : list (list Z) := [[5; 0; 3; 1]; [0; 5; 3; 0]]%Z.
Definition ex_file : h5file nat :=
  {| geometry := Some (concat (map (fun i => [i; i * i; 7]) (seq 0 5))); boundary := Some (map pumgen_word ex_bytes);
     connect := Some (concat ex_tets); group := None |}.
Example ex_file_ok : pumgen_file ex_file (map (fun i => [i; i * i; 7]) (seq 0 5)) ex_tets ex_bytes [0; 0]%Z /\
  ex_tets <> [] /\ Forall (@NoDup Z) ex_tets /\ Forall (Forall (fun x => 0 <= x)%Z) ex_tets.
Proof.
  split; [|split; [discriminate|split]].
  - unfold pumgen_file, ex_file, ex_tets, ex_bytes, bytes. repeat apply conj; try reflexivity; auto; repeat constructor; cbn; lia.
  - repeat constructor; cbn; lia.
  - repeat constructor; cbn; lia.
Qed.
Example ex_agree : forall f' t', In (f', t') (tagged_faces ex_tets ex_bytes) -> Permutation [1; 2; 3]%Z f' -> t' = 3%Z.
Proof.
  intros f' t' H P. assert (Hi : forall x, In x f' -> In x [1; 2; 3]%Z) by (intros x; apply Permutation_in, Permutation_sym; auto).
  cbn in H. repeat match goal with H : _ \/ _ |- _ => destruct H as [H|H] end; try contradiction; injection H as <- <-; auto;
    exfalso; try (specialize (Hi 0%Z ltac:(cbn; tauto)); cbn in Hi; lia); try (specialize (Hi 4%Z ltac:(cbn; tauto)); cbn in Hi; lia).
Qed.
Example ex_calls : match parseFile nat 0 ex_file with
  | Done (true, cs, []) => skipn 6 cs = [AddElement 2 5 [0; 2; 1]; AddElement 2 0 [0; 1; 3]; AddElement 2 3 [1; 2; 3]; AddElement 2 1 [0; 3; 2];
      AddElement 2 0 [4; 1; 2]; AddElement 2 5 [4; 2; 3]; AddElement 2 0 [4; 3; 1]; AddElement 4 0 [0; 1; 2; 3]; AddElement 4 0 [4; 2; 1; 3]]%Z
  | _ => False end.
Proof. vm_compute. reflexivity. Qed.

(** If the two tetrahedra disagree, the tag of the second is lost. *)
Theorem hdf5_disagreeing_tags_refuted : exists tets bs fs, Forall bytes bs /\ length bs = length tets /\
  first_occurrences (tagged_faces tets bs) fs /\ In ([2; 1; 3]%Z, 3%Z) (tagged_faces tets bs) /\
  forall f, Permutation f [2; 1; 3]%Z -> ~ In (f, 3%Z) fs.
Proof.
  exists ex_tets, [[5; 0; 0; 1]; [0; 5; 3; 0]]%Z.
  pose proof (steps_first (tagged_faces ex_tets [[5; 0; 0; 1]; [0; 5; 3; 0]]%Z) _ eq_refl) as (_ & _ & F).
  eexists. split; [|split; [|split; [exact F|split]]].
  - unfold bytes. repeat constructor; lia.
  - reflexivity.
  - cbn. tauto.
  - intros f P H. clear F. assert (Hi : forall x, In x f -> In x [2; 1; 3]%Z) by (intros x; apply Permutation_in; auto).
    vm_compute in H. repeat match goal with H : _ \/ _ |- _ => destruct H as [H|H] end; try contradiction; try discriminate.
Qed.

(** A data set of groups with too few entries is read past its end. *)
Theorem hdf5_short_groups_refuted : exists file : h5file nat,
  (exists c b, connect file = Some c /\ boundary file = Some b /\ length b = length c / 4) /\ group file = Some [1%Z] /\
  parseFile nat 0 file = Undef.
Proof.
  exists {| geometry := Some [0; 0; 0]; boundary := boundary ex_file; connect := connect ex_file; group := Some [1%Z] |}.
  split; [do 2 eexists; cbn [connect boundary ex_file]; split; [reflexivity|split; reflexivity]|].
  split; vm_compute; reflexivity.
Qed.

Print Assumptions hdf5_mesh.
Print Assumptions hdf5_mesh_calls.
Print Assumptions hdf5_mesh_result.
Print Assumptions hdf5_face_tags.
