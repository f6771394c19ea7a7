(** C15: the mesh builder keeps the simplices of the file, renumbers vertices without merging or losing any and
    places the high order nodes. *)
Require Import List Arith ZArith Bool Lia Reals Lra Permutation Sorting.Sorted.
Require Import Verif.Base Verif.CombinatoricsModel Verif.CombinatoricsProofs Verif.SimplexModel Verif.SimplexProofs Verif.SimplexProps.
Require Import Verif.FacesModel Verif.FacesProofs Verif.LehmerModel Verif.LehmerProps.
Require Import Verif.EquidistantModel Verif.EquidistantProofs Verif.EquidistantProps.
Require Import Verif.GmshModel Verif.BuilderModel Verif.BuilderProofs Verif.BuilderRun.
Import ListNotations.

Section Props.
  Variable num : Type.
  Variable zero : num.
  Variable D : nat.
  Hypothesis HD : D = 2 \/ D = 3.
  Variable tol : R.
  Notation NV := (D + 1).
  Notation do_calls := (do_calls num zero D tol).
  Notation create := (create num zero D).
  Notation create_local := (create_local num zero D).
  Notation empty := (empty_builder num).
  Notation builder := (builder num).
  Notation mesh := (mesh num).

  (** Whatever the calls: the elements are the D-simplices in order, with their tags, and the facets the
      (D-1)-simplices in order, with the boundary conditions their tags stand for; the vertices of each in ascending
      order ([mk_simplex], see simplex_equal_iff_same_vertices). *)
  Theorem builder_collects : forall cs b, do_calls cs empty = Done b ->
    elements b = map (fun x => mk_simplex (ids NV (snd x))) (added D cs) /\
    volume_tags b = map fst (added D cs) /\
    facets b = map (fun x => mk_simplex (ids D (snd x))) (added (D - 1) cs) /\
    Forall2 tag_meaning (map fst (added (D - 1) cs)) (bcs b).
  Proof.
    intros cs b H. destruct (do_calls_add num zero D HD tol cs empty b H) as (A1 & A2 & A3 & A4).
    split; auto. split; auto. split; auto. rewrite A4. cbn [bcs empty_builder app].
    clear. induction (added (D - 1) cs) as [|x l IH]; cbn; constructor; auto. apply bc_of_tag_meaning. reflexivity.
  Qed.

  (** Nothing is dropped without being counted: each element of the file is an element, a facet or counted as
      ignored, and the facets with a tag that means nothing (other than 0, 1, 3 and 5) are counted. *)
  Definition element_call (c : call num) : bool := match c with AddElement _ _ _ => true | _ => false end.
  Definition unknown (x : Z * list Z) : bool := negb (existsb (Z.eqb (fst x)) [0; 1; 3; 5]%Z).
  Lemma do_call_counts : forall c b b', do_call num zero D tol c b = Done b' ->
    length (elements b') + length (facets b') + ignoredElems b' =
      length (elements b) + length (facets b) + ignoredElems b + length (filter element_call [c]) /\
    unknownBC b' = unknownBC b + length (filter unknown (added (D - 1) [c])).
  Proof.
    intros [n|id x|n|t tag nodes] b b' H; unfold do_call in H.
    - injection H as <-. cbn. lia.
    - unfold setVertex in H. destruct (id <? 0)%Z; [discriminate|]. destruct (upd _ _ _); [|discriminate].
      injection H as <-. cbn. lia.
    - injection H as <-. cbn. lia.
    - unfold addElement in H. unfold added. cbn [flat_map filter element_call length].
      destruct (is_gmsh_simplex D t) eqn:E1.
      + destruct (is_gmsh_simplex (D - 1) t) eqn:E2; [pose proof (types_disjoint D (D - 1) t ltac:(lia) ltac:(lia) E1 E2); lia|].
        match type of H with (if ?c then _ else _) = _ => destruct c; [discriminate|] end. match type of H with (if ?c then _ else _) = _ => destruct c; [discriminate|] end.
        match type of H with andthen ?x _ = _ => destruct x as [[hon table]| |] eqn:Ex end; try discriminate.
        injection H as <-. cbn [elements facets ignoredElems unknownBC]. rewrite app_length. cbn. lia.
      + destruct (is_gmsh_simplex (D - 1) t) eqn:E2.
        * destruct (length nodes <? D); [discriminate|]. injection H as <-.
          cbn [elements facets ignoredElems unknownBC]. rewrite app_length. cbn [length]. split; [lia|].
          f_equal. unfold unknown_tag, unknown. cbn [filter app fst existsb].
          destruct (Z.eqb_spec tag 0), (Z.eqb_spec tag 5), (Z.eqb_spec tag 3), (Z.eqb_spec tag 1); subst; reflexivity.
        * destruct (is_lower_dimensional (D - 1) t); [|discriminate]. injection H as <-.
          cbn [elements facets ignoredElems unknownBC length filter app]. lia.
  Qed.
  Theorem builder_counts : forall cs b, do_calls cs empty = Done b ->
    length (elements b) + length (facets b) + ignoredElems b = length (filter element_call cs) /\
    unknownBC b = length (filter unknown (added (D - 1) cs)).
  Proof.
    assert (K : forall cs b b', do_calls cs b = Done b' ->
      length (elements b') + length (facets b') + ignoredElems b' =
        length (elements b) + length (facets b) + ignoredElems b + length (filter element_call cs) /\
      unknownBC b' = unknownBC b + length (filter unknown (added (D - 1) cs))).
    { induction cs as [|c cs IH]; intros b b' H; cbn [BuilderModel.do_calls] in H.
      - injection H as <-. cbn. lia.
      - destruct (do_call num zero D tol c b) as [b1| |] eqn:E; try discriminate. cbn [andthen] in H.
        destruct (do_call_counts _ _ _ E) as (A1 & A2). destruct (IH _ _ H) as (B1 & B2).
        change (c :: cs) with ([c] ++ cs). rewrite added_app, !filter_app, !app_length. lia. }
    intros cs b H. destruct (K cs empty b H) as (A & B). split; [rewrite A|rewrite B]; reflexivity.
  Qed.

  (** ** A file with one section of nodes and one of elements *)
  Definition file_calls (nv : nat) (vs : list (Z * list num)) (els : list (Z * Z * list Z)) : list (call num) :=
    SetNumVertices (Z.of_nat nv) :: vertex_calls num vs ++
    SetNumElements (Z.of_nat (length els)) :: element_calls num els.

  Lemma run_file : forall nv vs els, (0 <= tol < 1 / 10)%R ->
    Forall (in_file num nv) vs -> NoDup (map fst vs) -> Forall counted els ->
    exists b1, length (vertices b1) = nv /\ capacity b1 = length els /\ inv num D tol [] (length els) b1 /\ type_ b1 = 0%Z /\
      (forall id x, In (id, x) vs -> nth_error (vertices b1) (Z.to_nat id) = Some (firstn D x)) /\
      do_calls (file_calls nv vs els) empty = do_calls (element_calls num els) b1.
  Proof.
    intros nv vs els Ht Hv Hn Hc. unfold file_calls.
    cbn [BuilderModel.do_calls BuilderModel.do_call setNumVertices andthen]. rewrite do_calls_app.
    match goal with |- context [andthen (BuilderModel.do_calls _ _ _ _ _ ?b0) _] => set (b0' := b0) end.
    assert (L0 : length (vertices b0') = nv).
    { cbn. unfold resize. rewrite firstn_nil. cbn. rewrite repeat_length. lia. }
    destruct (set_vertices num zero D HD tol vs b0') as (b' & B1 & B2 & B3 & B4 & B5); [rewrite L0; auto|auto|].
    rewrite B1. cbn [andthen BuilderModel.do_calls BuilderModel.do_call setNumElements].
    match goal with |- context [BuilderModel.do_calls num zero D tol (element_calls num els) {| vertices := ?a; elements := ?b; facets := ?c; volume_tags := ?d; bcs := ?e; high_order_nodes := ?f; node_permutations := ?g; capacity := ?h; ignoredElems := ?i; unknownBC := ?j; type_ := ?k |} = _] =>
      exists {| vertices := a; elements := b; facets := c; volume_tags := d; bcs := e; high_order_nodes := f; node_permutations := g; capacity := h; ignoredElems := i; unknownBC := j; type_ := k |} end.
    cbn [vertices capacity type_]. split; [rewrite B3; exact L0|].
    destruct B2 as (E1 & E2 & E3 & E4 & E5 & E6 & E7 & E8).
    split; [rewrite E7; change (capacity b0') with 0; lia|]. split.
    - left. cbn [type_ elements high_order_nodes capacity]. rewrite E1, E5. repeat split; auto. lia.
    - split; auto.
  Qed.

  (** The calls are accepted if and only if all elements are simplices of dimension at most D and the D-simplices
      have one type; otherwise an exception is thrown.  Nothing undefined happens. *)
  Theorem builder_accepts : forall nv vs els, (0 <= tol < 1 / 10)%R ->
    Forall (in_file num nv) vs -> NoDup (map fst vs) -> Forall counted els ->
    (acceptable D els <-> exists b, do_calls (file_calls nv vs els) empty = Done b) /\
    (~ acceptable D els <-> do_calls (file_calls nv vs els) empty = Threw).
  Proof.
    intros nv vs els Ht Hv Hn Hc. destruct (run_file nv vs els Ht Hv Hn Hc) as (b1 & _ & _ & B1 & B2 & _ & ->).
    destruct (elements_loop num zero D HD tol Ht els b1 [] Hc B1) as (I1 & I2 & I3).
    destruct (do_calls (element_calls num els) b1) as [b| |] eqn:E; [| |congruence].
    - assert (A : acceptable D els) by (apply (I2 b); auto). split; split; intros; eauto; try tauto; discriminate.
    - assert (A : ~ acceptable D els). { intros A. destruct I1 as (b' & H & _); auto. discriminate. }
      split; split; intros; auto; [contradiction|]. destruct H; discriminate.
  Qed.

  (** ** Making the mesh *)
  Definition used_by (es : list (list nat)) (v : nat) : Prop := exists e, In e es /\ In v e.
  (** The mesh m is the content of the builder b up to new vertex numbers r. *)
  Definition same_mesh (b : builder) (m : mesh) (r : nat -> nat) : Prop :=
    m_elements m = map (map r) (elements b) /\ m_facets m = map (map r) (facets b) /\
    m_tags m = volume_tags b /\ m_bcs m = bcs b /\
    (forall v w, used_by (elements b) v -> used_by (elements b) w -> r v = r w -> v = w) /\
    (forall v, used_by (elements b) v -> nth_error (m_vertices m) (r v) = nth_error (vertices b) v).

  Lemma create_local_same : forall rows cols b m, create_local rows cols b = Done m ->
    exists r, same_mesh b m r /\
      (cols = 0 -> m_high m = None /\ m_vertices m = vertices b /\ forall v, r v = v) /\
      (0 < cols ->
        (exists hv, m_high m = Some hv /\ high_order_verts num rows b = Done hv) /\
        (forall i, i < length (m_vertices m) <-> exists v, used_by (elements b) v /\ r v = i) /\
        (forall v, used_by (facets b) v -> used_by (elements b) v)).
  Proof.
    intros rows cols b m H. unfold BuilderModel.create_local in H. destruct (Nat.ltb_spec 0 cols) as [Hc|Hc].
    - destruct (high_order_verts num rows b) as [hv| |] eqn:Eh; try discriminate. cbn [andthen] in H.
      destruct (renumber_elements (repeat None (length (vertices b))) 0 (elements b)) as [[es [mp n]]|] eqn:Er; [|discriminate].
      cbn [defined andthen] in H.
      destruct (all_some (map (renumber_facet mp) (facets b))) as [fs|] eqn:Ef; [|discriminate]. cbn [defined andthen] in H.
      destruct (renumber_elements_spec _ _ _ _ _ _ (numbering_empty _) Er) as ((N1 & N2 & N3) & L & F & _ & Hu).
      rewrite repeat_length in L.
      destruct (place_vertices_spec num mp (vertices b) (repeat (repeat zero D) n)) as (vs & V1 & V2 & V3 & _); auto.
      { intros v i Hi. rewrite repeat_length. eauto. }
      rewrite V1 in H. cbn [defined andthen] in H. injection H as <-. rewrite repeat_length in V2.
      assert (Hused : forall v, used_by (elements b) v -> exists i, assigned mp v i).
      { intros v (e & He & Hv). destruct (Forall2_in _ _ _ _ _ _ F He) as (e' & _ & Fe).
        destruct (Forall2_in _ _ _ _ _ _ Fe Hv) as (i & _ & Hi). eauto. }
      assert (Husd : forall v i, assigned mp v i -> used_by (elements b) v).
      { intros v i Hi. apply Hu in Hi as [Hi|Hi]; [|exact Hi]. apply nth_error_In, repeat_spec in Hi. discriminate. }
      assert (Hfac : forall f, In f (facets b) -> renumber_facet mp f = Some (map (ren mp) f) /\ forall v, In v f -> exists i, assigned mp v i).
      { intros f Hf. apply all_some_spec in Ef. assert (Hin : In (renumber_facet mp f) (map Some fs)) by (rewrite <- Ef; apply in_map; auto).
        apply in_map_iff in Hin as (f' & E & _). unfold renumber_facet in *. symmetry in E. apply all_some_spec in E.
        assert (Ha : Forall2 (assigned mp) f f').
        { clear - E. revert f' E. induction f as [|v f IH]; intros [|i f'] E; try discriminate; constructor; injection E; intros E2 E1; auto.
          unfold assigned. destruct (nth_error mp v) as [[j|]|]; try discriminate. congruence. }
        split.
        - apply all_some_spec. rewrite E. rewrite (renumbered_list _ _ _ Ha). reflexivity.
        - intros v Hv. destruct (Forall2_in _ _ _ _ _ _ Ha Hv) as (i & _ & Hi). eauto. }
      exists (ren mp). split; [|split; [intros ->; lia|intros _]].
      + unfold same_mesh. cbn [m_elements m_facets m_tags m_bcs m_vertices].
        split; [apply renumbered_lists; auto|]. split.
        { apply all_some_spec in Ef. assert (E2 : map (renumber_facet mp) (facets b) = map Some (map (map (ren mp)) (facets b))).
          { rewrite map_map. apply map_ext_in. intros f Hf. apply Hfac; auto. }
          rewrite Ef in E2. clear - E2. revert E2. generalize (map (map (ren mp)) (facets b)). clear.
          induction fs as [|x fs IH]; intros [|y l] E; try discriminate; auto. injection E as -> E. f_equal. auto. }
        split; auto. split; auto. split.
        * intros v w Hv Hw E. apply Hused in Hv as [i Hi], Hw as [j Hj]. rewrite (ren_assigned _ _ _ Hi), (ren_assigned _ _ _ Hj) in E.
          subst j. eapply N2; eauto.
        * intros v Hv. apply Hused in Hv as [i Hi]. rewrite (ren_assigned _ _ _ Hi). apply V3; auto.
      + cbn [m_high m_vertices]. split; [eauto|]. split.
        * intros i. rewrite V2. split.
          -- intros Hi. destruct (N3 i Hi) as [v Hv]. exists v. split; eauto. apply ren_assigned; auto.
          -- intros (v & Hv & <-). apply Hused in Hv as [i Hi]. rewrite (ren_assigned _ _ _ Hi). eauto.
        * intros v (f & Hf & Hv). destruct (Hfac f Hf) as [_ Ha]. destruct (Ha v Hv) as [i Hi]. eauto.
    - injection H as <-. exists (fun v => v). split; [|split; [auto|lia]].
      unfold same_mesh. cbn. assert (E : forall l : list (list nat), map (map (fun v => v)) l = l).
      { intros l. rewrite <- (map_id l) at 2. apply map_ext. intros. apply map_id. }
      rewrite !E. repeat split; auto.
  Qed.

  Lemma all_done_spec : forall A (l : list (outcome A)) r, all_done l = Done r <-> l = map Done r.
  Proof.
    intros A. induction l as [|[x| |] l IH]; intros r; cbn [all_done andthen].
    - split; [intros [= <-]; reflexivity|destruct r; [reflexivity|discriminate]].
    - split.
      + destruct (all_done l) as [t| |] eqn:E; try discriminate. cbn [andthen]. intros [= <-]. cbn. f_equal. apply IH. auto.
      + destruct r as [|y r]; [discriminate|]. intros [= -> H]. apply IH in H. rewrite H. reflexivity.
    - split; [discriminate|]. destruct r; discriminate.
    - split; [discriminate|]. destruct r; discriminate.
  Qed.

  (** On every process the mesh is the content of the builder up to a renumbering of the vertices that merges no two
      vertices of elements and keeps their coordinates.  With high order elements the new vertices are exactly the
      vertices of elements. *)
  Theorem builder_create_renumbers : forall bs ms, create bs = Done ms ->
    Forall2 (fun b m => exists r, same_mesh b m r /\
      (m_high m <> None -> forall i, i < length (m_vertices m) <-> exists v, used_by (elements b) v /\ r v = i)) bs ms.
  Proof.
    intros bs ms H. unfold BuilderModel.create in H. destruct (_ =? 0); [discriminate|]. destruct (_ =? 0); [discriminate|].
    revert H. generalize (list_max (map (rows num) bs)) (list_max (map (cols num) bs)). intros R C H. apply all_done_spec in H.
    revert ms H. induction bs as [|b bs IH]; intros [|m ms] H; try discriminate; constructor.
    - injection H as H _. destruct (create_local_same _ _ _ _ H) as (r & A1 & A2 & A3). exists r. split; auto.
      intros Hh. destruct C; [destruct A2 as [A2 _]; auto; congruence|]. apply A3. lia.
    - injection H as _ H. auto.
  Qed.

  (** An exception is thrown if no process has a D-simplex or no process has a facet. *)
  Theorem builder_create_throws : forall bs, create bs = Threw <->
    (forall b, In b bs -> elements b = []) \/ (forall b, In b bs -> bcs b = []).
  Proof.
    intros bs. assert (Hs : forall (f : builder -> nat), list_sum (map f bs) = 0 <-> forall b, In b bs -> f b = 0).
    { intros f. induction bs as [|b bs IH]; cbn [map]; [split; [intros _ ? []|reflexivity]|]. rewrite sum_cons. split.
      - intros H c [<- |Hc]; [lia|]. apply IH; auto. lia.
      - intros H. rewrite (H b) by (left; auto). apply IH. intros. apply H. right. auto. }
    assert (Hl : forall A (l : list A), length l = 0 <-> l = []) by (intros A []; cbn; split; auto; discriminate).
    unfold BuilderModel.create.
    destruct (Nat.eqb_spec (list_sum (map (fun b => length (elements b)) bs)) 0) as [E1|E1].
    - split; auto. intros _. left. intros b Hb. apply Hl. apply (proj1 (Hs _) E1). auto.
    - destruct (Nat.eqb_spec (list_sum (map (fun b => length (bcs b)) bs)) 0) as [E2|E2].
      + split; auto. intros _. right. intros b Hb. apply Hl. apply (proj1 (Hs _) E2). auto.
      + split.
        * intros H. exfalso. revert H. generalize (list_max (map (rows num) bs)) (list_max (map (cols num) bs)). intros R C.
          assert (Hc : forall b, create_local R C b <> Threw).
          { intros b. unfold BuilderModel.create_local. destruct (0 <? C); [|discriminate].
            unfold high_order_verts. destruct (all_some _); [|discriminate]. cbn [defined andthen].
            destruct (renumber_elements _ _ _) as [[? [? ?]]|]; [|discriminate]. cbn [defined andthen].
            destruct (all_some _); [|discriminate]. cbn [defined andthen]. destruct (place_vertices _ _ _ _); discriminate. }
          clear - Hc. induction bs as [|b bs IH]; cbn [map all_done]; [discriminate|].
          specialize (Hc b). destruct (create_local R C b); cbn [andthen]; try congruence.
          destruct (all_done _); cbn [andthen]; congruence.
        * intros [H|H]; exfalso; [apply E1|apply E2]; apply Hs; intros b Hb; apply Hl; auto.
  Qed.

  (** Faces and renumbering commute, so boundary facets are found again. *)
  Lemma pick_map : forall (r : nat -> nat) plex c, pick (map r plex) c = option_map (map r) (pick plex c).
  Proof.
    intros r plex. induction c as [|i c IH]; cbn [pick]; auto. rewrite nth_error_map.
    destruct (nth_error plex i); cbn; auto. rewrite IH. destruct (pick plex c); reflexivity.
  Qed.
  Lemma downward_map : forall (r : nat -> nat) k plex, downward k (map r plex) = option_map (map (map r)) (downward k plex).
  Proof.
    intros r k plex. unfold downward. rewrite map_length. destruct (choose_all _ _ _) as [cs|]; cbn; auto.
    induction cs as [|c cs IH]; cbn [pick_all]; auto. rewrite pick_map, IH.
    destruct (pick plex c); cbn; auto. destruct (pick_all plex cs); reflexivity.
  Qed.
  Lemma map_inj_on : forall (r : nat -> nat) (S : nat -> Prop), (forall v w, S v -> S w -> r v = r w -> v = w) ->
    forall a b, (forall v, In v a -> S v) -> (forall v, In v b -> S v) -> map r a = map r b -> a = b.
  Proof.
    intros r S Hr a. induction a as [|x a IH]; intros [|y b] Ha Hb E; try discriminate; auto. injection E as E1 E2.
    f_equal; [apply Hr; auto; [apply Ha|apply Hb]; left; auto|]. apply IH; auto; intros; [apply Ha|apply Hb]; right; auto.
  Qed.

  (** Facet number i of the mesh is one of the faces of element number k of the mesh, as the mesh code enumerates them,
      if and only if the vertices given in the file for the facet are vertices given for the element; the condition
      found for it is the one its tag stands for. *)
  Theorem builder_boundary_found : forall cs b bs ms m n k i xe xf,
    do_calls cs empty = Done b -> create bs = Done ms -> nth_error bs n = Some b -> nth_error ms n = Some m ->
    nth_error (added D cs) k = Some xe -> nth_error (added (D - 1) cs) i = Some xf ->
    NoDup (ids NV (snd xe)) -> NoDup (ids D (snd xf)) -> length (ids NV (snd xe)) = NV -> length (ids D (snd xf)) = D ->
    (forall v, used_by (facets b) v -> used_by (elements b) v) ->
    exists e f faces bc, nth_error (m_elements m) k = Some e /\ nth_error (m_facets m) i = Some f /\
      downward D e = Some faces /\ (In f faces <-> incl (ids D (snd xf)) (ids NV (snd xe))) /\
      nth_error (m_bcs m) i = Some bc /\ tag_meaning (fst xf) bc.
  Proof.
    intros cs b bs ms m n k i xe xf Hrun Hcr Hb Hm Hk Hi Ne Nf Le Lf Hu.
    destruct (builder_collects _ _ Hrun) as (C1 & _ & C3 & C4).
    assert (Hs : exists r, same_mesh b m r).
    { pose proof (builder_create_renumbers _ _ Hcr) as F. clear - F Hb Hm. revert n Hb Hm. induction F as [|b0 m0 bs ms (r & Hr & _) F IH].
      - intros [|n]; discriminate.
      - intros [|n] Hb Hm; [|eapply IH; eauto]. cbn in Hb, Hm. injection Hb as ->. injection Hm as ->. eauto. }
    destruct Hs as (r & E1 & E2 & _ & E4 & Hinj & _).
    set (e0 := mk_simplex (ids NV (snd xe))). set (f0 := mk_simplex (ids D (snd xf))).
    assert (He : nth_error (elements b) k = Some e0) by (rewrite C1, nth_error_map, Hk; reflexivity).
    assert (Hf : nth_error (facets b) i = Some f0) by (rewrite C3, nth_error_map, Hi; reflexivity).
    destruct (downward_lists_faces (ids NV (snd xe)) D Ne) as (l & L1 & _ & _ & L4); [lia|]. fold e0 in L1.
    assert (Pf : Permutation (ids D (snd xf)) f0) by apply sort_perm.
    assert (Pe : Permutation (ids NV (snd xe)) e0) by apply sort_perm.
    assert (Hbc : exists bc, nth_error (bcs b) i = Some bc /\ tag_meaning (fst xf) bc).
    { clear - C4 Hi. assert (Hi' : nth_error (map fst (added (D - 1) cs)) i = Some (fst xf)) by (rewrite nth_error_map, Hi; reflexivity).
      clear Hi. revert i Hi'. generalize dependent (map fst (added (D - 1) cs)). intros tags C4. induction C4; intros [|i] Hi; try discriminate.
      - injection Hi as ->. eexists. split; [reflexivity|]. auto.
      - cbn in Hi. apply IHC4. auto. }
    destruct Hbc as (bc & B1 & B2).
    exists (map r e0), (map r f0), (map (map r) l), bc. rewrite E1, E2, E4, !nth_error_map, He, Hf. split; auto. split; auto.
    split; [rewrite downward_map, L1; reflexivity|]. split; [|split; auto].
    assert (Hface : In f0 l <-> incl (ids D (snd xf)) (ids NV (snd xe))).
    { rewrite L4. split.
      - intros (_ & _ & _ & H) v Hv. apply H. eapply Permutation_in; eauto.
      - intros H. split; [rewrite <- (Permutation_length Pf); auto|]. split; [eapply Permutation_NoDup; eauto|].
        split; [apply sort_sorted|]. intros v Hv. apply H. eapply Permutation_in; [apply Permutation_sym, Pf|]. auto. }
    rewrite <- Hface. split.
    - intros H. apply in_map_iff in H as (g & Eg & Hg). assert (g = f0); [|subst; auto].
      eapply (map_inj_on r (used_by (elements b))); eauto.
      + intros v Hv. apply L4 in Hg as (_ & _ & _ & Hg). exists e0. split; [eapply nth_error_In; eauto|].
        eapply Permutation_in; [exact Pe|]. apply Hg; auto.
      + intros v Hv. apply Hu. exists f0. split; auto. eapply nth_error_In; eauto.
    - intros H. apply in_map. auto.
  Qed.
End Props.
