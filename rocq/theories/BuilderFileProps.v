(** C15, from the calls for a file (or the text of a Gmsh file) to the mesh. *)
Require Import List Arith ZArith Bool Lia Reals Lra Permutation Sorting.Sorted.
Require Import Verif.Base Verif.CombinatoricsModel Verif.CombinatoricsProofs Verif.SimplexModel Verif.SimplexProofs Verif.SimplexProps.
Require Import Verif.FacesModel Verif.FacesProofs Verif.LehmerModel Verif.LehmerProps.
Require Import Verif.EquidistantModel Verif.EquidistantProofs Verif.EquidistantProps.
Require Import Verif.GmshModel Verif.BuilderModel Verif.BuilderProofs Verif.BuilderRun Verif.BuilderProps.
Import ListNotations.

Section File.
  Variable num : Type.
  Variable zero : num.
  Variable D : nat.
  Hypothesis HD : D = 2 \/ D = 3.
  Variable tol : R.
  Hypothesis Htol : (0 <= tol < 1 / 10)%R.
  Notation NV := (D + 1).
  Notation do_calls := (do_calls num zero D tol).
  Notation create := (create num zero D).
  Notation empty := (empty_builder num).

  (** Elements are triples type, tag, nodes. *)
  Definition simplices (dim : nat) (els : list (Z * Z * list Z)) : list (Z * Z * list Z) :=
    filter (fun e => is_gmsh_simplex dim (fst (fst e))) els.
  Definition vertex_of (els : list (Z * Z * list Z)) (v : nat) : Prop :=
    exists e, In e (simplices D els) /\ In v (ids NV (snd e)).
  Record good_file (nv : nat) (vs : list (Z * list num)) (els : list (Z * Z * list Z)) : Prop := {
    nodes_numbered : Permutation (map fst vs) (map Z.of_nat (seq 0 nv));
    node_counts : Forall counted els;
    types_known : acceptable D els;
    some_element : simplices D els <> [];
    some_facet : simplices (D - 1) els <> [];
    nodes_exist : forall e id, In e (simplices D els) -> In id (snd e) -> (0 <= id < Z.of_nat nv)%Z;
    facets_of_elements : forall e v, In e (simplices (D - 1) els) -> In v (ids D (snd e)) -> vertex_of els v }.

  Lemma added_elements : forall dim els, @added num dim (element_calls num els) = map (fun e => (snd (fst e), snd e)) (simplices dim els).
  Proof.
    intros dim els. unfold added, element_calls, simplices. induction els as [|[[t tag] nodes] els IH]; cbn; auto.
    destruct (is_gmsh_simplex dim t); cbn; [f_equal|]; auto.
  Qed.
  Lemma added_file : forall dim nv vs els, added dim (file_calls num nv vs els) = map (fun e => (snd (fst e), snd e)) (simplices dim els).
  Proof.
    intros dim nv vs els. unfold file_calls.
    change (SetNumVertices (Z.of_nat nv) :: vertex_calls num vs ++ SetNumElements (Z.of_nat (length els)) :: element_calls num els)
      with ([SetNumVertices (Z.of_nat nv)] ++ vertex_calls num vs ++ [SetNumElements (Z.of_nat (length els))] ++ element_calls num els).
    rewrite !added_app, added_elements. cbn [added flat_map app].
    assert (E : added dim (vertex_calls num vs) = []) by (unfold added, vertex_calls; induction vs as [|v vs IH]; cbn; auto).
    rewrite E. reflexivity.
  Qed.

  (** Weights of node i of the sorted element and node q of the element in the file: the same for the same vertex. *)
  Definition same_place (N : nat) (nodes : list Z) (i q : nat) : Prop :=
    forall u v, u < NV -> v < NV -> nth u (mk_simplex (ids NV nodes)) 0 = nth v (ids NV nodes) 0 ->
      bary (nth q (equidistant_nodes D GMSH N) []) v = bary (nth i (equidistant_nodes D GMSH N) []) u.

  Lemma column_places : forall N nodes col, 1 <= N <= 10 -> binom (N + D) D = Some (length nodes) ->
    NoDup (ids NV nodes) -> column D tol N nodes col ->
    length col = length nodes - NV /\
    forall i, NV <= i < length nodes -> exists q, q < length nodes /\ nth_error col (i - NV) = nth_error nodes q /\ same_place N nodes i q.
  Proof.
    intros N nodes col HN Hb Hnd (P & EP & ->). unfold NumVerts in *. rewrite map_length, seq_length. split; auto. intros i Hi.
    assert (Hp : Permutation (sort_order D nodes) (seq 0 NV)) by apply sort_by_perm.
    destruct (node_permutation_correct D GMSH N tol (sort_order D nodes)) as (P' & E & HP & Hbary); [lia|lia|apply (tol_ok D HD tol Htol); auto|exact Hp|].
    rewrite EP in E. injection E as <-.
    destruct (equidistant_nodes_distinct D GMSH N) as (_ & Hlen & _); [lia|lia|]. rewrite Hb in Hlen. injection Hlen as Hlen.
    assert (LP : length P = length nodes) by (rewrite (Permutation_length HP), seq_length; auto).
    assert (Hq : nth i P 0 < length nodes).
    { assert (Hin : In (nth i P 0) P) by (apply nth_In; lia). apply (Permutation_in _ HP) in Hin. apply in_seq in Hin. lia. }
    exists (nth i P 0). split; auto. split.
    - rewrite nth_error_map. rewrite (nth_error_nth' (seq NV (length nodes - NV)) 0) by (rewrite seq_length; lia).
      rewrite seq_nth by lia. cbn [option_map]. replace (NV + (i - NV)) with i by lia. symmetry. apply nth_error_nth'. auto.
    - intros u v Hu Hv E.
      assert (Lids : length (ids NV nodes) = NV).
      { unfold ids. rewrite map_length, firstn_length. lia. }
      assert (Es : nth u (mk_simplex (ids NV nodes)) 0 = nth (nth u (sort_order D nodes) 0) (ids NV nodes) 0).
      { unfold mk_simplex. rewrite <- sort_positions. rewrite Lids.
        change (sort_by (fun a => nth a (ids NV nodes) 0) (seq 0 NV)) with (sort_order D nodes).
        assert (Lso : length (sort_order D nodes) = NV) by (rewrite (Permutation_length Hp), seq_length; auto).
        set (f := fun a => nth a (ids NV nodes) 0).
        rewrite nth_indep with (d' := f 0) by (rewrite map_length, Lso; auto). apply (map_nth f). }
      assert (Hpu : nth u (sort_order D nodes) 0 < NV).
      { assert (Hin : In (nth u (sort_order D nodes) 0) (sort_order D nodes)) by (apply nth_In; rewrite (Permutation_length Hp), seq_length; auto).
        apply (Permutation_in _ Hp) in Hin. apply in_seq in Hin. lia. }
      rewrite Es in E. apply (NoDup_nth _ 0) in E; auto; try lia. subst v.
      eapply (Hbary i); [apply nth_error_nth'; lia|apply nth_error_nth'; lia|auto].
  Qed.

  (** The mesh of a file: the D-simplices in order, with vertices renumbered by r, coordinates, tags and boundary
      conditions of the file; high order nodes where the element map of the file puts them. *)
  Definition mesh_of_file (nv : nat) (vs : list (Z * list num)) (els : list (Z * Z * list Z)) (m : mesh num) (r : nat -> nat) : Prop :=
    m_elements m = map (fun e => map r (mk_simplex (ids NV (snd e)))) (simplices D els) /\
    m_tags m = map (fun e => snd (fst e)) (simplices D els) /\
    m_facets m = map (fun e => map r (mk_simplex (ids D (snd e)))) (simplices (D - 1) els) /\
    Forall2 tag_meaning (map (fun e => snd (fst e)) (simplices (D - 1) els)) (m_bcs m) /\
    (forall v w, vertex_of els v -> vertex_of els w -> r v = r w -> v = w) /\
    (forall id x, In (id, x) vs -> vertex_of els (Z.to_nat id) -> nth_error (m_vertices m) (r (Z.to_nat id)) = Some (firstn D x)) /\
    (forall k e, nth_error (simplices D els) k = Some e ->
       if length (snd e) <=? NV then m_high m = None
       else NoDup (ids NV (snd e)) ->
         exists N hv points, binom (N + D) D = Some (length (snd e)) /\ m_high m = Some hv /\ nth_error hv k = Some points /\
           length points = length (snd e) - NV /\
           forall i, NV <= i < length (snd e) -> exists q id x, nth_error (snd e) q = Some id /\ same_place N (snd e) i q /\
             In (id, x) vs /\ nth_error points (i - NV) = Some (firstn D x)).

  Lemma all_some_total : forall A B (f : A -> option B) l, (forall x, In x l -> exists y, f x = Some y) ->
    exists r, all_some (map f l) = Some r.
  Proof.
    intros A B f. induction l as [|a l IH]; intros H; cbn; [eauto|].
    destruct (H a) as [y Hy]; [left; auto|]. rewrite Hy. destruct IH as [r Hr]; [intros; apply H; right; auto|]. rewrite Hr. cbn. eauto.
  Qed.
  Lemma all_some_nth : forall A B (f : A -> option B) l r, all_some (map f l) = Some r ->
    length r = length l /\ forall k x, nth_error l k = Some x -> nth_error r k = f x.
  Proof.
    intros A B f l r H. apply all_some_spec in H. assert (L : length r = length l).
    { apply (f_equal (@length _)) in H. rewrite !map_length in H. auto. }
    split; auto. intros k x Hk. apply (f_equal (fun l => nth_error l k)) in H. rewrite !nth_error_map, Hk in H. cbn in H.
    destruct (nth_error r k); cbn in H; congruence.
  Qed.

  Theorem builder_mesh_of_file : forall nv vs els p, good_file nv vs els ->
    exists b m ms, do_calls (file_calls num nv vs els) empty = Done b /\
      create (b :: repeat empty p) = Done (m :: ms) /\ exists r, mesh_of_file nv vs els m r.
  Proof.
    intros nv vs els p [G1 G2 G3 G4 G5 G6 G7].
    assert (Hin : Forall (in_file num nv) vs).
    { apply Forall_forall. intros v Hv. assert (Hi : In (fst v) (map fst vs)) by (apply in_map; auto).
      apply (Permutation_in _ G1) in Hi. apply in_map_iff in Hi as (k & E & Hk). apply in_seq in Hk. unfold in_file. lia. }
    assert (Hnd : NoDup (map fst vs)).
    { apply (Permutation_NoDup (Permutation_sym G1)). apply FinFun.Injective_map_NoDup; [intros a b; lia|apply seq_NoDup]. }
    assert (Hall : forall id, (0 <= id < Z.of_nat nv)%Z -> exists x, In (id, x) vs).
    { intros id Hid. assert (Hi : In id (map fst vs)).
      { apply (Permutation_in _ (Permutation_sym G1)). apply in_map_iff. exists (Z.to_nat id). split; [lia|]. apply in_seq. lia. }
      apply in_map_iff in Hi as ([i x] & <- & Hx). eauto. }
    destruct (run_file num zero D HD tol nv vs els Htol Hin Hnd G2) as (b1 & B1 & B2 & B3 & B4 & B5 & B6).
    destruct (elements_loop num zero D HD tol Htol els b1 [] G2 B3) as (I1 & _ & _).
    destruct I1 as (b & R1 & R2 & R3); auto. cbn [app] in R2. rewrite <- B6 in R1.
    destruct (do_calls_add num zero D HD tol _ _ _ R1) as (C1 & C2 & C3 & C4).
    rewrite !added_file, !map_map in C1, C2, C3, C4. cbn [elements volume_tags facets bcs empty_builder app fst snd] in C1, C2, C3, C4.
    fold (simplices D els) in *. change (dsimplices D els) with (simplices D els) in R2.
    assert (Eb : bcs b <> []) by (rewrite C4; intros E; apply map_eq_nil in E; auto).
    assert (Ee : elements b <> []) by (rewrite C1; intros E; apply map_eq_nil in E; auto).
    destruct R2 as [(_ & R2 & _)|(T1 & (T2 & T3 & T4) & _)]; [apply map_eq_nil in R2; contradiction|].
    set (T := type_ b) in *. rewrite map_length in T2, T3. change (NumVerts D) with NV in T4.
    assert (HT : forall e, In e (simplices D els) -> length (snd e) = numnodes T).
    { assert (Hty : Forall (fun e => fst (fst e) = T) (simplices D els)).
      { unfold T. destruct G3 as [_ (T0 & GT)]. change (dsimplices D els) with (simplices D els) in GT.
        destruct (elements_loop num zero D HD tol Htol els b1 [] G2 B3) as (_ & _ & _).
        apply Forall_forall. intros e He. rewrite Forall_forall in GT. rewrite (GT e He).
        (* the type in the builder is the type of some element *)
        assert (Htype : forall cs c0 b', do_calls cs c0 = Done b' -> type_ b' = 0%Z \/ type_ b' = type_ c0 \/
                   exists t tag nodes, In (AddElement t tag nodes) cs /\ is_gmsh_simplex D t = true /\ type_ b' = t).
        { clear - HD. induction cs as [|c cs IH]; intros c0 b' H; cbn [BuilderModel.do_calls] in H; [injection H as <-; auto|].
          destruct (BuilderModel.do_call num zero D tol c c0) as [c1| |] eqn:Ec; try discriminate. cbn [andthen] in H.
          apply IH in H as [H|[H|(t & tag & nodes & X1 & X2 & X3)]]; auto; [|right; right; exists t, tag, nodes; split; [right; auto|auto]].
          rewrite H. clear H IH. destruct c as [n|id x|n|t tag nodes]; cbn [BuilderModel.do_call] in Ec.
          - injection Ec as <-. auto.
          - unfold setVertex in Ec. destruct (id <? 0)%Z; [discriminate|]. destruct (upd _ _ _); [|discriminate]. injection Ec as <-. auto.
          - injection Ec as <-. auto.
          - unfold addElement in Ec. destruct (is_gmsh_simplex D t) eqn:E1.
            + destruct (Z.eqb_spec (if (type_ c0 =? 0)%Z then t else type_ c0) t) as [Et|]; [|discriminate]. cbn [negb] in Ec.
              destruct (length nodes <? NumVerts D); [discriminate|].
              match type of Ec with andthen ?x _ = _ => destruct x as [[hon table]| |] end; try discriminate. injection Ec as <-. cbn [type_].
              right. right. exists t, tag, nodes. split; [left; auto|]. auto.
            + destruct (is_gmsh_simplex (D - 1) t); [destruct (length nodes <? D); [discriminate|]; injection Ec as <-; auto|].
              destruct (is_lower_dimensional (D - 1) t); [|discriminate]. injection Ec as <-. auto. }
        destruct (Htype _ _ _ R1) as [H|[H|(t & tag & nodes & X1 & X2 & X3)]].
        - exfalso. fold T in H. rewrite H, type_not_zero in T1. discriminate.
        - exfalso. cbn in H. fold T in H. rewrite H, type_not_zero in T1. discriminate.
        - rewrite X3. unfold file_calls in X1. destruct X1 as [X1|X1]; [discriminate|]. apply in_app_or in X1 as [X1|[X1|X1]].
          + unfold vertex_calls in X1. apply in_map_iff in X1 as (? & ? & _). discriminate.
          + discriminate.
          + unfold element_calls in X1. apply in_map_iff in X1 as (e' & E & He'). injection E as E1 E2 E3. symmetry. rewrite <- E1.
            rewrite (GT e'); auto. unfold simplices. apply filter_In. rewrite E1. auto. }
      intros e He. rewrite Forall_forall in G2, Hty. unfold simplices in He. assert (He' := He). apply filter_In in He' as [He' _].
      rewrite (G2 e He'). rewrite (Hty e He). reflexivity. }
    assert (Hub : forall v, used_by (elements b) v <-> vertex_of els v).
    { intros v. unfold used_by, vertex_of. rewrite C1. split.
      - intros (e & He & Hv). apply in_map_iff in He as (x & <- & Hx). exists x. split; auto.
        eapply Permutation_in; [apply Permutation_sym, sort_perm|exact Hv].
      - intros (x & Hx & Hv). exists (mk_simplex (ids NV (snd x))). split; [apply in_map_iff; exists x; auto|].
        eapply Permutation_in; [apply sort_perm|exact Hv]. }
    assert (Huf : forall v, used_by (facets b) v -> used_by (elements b) v).
    { intros v (f & Hf & Hv). apply Hub. rewrite C3 in Hf. apply in_map_iff in Hf as (x & <- & Hx). eapply G7; eauto.
      eapply Permutation_in; [apply Permutation_sym, sort_perm|exact Hv]. }
    assert (Hlv : length (vertices b) = nv) by congruence.
    assert (Hrange : forall v, vertex_of els v -> v < nv).
    { intros v (e & He & Hv). unfold ids in Hv. apply in_map_iff in Hv as (id & <- & Hid).
      assert (Hid' : In id (snd e)) by (rewrite <- (firstn_skipn NV (snd e)); apply in_or_app; auto).
      specialize (G6 e id He Hid'). lia. }
    (* the reductions *)
    assert (Hrc : exists R C, list_max (map (rows num) (b :: repeat empty p)) = R /\ list_max (map (cols num) (b :: repeat empty p)) = C /\
       R = rows num b /\ C = cols num b).
    { do 2 eexists. split; [reflexivity|]. split; [reflexivity|].
      assert (Hz : forall f : builder num -> nat, f empty = 0 -> list_max (map f (repeat empty p)) = 0).
      { intros f Hf. clear -Hf. induction p; cbn; auto. rewrite Hf. cbn. unfold list_max in IHp. rewrite IHp. reflexivity. }
      split.
      - change (map (rows num) (b :: repeat empty p)) with ([rows num b] ++ map (rows num) (repeat empty p)).
        rewrite list_max_app, Hz by reflexivity. cbn. lia.
      - change (map (cols num) (b :: repeat empty p)) with ([cols num b] ++ map (cols num) (repeat empty p)).
        rewrite list_max_app, Hz by reflexivity. cbn. lia. }
    destruct Hrc as (R & C & HR & HC & HR' & HC').
    (* the local part *)
    assert (Hloc : exists m, create_local num zero D R C b = Done m).
    { unfold create_local. destruct (Nat.ltb_spec 0 C) as [Hpos|]; [|eauto].
      rewrite HC' in Hpos. unfold cols in Hpos. destruct (numnodes T <=? NV) eqn:El; [rewrite T4 in Hpos; lia|].
      destruct T4 as (N & cl & N1 & N2 & N3 & N4 & N5 & N6).
      assert (Hhv : exists hv, high_order_verts num R b = Done hv).
      { unfold high_order_verts. rewrite N4. match goal with |- context [all_some (map ?f ?l)] => destruct (all_some_total _ _ f l) as [r Hr] end.
        - intros k Hk. apply in_seq in Hk. rewrite T2 in Hk.
          destruct (nth_error (simplices D els) k) as [e|] eqn:Ek; [|apply nth_error_None in Ek; lia].
          destruct (N6 k (snd e)) as (col & X1 & X2); [rewrite nth_error_map, Ek; reflexivity|]. rewrite X1.
          apply all_some_total. intros j Hj. apply in_seq in Hj. rewrite HR' in Hj. unfold rows in Hj. rewrite N4 in Hj.
          destruct X2 as (P & EP & ->). assert (He : In e (simplices D els)) by (eapply nth_error_In; eauto). rewrite (HT e He).
          rewrite nth_error_map. unfold NumVerts in *. rewrite (nth_error_nth' (seq NV (numnodes T - NV)) 0) by (rewrite seq_length; lia).
          rewrite seq_nth by lia. cbn [option_map].
          destruct (node_permutation_correct D GMSH N tol (sort_order D (snd e))) as (P' & E & HP & _); [lia|lia|apply (tol_ok D HD tol Htol); auto|apply sort_by_perm|].
          rewrite EP in E. injection E as <-.
          destruct (equidistant_nodes_distinct D GMSH N) as (_ & Hlen & _); [lia|lia|]. rewrite N2 in Hlen. injection Hlen as Hlen.
          assert (LP : length P = numnodes T) by (rewrite (Permutation_length HP), seq_length; auto).
          assert (Hq : nth (NV + j) P 0 < numnodes T).
          { assert (Hi : In (nth (NV + j) P 0) P) by (apply nth_In; lia). apply (Permutation_in _ HP) in Hi. apply in_seq in Hi. lia. }
          assert (Hi : In (nth (nth (NV + j) P 0) (snd e) 0%Z) (snd e)) by (apply nth_In; rewrite (HT e He); auto).
          specialize (G6 _ _ He Hi). destruct (Z.ltb_spec (nth (nth (NV + j) P 0) (snd e) 0%Z) 0); [lia|].
          destruct (nth_error (vertices b) (Z.to_nat (nth (nth (NV + j) P 0) (snd e) 0%Z))) eqn:En; [eauto|].
          apply nth_error_None in En. lia.
        - rewrite Hr. cbn. eauto. }
      destruct Hhv as [hv Hhv]. rewrite Hhv. cbn [andthen].
      destruct (renumber_elements_total (elements b) (repeat None (length (vertices b))) 0) as [[es [mp n]] Er].
      { intros e v He Hv. rewrite repeat_length, Hlv. apply Hrange, Hub. exists e. auto. }
      rewrite Er. cbn [defined andthen].
      destruct (renumber_elements_spec _ _ _ _ _ _ (numbering_empty _) Er) as ((M1 & M2 & M3) & L & F & _ & Hu).
      rewrite repeat_length in L.
      destruct (all_some_total _ _ (renumber_facet mp) (facets b)) as [fs Hfs].
      { intros f Hf. unfold renumber_facet. apply all_some_total. intros v Hv.
        assert (Hv' : used_by (elements b) v) by (apply Huf; exists f; auto). destruct Hv' as (e & He & Hv').
        destruct (Forall2_in _ _ _ _ _ _ F He) as (e' & _ & Fe). destruct (Forall2_in _ _ _ _ _ _ Fe Hv') as (i & _ & Hi).
        unfold assigned in Hi. rewrite Hi. eauto. }
      rewrite Hfs. cbn [defined andthen].
      destruct (place_vertices_spec num mp (vertices b) (repeat (repeat zero D) n)) as (vs1 & V1 & _); auto.
      { intros v i Hi. rewrite repeat_length. eauto. }
      rewrite V1. cbn [defined andthen]. eauto. }
    destruct Hloc as [m Hm].
    assert (Hempty : exists me, create_local num zero D R C empty = Done me).
    { unfold create_local. destruct (0 <? C); [|eauto]. cbn. eauto. }
    destruct Hempty as [me Hme].
    exists b, m, (repeat me p). split; auto. split.
    { unfold BuilderModel.create.
      destruct (Nat.eqb_spec (list_sum (map (fun b => length (elements b)) (b :: repeat empty p))) 0) as [Z0|_].
      { exfalso. cbn [map] in Z0. rewrite sum_cons in Z0. destruct (elements b); [congruence|cbn in Z0; lia]. }
      destruct (Nat.eqb_spec (list_sum (map (fun b => length (bcs b)) (b :: repeat empty p))) 0) as [Z0|_].
      { exfalso. cbn [map] in Z0. rewrite sum_cons in Z0. destruct (bcs b); [congruence|cbn in Z0; lia]. }
      rewrite HR, HC. apply all_done_spec. cbn [map]. rewrite Hm. f_equal. clear - Hme. induction p; cbn; auto. f_equal; auto. }
    destruct (create_local_same num zero D HD _ _ _ _ Hm) as (r & (S1 & S2 & S3 & S4 & S5 & S6) & Slin & Shigh).
    exists r. unfold mesh_of_file.
    split; [rewrite S1, C1, map_map; reflexivity|]. split; [rewrite S3, C2; reflexivity|].
    split; [rewrite S2, C3, map_map; reflexivity|]. split.
    { rewrite S4, C4. clear. induction (simplices (D - 1) els); cbn; constructor; auto. apply bc_of_tag_meaning. reflexivity. }
    split; [intros v w Hv Hw; apply S5; apply Hub; auto|]. split.
    { intros id x Hx Hv. rewrite S6 by (apply Hub; auto). rewrite R3. apply B5. auto. }
    intros k e Hk. assert (He : In e (simplices D els)) by (eapply nth_error_In; eauto). rewrite (HT e He).
    destruct (numnodes T <=? NV) eqn:El.
    - apply Slin. rewrite HC'. unfold cols. rewrite T4. reflexivity.
    - intros Hnde. destruct T4 as (N & cl & N1 & N2 & N3 & N4 & N5 & N6).
      assert (Hc : 0 < C).
      { rewrite HC'. unfold cols. rewrite N4. destruct (simplices D els); [contradiction|]. cbn in N5. rewrite map_length in N5. lia. }
      destruct (Shigh Hc) as ((hv & H1 & H2) & _ & _).
      unfold high_order_verts in H2. destruct (all_some _) as [hv'|] eqn:Ea; [|discriminate]. cbn in H2. injection H2 as ->.
      destruct (all_some_nth _ _ _ _ _ Ea) as [La Lb].
      assert (Hkl : k < length (simplices D els)) by (apply nth_error_Some; congruence).
      assert (Hpk : exists points, nth_error hv k = Some points).
      { destruct (nth_error hv k) eqn:E; eauto. apply nth_error_None in E. rewrite La, seq_length in E. lia. }
      destruct Hpk as [points Hpk]. exists N, hv, points. split; auto. split; auto. split; auto.
      specialize (Lb k k). rewrite (nth_error_nth' (seq 0 (length (elements b))) 0) in Lb by (rewrite seq_length; lia).
      rewrite seq_nth in Lb by lia. specialize (Lb eq_refl). rewrite Hpk, N4 in Lb.
      destruct (N6 k (snd e)) as (col & X1 & X2); [rewrite nth_error_map, Hk; reflexivity|]. rewrite X1 in Lb. symmetry in Lb.
      destruct (all_some_nth _ _ _ _ _ Lb) as [Lc Ld]. rewrite seq_length in Lc.
      assert (HRn : R = numnodes T - NV) by (rewrite HR'; unfold rows; rewrite N4; reflexivity).
      split; [lia|]. intros i Hi.
      destruct (column_places N (snd e) col N1) as [K1 K2]; [rewrite (HT e He); auto|auto|auto|].
      destruct (K2 i) as (q & Q1 & Q2 & Q3); [rewrite (HT e He); auto|].
      destruct (nth_error (snd e) q) as [id|] eqn:Eq; [|apply nth_error_None in Eq; lia].
      assert (Hid : (0 <= id < Z.of_nat nv)%Z) by (apply (G6 e id He); eapply nth_error_In; eauto).
      destruct (Hall id Hid) as [x Hx]. exists q, id, x. split; auto. split; auto. split; auto.
      rewrite (Ld (i - NV) (i - NV)).
      + rewrite Q2. destruct (Z.ltb_spec id 0); [lia|]. rewrite R3. apply B5. auto.
      + rewrite (nth_error_nth' (seq 0 R) 0) by (rewrite seq_length; lia). rewrite seq_nth by lia. reflexivity.
  Qed.
End File.

(** ** From the text of a Gmsh file *)
Require Import Verif.GmshSpec Verif.GmshProps.
Section Text.
  Variable num : Type.
  Variable zero : num.
  Variable of_int : Z -> num.
  Variable strtod : text -> num.
  Variable version_ok : num -> bool.
  Variable D : nat.
  Hypothesis HD : D = 2 \/ D = 3.
  Variable tol : R.
  Hypothesis Htol : (0 <= tol < 1 / 10)%R.

  Definition file_vertices (l : list node) : list (Z * list num) :=
    map (fun v => ((node_tag v - 1)%Z, map (value num of_int strtod) (node_x v))) l.
  Definition file_elements (l : list elem) : list (Z * Z * list Z) :=
    map (fun e => (elem_type e, hd 0%Z (elem_tags e), map (fun n => (n - 1)%Z) (elem_nodes e))) l.
  Definition is_other (s : section) : Prop := match s with Other _ => True | _ => False end.

  (** A file with one section of nodes and then one of elements, spelled in any of the accepted ways, is read without
      a message, and process 0 makes the mesh of the file. *)
  Theorem gmsh_file_to_mesh : forall m text fuel o1 o2 o3 l l' p,
    msh_ok num of_int strtod version_ok m -> tagged m -> written (msh_tokens m) text ->
    length (msh_tokens m) <= fuel ->
    body m = o1 ++ [Nodes l] ++ o2 ++ [Elements l'] ++ o3 ->
    Forall is_other o1 -> Forall is_other o2 -> Forall is_other o3 ->
    good_file num D (length l) (file_vertices l) (file_elements l') ->
    exists s b me ms r, parse num of_int strtod version_ok fuel text = Ret true s /\ errors s = [] /\
      do_calls num zero D tol (calls s) (empty_builder num) = Done b /\
      create num zero D (b :: repeat (empty_builder num) p) = Done (me :: ms) /\
      mesh_of_file num D (length l) (file_vertices l) (file_elements l') me r.
  Proof.
    intros m text fuel o1 o2 o3 l l' p Hok Htag Hw Hf Hb H1 H2 H3 Hg.
    destruct (gmsh_reads_wellformed num of_int strtod version_ok m text fuel Hok Htag Hw Hf) as (s & P1 & P2 & P3).
    assert (Ho : forall o, Forall is_other o -> flat_map (section_calls num of_int strtod) o = []).
    { induction 1 as [|x o Hx Ho IH]; cbn; auto. destruct x; try contradiction. cbn. auto. }
    assert (Ec : calls s = file_calls num (length l) (file_vertices l) (file_elements l')).
    { rewrite P3. unfold msh_calls. rewrite Hb, !flat_map_app, (Ho o1), (Ho o2), (Ho o3) by auto. cbn [flat_map app]. rewrite !app_nil_r.
      unfold section_calls, file_calls, vertex_calls, element_calls, file_vertices, file_elements. cbn [app].
      rewrite !map_map, map_length. reflexivity. }
    destruct (builder_mesh_of_file num zero D HD tol Htol _ _ _ p Hg) as (b & me & ms & R1 & R2 & r & R3).
    exists s, b, me, ms, r. rewrite Ec. split; auto. rewrite P1. f_equal. rewrite Hb, !existsb_app. cbn.
    rewrite !orb_true_r. reflexivity.
  Qed.
End Text.

(** ** Examples and defects *)

(** Two triangles with six nodes each and one boundary line with three nodes and tag 5. *)
Definition ex_vs : list (Z * list nat) := map (fun i => (Z.of_nat i, [i; i + 1; 0])) (seq 0 9).
Definition ex_els : list (Z * Z * list Z) :=
  [(15, 0, [0]); (8, 5, [2; 0; 6]); (9, 1, [2; 0; 1; 6; 4; 5]); (9, 2, [1; 3; 2; 7; 8; 5])]%Z.
Example ex_good : good_file nat 2 9 ex_vs ex_els.
Proof.
  constructor.
  - apply Permutation_refl.
  - repeat constructor.
  - split; [repeat (apply Forall_cons; [cbn [fst]|]); try apply Forall_nil|exists 9%Z; repeat constructor].
    + exists 0. split; [lia|reflexivity].
    + exists 1. split; [lia|reflexivity].
    + exists 2. split; [lia|reflexivity].
    + exists 2. split; [lia|reflexivity].
  - discriminate.
  - discriminate.
  - cbn. intros e id He Hi. repeat (destruct He as [<- |He]; [cbn in Hi; lia|]). destruct He.
  - cbn. intros e v [<- |[]]. cbn. intros [<- |[<- |[]]]; exists (9, 1, [2; 0; 1; 6; 4; 5])%Z; cbn; auto.
Qed.
Example ex_mesh : exists b m ms, do_calls nat 0 2 0 (file_calls nat 9 ex_vs ex_els) (empty_builder nat) = Done b /\
  create nat 0 2 (b :: repeat (empty_builder nat) 3) = Done (m :: ms) /\ exists r, mesh_of_file nat 2 9 ex_vs ex_els m r.
Proof. apply builder_mesh_of_file; [auto|lra|apply ex_good]. Qed.

(** The point of that file is counted as ignored; a line with tag 4 would be counted as unknown. *)
Example ex_counts : exists b, do_calls nat 0 2 0 (file_calls nat 9 ex_vs ex_els) (empty_builder nat) = Done b /\
  length (elements b) = 2 /\ length (facets b) = 1 /\ ignoredElems b = 1 /\
  length (filter (element_call nat) (file_calls nat 9 ex_vs ex_els)) = 4 /\
  unknown (4%Z, [2; 0; 6]%Z) = true.
Proof.
  destruct ex_mesh as (b & m & ms & E & _). exists b. split; [exact E|].
  destruct (builder_collects nat 0 2 ltac:(auto) 0 _ _ E) as (A & _ & B & _).
  destruct (builder_counts nat 0 2 ltac:(auto) 0 _ _ E) as (K & _).
  assert (LA : length (elements b) = 2) by (rewrite A; reflexivity).
  assert (LB : length (facets b) = 1) by (rewrite B; reflexivity).
  assert (LC : length (filter (element_call nat) (file_calls nat 9 ex_vs ex_els)) = 4) by reflexivity.
  rewrite LC in K. repeat split; auto. lia.
Qed.

(** Elements of the same file in two sections: the matrix of high order nodes has as many columns as the first
    section announced, and the second section writes past its end. *)
Theorem builder_two_sections_refuted : forall tol, (0 <= tol < 1 / 10)%R -> exists e1 e2,
  counted e1 /\ counted e2 /\ acceptable 2 [e1; e2] /\
  do_calls nat 0 2 tol (file_calls nat 9 ex_vs [e1] ++ SetNumElements 1 :: element_calls nat [e2]) (empty_builder nat) = Undef.
Proof.
  intros tol Ht. exists (9, 1, [2; 0; 1; 6; 4; 5])%Z, (9, 2, [1; 3; 2; 7; 8; 5])%Z.
  assert (C1 : counted (9, 1, [2; 0; 1; 6; 4; 5])%Z) by reflexivity.
  assert (C2 : counted (9, 2, [1; 3; 2; 7; 8; 5])%Z) by reflexivity.
  split; auto. split; auto. split.
  { split; [repeat (apply Forall_cons; [exists 2; split; [lia|reflexivity]|]); apply Forall_nil|exists 9%Z; repeat constructor]. }
  assert (HD : 2 = 2 \/ 2 = 3) by auto.
  assert (Hin : Forall (in_file nat 9) ex_vs).
  { apply Forall_forall. intros v Hv. unfold ex_vs in Hv. apply in_map_iff in Hv as (i & <- & Hi). apply in_seq in Hi. unfold in_file. cbn [fst]. lia. }
  assert (Hnd : NoDup (map fst ex_vs)).
  { unfold ex_vs. rewrite map_map. cbn [fst]. apply FinFun.Injective_map_NoDup; [intros a b; lia|apply seq_NoDup]. }
  destruct (run_file nat 0 2 HD tol 9 ex_vs [(9, 1, [2; 0; 1; 6; 4; 5])%Z] Ht Hin Hnd ltac:(repeat constructor))
    as (b1 & _ & B2 & B3 & B4 & _ & B6).
  rewrite do_calls_app, B6. clear B6. cbn [length] in *.
  assert (Hb6 : binom (2 + 2) 2 = Some 6) by reflexivity.
  destruct (prepare_table 2 tol 2 6) as (t & T1 & T2); [lia|lia|apply (tol_ok 2 HD tol Ht); lia|reflexivity|].
  destruct B3 as [(_ & _ & E1 & E2 & _)|(B3 & _)]; [|rewrite B4 in B3; discriminate].
  destruct (column_exists 2 HD tol Ht 2 6 t [2; 0; 1; 6; 4; 5]%Z) as (col & K1 & _); [lia|reflexivity|exact T2|reflexivity|cbn; lia|].
  destruct (column_exists 2 HD tol Ht 2 6 t [1; 3; 2; 7; 8; 5]%Z) as (col2 & K2 & _); [lia|reflexivity|exact T2|reflexivity|cbn; lia|].
  cbn [element_calls map fst snd BuilderModel.do_calls BuilderModel.do_call].
  unfold addElement at 1. rewrite B4, E1, E2, B2.
  change (is_gmsh_simplex 2 9) with true. cbn [Z.eqb negb length NumVerts Nat.add Nat.ltb Nat.leb grown Pos.eqb].
  rewrite T1. cbn [andthen].
  change (map Z.to_nat (firstn 3 [2; 0; 1; 6; 4; 5]%Z)) with (ids (NumVerts 2) [2; 0; 1; 6; 4; 5]%Z). rewrite K1.
  cbn [andthen fst snd Nat.sub Nat.ltb Nat.leb repeat upd defined setNumElements vertices elements facets volume_tags bcs high_order_nodes
       node_permutations capacity ignoredElems unknownBC type_ app length].
  unfold addElement. cbn [type_ elements capacity high_order_nodes node_permutations].
  change (is_gmsh_simplex 2 9) with true. cbn [Z.eqb negb length NumVerts Nat.add Nat.ltb Nat.leb Pos.eqb andthen].
  change (map Z.to_nat (firstn 3 [1; 3; 2; 7; 8; 5]%Z)) with (ids (NumVerts 2) [1; 3; 2; 7; 8; 5]%Z). rewrite K2.
  reflexivity.
Qed.

(** Node numbers of linear elements are not compared with the number of vertices. *)
Theorem builder_dangling_refuted : forall tol, exists b m,
  do_calls nat 0 2 tol (file_calls nat 1 [(0%Z, [7; 7; 7])] [(1, 5, [0; 5]); (2, 0, [0; 5; 9])]%Z) (empty_builder nat) = Done b /\
  create nat 0 2 [b] = Done [m] /\ m_elements m = [[0; 5; 9]] /\ length (m_vertices m) = 1.
Proof.
  intros tol.
  exists {| vertices := [[7; 7]]; elements := [[0; 5; 9]]; facets := [[0; 5]]; volume_tags := [0%Z]; bcs := [BC_Dirichlet];
    high_order_nodes := None; node_permutations := []; capacity := 2; ignoredElems := 0; unknownBC := 0; type_ := 2%Z |}.
  exists {| m_elements := [[0; 5; 9]]; m_vertices := [[7; 7]]; m_high := None; m_tags := [0%Z]; m_facets := [[0; 5]]; m_bcs := [BC_Dirichlet] |}.
  repeat apply conj; vm_compute; reflexivity.
Qed.

Print Assumptions builder_mesh_of_file.
Print Assumptions gmsh_file_to_mesh.
