(** The state of the mesh builder after a sequence of calls. *)
Require Import List Arith ZArith Bool Lia Reals Lra Permutation Sorting.Sorted.
Require Import Verif.Base Verif.CombinatoricsModel Verif.SimplexModel Verif.SimplexProofs Verif.SimplexProps.
Require Import Verif.FacesModel Verif.FacesProofs Verif.LehmerModel Verif.LehmerProps.
Require Import Verif.EquidistantModel Verif.EquidistantProofs Verif.EquidistantProps Verif.GmshModel Verif.BuilderModel Verif.BuilderProofs.
Import ListNotations.

(** The zero-based vertex numbers of an element: its first k nodes. *)
Definition ids (k : nat) (nodes : list Z) : list nat := map Z.to_nat (firstn k nodes).
Definition numnodes (type : Z) : nat := nth (Z.to_nat (type - 1)) NumNodes 0.
(** The simplices of one dimension in a list of calls: tags and nodes. *)
Definition added {num} (dim : nat) (cs : list (call num)) : list (Z * list Z) :=
  flat_map (fun c => match c with
                     | AddElement t tag nodes => if is_gmsh_simplex dim t then [(tag, nodes)] else []
                     | _ => [] end) cs.
(** Tags of boundary conditions: 1 natural, 3 fault, 5 Dirichlet. *)
Definition tag_meaning (tag : Z) (bc : BC) : Prop :=
  (tag = 1%Z /\ bc = BC_Natural) \/ (tag = 3%Z /\ bc = BC_Fault) \/ (tag = 5%Z /\ bc = BC_Dirichlet) \/
  (tag <> 1%Z /\ tag <> 3%Z /\ tag <> 5%Z /\ bc = BC_None).
Lemma bc_of_tag_meaning : forall tag bc, tag_meaning tag bc <-> bc = bc_of_tag tag.
Proof.
  intros tag bc. unfold tag_meaning, bc_of_tag.
  destruct (Z.eqb_spec tag 0), (Z.eqb_spec tag 5), (Z.eqb_spec tag 3), (Z.eqb_spec tag 1); subst; try discriminate;
    (split; [intros H; intuition congruence|intros ->; intuition congruence]).
Qed.

Lemma types_disjoint : forall D E t, D <= 3 -> E <= 3 -> is_gmsh_simplex D t = true -> is_gmsh_simplex E t = true -> D = E.
Proof.
  assert (C : forallb (fun D => forallb (fun E => Nat.eqb D E || forallb (fun t => negb (is_gmsh_simplex E t)) (simplex_types D)) (seq 0 4)) (seq 0 4) = true)
    by (vm_compute; reflexivity).
  intros D E t HD HE H1 H2. rewrite forallb_forall in C. specialize (C D ltac:(apply in_seq; lia)).
  rewrite forallb_forall in C. specialize (C E ltac:(apply in_seq; lia)). apply orb_true_iff in C as [C|C]; [apply Nat.eqb_eq; auto|].
  rewrite forallb_forall in C. unfold is_gmsh_simplex in H1. apply existsb_exists in H1 as (x & Hx & E1). apply Z.eqb_eq in E1. subst x.
  specialize (C t Hx). rewrite H2 in C. discriminate.
Qed.
Lemma type_not_zero : forall D, is_gmsh_simplex D 0 = false.
Proof. intros [|[|[|[|D]]]]; reflexivity. Qed.
Lemma numnodes_enough : forall D t, 1 <= D <= 3 -> is_gmsh_simplex D t = true -> D + 1 <= numnodes t.
Proof.
  intros D t HD H.
  assert (C : forallb (fun D => forallb (fun t => Nat.leb (D + 1) (numnodes t)) (simplex_types D)) (seq 1 3) = true) by (vm_compute; reflexivity).
  rewrite forallb_forall in C. specialize (C D ltac:(apply in_seq; lia)). rewrite forallb_forall in C.
  unfold is_gmsh_simplex in H. apply existsb_exists in H as (x & Hx & E1). apply Z.eqb_eq in E1. subst x. apply Nat.leb_le, C, Hx.
Qed.

Section Run.
  Variable num : Type.
  Variable zero : num.
  Variable D : nat.
  Hypothesis HD : D = 2 \/ D = 3.
  Variable tol : R.
  Notation NV := (NumVerts D).
  Notation do_calls := (do_calls num zero D tol).
  Notation do_call := (do_call num zero D tol).
  Notation addElement := (addElement num D tol).
  Notation call := (call num).
  Notation builder := (builder num).

  Lemma added_app : forall dim (a b : list call), added dim (a ++ b) = added dim a ++ added dim b.
  Proof. intros. apply flat_map_app. Qed.

  (** What one call adds. *)
  Lemma do_call_adds : forall c b b', do_call c b = Done b' ->
    elements b' = elements b ++ map (fun x => mk_simplex (ids NV (snd x))) (added D [c]) /\
    volume_tags b' = volume_tags b ++ map fst (added D [c]) /\
    facets b' = facets b ++ map (fun x => mk_simplex (ids D (snd x))) (added (D - 1) [c]) /\
    bcs b' = bcs b ++ map (fun x => bc_of_tag (fst x)) (added (D - 1) [c]).
  Proof.
    intros [n|id x|n|t tag nodes] b b' H; unfold BuilderModel.do_call in H.
    - injection H as <-. cbn. rewrite !app_nil_r. auto.
    - unfold setVertex in H. destruct (id <? 0)%Z; [discriminate|]. destruct (upd _ _ _); [|discriminate]. injection H as <-.
      cbn. rewrite !app_nil_r. auto.
    - injection H as <-. cbn. rewrite !app_nil_r. auto.
    - unfold BuilderModel.addElement in H. unfold added. cbn [flat_map].
      destruct (is_gmsh_simplex D t) eqn:E1.
      + destruct (is_gmsh_simplex (D - 1) t) eqn:E2; [pose proof (types_disjoint D (D - 1) t ltac:(lia) ltac:(lia) E1 E2); lia|].
        destruct (negb _); [discriminate|]. destruct (length nodes <? NV); [discriminate|].
        match type of H with andthen ?x _ = _ => destruct x as [[hon table]| |] eqn:Ex end; try discriminate.
        injection H as <-. cbn. rewrite !app_nil_r. auto.
      + destruct (is_gmsh_simplex (D - 1) t) eqn:E2.
        * destruct (length nodes <? D); [discriminate|]. injection H as <-. cbn. rewrite !app_nil_r. auto.
        * destruct (is_lower_dimensional (D - 1) t); [|discriminate]. injection H as <-. cbn. rewrite !app_nil_r. auto.
  Qed.
  Lemma do_calls_add : forall cs b b', do_calls cs b = Done b' ->
    elements b' = elements b ++ map (fun x => mk_simplex (ids NV (snd x))) (added D cs) /\
    volume_tags b' = volume_tags b ++ map fst (added D cs) /\
    facets b' = facets b ++ map (fun x => mk_simplex (ids D (snd x))) (added (D - 1) cs) /\
    bcs b' = bcs b ++ map (fun x => bc_of_tag (fst x)) (added (D - 1) cs).
  Proof.
    induction cs as [|c cs IH]; intros b b' H; cbn [BuilderModel.do_calls] in H.
    - injection H as <-. cbn. rewrite !app_nil_r. auto.
    - destruct (do_call c b) as [b1| |] eqn:E; try discriminate. cbn [andthen] in H.
      destruct (do_call_adds _ _ _ E) as (A1 & A2 & A3 & A4). destruct (IH _ _ H) as (B1 & B2 & B3 & B4).
      change (c :: cs) with ([c] ++ cs). rewrite !added_app, !map_app, !app_assoc. rewrite <- A1, <- A2, <- A3, <- A4. auto.
  Qed.
  Lemma do_calls_app : forall cs cs' b, do_calls (cs ++ cs') b = andthen (do_calls cs b) (do_calls cs').
  Proof.
    induction cs as [|c cs IH]; intros cs' b; cbn [app BuilderModel.do_calls]; [reflexivity|].
    destruct (do_call c b); cbn [andthen]; auto.
  Qed.

  (** ** Vertices *)
  Definition vertex_calls (vs : list (Z * list num)) : list call := map (fun v => SetVertex (fst v) (snd v)) vs.
  Definition in_file (nv : nat) (v : Z * list num) : Prop := (0 <= fst v < Z.of_nat nv)%Z.
  Definition only_vertices_differ (b b' : builder) : Prop :=
    elements b' = elements b /\ facets b' = facets b /\ volume_tags b' = volume_tags b /\ bcs b' = bcs b /\
    high_order_nodes b' = high_order_nodes b /\ node_permutations b' = node_permutations b /\
    capacity b' = capacity b /\ type_ b' = type_ b.
  Lemma set_vertices : forall vs b, Forall (in_file (length (vertices b))) vs -> NoDup (map fst vs) ->
    exists b', do_calls (vertex_calls vs) b = Done b' /\ only_vertices_differ b b' /\
      length (vertices b') = length (vertices b) /\
      (forall id x, In (id, x) vs -> nth_error (vertices b') (Z.to_nat id) = Some (firstn D x)) /\
      (forall k, ~ In (Z.of_nat k) (map fst vs) -> nth_error (vertices b') k = nth_error (vertices b) k).
  Proof.
    induction vs as [|[id x] vs IH]; intros b Hr Hn.
    - exists b. split; [reflexivity|]. split; [unfold only_vertices_differ; tauto|]. split; auto. split; [intros ? ? []|auto].
    - inversion Hr as [|? ? R1 R2]; subst. inversion Hn as [|? ? N1 N2]; subst. unfold in_file in R1. cbn [fst] in R1, N1.
      cbn [vertex_calls map BuilderModel.do_calls BuilderModel.do_call fst snd]. unfold setVertex.
      destruct (Z.ltb_spec id 0); [lia|].
      destruct (upd_ok (vertices b) (Z.to_nat id) (firstn D x)) as [vs1 Eu]; [lia|]. rewrite Eu. cbn [defined andthen].
      pose proof (upd_spec _ _ _ _ Eu) as (L & _ & E).
      match goal with |- exists b', BuilderModel.do_calls _ _ _ _ _ ?b1 = _ /\ _ => set (b1' := b1) end.
      destruct (IH b1') as (b' & B1 & B2 & B3 & B4 & B5); auto.
      { cbn. rewrite L. auto. }
      exists b'. split; [exact B1|]. split; [unfold only_vertices_differ in *; cbn in B2; tauto|].
      split; [rewrite B3; exact L|]. split.
      + intros i y [[= <- <-]|Hi]; [|apply B4; auto]. rewrite B5 by (rewrite Z2Nat.id by lia; auto).
        cbn. rewrite E, Nat.eqb_refl. reflexivity.
      + intros k Hk. rewrite B5 by (intros ?; apply Hk; right; auto). cbn. rewrite E.
        destruct (Nat.eqb_spec k (Z.to_nat id)) as [-> |]; auto. exfalso. apply Hk. left. cbn. lia.
  Qed.

  (** ** High order nodes *)
  Hypothesis Htol : (0 <= tol < 1 / 10)%R.
  Lemma tol_ok : forall N, 1 <= N <= 10 -> (0 <= tol < 1 / INR N)%R.
  Proof.
    intros N HN. split; [lra|]. eapply Rlt_le_trans; [apply Htol|]. unfold Rdiv. rewrite !Rmult_1_l.
    apply Rinv_le_contravar; [apply lt_0_INR; lia|]. replace 10%R with (INR 10) by (cbn; lra). apply le_INR. lia.
  Qed.
  Definition sort_order (nodes : list Z) : list nat := sort_by (fun a => nth a (ids NV nodes) 0) (seq 0 NV).
  (** The column of an element with n nodes, binom(N+D,D) = n. *)
  Definition column (N : nat) (nodes : list Z) (col : list Z) : Prop :=
    exists P, node_permutation D tol (equidistant_nodes D GMSH N) (sort_order nodes) = Some P /\
      col = map (fun i => nth (nth i P 0) nodes 0%Z) (seq NV (length nodes - NV)).
  Definition table_ok (N : nat) (t : list (option (list nat))) : Prop :=
    forall p, Permutation p (seq 0 NV) -> nth_error t (perm_number p) = Some (node_permutation D tol (equidistant_nodes D GMSH N) p).

  Lemma fold_column : forall (P : list nat) (node : list Z) l,
    (forall i, In i l -> i < length P) -> (forall k, In k P -> k < length node) ->
    fold_right (fun i acc => match acc, nth_error P i with
          | Some c, Some p_i => match nth_error node p_i with Some v => Some (v :: c) | None => None end
          | _, _ => None end) (Some []) l = Some (map (fun i => nth (nth i P 0) node 0%Z) l).
  Proof.
    intros P node l. induction l as [|i l IH]; intros H1 H2; cbn [fold_right map]; auto.
    rewrite IH by (auto; intros; apply H1; right; auto).
    assert (Hi : i < length P) by (apply H1; left; auto).
    rewrite (nth_error_nth' P 0 Hi). rewrite (nth_error_nth' node 0%Z); [reflexivity|]. apply H2, nth_In; auto.
  Qed.
  Lemma column_exists : forall N n t nodes, 1 <= N <= 10 -> binom (N + D) D = Some n -> table_ok N t -> length nodes = n -> NV <= n ->
    exists col, high_order_column D t (ids NV nodes) nodes = Done col /\ column N nodes col.
  Proof.
    intros N n t nodes HN Hb Ht Hl Hge. unfold high_order_column. fold (sort_order nodes).
    assert (Hp : Permutation (sort_order nodes) (seq 0 NV)) by apply sort_by_perm.
    rewrite Ht by auto.
    destruct (node_permutation_correct D GMSH N tol (sort_order nodes)) as (P & E & HP & _); [lia|lia|apply tol_ok; auto|exact Hp|].
    rewrite E.
    destruct (equidistant_nodes_distinct D GMSH N) as (_ & Hlen & _); [lia|lia|]. rewrite Hb in Hlen. injection Hlen as Hlen.
    assert (LP : length P = n) by (rewrite (Permutation_length HP), seq_length; auto).
    rewrite fold_column.
    - eexists. split; [reflexivity|]. exists P. auto.
    - intros i Hi. apply in_seq in Hi. lia.
    - intros k Hk. apply (Permutation_in _ HP) in Hk. apply in_seq in Hk. lia.
  Qed.

  (** ** The loop over the elements *)
  Definition element_calls (els : list (Z * Z * list Z)) : list call :=
    map (fun e => AddElement (fst (fst e)) (snd (fst e)) (snd e)) els.
  Definition dsimplices (els : list (Z * Z * list Z)) : list (Z * Z * list Z) :=
    filter (fun e => is_gmsh_simplex D (fst (fst e))) els.
  Definition counted (e : Z * Z * list Z) : Prop := length (snd e) = numnodes (fst (fst e)).
  Definition known_type (t : Z) : Prop := exists dim, dim <= D /\ is_gmsh_simplex dim t = true.
  Definition acceptable (els : list (Z * Z * list Z)) : Prop :=
    Forall (fun e => known_type (fst (fst e))) els /\
    exists T, Forall (fun e => fst (fst e) = T) (dsimplices els).

  (** Invariant: [done] are the nodes of the D-simplices so far, [T] their type. *)
  Definition columns_ok (T : Z) (done : list (list Z)) (todo : nat) (b : builder) : Prop :=
    length (elements b) = length done /\ length done + todo <= capacity b /\
    if numnodes T <=? NV then high_order_nodes b = None
    else exists N cols, 1 <= N <= 10 /\ binom (N + D) D = Some (numnodes T) /\ table_ok N (node_permutations b) /\
           high_order_nodes b = Some (numnodes T - NV, cols) /\ length done + todo <= length cols /\
           forall k nodes, nth_error done k = Some nodes -> exists col, nth_error cols k = Some (Some col) /\ column N nodes col.
  Definition inv (done : list (list Z)) (todo : nat) (b : builder) : Prop :=
    (type_ b = 0%Z /\ done = [] /\ elements b = [] /\ high_order_nodes b = None /\ todo <= capacity b) \/
    (is_gmsh_simplex D (type_ b) = true /\ columns_ok (type_ b) done todo b /\ done <> []).

  Lemma dimension_cases : forall t, known_type t <-> is_gmsh_simplex D t = true \/ is_gmsh_simplex (D - 1) t = true \/ is_lower_dimensional (D - 1) t = true.
  Proof.
    intros t. unfold known_type. destruct HD as [-> | ->]; cbn [Nat.sub is_lower_dimensional].
    - rewrite !orb_true_iff. split.
      + intros (d & Hd & H). destruct d as [|[|[|]]]; auto; lia.
      + intros [H|[H|[H|H]]]; [exists 2|exists 1|exists 0|discriminate]; split; auto; lia.
    - rewrite !orb_true_iff. split.
      + intros (d & Hd & H). destruct d as [|[|[|[|]]]]; auto; lia.
      + intros [H|[H|[H|[H|H]]]]; [exists 3|exists 2|exists 1|exists 0|discriminate]; split; auto; lia.
  Qed.

  Lemma step_other : forall t tag nodes b done todo, is_gmsh_simplex D t = false -> length nodes = numnodes t ->
    inv done (S todo) b ->
    (known_type t -> exists b', addElement t tag nodes b = Done b' /\ inv done todo b' /\ type_ b' = type_ b /\ vertices b' = vertices b) /\
    (~ known_type t -> addElement t tag nodes b = Threw).
  Proof.
    intros t tag nodes b done todo E1 Hl Hinv. unfold BuilderModel.addElement. rewrite E1.
    assert (Hkeep : forall b', type_ b' = type_ b -> elements b' = elements b -> capacity b' = capacity b ->
              high_order_nodes b' = high_order_nodes b -> node_permutations b' = node_permutations b -> inv done todo b').
    { intros b' H1 H2 H3 H4 H5. unfold inv, columns_ok in *. rewrite H1, H2, H3, H4, H5.
      destruct Hinv as [(A1 & A2 & A3 & A4 & A5)|(A1 & (A2 & A3 & A4) & A5)]; [left|right].
      - repeat split; auto. lia.
      - split; auto. split; auto. split; auto. split; [lia|]. destruct (numnodes (type_ b) <=? NV); auto.
        destruct A4 as (N & cols & C1 & C2 & C3 & C4 & C5 & C6). exists N, cols. split; auto. split; auto. split; auto. split; auto. split; [lia|auto]. }
    split.
    - intros Hk. apply dimension_cases in Hk as [Hk|[Hk|Hk]]; [congruence| |].
      + rewrite Hk. assert (Hn := numnodes_enough (D - 1) t ltac:(lia) Hk).
        destruct (Nat.ltb_spec (length nodes) D); [lia|]. eexists. split; [reflexivity|].
        split; [apply Hkeep; reflexivity|auto].
      + destruct (is_gmsh_simplex (D - 1) t) eqn:E2.
        * assert (Hn := numnodes_enough (D - 1) t ltac:(lia) E2).
          destruct (Nat.ltb_spec (length nodes) D); [lia|]. eexists. split; [reflexivity|]. split; [apply Hkeep; reflexivity|auto].
        * rewrite Hk. eexists. split; [reflexivity|]. split; [apply Hkeep; reflexivity|auto].
    - intros Hk. destruct (is_gmsh_simplex (D - 1) t) eqn:E2; [exfalso; apply Hk, dimension_cases; auto|].
      destruct (is_lower_dimensional (D - 1) t) eqn:E3; [exfalso; apply Hk, dimension_cases; auto|]. reflexivity.
  Qed.

  Lemma step_simplex : forall t tag nodes b done todo, is_gmsh_simplex D t = true -> length nodes = numnodes t ->
    inv done (S todo) b ->
    ((type_ b = 0%Z \/ type_ b = t) -> exists b', addElement t tag nodes b = Done b' /\ inv (done ++ [nodes]) todo b' /\ type_ b' = t /\ vertices b' = vertices b) /\
    (type_ b <> 0%Z -> type_ b <> t -> addElement t tag nodes b = Threw).
  Proof.
    intros t tag nodes b done todo E1 Hl Hinv. unfold BuilderModel.addElement. rewrite E1.
    assert (Ht0 : t <> 0%Z) by (intros ->; rewrite type_not_zero in E1; discriminate).
    assert (Hnn := numnodes_enough D t ltac:(lia) E1).
    destruct (simplex_types_degree D t ltac:(lia) E1) as (N & HN & Hb). fold (numnodes t) in Hb.
    split.
    - intros Hty. set (ty := if (type_ b =? 0)%Z then type_ b else type_ b).
      assert (Ety : (if (type_ b =? 0)%Z then t else type_ b) = t).
      { destruct Hty as [-> | ->]; [reflexivity|]. destruct (Z.eqb_spec t 0); auto. }
      rewrite Ety, Z.eqb_refl. cbn [negb]. destruct (Nat.ltb_spec (length nodes) NV); [unfold NumVerts in *; lia|].
      fold (ids NV nodes).
      assert (Hcap : grown (length (elements b)) (capacity b) = capacity b).
      { unfold grown. assert (length (elements b) < capacity b).
        { destruct Hinv as [(_ & _ & -> & _ & ?)|(_ & (-> & ? & _) & _)]; cbn; lia. }
        destruct (Nat.ltb_spec (length (elements b)) (capacity b)); lia. }
      rewrite Hcap. destruct (Nat.ltb_spec NV (length nodes)) as [Hho|Hlin].
      + (* high order *)
        assert (Hle : (numnodes t <=? NV) = false) by (apply Nat.leb_gt; lia).
        assert (Hcase : exists N1 cols table, 1 <= N1 <= 10 /\ binom (N1 + D) D = Some (numnodes t) /\ table_ok N1 table /\
           match high_order_nodes b with
           | None => let! t0 := preparePermutationTable D tol (length nodes) in
                     Done ((length nodes - NV, repeat None (capacity b)), t0)
           | Some h => Done (h, node_permutations b)
           end = Done ((length nodes - NV, cols), table) /\
           length (elements b) = length done /\ length done + S todo <= capacity b /\
           length done + S todo <= length cols /\
           (forall k nd, nth_error done k = Some nd -> exists col, nth_error cols k = Some (Some col) /\ column N1 nd col)).
        { destruct Hinv as [(A1 & -> & A3 & A4 & A5)|(A1 & (A2 & A3 & A4) & A5)].
          - destruct (prepare_table D tol N (length nodes)) as (t0 & P1 & P2); [lia|lia|apply tol_ok; auto|congruence|].
            rewrite A4, P1. cbn [andthen]. exists N, (repeat None (capacity b)), t0. rewrite A3. cbn [length]. rewrite repeat_length.
            split; auto. split; auto. split; [exact P2|]. split; [reflexivity|]. split; auto. split; auto. split; auto.
            intros [|k] nd; discriminate.
          - destruct Hty as [Hty|Hty]; [rewrite Hty, type_not_zero in A1; discriminate|]. rewrite Hty, Hle in A4.
            destruct A4 as (N1 & cols & C1 & C2 & C3 & C4 & C5 & C6). rewrite C4. exists N1, cols, (node_permutations b).
            rewrite Hl. auto 10. }
        destruct Hcase as (N1 & cols & table & C1 & C2 & C3 & C4 & C5 & C6 & C7 & C8). rewrite C4. cbn [andthen].
        destruct (column_exists N1 (numnodes t) table nodes C1 C2 C3 Hl) as (col & K1 & K2); [unfold NumVerts; lia|].
        rewrite K1. cbn [andthen fst snd]. rewrite Nat.ltb_irrefl.
        destruct (upd_ok cols (length (elements b)) (Some col)) as [cols' Eu]; [lia|]. rewrite Eu. cbn [defined andthen].
        pose proof (upd_spec _ _ _ _ Eu) as (L & _ & E).
        eexists. split; [reflexivity|]. split; [|cbn; auto]. right. cbn [type_ elements capacity high_order_nodes node_permutations].
        split; auto. split; [|intros Hn; apply app_eq_nil in Hn as [_ Hn]; discriminate].
        unfold columns_ok. cbn [elements capacity high_order_nodes node_permutations]. rewrite !app_length. cbn [length].
        split; [lia|]. split; [lia|]. rewrite Hle. exists N1, cols'. split; auto. split; auto. split; auto.
        split; [rewrite Hl; reflexivity|]. split; [lia|]. intros k nd Hk. rewrite E, C5.
        destruct (Nat.eqb_spec k (length done)) as [-> |Hne].
        * rewrite nth_error_app2, Nat.sub_diag in Hk by lia. cbn in Hk. injection Hk as <-. eauto.
        * assert (Hkl : k < length (done ++ [nodes])) by (apply nth_error_Some; congruence). rewrite app_length in Hkl. cbn in Hkl.
          rewrite nth_error_app1 in Hk by lia. auto.
      + (* linear *)
        assert (Hle : (numnodes t <=? NV) = true) by (apply Nat.leb_le; lia).
        cbn [andthen]. eexists. split; [reflexivity|]. split; [|cbn; auto]. right. cbn [type_ elements capacity high_order_nodes node_permutations].
        split; auto. split; [|intros Hn; apply app_eq_nil in Hn as [_ Hn]; discriminate].
        unfold columns_ok. cbn [elements capacity high_order_nodes node_permutations]. rewrite !app_length. cbn [length]. rewrite Hle.
        destruct Hinv as [(A1 & -> & A3 & A4 & A5)|(A1 & (A2 & A3 & A4) & A5)].
        * rewrite A3. cbn [length]. repeat split; auto.
        * destruct Hty as [Hty|Hty]; [rewrite Hty, type_not_zero in A1; discriminate|]. rewrite Hty, Hle in A4. split; [lia|]. split; [lia|auto].
    - intros H0 H1. destruct (Z.eqb_spec (type_ b) 0); [contradiction|]. destruct (Z.eqb_spec (type_ b) t); [contradiction|]. reflexivity.
  Qed.

  Lemma elements_loop : forall els b done, Forall counted els -> inv done (length els) b ->
    (acceptable els -> (type_ b = 0%Z \/ Forall (fun e => fst (fst e) = type_ b) (dsimplices els)) ->
      exists b', do_calls (element_calls els) b = Done b' /\ inv (done ++ map snd (dsimplices els)) 0 b' /\ vertices b' = vertices b) /\
    (forall b', do_calls (element_calls els) b = Done b' ->
       acceptable els /\ (type_ b = 0%Z \/ Forall (fun e => fst (fst e) = type_ b) (dsimplices els))) /\
    do_calls (element_calls els) b <> Undef.
  Proof.
    induction els as [|[[t tag] nodes] els IH]; intros b done Hc Hinv.
    - split; [|split].
      + intros _ _. exists b. rewrite app_nil_r. split; auto.
      + intros b' H. split; [|right; constructor]. split; [constructor|]. exists 0%Z. constructor.
      + discriminate.
    - inversion Hc as [|? ? C1 C2]; subst. unfold counted in C1. cbn [fst snd length] in *.
      cbn [element_calls map BuilderModel.do_calls BuilderModel.do_call fst snd dsimplices filter].
      destruct (is_gmsh_simplex D t) eqn:E1.
      + destruct (step_simplex t tag nodes b done (length els) E1 C1 Hinv) as [S1 S2].
        assert (Hk : known_type t) by (exists D; auto).
        assert (Ht0 : t <> 0%Z) by (intros ->; rewrite type_not_zero in E1; discriminate).
        destruct (Z.eq_dec (type_ b) 0) as [Z0|Z0]; [|destruct (Z.eq_dec (type_ b) t) as [Z1|Z1]].
        * destruct S1 as (b1 & B1 & B2 & B3 & B4); auto. rewrite B1. cbn [andthen].
          destruct (IH b1 _ C2 B2) as (I1 & I2 & I3). split; [|split; auto].
          -- intros [A1 (T & A2)] _. pose proof (Forall_inv_tail A1) as A4. cbn [dsimplices filter] in A2. cbn [fst] in A2. rewrite E1 in A2.
             pose proof (Forall_inv A2) as A5. pose proof (Forall_inv_tail A2) as A6. cbn [fst] in A5. rewrite <- A5 in A6. fold (dsimplices els) in A6.
             destruct I1 as (b' & X1 & X2 & X3).
             { split; auto. exists t. auto. } { right. rewrite B3. auto. }
             exists b'. split; [exact X1|]. cbn [map snd]. fold (dsimplices els). rewrite <- app_assoc in X2. split; auto. congruence.
          -- intros b' H. apply I2 in H as [[A1 (T & A2)] [A3|A3]]; [congruence|]. split; [|auto]. split; [constructor; auto|].
             exists t. cbn [dsimplices filter fst]. rewrite E1. constructor; auto. rewrite B3 in A3. auto.
        * destruct S1 as (b1 & B1 & B2 & B3 & B4); auto. rewrite B1. cbn [andthen].
          destruct (IH b1 _ C2 B2) as (I1 & I2 & I3). split; [|split; auto].
          -- intros [A1 (T & A2)] _. pose proof (Forall_inv_tail A1) as A4. cbn [dsimplices filter] in A2. cbn [fst] in A2. rewrite E1 in A2.
             pose proof (Forall_inv A2) as A5. pose proof (Forall_inv_tail A2) as A6. cbn [fst] in A5. rewrite <- A5 in A6. fold (dsimplices els) in A6.
             destruct I1 as (b' & X1 & X2 & X3).
             { split; auto. exists t. auto. } { right. rewrite B3. auto. }
             exists b'. split; [exact X1|]. cbn [map snd]. fold (dsimplices els). rewrite <- app_assoc in X2. split; auto. congruence.
          -- intros b' H. apply I2 in H as [[A1 (T & A2)] [A3|A3]]; [congruence|].
             assert (A4 : Forall (fun e => fst (fst e) = type_ b) (dsimplices ((t, tag, nodes) :: els))).
             { cbn [dsimplices filter fst]. rewrite E1. constructor; auto. rewrite B3 in A3. rewrite Z1. auto. }
             split; [|right; cbn [dsimplices filter fst] in A4; rewrite E1 in A4; exact A4].
             split; [constructor; auto|]. exists (type_ b). exact A4.
        * rewrite S2 by auto. cbn [andthen]. split; [|split; discriminate].
          intros _ [H|H]; [contradiction|]. inversion H; subst. cbn [fst] in *. congruence.
      + destruct (step_other t tag nodes b done (length els) E1 C1 Hinv) as [S1 S2].
        assert (Hacc : forall els', acceptable ((t, tag, nodes) :: els') <-> known_type t /\ acceptable els').
        { intros els'. unfold acceptable. cbn [dsimplices filter fst]. rewrite E1. split.
          - intros [A1 A2]. inversion A1; subst. auto.
          - intros [A1 [A2 A3]]. auto. }
        destruct (is_gmsh_simplex (D - 1) t || is_lower_dimensional (D - 1) t) eqn:E2.
        * assert (Hk : known_type t) by (apply dimension_cases; apply orb_true_iff in E2; tauto).
          destruct (S1 Hk) as (b1 & B1 & B2 & B3 & B4). rewrite B1. cbn [andthen].
          destruct (IH b1 _ C2 B2) as (I1 & I2 & I3). rewrite B3 in *. split; [|split; auto].
          -- intros A1 A2. apply Hacc in A1 as [_ A1]. destruct I1 as (b' & X1 & X2 & X3); auto. exists b'. split; auto. split; auto. congruence.
          -- intros b' H. apply I2 in H as [A1 A2]. split; auto. apply Hacc. auto.
        * assert (Hk : ~ known_type t).
          { intros Hk. apply dimension_cases in Hk as [Hk|Hk]; [congruence|]. apply orb_true_iff in Hk. congruence. }
          rewrite S2 by auto. cbn [andthen]. split; [|split; discriminate]. intros A1. apply Hacc in A1 as [A1 _]. contradiction.
  Qed.
End Run.
