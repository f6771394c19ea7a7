(** C16: the faces and tags of a PUMGen mesh. *)
Require Import List Arith ZArith Bool Lia Reals Permutation Sorting.Sorted.
Require Import Verif.Base Verif.CombinatoricsModel Verif.CombinatoricsProofs Verif.SimplexModel Verif.SimplexProofs Verif.SimplexProps.
Require Import Verif.GmshModel Verif.BuilderModel Verif.BuilderProofs Verif.BuilderRun Verif.BuilderProps Verif.H5MeshModel Verif.H5MeshProofs.
Import ListNotations.

(** ** Specification: the PUMGen format *)
(** The faces of a tetrahedron: without its vertex 3, 2, 0, 1. *)
Definition pumgen_faces (tet : list Z) : list (list Z) :=
  match tet with [a; b; c; d] => [[a; c; b]; [a; b; d]; [b; c; d]; [a; d; c]] | _ => [] end.
(** The boundary word: one byte for every face. *)
Definition bytes (b : list Z) : Prop := length b = 4 /\ Forall (fun x => 0 <= x < 256)%Z b.
Definition pumgen_word (b : list Z) : Z :=
  match b with [b0; b1; b2; b3] => (b0 + 2 ^ 8 * b1 + 2 ^ 16 * b2 + 2 ^ 24 * b3)%Z | _ => 0%Z end.
(** All faces of all tetrahedra with their tags. *)
Definition tagged_faces (tets bs : list (list Z)) : list (list Z * Z) :=
  flat_map (fun x => combine (pumgen_faces (fst x)) (snd x)) (combine tets bs).
(** The content of a file. *)
Definition pumgen_file {num} (f : h5file num) (vs : list (list num)) (tets bs : list (list Z)) (groups : list Z) : Prop :=
  geometry f = Some (concat vs) /\ Forall (fun v => length v = 3) vs /\
  connect f = Some (concat tets) /\ Forall (fun t => length t = 4) tets /\
  boundary f = Some (map pumgen_word bs) /\ Forall bytes bs /\ length bs = length tets /\
  (group f = Some groups \/ group f = None /\ groups = repeat 0%Z (length tets)) /\ length groups = length tets.

Lemma all_faces_tagged : forall tets bs, Forall (fun t => length t = 4) tets -> Forall bytes bs ->
  all_faces tets (map pumgen_word bs) = tagged_faces tets bs.
Proof.
  induction tets as [|t tets IH]; intros [|b bs] Ft Fb; cbn [map combine]; auto.
  unfold all_faces, tagged_faces. cbn [map combine flat_map]. f_equal.
  - pose proof (Forall_inv Ft) as Lt. destruct (Forall_inv Fb) as [Lb Hb]. cbn beta in Lt.
    destruct t as [|t0 [|t1 [|t2 [|t3 [|]]]]]; try discriminate. destruct b as [|b0 [|b1 [|b2 [|b3 [|]]]]]; try discriminate.
    pose proof (Forall_inv Hb) as H0. apply Forall_inv_tail in Hb. pose proof (Forall_inv Hb) as H1. apply Forall_inv_tail in Hb.
    pose proof (Forall_inv Hb) as H2. apply Forall_inv_tail in Hb. pose proof (Forall_inv Hb) as H3.
    pose proof (faceTag_byte b0 b1 b2 b3 H0 H1 H2 H3) as E.
    change (map (faceTag (pumgen_word [b0; b1; b2; b3])) (seq 0 4) = [b0; b1; b2; b3]) in E. cbn [fst snd].
    generalize dependent (pumgen_word [b0; b1; b2; b3]). intros w E. cbn [map seq] in E. injection E as E0 E1 E2 E3.
    unfold tet_faces. cbn [fst snd map seq]. rewrite E0, E1, E2, E3. reflexivity.
  - apply IH; [inversion Ft|inversion Fb]; auto.
Qed.

Section Props.
  Variable num : Type.
  Variable zero : num.

  Definition vertex_part (vs : list (list num)) : list (call num) :=
    SetNumVertices (Z.of_nat (length vs)) :: map (fun x => SetVertex (Z.of_nat (fst x)) (snd x)) (combine (seq 0 (length vs)) vs).
  Definition triangle_part (fs : list (list Z * Z)) : list (call num) := map (fun x => AddElement 2 (snd x) (fst x)) fs.
  Definition tet_part (tets : list (list Z)) (groups : list Z) : list (call num) :=
    map (fun x => AddElement 4 (snd x) (fst x)) (combine tets groups).

  Lemma tet_calls_ok : forall tets groups, length groups = length tets -> tet_calls num tets groups = Some (tet_part tets groups).
  Proof.
    induction tets as [|t tets IH]; intros [|g groups] L; try discriminate; cbn [tet_calls]; auto.
    rewrite IH by (cbn in L; lia). reflexivity.
  Qed.
  Lemma map_seq_combine : forall A B (d : A) (g : nat -> A -> B) l, map (fun i => g i (nth i l d)) (seq 0 (length l)) = map (fun x => g (fst x) (snd x)) (combine (seq 0 (length l)) l).
  Proof.
    intros A B d g l. apply nth_error_ext. intros i.
    rewrite !nth_error_map. destruct (Nat.lt_ge_cases i (length l)) as [Hi|Hi].
    - rewrite (nth_error_nth' (seq 0 (length l)) 0) by (rewrite seq_length; auto). rewrite seq_nth by auto. cbn [option_map Nat.add].
      rewrite (nth_error_nth' (combine (seq 0 (length l)) l) (0, d)) by (rewrite combine_length, seq_length; lia).
      rewrite combine_nth by (rewrite seq_length; auto). rewrite seq_nth by auto. reflexivity.
    - rewrite !(proj2 (nth_error_None _ _)); auto; [rewrite combine_length|]; rewrite seq_length; lia.
  Qed.
  Lemma parseNodes_ok : forall f vs, geometry f = Some (concat vs) -> Forall (fun v => length v = 3) vs ->
    parseNodes num zero f = Some (vertex_part vs).
  Proof.
    intros f vs Hg F. unfold parseNodes. rewrite Hg. rewrite (concat_length _ 3), Nat.div_mul by (auto; lia).
    unfold vertex_part. do 2 f_equal. rewrite <- (map_seq_combine _ _ [] (fun i x => SetVertex (Z.of_nat i) x) vs).
    apply map_ext_in. intros i Hi. apply in_seq in Hi. rewrite chunk_concat; auto. lia.
  Qed.
  Lemma parseElements_ok : forall (f : h5file num) vs tets bs groups, pumgen_file f vs tets bs groups ->
    parseElements num f = Some (tets, groups).
  Proof.
    intros f vs tets bs groups (_ & _ & Hc & Ft & _ & _ & _ & Hg & Lg). unfold parseElements. rewrite Hc.
    rewrite chunks_concat by (auto; lia). rewrite (concat_length _ 4), Nat.div_mul by (auto; lia).
    destruct Hg as [-> |[-> ->]]; reflexivity.
  Qed.

  (** The vertices are announced in order.  Then every set of vertices that is a face of a tetrahedron is announced once,
      with the tag of the first tetrahedron that has it, and then the tetrahedra in order, with their groups. *)
  Theorem hdf5_mesh_calls : forall (f : h5file num) vs tets bs groups, pumgen_file f vs tets bs groups ->
    exists fs, first_occurrences (tagged_faces tets bs) fs /\
      parseFile num zero f = Done (true, vertex_part vs ++ triangle_part fs ++ tet_part tets groups, []).
  Proof.
    intros f vs tets bs groups H. pose proof H as (Hg & Fv & Hc & Ft & Hb & Fb & Lb & _ & Lg).
    set (st := retrieve tets (map pumgen_word bs)). exists (combine (lower st) (tags st)).
    assert (E : st = fold_left step (tagged_faces tets bs) {| seen := []; lower := []; tags := [] |}).
    { unfold st. rewrite retrieve_all, all_faces_tagged; auto. }
    split; [apply (steps_first _ _ E)|].
    unfold parseFile. rewrite (parseElements_ok _ _ _ _ _ H), (parseNodes_ok _ _ Hg Fv), Hb.
    rewrite map_length, Lb, Nat.eqb_refl. fold st. unfold addAllElements. rewrite tet_calls_ok by auto. reflexivity.
  Qed.

  (** Whether the file is accepted. *)
  Theorem hdf5_mesh_result : forall (f : h5file num),
    (forall c g, connect f = Some c -> group f = Some g -> length c / 4 <= length g) ->
    exists ok cs ms, parseFile num zero f = Done (ok, cs, ms) /\ (ms = [] <-> ok = true) /\
      (ok = true <-> exists c x b, connect f = Some c /\ geometry f = Some x /\ boundary f = Some b /\ length b = length c / 4).
  Proof.
    intros f Hgr. unfold parseFile, parseElements, parseNodes. destruct (connect f) as [c|] eqn:Ec.
    2:{ do 3 eexists. split; [reflexivity|]. split; [split; discriminate|]. split; [discriminate|]. intros (? & ? & ? & H & _); discriminate. }
    destruct (geometry f) as [x|].
    2:{ do 3 eexists. split; [reflexivity|]. split; [split; discriminate|]. split; [discriminate|]. intros (? & ? & ? & _ & H & _); discriminate. }
    destruct (boundary f) as [b|].
    2:{ do 3 eexists. split; [reflexivity|]. split; [split; discriminate|]. split; [discriminate|]. intros (? & ? & ? & _ & _ & H & _); discriminate. }
    rewrite map_length, seq_length. destruct (Nat.eqb_spec (length b) (length c / 4)) as [E|E].
    - unfold addAllElements.
      assert (Ht : forall tets groups, length tets <= length groups -> exists r, tet_calls num tets groups = Some r).
      { clear. induction tets as [|t tets IH]; intros [|g groups] H; cbn in *; eauto; [lia|]. destruct (IH groups) as [r ->]; [lia|]. cbn. eauto. }
      match goal with |- context [tet_calls num ?a ?b] => destruct (Ht a b) as [r ->] end.
      + rewrite map_length, seq_length. destruct (group f) eqn:Eg; [eapply Hgr; eauto|]. rewrite repeat_length. auto.
      + cbn [option_map defined andthen]. do 3 eexists. split; [reflexivity|]. split; [split; auto|]. split; auto. intros _. exists c, x, b. auto.
    - do 3 eexists. split; [reflexivity|]. split; [split; discriminate|]. split; [discriminate|].
      intros (c' & ? & b' & [= <-] & _ & [= <-] & H). contradiction.
  Qed.
End Props.

(** A face is found from either side.  If the tetrahedra that have it agree about its tag, this is the tag announced. *)
Theorem hdf5_face_tags : forall tets bs fs i j tet face tag b,
  Forall bytes bs -> length bs = length tets -> first_occurrences (tagged_faces tets bs) fs ->
  nth_error tets i = Some tet -> nth_error (pumgen_faces tet) j = Some face -> nth_error bs i = Some b -> nth_error b j = Some tag ->
  exists! k, exists f t, nth_error fs k = Some (f, t) /\ Permutation face f /\
    ((forall f' t', In (f', t') (tagged_faces tets bs) -> Permutation face f' -> t' = tag) -> t = tag).
Proof.
  intros tets bs fs i j tet face tag b Fb Lb (O1 & O2 & O3) Ht Hf Hb Hj.
  assert (Hin : In (face, tag) (tagged_faces tets bs)).
  { apply in_flat_map. exists (tet, b). split.
    - apply nth_error_In with i. clear - Ht Hb. revert bs i Ht Hb. induction tets as [|x tets IH]; intros [|y bs] [|i] Ht Hb; try discriminate; cbn in *; [congruence|auto].
    - cbn [fst snd]. apply nth_error_In with j. clear - Hf Hj. revert b j Hf Hj. induction (pumgen_faces tet) as [|x l IH]; intros [|y b] [|j] H1 H2; try discriminate; cbn in *; [congruence|auto]. }
  destruct (O2 _ _ Hin) as (f & t & Hk & P). apply In_nth_error in Hk as [k Hk]. exists k. split.
  - exists f, t. split; auto. split; auto. intros H. destruct (O1 _ _ _ Hk) as (k0 & H0 & _). apply (H f t); auto. eapply nth_error_In; eauto.
  - intros k' (f' & t' & Hk' & P' & _). eapply O3; eauto. eapply perm_trans; [apply Permutation_sym, P|auto].
Qed.
