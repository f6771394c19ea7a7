(** Property theorems: distributed assembly (C48). *)
Require Import List Arith Lia Bool Sorted Permutation.
Require Import Verif.Base Verif.LocalMeshModel Verif.LocalMeshProps Verif.TopoModel Verif.TopoSpec Verif.TopoProofs
  Verif.TopoProps Verif.TopoCheck Verif.AssembleModel Verif.AssembleSpec Verif.AssembleProofs.
Import ListNotations.
Local Open Scope opt_scope.

Definition adjacent_dec_b (m : topo_mesh) (e e' : nat) : bool :=
  negb (e =? e') && (e <? length (tm_elems m)) && (e' <? length (tm_elems m)) &&
  existsb (fun i => containsb m e i && containsb m e' i) (seq 0 (length (tm_facets m))).
Lemma adjacent_dec_spec m e e' : adjacent_dec_b m e e' = true <-> adjacent m e e'.
Proof.
  unfold adjacent_dec_b, adjacent. rewrite !andb_true_iff, existsb_exists, !Nat.ltb_lt, negb_true_iff, Nat.eqb_neq. split.
  - intros [[[N H1] H2] (i & Hi & C)]. split; auto. exists i. apply in_seq in Hi. apply andb_true_iff in C as [? ?].
    split; apply containsb_spec; repeat split; auto; lia.
  - intros (N & i & C1 & C2). apply containsb_spec in C1 as (? & ? & ?), C2 as (? & ? & ?). repeat split; auto.
    exists i. rewrite in_seq, andb_true_iff. repeat split; auto; lia.
Qed.

(** * The matrix *)
Section Matrix.
Variables (k procs : nat) (elems facets : list (list nat)) (bc : list nat -> nat) (m : nat -> topo_mesh).
Hypothesis MP : mesh_parts k procs elems facets bc m.
Context {B : Type} (F : mat_form B) (FS : form_symmetric F).
Definition half (f : list nat) (g : nat) : list (nat * nat * B) :=
  match elements_of elems f with
  | [a] => if_some (f_boundary F f (bc f) a) (fun b => [(a, a, b)])
  | [a; b] => if_some (f_skeleton F f (bc f) a b)
      (fun '(gg, gh, hg, hh) => if g =? a then [(a, a, gg); (a, b, gh)] else [(b, a, hg); (b, b, hh)])
  | _ => []
  end.
Lemma half_sum f : flat_map (half f) (elements_of elems f) =
  match elements_of elems f with
  | [g] => if_some (f_boundary F f (bc f) g) (fun b => [(g, g, b)])
  | [g; h] => if_some (f_skeleton F f (bc f) g h)
      (fun '(gg, gh, hg, hh) => [(g, g, gg); (g, h, gh); (h, g, hg); (h, h, hh)])
  | _ => []
  end.
Proof.
  unfold half. pose proof (elements_of_sorted elems f) as S0. destruct (elements_of elems f) as [|a [|b [|c r]]]; cbn [flat_map]; auto.
  - apply app_nil_r.
  - inversion S0 as [|? ? ? H]; subst. inversion H; subst. destruct (f_skeleton F f (bc f) a b) as [[[[? ?] ?] ?]|]; cbn [if_some]; auto.
    rewrite Nat.eqb_refl. destruct (Nat.eqb_spec b a); [lia|]. auto.
  - clear S0. induction r; cbn [flat_map app] in *; auto.
Qed.
Lemma facet_local p i x f L : p < procs -> i < tm_num_local_facets (m p) -> facet_record_ok k (m p) i x ->
  nth_error (tm_facets (m p)) i = Some f -> evaluates k F (m p) L ->
  exists r, map_opt (to_global (m p)) (assemble_facet L i x) = Some r /\ Permutation r (flat_map (half f) (inside_gids x)).
Proof.
  intros Hp Hi R Ef [_ EV]. destruct (EV i f x Hi Ef R) as [ES EB].
  assert (Bc : fi_bc x = bc f).
  { destruct (fr_bc _ _ _ _ R) as (b & E1 & E2). pose proof (mp_bc _ _ _ _ _ _ MP p b i f Hp E1 Ef). congruence. }
  rewrite Bc in *. pose proof (fr_g0 _ _ _ _ R) as G0. pose proof (fr_g1 _ _ _ _ R) as G1.
  pose proof (facet_elements _ _ _ _ _ _ MP p i x f Hp Hi R Ef) as EL.
  unfold assemble_facet, inside_gids, half. rewrite (fr_first _ _ _ _ R), EL.
  destruct (Nat.eqb_spec (fi_up0 x) (fi_up1 x)) as [Eu|Nu]; cbn [negb andb app].
  - rewrite EB by auto. cbn [flat_map app]. destruct (f_boundary F f (bc f) (fi_g0 x)); cbn; rewrite ?G0; eexists; split; reflexivity.
  - assert (Ng : fi_g0 x <> fi_g1 x).
    { intro Eg. apply Nu. apply (NoDup_nth_error (tm_l2cg (m p))); [apply (mp_nodup _ _ _ _ _ _ MP p Hp)| |congruence].
      apply nth_error_Some. congruence. }
    rewrite ES by auto. destruct (Nat.ltb_spec (fi_g0 x) (fi_g1 x)).
    + destruct (f_skeleton F f (bc f) (fi_g0 x) (fi_g1 x)) as [[[[? ?] ?] ?]|]; cbn [if_some].
      * destruct (fi_inside1 x); cbn [app flat_map]; rewrite Nat.eqb_refl; try (destruct (Nat.eqb_spec (fi_g1 x) (fi_g0 x)); [congruence|]);
          cbn; rewrite G0, G1; eexists; split; reflexivity.
      * destruct (fi_inside1 x); eexists; split; reflexivity.
    + rewrite (FS f (bc f) (fi_g1 x) (fi_g0 x)).
      destruct (f_skeleton F f (bc f) (fi_g1 x) (fi_g0 x)) as [[[[? ?] ?] ?]|]; cbn [if_some].
      * destruct (fi_inside1 x); cbn [app flat_map]; rewrite ?Nat.eqb_refl; destruct (Nat.eqb_spec (fi_g0 x) (fi_g1 x)); try congruence;
          cbn; rewrite G0, G1; cbn; (eexists; split; [reflexivity|]).
        -- etransitivity; [apply perm_swap|]. do 2 apply perm_skip. apply perm_swap.
        -- apply perm_swap.
      * destruct (fi_inside1 x); eexists; split; reflexivity.
Qed.
End Matrix.

(** In such a mesh every facet is in one or two elements, so that no facet is left out of the sum. *)
Lemma facet_one_or_two k procs elems facets bc m : mesh_parts k procs elems facets bc m -> forall f, In f facets ->
  exists g h, elements_of elems f = [g] \/ elements_of elems f = [g; h].
Proof.
  intros MP f Hf. pose proof Hf as Hf'. apply (mp_facets_all _ _ _ _ _ _ MP) in Hf' as (Lf & Sf & plex & Hp & I).
  apply In_nth_error in Hp as [g Eg]. assert (Hg : g < length elems) by (apply nth_error_Some; congruence).
  destruct (mp_owned _ _ _ _ _ _ MP g Hg) as (p & e & Hp & He & Ee). pose proof (mp_mesh _ _ _ _ _ _ MP p Hp) as O.
  destruct (mp_elem _ _ _ _ _ _ MP p e g Hp Ee) as [_ Eq].
  assert (Hin : In f (tm_facets (m p))) by (apply (to_all _ _ O plex f); auto; apply nth_error_In with e; congruence).
  apply In_nth_error in Hin as [i Ei].
  assert (Hi : i < tm_num_local_facets (m p)).
  { apply (to_local_facets _ _ O i); [apply nth_error_Some; congruence|]. exists e. split; auto. exists plex, f. repeat split; auto. congruence. }
  destruct (facet_table_correct k (m p) O) as (fi & _ & _ & RS). destruct (RS i Hi) as (x & _ & R).
  rewrite (facet_elements _ _ _ _ _ _ MP p i x f Hp Hi R Ei). destruct (_ =? _); [exists (fi_g0 x), 0; auto|]. destruct (_ <? _); eauto.
Qed.
(** C48a: over all ranks, the blocks added to the global matrix are exactly those of the global sum
    -- each element's once, the four blocks of each interior facet once even if its elements are on
    different ranks, each boundary facet's once -- and all row and column numbers are defined. *)
Theorem assembly_complete : forall {B} k procs elems facets bc m (F : mat_form B) fi L,
  mesh_parts k procs elems facets bc m -> form_symmetric F ->
  (forall p, p < procs -> facet_table k (m p) = Some (fi p)) ->
  (forall p, p < procs -> evaluates k F (m p) (L p)) ->
  exists G, (forall p, p < procs -> map_opt (to_global (m p)) (assemble (m p) (fi p) (L p)) = Some (G p)) /\
    Permutation (flat_map G (seq 0 procs)) (global_matrix elems facets bc F).
Proof.
  intros B k procs elems facets bc m F fi L MP FS FI EV.
  set (glob p i := if_some (nth_error (fi p) i) (fun x => if_some (map_opt (to_global (m p)) (assemble_facet (L p) i x)) (fun r => r))).
  exists (fun p =>
    flat_map (fun e => if_some (f_volume F (nth e (tm_l2cg (m p)) 0)) (fun b => [(nth e (tm_l2cg (m p)) 0, nth e (tm_l2cg (m p)) 0, b)])) (seq 0 (tm_num_local (m p))) ++
    (flat_map (glob p) (seq 0 (tm_num_local_facets (m p))) ++
    flat_map (fun e => if_some (f_post F (nth e (tm_l2cg (m p)) 0)) (fun b => [(nth e (tm_l2cg (m p)) 0, nth e (tm_l2cg (m p)) 0, b)])) (seq 0 (tm_num_local (m p))))).
  assert (FL : forall p i, p < procs -> i < tm_num_local_facets (m p) -> exists x f, nth_error (fi p) i = Some x /\
    nth_error (tm_facets (m p)) i = Some f /\ map_opt (to_global (m p)) (assemble_facet (L p) i x) = Some (glob p i) /\
    Permutation (glob p i) (flat_map (half elems bc F f) (inside_gids x))).
  { intros p i Hp Hi. destruct (records k procs elems facets bc m MP fi FI p Hp) as [_ RS].
    destruct (RS i Hi) as (x & f & Ex & Rx & Ef). exists x, f. split; auto. split; auto.
    destruct (facet_local k procs elems facets bc m MP F FS p i x f (L p) Hp Hi Rx Ef (EV p Hp)) as (r & Er & P).
    unfold glob. rewrite Ex. cbn [if_some]. rewrite Er. cbn [if_some]. auto. }
  split.
  - intros p Hp. destruct (EV p Hp) as [EVe _]. pose proof (mp_mesh _ _ _ _ _ _ MP p Hp) as O.
    assert (GN : forall e, e < tm_num_local (m p) -> nth_error (tm_l2cg (m p)) e = Some (nth e (tm_l2cg (m p)) 0)).
    { intros e He. apply nth_error_nth'. rewrite (to_l2cg _ _ O). pose proof (to_local_le _ _ O). lia. }
    unfold assemble. repeat apply map_opt_app; apply map_opt_flat_map.
    + intros e He. apply in_seq in He. pose proof (GN e ltac:(lia)) as G. destruct (EVe e _ ltac:(lia) G) as [E _]. rewrite E.
      destruct (f_volume F _); cbn; rewrite ?G; auto.
    + intros i Hi. apply in_seq in Hi. destruct (FL p i Hp ltac:(lia)) as (x & f & Ex & Ef & Er & _). rewrite Ex. auto.
    + intros e He. apply in_seq in He. pose proof (GN e ltac:(lia)) as G. destruct (EVe e _ ltac:(lia) G) as [_ E]. rewrite E.
      destruct (f_post F _); cbn; rewrite ?G; auto.
  - unfold global_matrix. rewrite Permutation_flat_map_app. apply Permutation_app.
    + apply (element_sum k procs elems facets bc m MP (fun g => if_some (f_volume F g) (fun b => [(g, g, b)]))).
    + rewrite Permutation_flat_map_app. apply Permutation_app.
      * etransitivity; [|etransitivity; [apply (facet_sum k procs elems facets bc m MP (half elems bc F) fi FI)|]].
        { apply Permutation_flat_map_pt. intros p Hp. apply in_seq in Hp. apply Permutation_flat_map_pt. intros i Hi. apply in_seq in Hi.
          destruct (FL p i ltac:(lia) ltac:(lia)) as (x & f & Ex & Ef & _ & P). rewrite Ex. cbn [if_some].
          rewrite (nth_error_nth _ _ [] Ef). auto. }
        apply Permutation_refl'. apply flat_map_ext_in. intros f _. apply half_sum.
      * apply (element_sum k procs elems facets bc m MP (fun g => if_some (f_post F g) (fun b => [(g, g, b)]))).
Qed.
Print Assumptions assembly_complete.

(** Sum of the blocks added at (i, j). *)
Definition entry {B} (add : B -> B -> B) (zero : B) (l : list (nat * nat * B)) (i j : nat) : B :=
  fold_right add zero (map snd (filter (fun c => (fst (fst c) =? i) && (snd (fst c) =? j)) l)).
Lemma entry_perm {B} (add : B -> B -> B) zero : (forall a b c, add a (add b c) = add b (add a c)) ->
  forall l l' i j, Permutation l l' -> entry add zero l i j = entry add zero l' i j.
Proof.
  intros H l l' i j P. unfold entry. induction P; cbn [filter]; auto.
  - destruct (_ && _); cbn; congruence.
  - destruct (_ && _), (_ && _); cbn; auto.
  - congruence.
Qed.
(** C48b: hence the block (i, j) of the assembled matrix is the sum of the form's blocks. *)
Theorem assembly_entries : forall {B} (add : B -> B -> B) zero k procs elems facets bc m (F : mat_form B) fi L,
  (forall a b, add a b = add b a) -> (forall a b c, add a (add b c) = add (add a b) c) ->
  mesh_parts k procs elems facets bc m -> form_symmetric F ->
  (forall p, p < procs -> facet_table k (m p) = Some (fi p)) ->
  (forall p, p < procs -> evaluates k F (m p) (L p)) ->
  exists G, (forall p, p < procs -> map_opt (to_global (m p)) (assemble (m p) (fi p) (L p)) = Some (G p)) /\
    forall i j, entry add zero (flat_map G (seq 0 procs)) i j = entry add zero (global_matrix elems facets bc F) i j.
Proof.
  intros B add zero k procs elems facets bc m F fi L Hc Ha MP FS FI EV.
  destruct (assembly_complete k procs elems facets bc m F fi L MP FS FI EV) as (G & H1 & H2). exists G. split; auto.
  intros i j. apply entry_perm; auto. intros a b c. rewrite !Ha, (Hc a b). auto.
Qed.
Print Assumptions assembly_entries.

(** C48c: a rank writes only rows of its own elements, and a column is the row's element or an
    element it shares a facet with; so a row has at most as many distinct column blocks as are
    preallocated for it, among the rank's own and among the others' elements. *)
Theorem assembly_within_allocation : forall {B} k p m fi (L : mat_lop B), topo_ok k m -> facet_table k m = Some fi ->
  (forall i j b, In (i, j, b) (assemble m fi L) -> i < tm_num_local m /\ (j = i \/ adjacent m i j)) /\
  (forall e nl ng cols, e < tm_num_local m -> nth_error (tm_owner m) e = Some p -> neighbour_counts k p m e = Some (nl, ng) ->
     NoDup cols -> (forall j, In j cols -> exists b, In (e, j, b) (assemble m fi L)) ->
     length (filter (fun j => nth j (tm_owner m) 0 =? p) cols) <= nl /\
     length (filter (fun j => negb (nth j (tm_owner m) 0 =? p)) cols) <= ng).
Proof.
  intros B k p m fi L O E.
  assert (Rows : forall i j b, In (i, j, b) (assemble m fi L) -> i < tm_num_local m /\ (j = i \/ adjacent m i j)).
  { intros i j b H. unfold assemble in H. rewrite !in_app_iff, !in_flat_map in H.
    assert (V : forall (v : nat -> option B), (exists x, In x (seq 0 (tm_num_local m)) /\ In (i, j, b) (if_some (v x) (fun A00 => [(x, x, A00)]))) ->
      i < tm_num_local m /\ (j = i \/ adjacent m i j)).
    { intros v (x & Hx & Hb). apply in_seq in Hx. destruct (v x); [|destruct Hb]. destruct Hb as [Hb|[]]. injection Hb as <- <- <-.
      split; auto. lia. }
    destruct H as [H|[(f & Hf & Hb)|H]]; [apply (V (a_volume L) H)| |apply (V (a_post L) H)].
    apply in_seq in Hf. destruct (facet_table_correct k m O) as (fi' & E' & _ & RS). assert (fi' = fi) by congruence. subst fi'.
    destruct (RS f ltac:(lia)) as (x & Ex & R). rewrite Ex in Hb. cbn [if_some] in Hb.
    pose proof (fr_inside0 _ _ _ _ R) as I0. pose proof (fr_inside1 _ _ _ _ R) as I1. pose proof (fr_first _ _ _ _ R) as Ft.
    assert (H0 : fi_up0 x < tm_num_local m) by (apply Nat.ltb_lt; congruence).
    unfold assemble_facet in Hb. rewrite Ft in Hb. destruct (Nat.eqb_spec (fi_up0 x) (fi_up1 x)) as [Eu|Nu]; cbn [negb] in Hb.
    - destruct (a_boundary L f x); [|destruct Hb]. destruct Hb as [Hb|[]]. injection Hb as <- <- <-. auto.
    - assert (C0 : contains m (fi_up0 x) f) by (apply (fr_up _ _ _ _ R); auto).
      assert (C1 : contains m (fi_up1 x) f) by (apply (fr_up _ _ _ _ R); auto).
      assert (A1 : adjacent m (fi_up0 x) (fi_up1 x)) by (split; auto; exists f; auto).
      assert (A2 : adjacent m (fi_up1 x) (fi_up0 x)) by (split; auto; exists f; auto).
      destruct (a_skeleton L f x) as [[[[? ?] ?] ?]|]; [|destruct Hb]. cbn [if_some] in Hb. apply in_app_or in Hb as [Hb|Hb].
      + destruct Hb as [Hb|[Hb|[]]]; injection Hb as <- <- <-; auto.
      + destruct (fi_inside1 x); [|destruct Hb]. assert (H1 : fi_up1 x < tm_num_local m) by (apply Nat.ltb_lt; congruence).
        destruct Hb as [Hb|[Hb|[]]]; injection Hb as <- <- <-; auto. }
  split; auto. intros e nl ng cols He Ow Ec N Hc.
  pose proof (to_local_le _ _ O) as Ll.
  set (nb := filter (fun e' => if adjacent_dec_b m e e' then true else false) (seq 0 (length (tm_elems m)))).
  assert (Hnb : forall e', In e' nb <-> adjacent m e e').
  { intro e'. unfold nb. rewrite filter_In, in_seq. rewrite <- (adjacent_dec_spec m e e').
    destruct (adjacent_dec_b m e e') eqn:D; split; try tauto; try discriminate.
    - intros _. split; auto. apply adjacent_dec_spec in D as (_ & i & _ & C). apply contains_lt in C. lia.
    }
  assert (Nn : NoDup nb) by (apply NoDup_filter, seq_NoDup).
  rewrite (neighbour_counts_correct k p m e nb O ltac:(lia) Nn Hnb) in Ec. injection Ec as <- <-.
  assert (Cin : forall j, In j cols -> j = e \/ In j nb).
  { intros j Hj. destruct (Hc j Hj) as [b Hb]. apply Rows in Hb as [_ [H|H]]; auto. right. apply Hnb; auto. }
  split.
  - apply (@NoDup_incl_length _ _ (e :: filter (fun u => nth u (tm_owner m) 0 =? p) nb)); [apply NoDup_filter; auto|]. intros j Hj. apply filter_In in Hj as [Hj Ho].
    destruct (Cin j Hj) as [-> |H]; [left; auto|right]. apply filter_In. auto.
  - apply NoDup_incl_length; [apply NoDup_filter; auto|]. intros j Hj. apply filter_In in Hj as [Hj Ho].
    destruct (Cin j Hj) as [-> |H]; [|apply filter_In; auto]. rewrite (nth_error_nth _ _ 0 Ow), Nat.eqb_refl in Ho. discriminate.
Qed.
Print Assumptions assembly_within_allocation.

(** * The right-hand side *)
Section Vector.
Variables (k procs : nat) (elems facets : list (list nat)) (bc : list nat -> nat) (m : nat -> topo_mesh).
Hypothesis MP : mesh_parts k procs elems facets bc m.
Context {B : Type} (F : vec_form B) (FS : vform_symmetric F).
Definition vhalf (f : list nat) (g : nat) : list (nat * B) :=
  match elements_of elems f with
  | [a] => if_some (v_boundary F f (bc f) a) (fun b => [(a, b)])
  | [a; b] => if_some (v_skeleton F f (bc f) a b) (fun '(ba, bb) => if g =? a then [(a, ba)] else [(b, bb)])
  | _ => []
  end.
Lemma vhalf_sum f : flat_map (vhalf f) (elements_of elems f) =
  match elements_of elems f with
  | [g] => if_some (v_boundary F f (bc f) g) (fun b => [(g, b)])
  | [g; h] => if_some (v_skeleton F f (bc f) g h) (fun '(bg, bh) => [(g, bg); (h, bh)])
  | _ => []
  end.
Proof.
  unfold vhalf. pose proof (elements_of_sorted elems f) as S0. destruct (elements_of elems f) as [|a [|b [|c r]]]; cbn [flat_map]; auto.
  - apply app_nil_r.
  - inversion S0 as [|? ? ? H]; subst. inversion H; subst. destruct (v_skeleton F f (bc f) a b) as [[? ?]|]; cbn [if_some]; auto.
    rewrite Nat.eqb_refl. destruct (Nat.eqb_spec b a); [lia|]. auto.
  - clear S0. induction r; cbn [flat_map app] in *; auto.
Qed.
Lemma rhs_facet_local p i x f L : p < procs -> i < tm_num_local_facets (m p) -> facet_record_ok k (m p) i x ->
  nth_error (tm_facets (m p)) i = Some f -> evaluates_rhs k F (m p) L ->
  map_opt (to_global_row (m p)) (rhs_facet L i x) = Some (flat_map (vhalf f) (inside_gids x)).
Proof.
  intros Hp Hi R Ef [_ EV]. destruct (EV i f x Hi Ef R) as [ES EB].
  assert (Bc : fi_bc x = bc f).
  { destruct (fr_bc _ _ _ _ R) as (b & E1 & E2). pose proof (mp_bc _ _ _ _ _ _ MP p b i f Hp E1 Ef). congruence. }
  rewrite Bc in *. pose proof (fr_g0 _ _ _ _ R) as G0. pose proof (fr_g1 _ _ _ _ R) as G1.
  pose proof (facet_elements _ _ _ _ _ _ MP p i x f Hp Hi R Ef) as EL.
  unfold rhs_facet, inside_gids, vhalf. rewrite (fr_first _ _ _ _ R), EL.
  destruct (Nat.eqb_spec (fi_up0 x) (fi_up1 x)) as [Eu|Nu]; cbn [negb andb app].
  - rewrite EB by auto. cbn [flat_map app]. destruct (v_boundary F f (bc f) (fi_g0 x)); cbn; unfold to_global_row; cbn; rewrite ?G0; auto.
  - assert (Ng : fi_g0 x <> fi_g1 x).
    { intro Eg. apply Nu. apply (NoDup_nth_error (tm_l2cg (m p))); [apply (mp_nodup _ _ _ _ _ _ MP p Hp)| |congruence].
      apply nth_error_Some. congruence. }
    rewrite ES by auto. destruct (Nat.ltb_spec (fi_g0 x) (fi_g1 x)); [|rewrite (FS f (bc f) (fi_g1 x) (fi_g0 x))].
    + destruct (v_skeleton F f (bc f) (fi_g0 x) (fi_g1 x)) as [[? ?]|]; cbn [if_some]; [|destruct (fi_inside1 x); auto].
      destruct (fi_inside1 x); cbn [app flat_map]; rewrite Nat.eqb_refl; try (destruct (Nat.eqb_spec (fi_g1 x) (fi_g0 x)); [congruence|]);
        cbn; unfold to_global_row; cbn; rewrite G0, ?G1; auto.
    + destruct (v_skeleton F f (bc f) (fi_g1 x) (fi_g0 x)) as [[? ?]|]; cbn [if_some]; [|destruct (fi_inside1 x); auto].
      destruct (fi_inside1 x); cbn [app flat_map]; rewrite ?Nat.eqb_refl; destruct (Nat.eqb_spec (fi_g0 x) (fi_g1 x)); try congruence;
        cbn; unfold to_global_row; cbn; rewrite G0, ?G1; auto.
Qed.
End Vector.

(** C48d: over all ranks, what is added to the right-hand side is each element's and each facet's
    contribution once. *)
Theorem rhs_complete : forall {B} k procs elems facets bc m (F : vec_form B) fi L,
  mesh_parts k procs elems facets bc m -> vform_symmetric F ->
  (forall p, p < procs -> facet_table k (m p) = Some (fi p)) ->
  (forall p, p < procs -> evaluates_rhs k F (m p) (L p)) ->
  exists G, (forall p, p < procs -> map_opt (to_global_row (m p)) (rhs (m p) (fi p) (L p)) = Some (G p)) /\
    Permutation (flat_map G (seq 0 procs)) (global_vector elems facets bc F).
Proof.
  intros B k procs elems facets bc m F fi L MP FS FI EV.
  exists (fun p =>
    flat_map (fun e => if_some (v_volume F (nth e (tm_l2cg (m p)) 0)) (fun b => [(nth e (tm_l2cg (m p)) 0, b)])) (seq 0 (tm_num_local (m p))) ++
    (flat_map (fun i => if_some (nth_error (fi p) i) (fun x => flat_map (vhalf elems bc F (nth i (tm_facets (m p)) [])) (inside_gids x)))
      (seq 0 (tm_num_local_facets (m p))) ++
    flat_map (fun e => if_some (v_post F (nth e (tm_l2cg (m p)) 0)) (fun b => [(nth e (tm_l2cg (m p)) 0, b)])) (seq 0 (tm_num_local (m p))))).
  split.
  - intros p Hp. destruct (EV p Hp) as [EVe _]. pose proof (mp_mesh _ _ _ _ _ _ MP p Hp) as O.
    assert (GN : forall e, e < tm_num_local (m p) -> nth_error (tm_l2cg (m p)) e = Some (nth e (tm_l2cg (m p)) 0)).
    { intros e He. apply nth_error_nth'. rewrite (to_l2cg _ _ O). pose proof (to_local_le _ _ O). lia. }
    unfold rhs. repeat apply map_opt_app; apply map_opt_flat_map.
    + intros e He. apply in_seq in He. pose proof (GN e ltac:(lia)) as G. destruct (EVe e _ ltac:(lia) G) as [E _]. rewrite E.
      destruct (v_volume F _); cbn; unfold to_global_row; cbn; rewrite ?G; auto.
    + intros i Hi. apply in_seq in Hi. destruct (records k procs elems facets bc m MP fi FI p Hp) as [_ RS].
      destruct (RS i ltac:(lia)) as (x & f & Ex & Rx & Ef). rewrite Ex. cbn [if_some]. rewrite (nth_error_nth _ _ [] Ef).
      apply (rhs_facet_local k procs elems facets bc m MP F FS p i x f (L p)); auto. lia.
    + intros e He. apply in_seq in He. pose proof (GN e ltac:(lia)) as G. destruct (EVe e _ ltac:(lia) G) as [_ E]. rewrite E.
      destruct (v_post F _); cbn; unfold to_global_row; cbn; rewrite ?G; auto.
  - unfold global_vector. rewrite Permutation_flat_map_app. apply Permutation_app.
    + apply (element_sum k procs elems facets bc m MP (fun g => if_some (v_volume F g) (fun b => [(g, b)]))).
    + rewrite Permutation_flat_map_app. apply Permutation_app.
      * rewrite (facet_sum k procs elems facets bc m MP (vhalf elems bc F) fi FI).
        apply Permutation_refl'. apply flat_map_ext_in. intros f _. apply vhalf_sum.
      * apply (element_sum k procs elems facets bc m MP (fun g => if_some (v_post F g) (fun b => [(g, b)]))).
Qed.
Print Assumptions rhs_complete.

(** * A concrete case: three triangles on two ranks, the second rank sees the shared edge from the
    other side *)
Definition ex_elems : list (list nat) := [[0;1;2]; [1;2;3]; [2;3;4]].
Definition ex_facets : list (list nat) := [[0;1]; [0;2]; [1;2]; [1;3]; [2;3]; [2;4]; [3;4]].
Definition ex_bc (f : list nat) : nat := match f with [0;1] => 1 | [0;2] => 5 | [1;2] => 0 | [1;3] => 3 | [2;3] => 3 | _ => 5 end.
Definition ex_part (p : nat) : topo_mesh :=
  match p with
  | 0 => {| tm_elems := ex_elems; tm_num_local := 2; tm_facets := ex_facets; tm_num_local_facets := 5;
            tm_owner := [0;0;1]; tm_l2cg := [0;1;2]; tm_shared := [[]; [1]; [1]]; tm_bc := Some [1;5;0;3;3;5;5] |}
  | _ => {| tm_elems := [[2;3;4]; [1;2;3]]; tm_num_local := 1;
            tm_facets := [[2;3]; [2;4]; [3;4]; [1;2]; [1;3]]; tm_num_local_facets := 3;
            tm_owner := [1;0]; tm_l2cg := [2;1]; tm_shared := [[0]; [0]]; tm_bc := Some [3;5;5;0;3] |}
  end.
Lemma ex_parts : mesh_parts 2 2 ex_elems ex_facets ex_bc ex_part.
Proof.
  constructor.
  - intros [|[|p]] Hp; try lia; apply topo_okb_spec; vm_compute; reflexivity.
  - intros [|[|p]] e g Hp; try lia; destruct e as [|[|[|[|e]]]]; cbn; try discriminate; intros [= <-]; cbn; split; auto; lia.
  - intros [|[|p]] Hp; try lia; repeat constructor; cbn; intuition lia.
  - intros g Hg. cbn in Hg. destruct g as [|[|[|g]]]; try lia; [exists 0, 0|exists 0, 1|exists 1, 0]; cbn; auto.
  - intros [|[|p]] [|[|q]] e e' g Hp Hq He He'; try lia; cbn in He, He'; destruct e as [|[|e]]; try lia;
      destruct e' as [|[|e']]; try lia; cbn; congruence.
  - intros p e i f g plex Hp He C Ef Eg I.
    assert (Hg : g < 3) by (change 3 with (length ex_elems); apply nth_error_Some; congruence).
    destruct p as [|[|p]]; try lia.
    + cbn [ex_part tm_l2cg]. destruct g as [|[|[|g]]]; try lia; cbn; auto.
    + destruct g as [|[|[|g]]]; try lia; cbn; auto. exfalso.
      destruct C as (pl & f' & E1 & E2 & I'). cbn in He. destruct e; [|lia]. cbn in E1. injection E1 as <-. cbn in Eg. injection Eg as <-.
      assert (f' = f) by congruence. subst f'.
      destruct i as [|[|[|[|[|i]]]]]; cbn in Ef; try discriminate; [..|destruct i; discriminate Ef]; injection Ef as <-;
        try (specialize (I 3 ltac:(cbn; auto)); cbn in I; lia); try (specialize (I 4 ltac:(cbn; auto)); cbn in I; lia);
        specialize (I' 1 ltac:(cbn; auto)); cbn in I'; lia.
  - intros [|[|p]] b i f Hp; try lia; cbn; intros [= <-]; destruct i as [|[|[|[|[|[|[|[|i]]]]]]]]; cbn; try discriminate; intros [= <-]; auto.
  - split.
    + repeat constructor; cbn; intuition discriminate.
    + intros s Hs. cbn in Hs. repeat destruct Hs as [<-|Hs]; try tauto; (split; [auto|]);
        (constructor; [repeat constructor|constructor; [lia|constructor]]).
  - intro f. split.
    + intro Hs. cbn in Hs. repeat destruct Hs as [<-|Hs]; try tauto; (split; [auto|]);
        (split; [constructor; [repeat constructor|constructor; [lia|constructor]]|]);
        ((exists [0;1;2]; split; [cbn; tauto|intros v Hv; cbn in *; lia]) || (exists [1;2;3]; split; [cbn; tauto|intros v Hv; cbn in *; lia])
         || (exists [2;3;4]; split; [cbn; tauto|intros v Hv; cbn in *; lia])).
    + intros (Lf & Sf & plex & Hp & I). destruct f as [|a [|b [|c f]]]; try discriminate.
      inversion Sf as [|? ? ? H1]; subst. inversion H1; subst.
      assert (Ha : In a plex) by (apply I; cbn; auto). assert (Hb : In b plex) by (apply I; cbn; auto).
      cbn in Hp. repeat destruct Hp as [<-|Hp]; try tauto; cbn in Ha, Hb;
        repeat (destruct Ha as [<-|Ha]; [repeat (destruct Hb as [<-|Hb]; [try lia; cbn; tauto|]); lia|]); lia.
Qed.
(** Blocks are symbols: which form, on which facet and elements. *)
Definition ex_sym := (nat * list nat * nat * nat)%type.
Definition ex_form : mat_form ex_sym :=
  {| f_volume g := Some (0, [], g, g);
     f_skeleton f b g h := Some ((1 + b, f, g, g), (1 + b, f, g, h), (1 + b, f, h, g), (1 + b, f, h, h));
     f_boundary f b g := if b =? 1 then None else Some (100 + b, f, g, g); f_post _ := None |}.
Example ex_form_symmetric : form_symmetric ex_form.
Proof. intros f b g h. reflexivity. Qed.
Definition ex_lop (p : nat) : mat_lop ex_sym :=
  let f i := nth i (tm_facets (ex_part p)) [] in
  {| a_volume e := f_volume ex_form (nth e (tm_l2cg (ex_part p)) 0);
     a_skeleton i x := f_skeleton ex_form (f i) (fi_bc x) (fi_g0 x) (fi_g1 x);
     a_boundary i x := f_boundary ex_form (f i) (fi_bc x) (fi_g0 x); a_post _ := None |}.
Example ex_evaluates : forall p, evaluates 2 ex_form (ex_part p) (ex_lop p).
Proof.
  intro p. split.
  - intros e g _ E. cbn. rewrite (nth_error_nth _ _ 0 E). auto.
  - intros i f x _ E _. cbn. rewrite (nth_error_nth _ _ [] E). auto.
Qed.
Example assemble_ex : exists fi, facet_table 2 (ex_part 1) = Some fi /\
  map_opt (to_global (ex_part 1)) (assemble (ex_part 1) fi (ex_lop 1)) =
  Some [(2, 2, (0, [], 2, 2)); (2, 2, (4, [2;3], 2, 2)); (2, 1, (4, [2;3], 2, 1));
        (2, 2, (105, [2;4], 2, 2)); (2, 2, (105, [3;4], 2, 2))].
Proof. eexists. split; vm_compute; reflexivity. Qed.
