(** Lemmas about the mesh builder: renumbering, the table of node permutations, the calls. *)
Require Import List Arith ZArith Bool Lia Reals Lra Permutation Sorting.Sorted.
Require Import Verif.Base Verif.CombinatoricsModel Verif.SimplexModel Verif.SimplexProofs Verif.SimplexProps.
Require Import Verif.FacesModel Verif.FacesProofs Verif.LehmerModel Verif.LehmerProps.
Require Import Verif.EquidistantModel Verif.EquidistantProofs Verif.EquidistantProps Verif.GmshModel Verif.BuilderModel.
Import ListNotations.

Definition assigned (m : list (option nat)) (v i : nat) : Prop := nth_error m v = Some (Some i).
(** Some vertices have numbers 0..n-1, each number once. *)
Definition numbering (m : list (option nat)) (n : nat) : Prop :=
  (forall v i, assigned m v i -> i < n) /\
  (forall v w i, assigned m v i -> assigned m w i -> v = w) /\
  (forall i, i < n -> exists v, assigned m v i).

Lemma assigned_fun : forall m v i j, assigned m v i -> assigned m v j -> i = j.
Proof. unfold assigned. intros. congruence. Qed.
Lemma numbering_empty : forall k, numbering (repeat None k) 0.
Proof.
  intros k. assert (H : forall v i, ~ assigned (repeat None k) v i).
  { intros v i E. apply nth_error_In, repeat_spec in E. discriminate. }
  split; [|split]; intros; try lia; exfalso; eapply H; eauto.
Qed.
Lemma numbering_add : forall m n v m', numbering m n -> nth_error m v = Some None -> upd m v (Some n) = Some m' ->
  numbering m' (n + 1) /\ length m' = length m /\ assigned m' v n /\
  (forall w i, assigned m w i -> assigned m' w i) /\
  (forall w i, assigned m' w i -> assigned m w i \/ w = v).
Proof.
  intros m n v m' (H1 & H2 & H3) Hv Hu. apply upd_spec in Hu as (L & _ & E).
  assert (Hold : forall w i, w <> v -> assigned m' w i <-> assigned m w i).
  { intros w i Hw. unfold assigned. rewrite E. destruct (Nat.eqb_spec w v); [contradiction|]. tauto. }
  assert (Hnew : forall i, assigned m' v i <-> i = n).
  { intros i. unfold assigned. rewrite E, Nat.eqb_refl. split; congruence. }
  assert (Hx : forall w i, assigned m' w i -> (w = v /\ i = n) \/ (w <> v /\ assigned m w i)).
  { intros w i Hi. destruct (Nat.eq_dec w v) as [-> |Hw]; [left; split; auto; apply Hnew; auto|right; split; auto; apply Hold; auto]. }
  assert (Hm : forall w i, assigned m w i -> w <> v) by (intros w i Hi ->; unfold assigned in Hi; congruence).
  split; [split; [|split]|].
  - intros w i Hi. apply Hx in Hi as [[_ ->]|[_ Hi]]; [lia|]. apply H1 in Hi. lia.
  - intros w w' i Hi Hi'. apply Hx in Hi as [[-> ->]|[_ Hi]], Hi' as [[-> Ei]|[_ Hi']]; subst; auto.
    + apply H1 in Hi'. lia.
    + apply H1 in Hi. lia.
    + eapply H2; eauto.
  - intros i Hi. destruct (Nat.eq_dec i n) as [-> |]; [exists v; apply Hnew; auto|].
    destruct (H3 i) as [w Hw]; [lia|]. exists w. apply Hold; eauto.
  - split; auto. split; [apply Hnew; auto|]. split.
    + intros w i Hi. apply Hold; eauto.
    + intros w i Hi. apply Hx in Hi as [[-> _]|[_ Hi]]; auto.
Qed.

Lemma renumber_simplex_spec : forall e m n e' m' n', numbering m n ->
  renumber_simplex m n e = Some (e', (m', n')) ->
  numbering m' n' /\ length m' = length m /\ Forall2 (assigned m') e e' /\
  (forall w i, assigned m w i -> assigned m' w i) /\
  (forall w i, assigned m' w i -> assigned m w i \/ In w e).
Proof.
  induction e as [|v e IH]; intros m n e' m' n' Hm H; cbn [renumber_simplex] in H.
  - injection H as <- <- <-. repeat split; auto; try apply Hm.
  - destruct (nth_error m v) as [[i|]|] eqn:Ev; [| |discriminate].
    + destruct (renumber_simplex m n e) as [[t' [m1 n1]]|] eqn:Er; [|discriminate]. injection H as <- <- <-.
      destruct (IH _ _ _ _ _ Hm Er) as (A1 & A2 & A3 & A4 & A5). split; auto. split; auto. split; [constructor; auto|].
      split; auto. intros w j Hw. apply A5 in Hw as [Hw|Hw]; auto. right. right. auto.
    + destruct (upd m v (Some n)) as [m2|] eqn:Eu; [|discriminate].
      destruct (numbering_add m n v m2 Hm Ev Eu) as (B1 & B2 & B3 & B4 & B5).
      destruct (renumber_simplex m2 (n + 1) e) as [[t' [m1 n1]]|] eqn:Er; [|discriminate]. injection H as <- <- <-.
      destruct (IH _ _ _ _ _ B1 Er) as (A1 & A2 & A3 & A4 & A5). split; auto. split; [congruence|].
      split; [constructor; auto|]. split; [auto|].
      intros w j Hw. apply A5 in Hw as [Hw|Hw]; [|right; right; auto]. apply B5 in Hw as [Hw| ->]; auto. right. left. auto.
Qed.
Lemma renumber_simplex_total : forall e m n, (forall v, In v e -> v < length m) ->
  exists e' m' n', renumber_simplex m n e = Some (e', (m', n')) /\ length m' = length m.
Proof.
  induction e as [|v e IH]; intros m n H; cbn [renumber_simplex]; [eauto|].
  assert (Hv : v < length m) by (apply H; left; auto).
  destruct (nth_error m v) as [[i|]|] eqn:Ev; [| |apply nth_error_None in Ev; lia].
  - destruct (IH m n) as (e' & m' & n' & E & L); [intros; apply H; right; auto|]. rewrite E. eauto.
  - destruct (upd_ok m v (Some n) Hv) as [m2 Eu]. rewrite Eu. pose proof (upd_spec _ _ _ _ Eu) as (L2 & _ & _).
    destruct (IH m2 (n + 1)) as (e' & m' & n' & E & L); [intros; rewrite L2; apply H; right; auto|]. rewrite E.
    do 3 eexists. split; eauto. congruence.
Qed.
Lemma renumber_elements_spec : forall es m n es' m' n', numbering m n ->
  renumber_elements m n es = Some (es', (m', n')) ->
  numbering m' n' /\ length m' = length m /\ Forall2 (Forall2 (assigned m')) es es' /\
  (forall w i, assigned m w i -> assigned m' w i) /\
  (forall w i, assigned m' w i -> assigned m w i \/ exists e, In e es /\ In w e).
Proof.
  induction es as [|e es IH]; intros m n es' m' n' Hm H; cbn [renumber_elements] in H.
  - injection H as <- <- <-. split; auto.
  - destruct (renumber_simplex m n e) as [[e' [m1 n1]]|] eqn:Ee; [|discriminate].
    destruct (renumber_simplex_spec _ _ _ _ _ _ Hm Ee) as (B1 & B2 & B3 & B4 & B5).
    destruct (renumber_elements m1 n1 es) as [[t' [m2 n2]]|] eqn:Er; [|discriminate]. injection H as <- <- <-.
    destruct (IH _ _ _ _ _ B1 Er) as (A1 & A2 & A3 & A4 & A5). split; auto. split; [congruence|]. split; [|split; auto].
    + constructor; auto. clear - B3 A4. induction B3; constructor; auto.
    + intros w j Hw. apply A5 in Hw as [Hw|(x & X1 & X2)].
      * apply B5 in Hw as [Hw|Hw]; auto. right. exists e. split; auto. left; auto.
      * right. exists x. split; auto. right; auto.
Qed.
Lemma renumber_elements_total : forall es m n, (forall e v, In e es -> In v e -> v < length m) ->
  exists r, renumber_elements m n es = Some r.
Proof.
  induction es as [|e es IH]; intros m n H; cbn [renumber_elements]; [eauto|].
  destruct (renumber_simplex_total e m n) as (e' & m' & n' & E & L); [intros; eapply H; eauto; left; auto|].
  rewrite E. destruct (IH m' n') as [[t' s] Er]; [intros; rewrite L; eapply H; eauto; right; auto|]. rewrite Er. eauto.
Qed.

Lemma place_vertices_spec : forall num m (olds news : list (list num)),
  length olds = length m ->
  (forall v i, assigned m v i -> i < length news) -> (forall v w i, assigned m v i -> assigned m w i -> v = w) ->
  exists vs, place_vertices num m olds news = Some vs /\ length vs = length news /\
    (forall v i, assigned m v i -> nth_error vs i = nth_error olds v) /\
    (forall i, (forall v, ~ assigned m v i) -> nth_error vs i = nth_error news i).
Proof.
  intros num m. induction m as [|x m IH]; intros [|v vs] news Hl Hr Hi; cbn [length] in Hl; try discriminate; cbn [place_vertices].
  - exists news. repeat split; auto. intros [|v] i H; discriminate.
  - assert (Hi' : forall v0 w i, assigned m v0 i -> assigned m w i -> v0 = w).
    { intros a b i Ha Hb. specialize (Hi (S a) (S b) i Ha Hb). lia. }
    destruct x as [id|].
    + destruct (upd_ok news id v) as [news' Eu]; [apply (Hr 0); reflexivity|]. rewrite Eu.
      pose proof (upd_spec _ _ _ _ Eu) as (L & _ & E).
      destruct (IH vs news') as (r & R1 & R2 & R3 & R4); auto.
      { intros w i Hw. rewrite L. apply (Hr (S w)). exact Hw. }
      exists r. split; auto. split; [congruence|]. split.
      * intros [|w] i Hw; [|apply R3; exact Hw]. injection Hw as <-. rewrite R4, E, Nat.eqb_refl; auto.
        intros w Hw. specialize (Hi 0 (S w) id eq_refl Hw). discriminate.
      * intros i H. rewrite R4 by (intros w Hw; apply (H (S w)); exact Hw). rewrite E.
        destruct (Nat.eqb_spec i id) as [-> |]; auto. exfalso. apply (H 0). reflexivity.
    + destruct (IH vs news) as (r & R1 & R2 & R3 & R4); auto. { intros w i Hw. apply (Hr (S w)). exact Hw. }
      exists r. split; auto. split; auto. split.
      * intros [|w] i Hw; [discriminate|]. apply R3. exact Hw.
      * intros i H. apply R4. intros w Hw. apply (H (S w)). exact Hw.
Qed.

Lemma all_some_spec : forall A (l : list (option A)) r, all_some l = Some r <-> l = map Some r.
Proof.
  intros A. induction l as [|[x|] l IH]; intros r; cbn [all_some].
  - split; [intros [= <-]; reflexivity|destruct r; [reflexivity|discriminate]].
  - split.
    + destruct (all_some l) as [t|] eqn:E; [|discriminate]. intros [= <-]. cbn. f_equal. apply IH. auto.
    + destruct r as [|y r]; [discriminate|]. intros [= -> H]. apply IH in H. rewrite H. reflexivity.
  - split; [discriminate|]. destruct r; discriminate.
Qed.

Definition ren (m : list (option nat)) (v : nat) : nat := match nth_error m v with Some (Some i) => i | _ => 0 end.
Lemma ren_assigned : forall m v i, assigned m v i -> ren m v = i.
Proof. unfold ren, assigned. intros m v i ->. reflexivity. Qed.
Lemma renumbered_list : forall m e e', Forall2 (assigned m) e e' -> e' = map (ren m) e.
Proof. induction 1; cbn; auto. f_equal; auto. symmetry. apply ren_assigned; auto. Qed.
Lemma renumbered_lists : forall m es es', Forall2 (Forall2 (assigned m)) es es' -> es' = map (map (ren m)) es.
Proof. induction 1; cbn; auto. f_equal; auto. apply renumbered_list; auto. Qed.
Lemma Forall2_in : forall A B (P : A -> B -> Prop) l l' x, Forall2 P l l' -> In x l -> exists y, In y l' /\ P x y.
Proof.
  intros A B P l l' x H. induction H as [|a b l l' Hab Hf IH]; [intros []|]. intros [<- |Hx].
  - exists b. split; auto. left; auto.
  - destruct IH as (y & Y & Py); auto. exists y. split; auto. right; auto.
Qed.

(** ** Which permutations the table holds *)
Lemma lex_perms_spec : forall n l, NoDup l -> length l = n -> forall p, In p (lex_perms n l) <-> Permutation p l.
Proof.
  induction n as [|n IH]; intros l Hn Hl p; cbn [lex_perms].
  - destruct l; [|discriminate]. split; [intros [<- |[]]; auto|]. intros H. apply Permutation_sym, Permutation_nil in H. left; auto.
  - rewrite in_flat_map. split.
    + intros (x & Hx & H). apply in_map_iff in H as (q & <- & Hq).
      destruct (in_split _ _ Hx) as (l1 & l2 & ->). pose proof (NoDup_remove_2 _ _ _ Hn) as Hnx.
      rewrite remove_app, remove_cons, <- remove_app, notin_remove in Hq by auto.
      apply IH in Hq; [|apply NoDup_remove_1 in Hn; auto|rewrite app_length in *; cbn in Hl; lia].
      eapply perm_trans; [apply perm_skip, Hq|]. apply Permutation_middle.
    + intros H. destruct p as [|x p]; [apply Permutation_length in H; cbn in H; lia|].
      assert (Hx : In x l) by (eapply Permutation_in; [exact H|left; auto]). exists x. split; auto. apply in_map.
      destruct (in_split _ _ Hx) as (l1 & l2 & ->). pose proof (NoDup_remove_2 _ _ _ Hn) as Hnx.
      rewrite remove_app, remove_cons, <- remove_app, notin_remove by auto.
      apply IH; [apply NoDup_remove_1 in Hn; auto|rewrite app_length in *; cbn in Hl; lia|].
      apply Permutation_cons_app_inv in H. auto.
Qed.

Section Table.
  Variable D : nat.
  Hypothesis HD : 1 <= D <= 3.
  Variable tol : R.
  Notation NV := (NumVerts D).
  Lemma perm_number_spec : forall p, Permutation p (seq 0 NV) -> perm_number p < Factorial.fact NV.
  Proof.
    intros p Hp. destruct (permutation_numbering_bijective NV) as (H & _ & _); [unfold NumVerts; lia|].
    specialize (H p Hp). unfold perm_number. fold (number p). lia.
  Qed.
  Lemma perm_number_inj : forall p q, Permutation p (seq 0 NV) -> Permutation q (seq 0 NV) ->
    perm_number p = perm_number q -> p = q.
  Proof.
    intros p q Hp Hq E. destruct (permutation_numbering_bijective NV) as (H & H' & _); [unfold NumVerts; lia|].
    apply H'; auto. pose proof (H p Hp). pose proof (H q Hq). unfold perm_number in E. fold (number p) (number q) in E. lia.
  Qed.
  Lemma fill_table_spec : forall nodes ps t,
    (forall p, In p ps -> Permutation p (seq 0 NV)) -> (forall p, In p ps -> node_permutation D tol nodes p <> None) ->
    length t = Factorial.fact NV ->
    exists t', fill_table D tol nodes ps t = Done t' /\ length t' = Factorial.fact NV /\
      (forall p, In p ps -> nth_error t' (perm_number p) = Some (node_permutation D tol nodes p)) /\
      (forall p, Permutation p (seq 0 NV) -> ~ In p ps -> nth_error t' (perm_number p) = nth_error t (perm_number p)).
  Proof.
    intros nodes. induction ps as [|p ps IH]; intros t Hp Hn Hl; cbn [fill_table].
    - exists t. repeat split; auto. intros p [].
    - destruct (node_permutation D tol nodes p) as [P|] eqn:EP; [|exfalso; apply (Hn p); auto; left; auto].
      cbn [defined andthen]. assert (Pp : Permutation p (seq 0 NV)) by (apply Hp; left; auto).
      destruct (upd_ok t (perm_number p) (Some P)) as [t1 Eu]; [rewrite Hl; apply perm_number_spec; auto|].
      rewrite Eu. cbn [defined andthen]. pose proof (upd_spec _ _ _ _ Eu) as (L & _ & E).
      destruct (IH t1) as (t' & T1 & T2 & T3 & T4);
        [intros; apply Hp; right; auto|intros; apply Hn; right; auto|congruence|].
      exists t'. split; auto. split; auto. split.
      + intros q [<- |Hq]; [|auto]. destruct (in_dec (list_eq_dec Nat.eq_dec) p ps) as [Hi|Hi]; [auto|].
        rewrite T4, E, Nat.eqb_refl; auto. congruence.
      + intros q Pq Hq. rewrite T4 by (auto; intros ?; apply Hq; right; auto). rewrite E.
        destruct (Nat.eqb_spec (perm_number q) (perm_number p)) as [Heq|]; auto.
        exfalso. apply Hq. left. symmetry. apply perm_number_inj; auto.
  Qed.
End Table.

(** The simplex types in the tables have binom(N+D,D) nodes, N = 1, ..., 10. *)
Lemma simplex_types_degree : forall D type, 1 <= D <= 3 -> is_gmsh_simplex D type = true ->
  exists N, 1 <= N <= 10 /\ binom (N + D) D = Some (nth (Z.to_nat (type - 1)) NumNodes 0).
Proof.
  intros D type HD H. unfold is_gmsh_simplex in H. apply existsb_exists in H as (t & Ht & E). apply Z.eqb_eq in E. subst t.
  assert (C : forallb (fun D => forallb (fun N =>
     match binom (N + D) D with
     | Some b => Nat.eqb b (nth (Z.to_nat (nth (N - 1) (simplex_types D) 0%Z - 1)) NumNodes 0)
     | None => false end) (seq 1 10)) (seq 1 3) = true) by (vm_compute; reflexivity).
  assert (L : length (simplex_types D) = 10) by (destruct D as [|[|[|[|]]]]; try lia; reflexivity).
  apply In_nth with (d := 0%Z) in Ht as (k & Hk & <-).
  rewrite forallb_forall in C. specialize (C D ltac:(apply in_seq; lia)). rewrite forallb_forall in C.
  specialize (C (k + 1) ltac:(apply in_seq; lia)). cbv beta in C. replace (k + 1 - 1) with k in C by lia.
  destruct (binom (k + 1 + D) D) as [b|] eqn:Eb; [|discriminate]. apply Nat.eqb_eq in C. subst b.
  exists (k + 1). split; [lia|auto].
Qed.
Lemma prepare_table : forall D tol N n, 1 <= D <= 3 -> 1 <= N -> (0 <= tol < 1 / INR N)%R -> binom (N + D) D = Some n ->
  exists t, preparePermutationTable D tol n = Done t /\
    forall p, Permutation p (seq 0 (NumVerts D)) ->
      nth_error t (perm_number p) = Some (node_permutation D tol (equidistant_nodes D GMSH N) p).
Proof.
  intros D tol N n HD HN Ht Hb. unfold preparePermutationTable.
  destruct (num_nodes_to_degree_correct D n) as (r & R1 & R2); [lia|].
  assert (r = Some N) by (apply R2; auto). subst r. rewrite R1.
  assert (HL : forall p, In p (lex_perms (NumVerts D) (seq 0 (NumVerts D))) <-> Permutation p (seq 0 (NumVerts D))).
  { apply lex_perms_spec; [apply seq_NoDup|apply seq_length]. }
  destruct (fill_table_spec D HD tol (equidistant_nodes D GMSH N) (lex_perms (NumVerts D) (seq 0 (NumVerts D)))
    (repeat None (Factorial.fact (NumVerts D)))) as (t & T1 & T2 & T3 & T4).
  - intros p Hp. apply HL; auto.
  - intros p Hp. apply HL in Hp. destruct (node_permutation_correct D GMSH N tol p HD HN Ht Hp) as (P & -> & _). discriminate.
  - apply repeat_length.
  - exists t. split; auto. intros p Hp. apply T3, HL. auto.
Qed.

(** Sorting positions by value, and sorting the values. *)
Lemma sort_positions : forall l, map (fun a => nth a l 0) (sort_by (fun a => nth a l 0) (seq 0 (length l))) = sort_nat l.
Proof.
  intros l. apply sorted_unique; [|apply sort_sorted|].
  - assert (G : forall key s, StronglySorted (fun a b : nat => key a <= key b) s -> StronglySorted le (map key s)).
    { intros key. induction 1 as [|a s Hs IH Hf]; cbn; constructor; auto. apply Forall_map. auto. }
    apply (G (fun a => nth a l 0)). apply sort_by_sorted.
  - eapply perm_trans; [|apply sort_perm]. eapply perm_trans; [apply Permutation_map, sort_by_perm|].
    assert (E : map (fun a => nth a l 0) (seq 0 (length l)) = l).
    { apply nth_ext with (d := 0) (d' := 0); rewrite map_length, seq_length; auto. intros n Hn.
      rewrite nth_indep with (d' := nth 0 l 0) by (rewrite map_length, seq_length; auto).
      rewrite (map_nth (fun a => nth a l 0)), seq_nth; auto. }
    rewrite E. auto.
Qed.
