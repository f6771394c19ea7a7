Require Import List Arith Bool Lia Permutation Sorted.
Require Import Verif.Base Verif.CommModel Verif.CommProofs Verif.CommBlocks Verif.SimplexModel
  Verif.SimplexProofs Verif.AlgorithmModel Verif.LocalMeshModel Verif.LocalMeshProofs
  Verif.PartitionModel Verif.PartitionProofs Verif.FacesModel.
Import ListNotations.
Local Open Scope opt_scope.

Lemma collective_ok {A} (d : A) procs f g : (forall q, q < procs -> f q = Some (g q)) ->
  exists h, collective d procs f = Some h /\ forall q, q < procs -> h q = g q.
Proof.
  intro H. unfold collective. cbv zeta. rewrite (proj2 (forallb_forall _ _)).
  - eexists. split; [reflexivity|]. intros q Hq. cbv beta. rewrite (nth_map_lt _ _ _ _ 0) by (rewrite seq_length; auto).
    rewrite seq_nth, H by auto. auto.
  - intros x Hx. apply in_map_iff in Hx as (q & <- & Hq). apply in_seq in Hq. rewrite H by lia. auto.
Qed.

(** * Ordered sets of simplices *)
Definition lex_lt (a b : list nat) : Prop := lex_ltb a b = true.

Lemma lex_irrefl a : lex_ltb a a = false.
Proof. induction a; simpl; auto. rewrite Nat.ltb_irrefl. auto. Qed.
Lemma lex_trans a : forall b c, lex_lt a b -> lex_lt b c -> lex_lt a c.
Proof.
  unfold lex_lt. induction a as [|x a IH]; intros [|y b] [|z c]; simpl; try congruence; auto.
  destruct (Nat.ltb_spec x y), (Nat.ltb_spec y x), (Nat.ltb_spec y z), (Nat.ltb_spec z y),
    (Nat.ltb_spec x z), (Nat.ltb_spec z x); try congruence; try lia; eauto.
Qed.
Lemma lex_total a : forall b, lex_ltb a b = false -> lex_ltb b a = false -> a = b.
Proof.
  induction a as [|x a IH]; intros [|y b]; simpl; try congruence; auto.
  destruct (Nat.ltb_spec x y), (Nat.ltb_spec y x); try congruence; try lia.
  intros. f_equal; [lia|auto].
Qed.

Lemma set_insert_in x s z : In z (set_insert x s) <-> z = x \/ In z s.
Proof.
  induction s as [|y t IH]; simpl; [intuition|].
  destruct (lex_ltb x y) eqn:E1; [simpl; intuition|].
  destruct (lex_ltb y x) eqn:E2; [simpl; rewrite IH; intuition|].
  rewrite (lex_total x y E1 E2). simpl. intuition congruence.
Qed.
Lemma set_insert_sorted x s : StronglySorted lex_lt s -> StronglySorted lex_lt (set_insert x s).
Proof.
  induction 1 as [|y t S IH F]; simpl; [repeat constructor|].
  destruct (lex_ltb x y) eqn:E1.
  - constructor; [constructor; auto|]. constructor; auto. rewrite Forall_forall in *.
    intros z Hz. eapply lex_trans; eauto.
  - destruct (lex_ltb y x) eqn:E2; [|constructor; auto].
    constructor; auto. rewrite Forall_forall in *. intros z Hz. apply set_insert_in in Hz.
    destruct Hz as [->|Hz]; auto.
Qed.
Lemma lex_sorted_NoDup s : StronglySorted lex_lt s -> NoDup s.
Proof.
  induction 1 as [|y t S IH F]; constructor; auto. intro Hy. rewrite Forall_forall in F.
  specialize (F y Hy). unfold lex_lt in F. rewrite lex_irrefl in F. discriminate.
Qed.
Lemma owned_set_spec l : StronglySorted lex_lt (owned_set l) /\ forall f, In f (owned_set l) <-> In f l.
Proof.
  unfold owned_set.
  assert (G : forall s, StronglySorted lex_lt s ->
     StronglySorted lex_lt (fold_left (fun s f => set_insert f s) l s) /\
     forall f, In f (fold_left (fun s f => set_insert f s) l s) <-> In f l \/ In f s).
  { induction l as [|x l IH]; intros s S; simpl; [intuition|].
    destruct (IH (set_insert x s) (set_insert_sorted x s S)) as [A B]. split; auto.
    intro f. rewrite B, set_insert_in. intuition. }
  destruct (G [] (SSorted_nil _)) as [A B]. split; auto. intro f. rewrite B. simpl. intuition.
Qed.

(** * First occurrences *)
Definition mem (f : list nat) (l : list (list nat)) : bool := existsb (simplex_eqb f) l.
Lemma mem_spec f l : mem f l = true <-> In f l.
Proof.
  unfold mem. rewrite existsb_exists. split.
  - intros (x & Hx & E). apply simplex_eqb_spec in E. congruence.
  - intro H. exists f. split; auto. apply simplex_eqb_spec. auto.
Qed.
Lemma mem_false f l : mem f l = false <-> ~ In f l.
Proof. rewrite <- mem_spec. destruct (mem f l); split; congruence. Qed.

Definition add_first (O : list (list nat)) (s : list nat) : list (list nat) := if mem s O then O else O ++ [s].
Definition firsts (S : list (list nat)) : list (list nat) := fold_left add_first S [].

Lemma firsts_snoc S s : firsts (S ++ [s]) = add_first (firsts S) s.
Proof. unfold firsts. rewrite fold_left_app. auto. Qed.
Lemma firsts_in S f : In f (firsts S) <-> In f S.
Proof.
  revert f. induction S as [|s S IH] using rev_ind; intro f; [simpl; tauto|]. rewrite firsts_snoc. unfold add_first.
  rewrite in_app_iff. destruct (mem s (firsts S)) eqn:M.
  - apply mem_spec in M. rewrite IH in M |- *. simpl. intuition congruence.
  - rewrite in_app_iff, IH. simpl. intuition.
Qed.
Lemma firsts_NoDup S : NoDup (firsts S).
Proof.
  induction S as [|s S IH] using rev_ind; [constructor|]. rewrite firsts_snoc. unfold add_first.
  destruct (mem s (firsts S)) eqn:M; auto. apply mem_false in M.
  apply (Permutation_NoDup (Permutation_cons_append (firsts S) s)). constructor; auto.
Qed.
Lemma firsts_app S T : firstn (length (firsts S)) (firsts (S ++ T)) = firsts S.
Proof.
  induction T as [|t T IH] using rev_ind; [rewrite app_nil_r, firstn_all; auto|].
  rewrite app_assoc, firsts_snoc. unfold add_first. destruct (mem t (firsts (S ++ T))); auto.
  assert (L : length (firsts S) <= length (firsts (S ++ T))).
  { rewrite <- IH at 1. rewrite firstn_length. lia. }
  rewrite firstn_app. replace (length (firsts S) - length (firsts (S ++ T))) with 0 by lia.
  simpl. rewrite app_nil_r. auto.
Qed.

(** * The scan over the local elements *)
Definition scan_inv (procs : nat) (p2r : list nat -> nat) (S : list (list nat)) (st : scan) : Prop :=
  length (sc_req st) = procs /\
  (forall p, p < procs -> StronglySorted lex_lt (nth p (sc_req st) []) /\
     forall f, In f (nth p (sc_req st) []) <-> In f S /\ p2r f = p) /\
  (forall f i, map_at (sc_order st) f = Some i <-> nth_error (firsts S) i = Some f) /\
  sc_no st = length (firsts S).

Lemma scan_face_spec procs p2r S st s : scan_inv procs p2r S st -> p2r s < procs ->
  exists st', scan_face p2r st s = Some st' /\ scan_inv procs p2r (S ++ [s]) st' /\ sc_local st' = sc_local st.
Proof.
  intros (L & R & O & N) Hp. unfold scan_face.
  rewrite (nth_error_nth' (sc_req st) []) by lia. cbn [bind].
  destruct (upd_ok (sc_req st) (p2r s) (set_insert s (nth (p2r s) (sc_req st) []))) as [req E]; [lia|].
  rewrite E. cbn [bind]. destruct (upd_spec _ _ _ _ E) as (L' & _ & N').
  assert (R' : forall p, p < procs -> StronglySorted lex_lt (nth p req []) /\
     forall f, In f (nth p req []) <-> In f (S ++ [s]) /\ p2r f = p).
  { intros p Hpp. specialize (N' p). rewrite (nth_error_nth' req []) in N' by lia.
    destruct (Nat.eqb_spec p (p2r s)) as [Heq|Hne].
    - subst p. inversion N' as [E']. rewrite E'. destruct (R (p2r s) Hp) as [A B].
      split; [apply set_insert_sorted; auto|]. intro f. rewrite set_insert_in, in_app_iff, B. simpl.
      intuition congruence.
    - rewrite (nth_error_nth' (sc_req st) []) in N' by lia. inversion N' as [E']. rewrite E'.
      destruct (R p Hpp) as [A B]. split; auto. intro f. rewrite B, in_app_iff. simpl.
      intuition congruence. }
  destruct (map_at (sc_order st) s) as [i|] eqn:M.
  - eexists. split; [reflexivity|]. split; [|reflexivity]. split; [cbn; lia|]. split; [exact R'|].
    apply O in M. assert (Hm : mem s (firsts S) = true) by (apply mem_spec; eapply nth_error_In; eauto).
    rewrite firsts_snoc. unfold add_first. rewrite Hm. split; [exact O|exact N].
  - eexists. split; [reflexivity|]. split; [|reflexivity]. split; [cbn; lia|]. split; [exact R'|].
    assert (Hm : mem s (firsts S) = false).
    { apply mem_false. intro H. apply In_nth_error in H. destruct H as [i H]. apply O in H. congruence. }
    rewrite firsts_snoc. unfold add_first. rewrite Hm. cbn [sc_order sc_no].
    split; [|rewrite app_length; simpl; lia].
    intros f i. cbn [map_set map_at]. destruct (simplex_eqb f s) eqn:Q.
    + apply simplex_eqb_spec in Q. subst f. split; intro H.
      * inversion H; subst i. rewrite N. rewrite nth_error_app2, Nat.sub_diag by lia. auto.
      * f_equal. destruct (lt_dec i (length (firsts S))) as [K|K].
        -- rewrite nth_error_app1 in H by auto. apply nth_error_In in H. apply mem_spec in H. congruence.
        -- rewrite nth_error_app2 in H by lia.
           destruct (i - length (firsts S)) as [|j] eqn:J; [lia|]. simpl in H. destruct j; discriminate.
    + assert (f <> s) by (intro; subst; rewrite (proj2 (simplex_eqb_spec s s) eq_refl) in Q; discriminate).
      rewrite O. destruct (lt_dec i (length (firsts S))) as [K|K].
      * rewrite nth_error_app1 by auto. tauto.
      * rewrite nth_error_app2 by lia. rewrite (proj2 (nth_error_None _ _)) by lia.
        destruct (i - length (firsts S)) as [|j]; simpl; [split; congruence|].
        destruct j; simpl; split; congruence.
Qed.

Lemma scan_faces_spec procs p2r ds : (forall s, In s ds -> p2r s < procs) ->
  forall S st, scan_inv procs p2r S st ->
  exists st', scan_faces p2r ds st = Some st' /\ scan_inv procs p2r (S ++ ds) st' /\ sc_local st' = sc_local st.
Proof.
  induction ds as [|s ds IH]; intros H S st I.
  - exists st. rewrite app_nil_r. auto.
  - cbn [scan_faces]. destruct (scan_face_spec procs p2r S st s I) as (st1 & E1 & I1 & L1); [apply H; left; auto|].
    rewrite E1. cbn [bind]. destruct (IH (fun x Hx => H x (or_intror Hx)) _ _ I1) as (st2 & E2 & I2 & L2).
    exists st2. rewrite E2. rewrite <- app_assoc in I2. split; [auto|]. split; [exact I2|congruence].
Qed.

Definition faces_of (k : nat) (e : list nat) : list (list nat) := get [] (downward k e).

Lemma scan_elems_spec procs p2r k nl : forall es elNo S st,
  (forall e, In e es -> exists ds, downward k e = Some ds /\ forall s, In s ds -> p2r s < procs) ->
  scan_inv procs p2r S st ->
  exists st', scan_elems p2r k nl elNo es st = Some st' /\
    scan_inv procs p2r (S ++ flat_map (faces_of k) es) st' /\
    sc_local st' = if elNo <? Nat.min nl (elNo + length es)
                   then length (firsts (S ++ flat_map (faces_of k) (firstn (nl - elNo) es))) else sc_local st.
Proof.
  induction es as [|e es IH]; intros elNo S st H I.
  - exists st. cbn [scan_elems flat_map length]. rewrite app_nil_r. split; auto. split; auto.
    destruct (Nat.ltb_spec elNo (Nat.min nl (elNo + 0))); auto. lia.
  - cbn [scan_elems]. destruct (H e (or_introl eq_refl)) as (ds & Ed & Hd). rewrite Ed. cbn [bind].
    destruct (scan_faces_spec procs p2r ds Hd S st I) as (st1 & E1 & I1 & L1). rewrite E1. cbn [bind].
    set (st2 := if elNo <? nl then _ else st1).
    assert (I2 : scan_inv procs p2r (S ++ ds) st2).
    { unfold st2. destruct (elNo <? nl); auto. }
    destruct (IH (elNo + 1) (S ++ ds) st2 (fun x Hx => H x (or_intror Hx)) I2) as (st3 & E3 & I3 & L3).
    exists st3. split; [exact E3|].
    assert (Fe : faces_of k e = ds) by (unfold faces_of; rewrite Ed; auto).
    cbn [flat_map]. rewrite Fe. rewrite <- app_assoc in I3. split; [exact I3|].
    rewrite L3. cbn [length].
    destruct (Nat.ltb_spec elNo (Nat.min nl (elNo + Datatypes.S (length es)))) as [K|K].
    + replace (nl - elNo) with (Datatypes.S (nl - (elNo + 1))) by lia.
      cbn [firstn flat_map]. rewrite Fe, app_assoc.
      destruct (Nat.ltb_spec (elNo + 1) (Nat.min nl (elNo + 1 + length es))) as [K2|K2]; [auto|].
      assert (Z : firstn (nl - (elNo + 1)) es = []).
      { destruct es; [destruct (nl - (elNo + 1)); auto|]. simpl in K2. replace (nl - (elNo + 1)) with 0 by lia. auto. }
      rewrite Z. cbn [flat_map]. rewrite app_nil_r. unfold st2.
      destruct (Nat.ltb_spec elNo nl); [|lia]. cbn. destruct I1 as (_ & _ & _ & N). exact N.
    + destruct (Nat.ltb_spec (elNo + 1) (Nat.min nl (elNo + 1 + length es))); [lia|].
      unfold st2. destruct (Nat.ltb_spec elNo nl); [|auto]. lia.
Qed.

Lemma scan_init_inv procs p2r : scan_inv procs p2r [] (scan_init procs).
Proof.
  split; [apply repeat_length|]. split; [|split; [|reflexivity]].
  - intros p Hp. cbn [scan_init sc_req].
    assert (E : nth p (repeat (@nil (list nat)) procs) [] = []).
    { clear. revert p. induction procs; intros [|p]; simpl; auto. }
    rewrite E. split; [constructor|]. simpl. tauto.
  - intros f i. simpl. split; [discriminate|]. destruct i; discriminate.
Qed.

Lemma scan_spec procs p2r k nl es :
  (forall e, In e es -> exists ds, downward k e = Some ds /\ forall s, In s ds -> p2r s < procs) ->
  nl <= length es ->
  exists st, scan_elems p2r k nl 0 es (scan_init procs) = Some st /\
    scan_inv procs p2r (flat_map (faces_of k) es) st /\
    sc_local st = length (firsts (flat_map (faces_of k) (firstn nl es))).
Proof.
  intros H Hn. destruct (scan_elems_spec procs p2r k nl es 0 [] _ H (scan_init_inv procs p2r)) as (st & E & I & L).
  exists st. split; [auto|]. split; [exact I|]. rewrite L. cbn [app].
  destruct (Nat.ltb_spec 0 (Nat.min nl (0 + length es))) as [K|K].
  - rewrite Nat.sub_0_r. auto.
  - assert (firstn nl es = []) as ->; [|reflexivity].
    destruct nl; auto. destruct es; auto. simpl in K. lia.
Qed.

(** * Sorting by key *)
Lemma ins_by_perm key x l : Permutation (ins_by key x l) (x :: l).
Proof.
  induction l as [|y t IH]; simpl; auto. destruct (key x <=? key y); auto.
  eapply perm_trans; [apply perm_skip; exact IH|apply perm_swap].
Qed.
Lemma sort_by_perm key l : Permutation (sort_by key l) l.
Proof. induction l; simpl; auto. eapply perm_trans; [apply ins_by_perm|]. auto. Qed.
Lemma sort_by_sorted key l : StronglySorted (fun a b => key a <= key b) (sort_by key l).
Proof.
  induction l as [|x l IH]; simpl; [constructor|].
  induction IH as [|y t S IH' F]; simpl; [repeat constructor|].
  destruct (Nat.leb_spec (key x) (key y)).
  - constructor; [constructor; auto|]. constructor; auto. rewrite Forall_forall in *.
    intros z Hz. specialize (F z Hz). lia.
  - constructor; auto. rewrite Forall_forall in *. intros z Hz.
    apply (Permutation_in _ (ins_by_perm key x t)) in Hz. destruct Hz as [<-|Hz]; [lia|auto].
Qed.
Lemma sort_by_order (l O : list (list nat)) key : NoDup l -> NoDup O -> (forall f, In f l <-> In f O) ->
  (forall i f, nth_error l i = Some f -> nth_error O (key i) = Some f) ->
  map (fun i => nth i l []) (sort_by key (seq 0 (length l))) = O.
Proof.
  intros Nl NO HI HK.
  assert (LE : length l = length O).
  { apply Permutation_length. apply NoDup_Permutation; auto. }
  set (n := length l) in *.
  assert (KL : forall i, i < n -> key i < n).
  { intros i Hi. destruct (nth_error_lt l i Hi) as [f E]. apply HK in E. rewrite LE.
    apply nth_error_Some. congruence. }
  assert (KI : forall i j, i < n -> j < n -> key i = key j -> i = j).
  { intros i j Hi Hj E. destruct (nth_error_lt l i Hi) as [f Ef], (nth_error_lt l j Hj) as [g Eg].
    pose proof (HK _ _ Ef) as A. pose proof (HK _ _ Eg) as B. rewrite E in A.
    apply (proj1 (NoDup_nth_error l) Nl); [exact Hi|]. congruence. }
  assert (P : Permutation (map key (sort_by key (seq 0 n))) (seq 0 n)).
  { eapply perm_trans; [apply Permutation_map, sort_by_perm|]. apply is_perm_Permutation. split; auto. }
  assert (E : map key (sort_by key (seq 0 n)) = seq 0 n).
  { apply sorted_unique; auto.
    - pose proof (sort_by_sorted key (seq 0 n)) as S. clear -S. induction S; simpl; constructor; auto.
      rewrite Forall_forall in *. intros x Hx. apply in_map_iff in Hx. destruct Hx as (y & <- & Hy). auto.
    - clear. generalize 0. induction n; intro a; simpl; constructor; auto. apply Forall_forall.
      intros x Hx. apply in_seq in Hx. lia. }
  apply nth_error_ext. intro i. rewrite nth_error_map.
  assert (Ls : length (sort_by key (seq 0 n)) = n).
  { rewrite (Permutation_length (sort_by_perm key (seq 0 n))), seq_length. auto. }
  destruct (lt_dec i n) as [Hi|Hi].
  - destruct (nth_error_lt (sort_by key (seq 0 n)) i) as [j Ej]; [lia|]. rewrite Ej. cbn [option_map].
    assert (Hj : j < n).
    { apply nth_error_In in Ej. apply (Permutation_in _ (sort_by_perm key _)) in Ej. apply in_seq in Ej. lia. }
    assert (Ki : key j = i).
    { assert (X : nth_error (map key (sort_by key (seq 0 n))) i = Some (key j)) by (rewrite nth_error_map, Ej; auto).
      rewrite E in X. rewrite (nth_error_nth' _ 0) in X by (rewrite seq_length; auto).
      rewrite seq_nth in X by auto. inversion X. auto. }
    rewrite <- Ki. symmetry. apply HK. apply nth_error_nth'. auto.
  - rewrite !(proj2 (nth_error_None _ _)); auto; lia.
Qed.
