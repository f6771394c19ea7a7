(** Lemmas about the topology tables. *)
Require Import List Arith Lia Bool Sorted Permutation.
Require Import Verif.Base Verif.CombinatoricsModel Verif.CombinatoricsProofs Verif.SimplexModel
  Verif.SimplexProofs Verif.LocalMeshModel Verif.LocalMeshProofs Verif.LocalMeshProps Verif.TopoModel Verif.TopoSpec.
Import ListNotations.
Local Open Scope opt_scope.

(** ** lists *)
Lemma map_opt_spec {A B} (f : A -> option B) l : (forall a, In a l -> exists b, f a = Some b) ->
  exists r, map_opt f l = Some r /\ length r = length l /\
    forall i a, nth_error l i = Some a -> exists b, f a = Some b /\ nth_error r i = Some b.
Proof.
  induction l as [|a t IH]; intro H; cbn.
  - exists []. split; auto. split; auto. intros [|i] a; discriminate.
  - destruct (H a) as (b & Eb); [left; auto|]. destruct IH as (r & Er & Lr & Hr); [intros; apply H; right; auto|].
    rewrite Eb, Er. cbn. exists (b :: r). split; auto. split; [cbn; lia|].
    intros [|i] x; cbn; intro E; [injection E as <-; eauto|]. eauto.
Qed.

Lemma map_opt_some {A B} (f : A -> option B) l r : map_opt f l = Some r ->
  length r = length l /\ forall i a, nth_error l i = Some a -> exists b, f a = Some b /\ nth_error r i = Some b.
Proof.
  revert r; induction l as [|a t IH]; intros r; cbn.
  - intros [= <-]. split; auto. intros [|i] a; discriminate.
  - destruct (f a) as [b|] eqn:Eb; [|discriminate]. cbn. destruct (map_opt f t) as [r'|]; [|discriminate].
    cbn. intros [= <-]. destruct (IH r' eq_refl) as [L H]. split; [cbn; lia|].
    intros [|i] x; cbn; intro E; [injection E as <-; eauto|]. eauto.
Qed.

Lemma find_pos_spec x l : In x l -> nth_error l (find_pos x l) = Some x /\ find_pos x l < length l.
Proof.
  induction l as [|y t IH]; cbn; [tauto|]. intro H. destruct (Nat.eqb_spec x y) as [Heq|Hne].
  - subst. cbn. split; auto. lia.
  - destruct IH as [A B]; [destruct H; congruence|]. cbn. split; auto. lia.
Qed.

(** ** interleavings *)
Lemma il_in {A} (ps : list (list A)) w : interleaving ps w -> forall x, In x w <-> exists p, In p ps /\ In x p.
Proof.
  induction 1 as [ps H|ps1 y p ps2 w H IH]; intro x.
  - split; [intros []|]. intros (p & Hp & Hx). rewrite (H p Hp) in Hx. destruct Hx.
  - cbn [In]. rewrite IH. split.
    + intros [->|(q & Hq & Hx)].
      * exists (x :: p). split; [|left; auto]. apply in_or_app. right; left; auto.
      * apply in_app_or in Hq. destruct Hq as [Hq|[<-|Hq]].
        -- exists q. split; auto. apply in_or_app; auto.
        -- exists (y :: p). split; [|right; auto]. apply in_or_app. right; left; auto.
        -- exists q. split; auto. apply in_or_app; right; right; auto.
    + intros (q & Hq & Hx). apply in_app_or in Hq. destruct Hq as [Hq|[<-|Hq]].
      * right. exists q. split; auto. apply in_or_app; auto.
      * destruct Hx as [<-|Hx]; auto. right. exists p. split; auto. apply in_or_app. right; left; auto.
      * right. exists q. split; auto. apply in_or_app; right; right; auto.
Qed.

Lemma nth_error_mid {A} (a : list A) x b : nth_error (a ++ x :: b) (length a) = Some x.
Proof. rewrite nth_error_app2, Nat.sub_diag; auto. Qed.

Lemma nth_error_swap {A} (a : list A) x y b i : i <> length a ->
  nth_error (a ++ x :: b) i = nth_error (a ++ y :: b) i.
Proof.
  intro H. destruct (Nat.lt_ge_cases i (length a)).
  - rewrite !nth_error_app1; auto.
  - rewrite !nth_error_app2; auto. destruct (i - length a) eqn:E; [lia|]. auto.
Qed.

Lemma il_filter {A} (P : A -> bool) ps w : interleaving ps w -> forall i q,
  nth_error ps i = Some q ->
  (forall j p, j <> i -> nth_error ps j = Some p -> filter P p = []) -> filter P w = filter P q.
Proof.
  induction 1 as [ps H|ps1 x p ps2 w H IH]; intros i q Eq Ho.
  - rewrite (H q) by (eapply nth_error_In; eauto). auto.
  - destruct (Nat.eq_dec i (length ps1)) as [Heq|Hne].
    + subst. rewrite nth_error_mid in Eq. injection Eq as <-. cbn.
      rewrite (IH (length ps1) p).
      * auto.
      * apply nth_error_mid.
      * intros j r Hj Ej. apply (Ho j); auto. rewrite (nth_error_swap ps1 (x :: p) p); auto.
    + assert (Px : filter P (x :: p) = []).
      { apply (Ho (length ps1)); [auto|apply nth_error_mid]. }
      cbn in Px. cbn. destruct (P x) eqn:E; [discriminate|]. apply (IH i).
      * rewrite (nth_error_swap ps1 p (x :: p)); auto.
      * intros j r Hj Ej. destruct (Nat.eq_dec j (length ps1)) as [Hj'|Hj'].
        -- subst. rewrite nth_error_mid in Ej. injection Ej as <-. auto.
        -- apply (Ho j); auto. rewrite (nth_error_swap ps1 (x :: p) p); auto.
Qed.

Definition last_write (j : nat) (w : list (nat * side_info)) (d : side_info) : side_info :=
  last (map snd (filter (fun p => fst p =? j) w)) d.

Lemma do_writes_spec w : forall t, (forall i s, In (i, s) w -> i < length t) ->
  exists t', do_writes t w = Some t' /\ length t' = length t /\
    forall j d, nth_error t j = Some d -> nth_error t' j = Some (last_write j w d).
Proof.
  induction w as [|[i s] r IH]; intros t H; cbn [do_writes].
  - exists t. split; auto.
  - destruct (upd_ok t i s) as [t1 E1]; [eapply H; left; eauto|].
    rewrite E1. cbn [bind]. destruct (upd_spec _ _ _ _ E1) as (L1 & Hi & N1).
    destruct (IH t1) as (t' & E' & L' & N'); [intros ? ? Q; rewrite L1; eapply H; right; eauto|].
    exists t'. split; auto. split; [lia|]. intros j d Ej.
    specialize (N1 j). unfold last_write. cbn [filter fst]. rewrite Nat.eqb_sym in N1.
    destruct (Nat.eqb_spec i j) as [Heq|Hne].
    + subst. rewrite (N' j s) by (rewrite N1, ?Nat.eqb_refl; auto).
      unfold last_write. cbn [map snd]. f_equal.
      destruct (map snd (filter _ r)) as [|a u] eqn:E; auto.
      change (last (a :: u) s = last (a :: u) d). clear.
      revert a; induction u as [|b u IH]; intro a; cbn in *; auto.
    + apply N'. rewrite N1. destruct (Nat.eqb_spec i j); [congruence|auto].
Qed.

(** ** facets of an element *)
Lemma facet_list k m : topo_ok k m -> forall e plex, nth_error (tm_elems m) e = Some plex ->
  exists d, mesh_downward k (tm_facets m) plex = Some d /\ length d = k + 1 /\ NoDup d /\ forall i, In i d <-> contains m e i.
Proof.
  intros [Pe Pf Cl _ _ _ _ _ _ _ _] e plex Ep. destruct Pe as [Ne Se], Pf as [Nf Sf].
  assert (Ip : In plex (tm_elems m)) by (eapply nth_error_In; eauto).
  destruct (Se plex Ip) as [Lp Sp].
  destruct (downward_spec k plex ltac:(lia) Sp) as (ds & Eds & Ids & Nds & B).
  assert (Inc : incl ds (tm_facets m)).
  { intros x Hx. apply Ids in Hx. destruct Hx as (A & C & D). eapply Cl; eauto. }
  destruct (lids_of_spec (tm_facets m) ds Nf Inc) as (d & Ed & Ld & Hd).
  exists d. unfold mesh_downward. rewrite Eds. cbn [bind]. split; auto.
  assert (L : length d = k + 1).
  { destruct (binom_spec (k + 1) k ltac:(lia)) as (b & Eb & Hb). rewrite Lp in B.
    rewrite Ld. assert (b = length ds) by congruence. subst b.
    replace (k + 1 - k) with 1 in Hb by lia. replace (k + 1) with (S k) in Hb by lia.
    cbn [Factorial.fact] in Hb. rewrite Nat.mul_1_r in Hb.
    apply (Nat.mul_cancel_r _ _ (Factorial.fact k)); [apply Factorial.fact_neq_0|]. cbn in Hb. lia. }
  assert (Hd' : forall p j, nth_error d p = Some j -> exists x, nth_error ds p = Some x /\ nth_error (tm_facets m) j = Some x).
  { intros p j E. destruct (nth_error_lt ds p) as [x Ex]; [rewrite <- Ld; apply nth_error_Some; congruence|].
    destruct (Hd p x Ex) as (j' & Ej' & F). assert (j' = j) by congruence. subst. eauto. }
  split; auto. split.
  - apply NoDup_nth_error. intros a b Ha Eab. destruct (nth_error_lt d a Ha) as [j Ej].
    destruct (Hd' _ _ Ej) as (x & Ex & Fx). rewrite Eab in Ej.
    destruct (Hd' _ _ Ej) as (y & Ey & Fy). assert (x = y) by congruence. subst.
    apply (proj1 (NoDup_nth_error ds) Nds); [|congruence]. rewrite <- Ld; auto.
  - intro i. split.
    + intro Hi. apply In_nth_error in Hi. destruct Hi as [p Ep']. destruct (Hd' _ _ Ep') as (x & Ex & Fx).
      exists plex, x. split; auto. split; auto. apply (Ids x). eapply nth_error_In; eauto.
    + intros (q & f & Eq & Ef & Hi). assert (q = plex) by congruence. subst q.
      destruct (Sf f) as [Lf Ssf]; [eapply nth_error_In; eauto|].
      assert (If : In f ds) by (apply Ids; auto). apply In_nth_error in If. destruct If as [p Ep'].
      destruct (Hd p f Ep') as (j & Ej & Fj). assert (j = i); [|subst; eapply nth_error_In; eauto].
      apply (proj1 (NoDup_nth_error (tm_facets m)) Nf); [|congruence]. apply nth_error_Some; congruence.
Qed.

Lemma contains_facet_at k m : topo_ok k m -> forall e i, contains m e i -> exists l, l <= k /\ facet_at k m e l i.
Proof.
  intros O e i C. destruct C as (plex & f & Ep & Ef & I).
  destruct (facet_list k m O e plex Ep) as (d & Ed & Ld & _ & Id).
  assert (In i d) as H by (apply Id; exists plex, f; auto). apply In_nth_error in H. destruct H as [l El].
  exists l. split; [|exists plex, d; auto]. assert (l < length d) by (apply nth_error_Some; congruence). lia.
Qed.

Lemma facet_at_contains k m : topo_ok k m -> forall e l i, facet_at k m e l i -> contains m e i /\ l <= k.
Proof.
  intros O e l i (plex & d & Ep & Ed & El).
  destruct (facet_list k m O e plex Ep) as (d' & Ed' & Ld & _ & Id).
  assert (d' = d) by congruence. subst d'. split; [apply Id; eapply nth_error_In; eauto|].
  assert (l < length d) by (apply nth_error_Some; congruence). lia.
Qed.

Lemma facet_at_inj k m : topo_ok k m -> forall e l l' i, facet_at k m e l i -> facet_at k m e l' i -> l = l'.
Proof.
  intros O e l l' i (plex & d & Ep & Ed & El) (plex' & d' & Ep' & Ed' & El').
  destruct (facet_list k m O e plex Ep) as (d2 & Ed2 & Ld & N & Id).
  assert (plex' = plex) by congruence. subst. assert (d' = d) by congruence. assert (d2 = d) by congruence. subst.
  apply (proj1 (NoDup_nth_error d) N); [|congruence]. apply nth_error_Some. congruence.
Qed.

Lemma facet_at_fun k m e l i i' : facet_at k m e l i -> facet_at k m e l i' -> i = i'.
Proof.
  intros (plex & d & Ep & Ed & El) (plex' & d' & Ep' & Ed' & El'). congruence.
Qed.

Lemma contains_lt m e i : contains m e i -> e < length (tm_elems m) /\ i < length (tm_facets m).
Proof. intros (p & f & Ep & Ef & _). split; apply nth_error_Some; congruence. Qed.

Lemma facet_side_spec k m : topo_ok k m -> forall e i, contains m e i ->
  exists g l, facet_side k m i e = Some (g, l, e <? tm_num_local m) /\
    nth_error (tm_l2cg m) e = Some g /\ facet_at k m e l i.
Proof.
  intros O e i C. destruct (contains_lt _ _ _ C) as [He _]. destruct (nth_error_lt _ _ He) as [plex Ep].
  destruct (facet_list k m O e plex Ep) as (d & Ed & Ld & N & Id).
  destruct (nth_error_lt (tm_l2cg m) e) as [g Eg]; [rewrite (to_l2cg _ _ O); auto|].
  destruct (find_pos_spec i d) as [F1 F2]; [apply Id; auto|].
  exists g, (find_pos i d). unfold facet_side. rewrite Ep. cbn [bind]. rewrite Ed. cbn [bind]. rewrite Eg. cbn [bind].
  destruct (Nat.ltb_spec (find_pos i d) (k + 1)); [|lia]. split; auto. split; auto. exists plex, d. auto.
Qed.

Lemma facet_upward_spec k m : topo_ok k m ->
  exists um, facet_upward k m = Some um /\ length um = length (tm_facets m) /\
    forall i, i < length (tm_facets m) -> exists u, nth_error um i = Some u /\ StronglySorted lt u /\
      forall e, In e u <-> contains m e i.
Proof.
  intros O. destruct (upward_lists_elements k _ _ (to_elems _ _ O) (to_facets _ _ O) (to_all _ _ O)) as (um & E & L & H).
  exists um. split; auto. split; auto. intros i Hi. destruct (nth_error_lt _ _ Hi) as [f Ef].
  destruct (H i f Ef) as (u & Eu & Su & Hu). exists u. split; auto. split; auto. intro e. rewrite Hu. unfold contains.
  split; [intros (p & Ep & I); eauto|]. intros (p & f' & Ep & Ef' & I). assert (f' = f) by congruence. subst. eauto.
Qed.

Lemma facet_info_spec k m um i : topo_ok k m -> facet_upward k m = Some um -> i < tm_num_local_facets m ->
  exists x, facet_info_of k m um i = Some x /\ facet_record_ok k m i x.
Proof.
  intros O Eum Hi. destruct (facet_upward_spec k m O) as (um' & E' & L & H). assert (um' = um) by congruence. subst um'.
  assert (Hf : i < length (tm_facets m)) by (pose proof (to_facets_le _ _ O); lia).
  destruct (H i Hf) as (u & Eu & Su & Hu). destruct (proj1 (to_local_facets _ _ O i Hf) Hi) as (e & He & Ce).
  destruct (to_bc _ _ O) as (bcs & Ebc & Lbc). destruct (nth_error_lt bcs i) as [bc Eb]; [lia|].
  unfold facet_info_of. rewrite Eu. cbn [bind]. rewrite Ebc. cbn [bind]. rewrite Eb. cbn [bind].
  destruct u as [|e0 rest]; [apply Hu in Ce; destruct Ce|].
  destruct (facet_side_spec k m O e0 i) as (g0 & l0 & E0 & G0 & F0); [apply Hu; left; auto|].
  rewrite E0. cbn [bind]. destruct rest as [|e1 rest].
  - eexists. split; [reflexivity|]. constructor; cbn; auto.
    + intro x. rewrite <- Hu. cbn. intuition.
    + apply Hu in Ce. destruct Ce as [->|[]]. apply Nat.ltb_lt; auto.
    + exists bcs; auto.
  - assert (L01 : e0 < e1) by (inversion Su as [|? ? _ F]; subst; inversion F; auto).
    destruct rest as [|e2 rest].
    + destruct (facet_side_spec k m O e1 i) as (g1 & l1 & E1 & G1 & F1); [apply Hu; right; left; auto|].
      rewrite E1. cbn [bind]. eexists. split; [reflexivity|]. constructor; cbn; auto; try lia.
      * intro x. rewrite <- Hu. cbn. intuition.
      * apply Nat.ltb_lt. apply Hu in Ce. destruct Ce as [->|[->|[]]]; lia.
      * exists bcs; auto.
    + assert (L12 : e1 < e2).
      { inversion Su as [|? ? S1 _]; subst. inversion S1 as [|? ? _ F]; subst. inversion F; auto. }
      destruct (to_two _ _ O i e0 e1 e2); try (apply Hu; cbn; auto); lia.
Qed.
