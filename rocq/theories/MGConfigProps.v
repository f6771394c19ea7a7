(** Property theorems: multigrid level hierarchy (C44). *)
Require Import List Arith Lia Sorted.
Require Import Verif.MGConfigModel.
Import ListNotations.

Lemma sorted_cons_hd (x y : nat) t : x < y -> StronglySorted lt (y :: t) -> StronglySorted lt (x :: y :: t).
Proof.
  intros H S. constructor; auto. constructor; auto. inversion S; subst.
  eapply Forall_impl; [|eauto]. cbn. intros; lia.
Qed.

Lemma log_loop_spec c m : c < m -> forall fuel b t, StronglySorted lt (b :: t) -> last (b :: t) 0 = m ->
  (forall x, hd_error t = Some x -> c < x) -> (t = [] -> c < b) -> b <= fuel ->
  exists b' t', log_loop fuel c (b :: t) = Some (b' :: t') /\ b' <= c /\
    StronglySorted lt (b' :: t') /\ last (b' :: t') 0 = m /\ t' <> [] /\
    (forall x, hd_error t' = Some x -> c < x).
Proof.
  intro Hc. induction fuel as [|f IH]; intros b t S L F T Hf.
  - assert (b = 0) by lia. subst. cbn. destruct (Nat.ltb_spec c 0); [lia|].
    exists 0, t. repeat split; auto; try lia. intro E. specialize (T E). lia.
  - cbn [log_loop]. destruct (Nat.ltb_spec c b).
    + assert (b / 2 < b) by (apply Nat.div_lt; lia).
      apply IH.
      * apply sorted_cons_hd; auto.
      * exact L.
      * cbn. intros x [= <-]. auto.
      * discriminate.
      * lia.
    + exists b, t. repeat split; auto; try lia. intro E. specialize (T E). lia.
Qed.

Lemma sorted_seq n : forall a, StronglySorted lt (seq a n).
Proof.
  induction n as [|n IH]; intro a; cbn; constructor; auto.
  apply Forall_forall. intros x H. apply in_seq in H. lia.
Qed.

(** C44: for every strategy and coarse level, and every max_degree >= 1, the levels are computed
    (the loop terminates), increase strictly, begin with the coarse level (or max_degree - 1 if
    the requested one is not below max_degree) and end with max_degree. *)
Theorem levels_hierarchy : forall strategy coarse max_degree, 1 <= max_degree ->
  exists fuel l, levels fuel strategy coarse max_degree = Some l /\
    StronglySorted lt l /\
    hd_error l = Some (if coarse <? max_degree then coarse else max_degree - 1) /\
    last l 0 = max_degree.
Proof.
  intros st coarse m Hm. exists m.
  assert (C : clamp_coarse coarse m = if coarse <? m then coarse else m - 1).
  { unfold clamp_coarse. destruct (Nat.leb_spec m coarse), (Nat.ltb_spec coarse m), (Nat.ltb_spec 0 m); lia. }
  unfold levels. rewrite C. set (c := if coarse <? m then coarse else m - 1).
  assert (Hc : c < m) by (unfold c; destruct (Nat.ltb_spec coarse m); lia).
  clearbody c. clear C. destruct st.
  - exists [c; m]. repeat split; auto. repeat constructor; auto.
  - destruct (log_loop_spec c m Hc m m []) as (b & t & E & Hb & S & L & Hne & F); auto.
    { repeat constructor. } { discriminate. }
    rewrite E. cbn [option_map set_back]. eexists; split; [reflexivity|].
    replace (if negb (b =? c) then c else b) with c by (destruct (Nat.eqb_spec b c); auto).
    destruct t as [|x t]; [congruence|]. specialize (F x eq_refl). inversion S; subst.
    repeat split; auto. apply sorted_cons_hd; auto.
  - exists (seq c (m - c + 1)). split; auto. split; [apply sorted_seq|].
    replace (m - c + 1) with (S (m - c)) by lia. split; auto.
    rewrite seq_S, last_last. lia.
Qed.
Print Assumptions levels_hierarchy.
Example levels_ex : levels 9 Logarithmic 2 9 = Some [2; 4; 9] /\ levels 9 Logarithmic 3 9 = Some [3; 4; 9]
  /\ levels 9 Full 1 4 = Some [1;2;3;4] /\ levels 9 TwoLevel 7 4 = Some [3; 4].
Proof. repeat split. Qed.

(** The logarithmic strategy halves: every level but the coarsest is half of the next finer one. *)
Theorem levels_logarithmic_halves : forall fuel coarse max_degree l i a b,
  levels fuel Logarithmic coarse max_degree = Some l -> 1 <= i ->
  nth_error l i = Some a -> nth_error l (S i) = Some b -> a = b / 2.
Proof.
  intros fuel coarse m l i a b E Hi Ea Eb. unfold levels in E.
  set (c := clamp_coarse coarse m) in *.
  assert (G : forall fuel l0 l', (forall i a b, nth_error l0 i = Some a -> nth_error l0 (S i) = Some b -> a = b / 2) ->
    log_loop fuel c l0 = Some l' -> forall i a b, nth_error l' i = Some a -> nth_error l' (S i) = Some b -> a = b / 2).
  { induction fuel0 as [|f IH]; intros l0 l' H0 H; destruct l0 as [|x t]; try discriminate; cbn [log_loop] in H.
    - destruct (c <? x); [congruence|injection H as <-; auto].
    - destruct (c <? x).
      + eapply IH; [|exact H]. intros [|k] p q Hp Hq; cbn [nth_error] in Hp, Hq.
        * congruence.
        * eapply (H0 k); eauto.
      + injection H as <-; auto. }
  destruct (log_loop fuel c [m]) as [l'|] eqn:EL; [|discriminate]. cbn in E. injection E as <-.
  specialize (G fuel [m] l'). assert (G' := G ltac:(intros [|[|k]] p q Hp Hq; discriminate) EL).
  destruct l' as [|x t]; cbn in Ea, Eb.
  - destruct i; discriminate.
  - destruct i as [|i]; [lia|]. cbn in Ea, Eb. eapply (G' (S i)); eauto.
Qed.
Print Assumptions levels_logarithmic_halves.

(** With max_degree = 0 the two-level strategy lists level 0 twice. *)
Theorem levels_degree_zero_refuted : exists fuel l, levels fuel TwoLevel 0 0 = Some l /\ ~ StronglySorted lt l.
Proof.
  exists 0, [0; 0]. split; auto. intro S. inversion S as [|? ? _ F]; subst. inversion F; lia.
Qed.
