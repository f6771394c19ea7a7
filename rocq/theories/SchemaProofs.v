(** Lemmas about the schema translation. *)
Require Import ZArith QArith Bool Ascii String Lia List.
From Verif Require Import Base SchemaModel SchemaSpec.
Import ListNotations.
Local Open Scope list_scope.
Local Open Scope Z_scope.

Definition fields := list (string * (nat * bool) * schema).

(** Induction over schemas, with the hypothesis for the entries of arrays and tables. *)
Section Induction.
Variable P : schema -> Prop.
Hypothesis HV : forall ty c k d, P (SValue ty c k d).
Hypothesis HA0 : forall lo hi k d, P (SArray lo hi None k d).
Hypothesis HA : forall lo hi s k d, P s -> P (SArray lo hi (Some s) k d).
Hypothesis HT : forall blank (entries : fields) k d,
  (forall key io s, In (key, io, s) entries -> P s) -> P (STable blank entries k d).
Fixpoint schema_ind' (s : schema) : P s.
Proof.
  destruct s as [ty c k d | lo hi [s |] k d | blank entries k d].
  - apply HV.
  - apply HA. apply schema_ind'.
  - apply HA0.
  - apply HT.
    revert entries. fix all 1. intros [| [[key io] s] r] key' io' s' H.
    + destruct H.
    + destruct H as [H | H].
      * injection H as <- <- <-. exact (schema_ind' s).
      * exact (all r key' io' s' H).
Defined.
End Induction.

Lemma set_member_length : forall m i v, length (set_member m i v) = length m.
Proof. induction m; intros [| i] v; cbn; auto. Qed.
Lemma set_member_same : forall m i v, (i < length m)%nat -> nth_error (set_member m i v) i = Some (Some v).
Proof.
  induction m; intros [| i] v H; cbn in *; try lia; auto. apply IHm. lia.
Qed.
Lemma set_member_other : forall m i j v, i <> j -> nth_error (set_member m i v) j = nth_error m j.
Proof.
  induction m; intros [| i] [| j] v H; cbn; auto; try congruence.
Qed.

Lemma obind_ok : forall {A B} (x : outcome A) (f : A -> outcome B) b,
  obind x f = Ok b <-> exists a, x = Ok a /\ f a = Ok b.
Proof.
  intros A B [a | r p |] f b; cbn; split; try discriminate.
  - intros H. exists a. auto.
  - intros (a' & E & H). injection E as <-. exact H.
  - intros (a' & E & H). discriminate.
  - intros (a' & E & H). discriminate.
Qed.
Lemma validate_ok : forall chk v w, validate chk v = Ok w <-> w = v /\ passes chk v.
Proof.
  intros [f |] v w; cbn.
  - destruct (f v) eqn:E; split.
    + intros H. injection H as <-. split; [reflexivity |]. intros g Hg. injection Hg as <-. exact E.
    + intros [-> _]. reflexivity.
    + discriminate.
    + intros [_ H]. rewrite (H f eq_refl) in E. discriminate.
  - split.
    + intros H. injection H as <-. split; [reflexivity |]. intros g Hg. discriminate.
    + intros [-> _]. reflexivity.
Qed.
Lemma validate_error : forall chk v r p, validate chk v = Error r p ->
  r = true /\ p = [] /\ exists f, chk = Some f /\ f v = false.
Proof.
  intros [f |] v r p; cbn; [| discriminate].
  destruct (f v) eqn:E; [discriminate |]. intros H. injection H as <- <-. eauto.
Qed.
Lemma validate_defined : forall chk v, validate chk v <> Undef.
Proof. intros [f |] v; cbn; [destruct (f v) |]; discriminate. Qed.

Lemma Forall2_same_length : forall {A B} (R : A -> B -> Prop) a b, Forall2 R a b -> length a = length b.
Proof. intros A B R a b H. induction H; cbn; congruence. Qed.

(** ** Native values *)
Lemma integral_trunc : forall q z, (q == inject_Z z)%Q -> Z.quot (Qnum q) (Zpos (Qden q)) = z.
Proof.
  intros [a b] z H. unfold Qeq in H. cbn in *.
  replace a with (z * Zpos b) by lia. apply Z.quot_mul. lia.
Qed.
Lemma cast_spec : forall lo hi z v, node_integer_cast lo hi z = Some v <-> v = VInt z /\ lo <= z <= hi.
Proof.
  intros. unfold node_integer_cast.
  destruct ((z <? lo) || (hi <? z)) eqn:E.
  - split; [discriminate |]. intros [_ H]. apply orb_true_iff in E. lia.
  - apply orb_false_iff in E. split; [intros H; injection H as <-; split; [reflexivity | lia] |].
    intros [-> _]. reflexivity.
Qed.

Lemma node_value_reads : forall ty n v, ty <> TOther ->
  (node_value ty n = Ok (Some v) <-> reads ty n v).
Proof.
  intros ty n v Hty. split.
  - destruct ty as [| lo hi | | |]; cbn; [| | | | congruence].
    + destruct n; try discriminate; intros H; injection H as <-; constructor.
      rewrite negb_true_iff, Z.eqb_neq. tauto.
    + destruct n; try discriminate.
      * intros H. injection H as H. apply cast_spec in H as [-> H]. constructor. exact H.
      * destruct f as [| | q]; cbn; try discriminate.
        destruct (_ && _) eqn:E; [| discriminate]. apply andb_true_iff in E.
        destruct (Qeq_bool _ _) eqn:E2; [| discriminate].
        intros H. injection H as H. apply cast_spec in H as [-> H].
        apply Qeq_bool_iff in E2. constructor; [symmetry; exact E2 | exact H | lia].
      * intros H. injection H as <-. constructor.
    + destruct n; try discriminate.
      * destruct (_ || _) eqn:E; [discriminate |]. intros H. injection H as <-.
        apply orb_false_iff in E. constructor. lia.
      * intros H. injection H as <-. constructor.
    + destruct n; try discriminate. intros H. injection H as <-. constructor.
  - intros H. destruct H; cbn; try reflexivity.
    + repeat f_equal. destruct b.
      * apply negb_true_iff, Z.eqb_neq. tauto.
      * apply negb_false_iff, Z.eqb_eq. destruct (Z.eq_dec z 0) as [| Hz]; [assumption |]. apply H in Hz. discriminate.
    + f_equal. apply cast_spec. auto.
    + rewrite (integral_trunc _ _ H).
      destruct (_ && _) eqn:E; [| apply andb_false_iff in E; lia].
      destruct (Qeq_bool _ _) eqn:E2.
      * f_equal. apply cast_spec. auto.
      * apply Qeq_bool_neq in E2. exfalso. apply E2. symmetry. exact H.
    + destruct (_ || _) eqn:E; [apply orb_true_iff in E; lia | reflexivity].
Qed.
Lemma no_reads_other : forall n v, ~ reads TOther n v.
Proof. intros n v H. inversion H. Qed.
Lemma node_value_none : forall ty n, node_value ty n = Ok None -> forall v, ~ reads ty n v.
Proof.
  intros ty n H v Hv. assert (ty <> TOther) by (intros ->; inversion Hv).
  apply node_value_reads in Hv; congruence.
Qed.

Lemma value_fits : forall ty conv chk d n v,
  translate (SValue ty conv chk d) n = Ok v <-> fits (SValue ty conv chk d) n v.
Proof.
  intros ty conv chk d n v. cbn [translate]. unfold translate_value. rewrite obind_ok. split.
  - intros (w & H & Hv). apply validate_ok in Hv as [-> Hc].
    destruct conv as [f |].
    + destruct n; try discriminate. econstructor; eauto.
    + constructor; [| exact Hc].
      apply obind_ok in H as ([u |] & Hu & H); [| discriminate]. injection H as ->.
      apply node_value_reads; [| exact Hu]. intros ->. discriminate.
  - intros H. inversion H; subst.
    + exists v. split; [| apply validate_ok; auto].
      match goal with HR : reads ty n v |- _ =>
        assert (Hty : ty <> TOther) by (intros ->; inversion HR);
        rewrite (proj2 (node_value_reads ty n v Hty) HR) end.
      reflexivity.
    + exists v. split; [assumption | apply validate_ok; auto].
Qed.

Lemma array_fits : forall (tr : node -> outcome val) (Q : node -> val -> Prop) l idx vs,
  (forall n v, tr n = Ok v <-> Q n v) ->
  (translate_array tr idx l = Ok vs <-> Forall2 Q l vs).
Proof.
  intros tr Q l. induction l as [| x l IH]; intros idx vs HQ; cbn [translate_array].
  - split; [intros H; injection H as <-; constructor | intros H; inversion H; reflexivity].
  - rewrite obind_ok. split.
    + intros (v & Hv & H). apply obind_ok in H as (ws & Hws & H). injection H as <-.
      constructor.
      * apply HQ. destruct (tr x) as [? | [|] ? |]; congruence.
      * apply (IH (S idx)); assumption.
    + intros H. inversion H; subst. exists y. split.
      * rewrite (proj2 (HQ _ _) H2). reflexivity.
      * rewrite (proj2 (IH (S idx) l' HQ) H4). reflexivity.
Qed.

Definition member_of (e : string * (nat * bool) * schema) : nat := fst (snd (fst e)).

(** The state reached by the entries of a table. *)
Lemma entries_ok : forall (entries : fields) n m m',
  NoDup (map member_of entries) ->
  (forall k i o s, In (k, (i, o), s) entries -> (i < length m)%nat) ->
  (translate_entries translate entries n m = Ok m' <->
   length m' = length m /\
   (forall i, (forall k o s, ~ In (k, (i, o), s) entries) -> nth_error m' i = nth_error m i) /\
   (forall k i o s sub, In (k, (i, o), s) entries -> has_key n k sub ->
      exists v, nth_error m' i = Some (Some v) /\ translate s sub = Ok v) /\
   (forall k i s, In (k, (i, false), s) entries -> lacks_key n k ->
      exists v, get_default_value s = Some v /\ nth_error m' i = Some (Some v)) /\
   (forall k i s, In (k, (i, true), s) entries -> lacks_key n k -> nth_error m' i = nth_error m i)).
Proof.
  unfold has_key, lacks_key.
  induction entries as [| [[k [i o]] s] r IH]; intros n m m' Hnd Hlt; cbn [translate_entries].
  - split.
    + intros H. injection H as ->. cbn. repeat split; try tauto.
    + intros (Hl & Hi & _). f_equal. apply nth_error_ext. intros j. symmetry. apply Hi.
      intros ? ? ? [].
  - cbn [map] in Hnd. inversion Hnd as [| ? ? Hn Hnd']; subst.
    assert (Hfresh : forall k' o' s', ~ In (k', (i, o'), s') r).
    { intros k' o' s' Hin. apply Hn. exact (in_map member_of _ _ Hin). }
    assert (Hi : (i < length m)%nat) by (eapply Hlt; left; reflexivity).
    rewrite obind_ok. split.
    + intros (m1 & H1 & H2).
      assert (Hm1 : length m1 = length m /\ (forall j, j <> i -> nth_error m1 j = nth_error m j) /\
        match node_at n k with
        | Some sub => exists v, nth_error m1 i = Some (Some v) /\ translate s sub = Ok v
        | None => if o then m1 = m
                  else exists v, get_default_value s = Some v /\ nth_error m1 i = Some (Some v)
        end).
      { destruct (translate_member (translate s) i o s (node_at n k) m) as [m2 | |] eqn:E;
          try discriminate. injection H1 as ->. unfold translate_member in E.
        destruct (node_at n k) as [sub |].
        - apply obind_ok in E as (v & Hv & E). injection E as <-.
          rewrite set_member_length. split; [reflexivity |]. split.
          + intros j Hj. apply set_member_other. congruence.
          + exists v. split; [apply set_member_same; assumption | assumption].
        - destruct o.
          + injection E as ->. auto.
          + destruct (get_default_value s) as [d |]; [| discriminate]. injection E as <-.
            rewrite set_member_length. split; [reflexivity |]. split.
            * intros j Hj. apply set_member_other. congruence.
            * exists d. split; [reflexivity | apply set_member_same; assumption]. }
      destruct Hm1 as (L1 & O1 & S1).
      apply IH in H2; [| assumption | intros; rewrite L1; eapply Hlt; right; eassumption].
      destruct H2 as (L2 & A & B & C & D).
      pose proof (A i Hfresh) as Ai.
      split; [congruence |]. split; [| split; [| split]].
      * intros j Hj. destruct (Nat.eq_dec j i) as [-> | Hne].
        -- exfalso. eapply Hj. left. reflexivity.
        -- rewrite A, O1; auto. intros ? ? ? Hin. eapply Hj. right. exact Hin.
      * intros k' i' o' s' sub [Heq | Hin] Hk.
        -- injection Heq as <- <- <- <-. rewrite Hk in S1. rewrite Ai. exact S1.
        -- eauto.
      * intros k' i' s' [Heq | Hin] Hk.
        -- injection Heq as <- <- -> <-. rewrite Hk in S1. rewrite Ai. exact S1.
        -- eauto.
      * intros k' i' s' [Heq | Hin] Hk.
        -- injection Heq as <- <- -> <-. rewrite Hk in S1. rewrite Ai, S1. reflexivity.
        -- rewrite (D _ _ _ Hin Hk). apply O1. intros ->. eapply Hfresh. exact Hin.
    + intros (L & A & B & C & D).
      set (m1 := match nth_error m' i with Some (Some v) =>
                   match node_at n k with
                   | Some _ => set_member m i v
                   | None => if o then m else set_member m i v end
                 | _ => m end).
      assert (Hm1 : translate_member (translate s) i o s (node_at n k) m = Ok m1 /\
                    length m1 = length m /\ (forall j, j <> i -> nth_error m1 j = nth_error m j) /\
                    nth_error m1 i = nth_error m' i).
      { unfold translate_member, m1. destruct (node_at n k) as [sub |] eqn:Ek.
        - destruct (B k i o s sub (or_introl eq_refl) Ek) as (v & Hv & Ht).
          rewrite Hv, Ht. cbn [obind]. rewrite set_member_length.
          repeat split; auto using set_member_same. intros. apply set_member_other. congruence.
        - destruct o.
          + pose proof (D k i s (or_introl eq_refl) Ek) as HD.
            destruct (nth_error m' i) as [[v |] |]; repeat split; auto.
          + destruct (C k i s (or_introl eq_refl) Ek) as (v & Hd & Hv).
            rewrite Hd, Hv. rewrite set_member_length.
            repeat split; auto using set_member_same. intros. apply set_member_other. congruence. }
      destruct Hm1 as (E1 & L1 & O1 & S1). exists m1. rewrite E1. split; [reflexivity |].
      apply IH; [assumption | intros; rewrite L1; eapply Hlt; right; eassumption |].
      split; [congruence |]. split; [| split; [| split]].
      * intros j Hj. destruct (Nat.eq_dec j i) as [-> | Hne]; [congruence |].
        rewrite O1 by assumption. apply A. intros k' o' s' [Heq | Hin].
        -- injection Heq. congruence.
        -- eapply Hj. exact Hin.
      * intros; eapply B; [right |]; eassumption.
      * intros; eapply C; [right |]; eassumption.
      * intros k' i' s' Hin Hk. rewrite (D k' i' s' (or_intror Hin) Hk). symmetry. apply O1.
        intros ->. eapply Hfresh. exact Hin.
Qed.

Lemma well_formed_entries : forall blank (entries : fields) chk d,
  well_formed (STable blank entries chk d) ->
  NoDup (map member_of entries) /\
  (forall k i o s, In (k, (i, o), s) entries -> (i < length blank)%nat /\ well_formed s).
Proof.
  intros blank entries chk d. cbn. intros [Hnd H]. split; [exact Hnd |].
  clear Hnd. induction entries as [| [[k' [i' o']] s'] r IH]; intros k i o s Hin; [destruct Hin | destruct Hin as [Heq | Hin]].
  - injection Heq as -> -> -> ->. tauto.
  - eapply IH; [tauto | exact Hin].
Qed.
Lemma alike_entries : forall blank (entries : fields) chk d n n',
  alike (STable blank entries chk d) n n' ->
  forall k io s, In (k, io, s) entries ->
    match node_at n k, node_at n' k with
    | Some a, Some b => alike s a b
    | None, None => True
    | _, _ => False
    end.
Proof.
  intros blank entries chk d n n'. cbn.
  induction entries as [| [[k' io'] s'] r IH]; intros H k io s Hin; [destruct Hin | destruct Hin as [Heq | Hin]].
  - injection Heq as -> -> ->. tauto.
  - eapply IH; [tauto | exact Hin].
Qed.
Lemma defined_entries : forall blank (entries : fields) chk d,
  converters_defined (STable blank entries chk d) ->
  forall k io s, In (k, io, s) entries -> converters_defined s.
Proof.
  intros blank entries chk d. cbn.
  induction entries as [| [[k' io'] s'] r IH]; intros H k io s Hin; [destruct Hin | destruct Hin as [Heq | Hin]].
  - injection Heq as -> -> ->. tauto.
  - eapply IH; [tauto | exact Hin].
Qed.

(** ** Success *)
Lemma translate_fits : forall s n v, well_formed s -> (translate s n = Ok v <-> fits s n v).
Proof.
  intros s. induction s as [ty c k d | lo hi k d | lo hi s k d IH | blank entries k d IH]
    using schema_ind'; intros n v Hwf.
  - apply value_fits.
  - cbn. split; [discriminate |]. intros H. inversion H.
  - cbn in Hwf. cbn [translate]. split.
    + destruct n; try discriminate. destruct (_ || _) eqn:E; [discriminate |].
      apply orb_false_iff in E. intros H. apply obind_ok in H as (vs & Hvs & H).
      apply validate_ok in H as [-> Hc].
      constructor; [lia | | exact Hc].
      eapply array_fits; [| exact Hvs]. intros; apply IH; assumption.
    + intros H. inversion H; subst.
      destruct (_ || _) eqn:E; [apply orb_true_iff in E; lia |].
      apply obind_ok. exists vs. split; [| apply validate_ok; auto].
      eapply array_fits; [| eassumption]. intros; apply IH; assumption.
  - destruct (well_formed_entries _ _ _ _ Hwf) as [Hnd Hall].
    cbn [translate]. rewrite obind_ok. split.
    + intros (m & Hm & H). apply validate_ok in H as [-> Hc].
      apply entries_ok in Hm; [| assumption | intros; eapply Hall; eassumption].
      destruct Hm as (L & A & B & C & D).
      constructor; auto. intros k' i o s sub Hin Hk.
      destruct (B _ _ _ _ _ Hin Hk) as (v & Hv & Ht). exists v. split; [exact Hv |].
      apply (IH _ _ _ Hin); [eapply Hall; exact Hin | exact Ht].
    + intros H. inversion H; subst. exists m. split; [| apply validate_ok; auto].
      apply entries_ok; [assumption | intros; eapply Hall; eassumption |].
      split; [assumption |]. split; [assumption |]. split; [| split; assumption].
      intros k' i o s sub Hin Hk.
      match goal with HF : forall k i o s sub, _ -> has_key _ _ _ -> _ |- _ =>
        destruct (HF _ _ _ _ _ Hin Hk) as (v & Hv & Ht) end.
      exists v. split; [exact Hv |]. apply (IH _ _ _ Hin); [eapply Hall; exact Hin | exact Ht].
Qed.

(** ** Dependence on the keys of the schema only *)
Lemma translate_alike : forall s n n', alike s n n' -> translate s n = translate s n'.
Proof.
  intros s. induction s as [ty c k d | lo hi k d | lo hi s k d IH | blank entries k d IH]
    using schema_ind'; intros n n' H.
  - cbn in H. subst. reflexivity.
  - reflexivity.
  - cbn [alike] in H. destruct n; try (rewrite H; reflexivity).
    destruct n'; try discriminate H. cbn [translate].
    rewrite (Forall2_same_length _ _ _ H).
    assert (E : forall idx, translate_array (translate s) idx l = translate_array (translate s) idx l0).
    { induction H as [| a b l l0 Hab Hl IHl]; intros idx; [reflexivity |].
      cbn [translate_array]. rewrite (IH _ _ Hab), IHl. reflexivity. }
    rewrite E. reflexivity.
  - pose proof (alike_entries _ _ _ _ _ _ H) as Ha. clear H. cbn [translate].
    assert (E : forall m, translate_entries translate entries n m = translate_entries translate entries n' m).
    { induction entries as [| [[k' [i o]] s] r IHr]; intros m; [reflexivity |].
      cbn [translate_entries].
      assert (E1 : translate_member (translate s) i o s (node_at n k') m =
                   translate_member (translate s) i o s (node_at n' k') m).
      { pose proof (Ha k' (i, o) s (or_introl eq_refl)) as Hk. unfold translate_member.
        destruct (node_at n k'), (node_at n' k'); try contradiction; [| reflexivity].
        rewrite (IH _ _ _ (or_introl eq_refl) _ _ Hk). reflexivity. }
      rewrite E1.
      destruct (match translate_member (translate s) i o s (node_at n' k') m with
                | Error _ p => Error true (p ++ [Key k']) | o => o end) as [m1 | |]; cbn [obind]; auto.
      apply IHr; intros.
      - eapply IH; [right |]; eassumption.
      - eapply Ha. right. eassumption. }
    rewrite E. reflexivity.
Qed.

(** ** Errors *)
Lemma array_error : forall (tr : node -> outcome val) l idx rt p,
  translate_array tr idx l = Error rt p ->
  exists j x q, nth_error l j = Some x /\ tr x = Error rt q /\
    p = (if rt then q ++ [Entry (idx + j)] else q).
Proof.
  intros tr l. induction l as [| x l IH]; intros idx rt p H; cbn [translate_array] in H;
    [discriminate |].
  destruct (tr x) as [v | [|] q |] eqn:E; cbn [obind] in H.
  - destruct (translate_array tr (S idx) l) as [vs | r q |] eqn:E2; cbn [obind] in H; try discriminate.
    injection H as -> ->. destruct (IH _ _ _ E2) as (j & y & q' & Hj & Hy & Hp).
    exists (S j), y, q'. split; [exact Hj |]. split; [exact Hy |].
    rewrite Hp. replace (idx + S j)%nat with (S idx + j)%nat by lia. reflexivity.
  - injection H as <- <-. exists 0%nat, x, q. rewrite Nat.add_0_r. auto.
  - injection H as <- <-. exists 0%nat, x, q. auto.
  - discriminate.
Qed.
Lemma entries_error : forall (entries : fields) n m rt p,
  translate_entries translate entries n m = Error rt p ->
  rt = true /\ exists k i o s q, In (k, (i, o), s) entries /\ p = q ++ [Key k] /\
    ((exists sub r, node_at n k = Some sub /\ translate s sub = Error r q) \/
     (node_at n k = None /\ o = false /\ get_default_value s = None /\ q = [])).
Proof.
  induction entries as [| [[k [i o]] s] r IH]; intros n m rt p H; cbn [translate_entries] in H;
    [discriminate |].
  destruct (translate_member (translate s) i o s (node_at n k) m) as [m1 | r1 q |] eqn:E;
    cbn [obind] in H.
  - destruct (IH _ _ _ _ H) as (Hrt & k' & i' & o' & s' & q & Hin & Hp & Hc).
    split; [exact Hrt |]. exists k', i', o', s', q. split; [right; exact Hin |]. auto.
  - injection H as <- <-. split; [reflexivity |]. exists k, i, o, s, q.
    split; [left; reflexivity |]. split; [reflexivity |].
    unfold translate_member in E. destruct (node_at n k) as [sub |].
    + left. exists sub, r1. split; [reflexivity |].
      destruct (translate s sub); cbn in E; congruence.
    + right. destruct o; [discriminate |]. destruct (get_default_value s); [discriminate |].
      injection E as <- <-. auto.
  - discriminate.
Qed.
Lemma table_error_runtime : forall blank entries chk d n rt p,
  translate (STable blank entries chk d) n = Error rt p -> rt = true.
Proof.
  intros blank entries chk d n rt p. cbn [translate].
  destruct (translate_entries translate entries n blank) as [m | r q |] eqn:E; cbn [obind].
  - intros H. apply validate_error in H. tauto.
  - intros H. injection H as <- <-. apply entries_error in E. tauto.
  - discriminate.
Qed.

Lemma passes_none : forall v, passes None v.
Proof. intros v f H. discriminate. Qed.

Lemma translate_fault : forall s n rt p, well_formed s -> translate s n = Error rt p -> fault s n p.
Proof.
  intros s. induction s as [ty c k d | lo hi k d | lo hi s k d IH | blank entries k d IH]
    using schema_ind'; intros n rt p Hwf H.
  - cbn [translate] in H. unfold translate_value in H. destruct c as [f |].
    + destruct n as [s | | | | | |]; cbn [obind] in H;
        try (injection H as <- <-; apply X_text; intros; discriminate).
      destruct (f s) as [v | r q |] eqn:E; cbn [obind] in H; try discriminate.
      * apply validate_error in H as (-> & -> & g & Hk & Hg). eapply X_check_convert; eauto.
      * injection H as <- <-. eapply X_convert. exact E.
    + destruct (node_value ty n) as [[v |] | r q |] eqn:E; cbn [obind] in H; try discriminate.
      * apply validate_error in H as (-> & -> & g & Hk & Hg).
        assert (Hty : ty <> TOther) by (intros ->; discriminate).
        apply node_value_reads in E; [| exact Hty]. eapply X_check; eauto.
      * injection H as <- <-. apply X_type. apply node_value_none. exact E.
      * injection H as <- <-. destruct ty; try discriminate.
        -- destruct n; try discriminate.
           cbn in E. destruct f; try discriminate. destruct (int64_of_double _); discriminate.
        -- cbn in E. injection E as <- <-. apply X_type. intros v. apply no_reads_other.
  - cbn in H. injection H as <- <-. constructor.
  - cbn in Hwf. cbn [translate] in H.
    destruct n as [| | | | | l |]; try (injection H as <- <-; apply X_no_array; intros; discriminate).
    destruct (_ || _) eqn:E.
    + injection H as <- <-. apply X_size. apply orb_true_iff in E. lia.
    + destruct (translate_array (translate s) 0 l) as [vs | r q |] eqn:E2; cbn [obind] in H.
      * apply validate_error in H as (-> & -> & g & Hk & Hg). eapply X_array_check; eauto.
        eapply array_fits; [| exact E2]. intros; apply translate_fits; assumption.
      * injection H as -> ->. apply array_error in E2 as (j & x & q' & Hj & Hx & ->).
        pose proof (IH _ _ _ Hwf Hx) as HF. destruct rt.
        -- eapply X_entry; eassumption.
        -- eapply X_entry_unlocated; [eassumption | eassumption |]. intros b e c d' ->.
           apply table_error_runtime in Hx. discriminate.
      * discriminate.
  - destruct (well_formed_entries _ _ _ _ Hwf) as [Hnd Hall]. cbn [translate] in H.
    destruct (translate_entries translate entries n blank) as [m | r q |] eqn:E; cbn [obind] in H.
    + apply validate_error in H as (-> & -> & g & Hk & Hg).
      apply (X_table_check _ _ _ _ _ m g); [| exact Hk | exact Hg].
      apply translate_fits; [exact Hwf |]. cbn [translate]. rewrite E. reflexivity.
    + injection H as -> ->.
      apply entries_error in E as (-> & k' & i & o & s & q' & Hin & -> & Hc).
      destruct Hc as [(sub & r & Hk & Ht) | (Hk & -> & Hd & ->)].
      * eapply X_key; [exact Hin | exact Hk |]. eapply IH; [exact Hin | | exact Ht].
        eapply Hall. exact Hin.
      * eapply X_missing; eassumption.
    + discriminate.
Qed.

Lemma fits_det : forall s n v w, well_formed s -> fits s n v -> fits s n w -> v = w.
Proof.
  intros s n v w Hwf Hv Hw. apply translate_fits in Hv, Hw; auto. congruence.
Qed.
Lemma Forall2_nth : forall {A B} (R : A -> B -> Prop) l l' i a,
  Forall2 R l l' -> nth_error l i = Some a -> exists b, nth_error l' i = Some b /\ R a b.
Proof.
  intros A B R l l' i a H. revert i. induction H; intros [| i] E; try discriminate.
  - injection E as <-. exists y. auto.
  - apply IHForall2. exact E.
Qed.

Lemma fault_unfit : forall s n p, fault s n p -> well_formed s -> forall v, ~ fits s n v.
Proof.
  intros s n p H. induction H; intros Hwf w Hw.
  - inversion Hw; subst. eapply H. eassumption.
  - inversion Hw; subst. eapply H. reflexivity.
  - inversion Hw; subst. congruence.
  - inversion Hw; subst.
    assert (Hty : ty <> TOther) by (intros ->; inversion H).
    match goal with HR : reads ty n w |- _ => apply node_value_reads in HR; [| exact Hty] end.
    apply node_value_reads in H; [| exact Hty]. assert (v = w) as -> by congruence.
    match goal with HP : passes _ _ |- _ => rewrite (HP _ eq_refl) in * end. discriminate.
  - inversion Hw; subst. assert (v = w) as -> by congruence.
    match goal with HP : passes _ _ |- _ => rewrite (HP _ eq_refl) in * end. discriminate.
  - inversion Hw; subst. eapply H. reflexivity.
  - inversion Hw; subst. tauto.
  - inversion Hw.
  - inversion Hw; subst. cbn in Hwf.
    match goal with HF : Forall2 _ l _ |- _ => destruct (Forall2_nth _ _ _ _ _ HF H) as (b & _ & Hb) end.
    eapply IHfault; eassumption.
  - inversion Hw; subst. cbn in Hwf.
    match goal with HF : Forall2 _ l _ |- _ => destruct (Forall2_nth _ _ _ _ _ HF H) as (b & _ & Hb) end.
    eapply IHfault; eassumption.
  - inversion Hw; subst. cbn in Hwf.
    assert (vs = vs0) as ->.
    { assert (D : VArr vs = VArr vs0); [| injection D; auto].
      eapply (fits_det (SArray lo hi (Some s) None d) (NArr l)); [exact Hwf | |];
        constructor; auto using passes_none. }
    match goal with HP : passes _ _ |- _ => rewrite (HP _ eq_refl) in * end. discriminate.
  - destruct (well_formed_entries _ _ _ _ Hwf) as [_ Hall].
    inversion Hw; subst.
    match goal with HF : forall k i o s sub, _ -> has_key _ _ _ -> _ |- _ =>
      destruct (HF _ _ _ _ _ H H0) as (v & _ & Hv) end.
    eapply IHfault; [| exact Hv]. eapply Hall. exact H.
  - inversion Hw; subst.
    match goal with HF : forall k i s, In (k, (i, false), s) _ -> _ |- _ =>
      destruct (HF _ _ _ H H0) as (v & Hv & _) end. congruence.
  - inversion Hw; subst.
    assert (m = m0) as ->.
    { assert (D : VRec m = VRec m0); [| injection D; auto].
      eapply (fits_det (STable blank entries None d) n); [exact Hwf | assumption |].
      constructor; auto using passes_none. }
    match goal with HP : passes _ (VRec m0) |- _ => rewrite (HP _ eq_refl) in * end. discriminate.
Qed.

(** ** Undefined behaviour *)
Lemma tame_list : forall l x, tame (NArr l) -> In x l -> tame x.
Proof.
  induction l as [| y l IH]; intros x H Hin; [destruct Hin | destruct Hin as [Heq | Hin]]; cbn in H.
  - subst. tauto.
  - apply IH; tauto.
Qed.
Lemma tame_at : forall n k x, tame n -> node_at n k = Some x -> tame x.
Proof.
  intros n k x H. destruct n; cbn [node_at]; try discriminate.
  induction l as [| [k' y] l IH]; cbn; [discriminate |]. cbn in H.
  destruct (String.eqb k' k).
  - intros E. injection E as <-. tauto.
  - apply IH. exact (proj2 H).
Qed.
Lemma node_value_defined : forall ty n, tame n -> node_value ty n <> Undef.
Proof.
  intros ty n H. destruct ty; cbn; try discriminate.
  destruct n; try discriminate. destruct f as [| | q]; cbn in H; try contradiction.
  unfold int64_of_double. destruct (_ && _) eqn:E; [discriminate |].
  apply andb_false_iff in E. lia.
Qed.
Lemma translate_defined : forall s n, converters_defined s -> tame n -> translate s n <> Undef.
Proof.
  intros s. induction s as [ty c k d | lo hi k d | lo hi s k d IH | blank entries k d IH]
    using schema_ind'; intros n Hc Ht.
  - cbn [translate]. unfold translate_value. destruct c as [f |].
    + destruct n as [s | | | | | |]; cbn; try discriminate.
      pose proof (Hc f s eq_refl). destruct (f s); cbn; try congruence. apply validate_defined.
    + pose proof (node_value_defined ty n Ht). destruct (node_value ty n) as [[v |] | |]; cbn; try congruence.
      apply validate_defined.
  - discriminate.
  - cbn in Hc. cbn [translate]. destruct n; try discriminate.
    destruct (_ || _); [discriminate |].
    assert (E : forall idx, translate_array (translate s) idx l <> Undef).
    { assert (Hl : forall x, In x l -> tame x) by (intros; eapply tame_list; eassumption).
      clear Ht. induction l as [| x l IHl]; intros idx; cbn [translate_array]; [discriminate |].
      pose proof (IH x Hc (Hl x (or_introl eq_refl))).
      destruct (translate s x) as [v | [|] |]; cbn [obind]; try congruence.
      assert (Hr : translate_array (translate s) (S idx) l <> Undef)
        by (apply IHl; intros; apply Hl; right; assumption).
      destruct (translate_array (translate s) (S idx) l); cbn; congruence. }
    specialize (E 0%nat). destruct (translate_array (translate s) 0 l); cbn [obind]; try congruence.
    apply validate_defined.
  - pose proof (defined_entries _ _ _ _ Hc) as Hall. clear Hc. cbn [translate].
    assert (E : forall m, translate_entries translate entries n m <> Undef).
    { induction entries as [| [[k' [i o]] s] r IHr]; intros m; cbn [translate_entries]; [discriminate |].
      assert (E1 : translate_member (translate s) i o s (node_at n k') m <> Undef).
      { unfold translate_member. destruct (node_at n k') as [sub |] eqn:Ek.
        - pose proof (IH _ _ _ (or_introl eq_refl) sub (Hall _ _ _ (or_introl eq_refl))
                        (tame_at _ _ _ Ht Ek)).
          destruct (translate s sub); cbn; congruence.
        - destruct o; [discriminate |]. destruct (get_default_value s); discriminate. }
      destruct (translate_member (translate s) i o s (node_at n k') m); cbn [obind]; try congruence.
      apply IHr; intros.
      - eapply IH; [right |..]; eassumption.
      - eapply Hall. right. eassumption. }
    specialize (E blank). destruct (translate_entries translate entries n blank); cbn [obind]; try congruence.
    apply validate_defined.
Qed.
