(** * Proofs about the bridge to the scenario script *)

From Coq Require Import ZArith String List Bool Arith Lia.
From Verif Require Import ScriptModel ScriptSpec.
Import ListNotations.
Local Open Scope list_scope.

Section Proofs.

Context {G num : Type}.
Variable L : interp G num.

Notation mk := (mk_lstate G num).
Notation global := (i_global G num L).
Notation field := (i_field G num L).
Notation call := (i_call G num L).

Lemma push_ok v g st :
  length st < stack_slots -> push G num v (mk g st) = Done tt (mk g (v :: st)).
Proof.
  intros H. unfold push; cbn [l_stack l_mem].
  apply Nat.ltb_lt in H. rewrite H. reflexivity.
Qed.

Lemma push_numbers_ok xs : forall g st,
  length st + length xs <= stack_slots ->
  push_numbers G num xs (mk g st) = Done tt (mk g (rev (map Num xs) ++ st)).
Proof.
  induction xs as [|x xs IH]; intros g st H; cbn [push_numbers length map rev] in *.
  - reflexivity.
  - unfold bind. rewrite push_ok by lia. rewrite IH by (cbn [length]; lia).
    rewrite <- app_assoc. reflexivity.
Qed.

Lemma get_global_ok name g st :
  length st < stack_slots ->
  get_global G num L name (mk g st) = Done tt (mk g (global g name :: st)).
Proof. intros H. unfold get_global; cbn [l_mem]. now rewrite push_ok. Qed.

Lemma is_number_numeric v : is_number G num L v = true <-> exists x, numeric L v x.
Proof.
  split.
  - destruct v; cbn; try discriminate; intros H.
    + eexists; constructor.
    + eexists; constructor.
    + destruct (i_parse G num L s) eqn:E; [|discriminate]. eexists; constructor; eauto.
  - intros [x H]; inversion H; subst; cbn; auto. now rewrite H0.
Qed.

Lemma to_number_numeric v x : numeric L v x -> to_number G num L v = x.
Proof. intros H; inversion H; subst; cbn; auto. now rewrite H0. Qed.

Lemma numeric_to_number v : is_number G num L v = true -> numeric L v (to_number G num L v).
Proof.
  intros H. apply is_number_numeric in H. destruct H as [x H].
  now rewrite (to_number_numeric _ _ H).
Qed.

Lemma numeric_not_nil x : ~ numeric L Nil x.
Proof. intros H; inversion H. Qed.

(** Reading results off the stack: the numbers, or the place of the first that is none. *)
Fixpoint scan (k : nat) (l : list (value num)) : list num + nat :=
  match l with
  | [] => inl []
  | v :: l' =>
      if is_number G num L v
      then match scan (S k) l' with
           | inl xs => inl (to_number G num L v :: xs)
           | inr d => inr d
           end
      else inr k
  end.

Lemma peek_ok k v g st : nth_error st k = Some v -> peek G num (S k) (mk g st) = Done v (mk g st).
Proof. intros H. unfold peek; cbn [l_stack]. now rewrite H. Qed.

Lemma nth_error_rev_mid (pre suf st : list (value num)) v :
  nth_error (rev (pre ++ v :: suf) ++ st) (length suf) = Some v.
Proof.
  rewrite rev_app_distr. cbn [rev]. rewrite <- !app_assoc.
  rewrite nth_error_app2; rewrite rev_length; [|lia]. now rewrite Nat.sub_diag.
Qed.

Lemma read_results_ok name g st : forall suf pre,
  read_results G num L name (length pre + length suf) (length suf) (mk g (rev (pre ++ suf) ++ st)) =
    match scan (length pre) suf with
    | inl xs => Done xs (mk g (rev (pre ++ suf) ++ st))
    | inr d => Thrown (NotANumber name d) (mk g (rev (pre ++ suf) ++ st))
    end.
Proof.
  induction suf as [|v suf IH]; intros pre; cbn [read_results length scan].
  - reflexivity.
  - replace (length pre + S (length suf) - S (length suf)) with (length pre) by lia.
    replace (length pre + S (length suf) - length pre) with (S (length suf)) by lia.
    unfold bind at 1. rewrite (peek_ok _ v) by apply nth_error_rev_mid.
    destruct (is_number G num L v); [|reflexivity].
    specialize (IH (pre ++ [v])). rewrite app_length, <- app_assoc in IH. cbn [length app] in IH.
    replace (length pre + 1) with (S (length pre)) in IH by lia.
    replace (length pre + S (length suf)) with (S (length pre) + length suf) by lia.
    unfold bind. rewrite IH. destruct (scan (S (length pre)) suf); reflexivity.
Qed.

Lemma scan_inl l : forall k xs, scan k l = inl xs <-> Forall2 (numeric L) l xs.
Proof.
  induction l as [|v l IH]; intros k xs; cbn [scan].
  - split; intros H; [injection H as <-; constructor|inversion H; reflexivity].
  - destruct (is_number G num L v) eqn:E.
    + destruct (scan (S k) l) as [ys|d] eqn:F.
      * split; intros H.
        -- injection H as <-. constructor; [now apply numeric_to_number|now apply (IH (S k))].
        -- inversion H as [|? y ? ys' Hy Hys]; subst. apply (IH (S k)) in Hys. rewrite F in Hys.
           injection Hys as ->. now rewrite (to_number_numeric _ _ Hy).
      * split; [discriminate|]. intros H.
        inversion H as [|? y ? ys' Hy Hys]; subst. apply (IH (S k)) in Hys. congruence.
    + split; [discriminate|]. intros H. inversion H as [|? y ? ys' Hy Hys]; subst.
      assert (is_number G num L v = true) by (apply is_number_numeric; eauto). congruence.
Qed.

Lemma scan_inr l : forall k d,
  scan k l = inr d <->
  exists j v, d = k + j /\ nth_error l j = Some v /\ (forall x, ~ numeric L v x) /\
    exists ys, Forall2 (numeric L) (firstn j l) ys.
Proof.
  induction l as [|v l IH]; intros k d; cbn [scan].
  - split; [discriminate|]. intros (j & v & _ & H & _). destruct j; discriminate.
  - destruct (is_number G num L v) eqn:E.
    + assert (Hn := numeric_to_number _ E). split.
      * destruct (scan (S k) l) as [ys|d'] eqn:F; [discriminate|]. intros H; injection H as ->.
        apply IH in F. destruct F as (j & w & -> & Hj & Hw & ys & Hys).
        exists (S j), w. repeat split; auto; [lia|].
        exists (to_number G num L v :: ys). cbn [firstn]. now constructor.
      * intros (j & w & -> & Hj & Hw & ys & Hys). destruct j as [|j].
        { cbn in Hj. injection Hj as ->. exfalso. eapply Hw; eauto. }
        cbn [firstn] in Hys. inversion Hys as [|? ? ? ys' ? Hr]; subst.
        assert (F : scan (S k) l = inr (S k + j)).
        { apply IH. exists j, w. repeat split; auto. exists ys'. auto. }
        rewrite F. f_equal. lia.
    + assert (Hv : forall x, ~ numeric L v x).
      { intros x Hx. assert (is_number G num L v = true) by (apply is_number_numeric; eauto).
        congruence. }
      split.
      * intros H; injection H as <-. exists 0, v. repeat split; auto. exists []. constructor.
      * intros (j & w & -> & Hj & Hw & ys & Hys). destruct j as [|j]; [f_equal; lia|].
        cbn [firstn] in Hys. inversion Hys; subst. exfalso; eapply Hv; eauto.
Qed.

Lemma adjust_length n (vs : list (value num)) : length (adjust num n vs) = n.
Proof.
  unfold adjust. rewrite firstn_length_le; [reflexivity|]. rewrite app_length, repeat_length. lia.
Qed.

Lemma Forall2_no_nil (l : list (value num)) xs j :
  Forall2 (numeric L) l xs -> j < length l -> nth_error l j <> Some Nil.
Proof.
  intros H. revert j. induction H as [|v x l xs Hv Hr IH]; intros [|j] Hj; cbn in *; try lia.
  - intros E; injection E as ->. now apply (numeric_not_nil x).
  - apply IH. lia.
Qed.

Lemma firstn_adjust_short n k (vs : list (value num)) :
  k <= n -> k <= length vs -> firstn k (adjust num n vs) = firstn k vs.
Proof.
  intros H K. unfold adjust. rewrite firstn_firstn, Nat.min_l by lia.
  rewrite firstn_app. replace (k - length vs) with 0 by lia. cbn. now rewrite app_nil_r.
Qed.

Lemma nth_adjust n d (vs : list (value num)) :
  d < n -> nth_error (adjust num n vs) d =
    match nth_error vs d with Some v => Some v | None => Some Nil end.
Proof.
  intros H. unfold adjust.
  assert (K : forall (l : list (value num)) m, d < m -> nth_error (firstn m l) d = nth_error l d).
  { clear. intros l m. revert l d. induction m as [|m IH]; intros l d H; [lia|].
    destruct l as [|a l]; [now destruct d|]. destruct d; cbn; [reflexivity|]. apply IH. lia. }
  rewrite K by lia. destruct (nth_error vs d) eqn:E.
  - rewrite nth_error_app1; [assumption|]. apply nth_error_Some. congruence.
  - apply nth_error_None in E. rewrite nth_error_app2 by lia.
    rewrite nth_error_repeat; [reflexivity|lia].
Qed.

Lemma scan_adjust_inl n vs xs k :
  scan k (adjust num n vs) = inl xs <-> first_results L n vs xs.
Proof.
  rewrite scan_inl. unfold first_results. split.
  - intros H. assert (n <= length vs).
    { destruct (le_lt_dec n (length vs)) as [|C]; [assumption|exfalso].
      apply (Forall2_no_nil _ _ (length vs)) in H; [|rewrite adjust_length; lia].
      apply H. rewrite nth_adjust by lia.
      assert (E : nth_error vs (length vs) = None) by (apply nth_error_None; lia). now rewrite E. }
    split; [assumption|]. rewrite <- (firstn_adjust_short n n) by lia.
    rewrite firstn_all2; [assumption|]. rewrite adjust_length. lia.
  - intros [H K]. rewrite <- (firstn_adjust_short n n) in K by lia.
    rewrite firstn_all2 in K; [assumption|]. rewrite adjust_length. lia.
Qed.

Lemma scan_adjust_inr n vs d :
  scan 0 (adjust num n vs) = inr d <->
  d < n /\ no_number_at L d vs /\ exists ys, first_results L d vs ys.
Proof.
  rewrite scan_inr. split.
  - intros (j & v & -> & Hj & Hv & ys & Hys). cbn [Nat.add].
    assert (Hd : j < n).
    { rewrite <- (adjust_length n vs). apply nth_error_Some. congruence. }
    assert (Hlen : j <= length vs).
    { destruct (le_lt_dec j (length vs)) as [|C]; [assumption|exfalso].
      apply (Forall2_no_nil _ _ (length vs)) in Hys.
      - apply Hys. assert (K : forall (l : list (value num)) m d, d < m ->
          nth_error (firstn m l) d = nth_error l d).
        { clear. intros l m. revert l. induction m as [|m IH]; intros l d H; [lia|].
          destruct l as [|a l]; [now destruct d|]. destruct d; cbn; [reflexivity|]. apply IH. lia. }
        rewrite K by lia. rewrite nth_adjust by lia.
        assert (E : nth_error vs (length vs) = None) by (apply nth_error_None; lia). now rewrite E.
      - rewrite firstn_length, adjust_length. lia. }
    split; [assumption|]. split.
    + rewrite nth_adjust in Hj by assumption. unfold no_number_at.
      destruct (nth_error vs j) as [w|] eqn:E; [right|now left].
      injection Hj as ->. eauto.
    + exists ys. split; [assumption|]. now rewrite firstn_adjust_short in Hys by lia.
  - intros (Hd & Hno & ys & Hlen & Hys).
    exists d. rewrite nth_adjust by assumption.
    destruct (nth_error vs d) as [w|] eqn:E.
    + exists w. repeat split; auto.
      * intros x Hx. destruct Hno as [C|(v & C & Hv)]; [congruence|].
        rewrite E in C; injection C as ->. eapply Hv; eauto.
      * exists ys. now rewrite firstn_adjust_short by lia.
    + exists Nil. repeat split; auto.
      * intros x. apply numeric_not_nil.
      * exists ys. now rewrite firstn_adjust_short by lia.
Qed.

(** A call with its function and arguments on the stack. *)
Lemma call_and_read_ok name dout f (args : list (value num)) g st :
  length st + dout <= stack_slots ->
  call_and_read G num L name (length args) dout (mk g (rev args ++ f :: st)) =
  match call g f args with
  | (g', inr e) =>
      match to_text G num L e with
      | Some m => Thrown (ScriptError name m) (mk g' (e :: st))
      | None => Undefined
      end
  | (g', inl vs) =>
      match scan 0 (adjust num dout vs) with
      | inl xs => Done xs (mk g' st)
      | inr d => Thrown (NotANumber name d) (mk g' (rev (adjust num dout vs) ++ st))
      end
  end.
Proof.
  intros H. unfold call_and_read, bind at 1, pcall. cbn [l_stack l_mem].
  assert (E1 : length (rev args ++ f :: st) <? S (length args) = false).
  { apply Nat.ltb_ge. rewrite app_length, rev_length. cbn [length]. lia. }
  rewrite E1.
  assert (E2 : firstn (length args) (rev args ++ f :: st) = rev args).
  { rewrite <- (rev_length args). rewrite firstn_app, Nat.sub_diag, firstn_all. cbn.
    apply app_nil_r. }
  rewrite E2, rev_involutive.
  assert (E3 : skipn (S (length args)) (rev args ++ f :: st) = st).
  { rewrite <- (rev_length args). rewrite skipn_app. rewrite skipn_all2 by lia.
    replace (S (length (rev args)) - length (rev args)) with 1 by lia. reflexivity. }
  rewrite E3.
  assert (E4 : nth (length args) (rev args ++ f :: st) Nil = f).
  { rewrite app_nth2; rewrite rev_length; [|lia]. now rewrite Nat.sub_diag. }
  rewrite E4. destruct (call g f args) as [g' [vs|e]].
  - apply Nat.leb_le in H. rewrite H. unfold bind.
    assert (R := read_results_ok name g' st (adjust num dout vs) []). cbn [length app Nat.add] in R.
    rewrite adjust_length in R. rewrite R.
    destruct (scan 0 (adjust num dout vs)) as [xs|d]; [|reflexivity].
    unfold pop; cbn [l_stack l_mem].
    assert (E5 : dout <=? length (rev (adjust num dout vs) ++ st) = true).
    { apply Nat.leb_le. rewrite app_length, rev_length, adjust_length. lia. }
    rewrite E5. unfold ret. do 2 f_equal.
    rewrite skipn_app, skipn_all2 by (rewrite rev_length, adjust_length; lia).
    rewrite rev_length, adjust_length, Nat.sub_diag. reflexivity.
  - unfold raise, bind. rewrite (peek_ok 0 e) by reflexivity.
    destruct (to_text G num L e); reflexivity.
Qed.

Lemma get_table_ok table g st :
  length st < stack_slots ->
  get_table G num L table (mk g st) =
  match global g table with
  | Tab t => Done tt (mk g (Tab t :: st))
  | v => Thrown (NotATable table) (mk g (v :: st))
  end.
Proof.
  intros H. unfold get_table, bind. rewrite get_global_ok by assumption.
  rewrite (peek_ok 0 (global g table)) by reflexivity.
  destruct (global g table); reflexivity.
Qed.

Lemma get_field_ok m t g st :
  S (length st) < stack_slots ->
  get_field G num L m (mk g (Tab t :: st)) = Done tt (mk g (field g t m :: Tab t :: st)).
Proof. intros H. unfold get_field; cbn [l_stack l_mem]. now rewrite push_ok. Qed.

(** What every request does, in one equation each. *)
Definition method_outcome (name : string) (dout : nat) (st : list (value num))
  (r : G * (list (value num) + value num)) : outcome G num (list num) :=
  match r with
  | (g', inr e) =>
      match to_text G num L e with
      | Some m => Thrown (ScriptError name m) (mk g' (e :: st))
      | None => Undefined
      end
  | (g', inl vs) =>
      match scan 0 (adjust num dout vs) with
      | inl xs => Done xs (mk g' st)
      | inr d => Thrown (NotANumber name d) (mk g' (rev (adjust num dout vs) ++ st))
      end
  end.

Lemma get_function_eq dout name x g st :
  length st + Nat.max (1 + length x) dout <= stack_slots ->
  get_function G num L dout name x (mk g st) =
  method_outcome name dout st (call g (global g name) (map Num x)).
Proof.
  intros H. unfold get_function, bind. rewrite get_global_ok by lia.
  rewrite push_numbers_ok by (cbn [length]; lia).
  replace (length x) with (length (map (@Num num) x)) at 1 by apply map_length.
  rewrite call_and_read_ok by lia. reflexivity.
Qed.

Lemma member_function_eq dout table m x g st :
  length st + Nat.max (2 + length x) dout <= stack_slots ->
  member_function G num L dout table m x (mk g st) =
  match global g table with
  | Tab t => method_outcome (member_name table m) dout st
               (call g (field g t m) (Tab t :: map Num x))
  | v => Thrown (NotATable table) (mk g (v :: st))
  end.
Proof.
  intros H. unfold member_function, bind. rewrite get_table_ok by lia.
  destruct (global g table) as [| | | | |t|]; try reflexivity.
  rewrite get_field_ok by lia. unfold insert_second; cbn [l_stack l_mem].
  rewrite push_numbers_ok by (cbn [length]; lia).
  assert (E : rev (map Num x) ++ Tab t :: field g t m :: st =
              rev (Tab t :: map Num x) ++ field g t m :: st).
  { cbn [rev]. now rewrite <- app_assoc. }
  rewrite E.
  replace (1 + length x) with (length (Tab t :: map (@Num num) x))
    by (cbn [length]; now rewrite map_length).
  rewrite call_and_read_ok by lia. reflexivity.
Qed.

Lemma member_function_tagged_eq dout table m x tag g st :
  length st + Nat.max (3 + length x) dout <= stack_slots ->
  member_function_tagged G num L dout table m x tag (mk g st) =
  match global g table with
  | Tab t => method_outcome (member_name table m) dout st
               (call g (field g t m) (Tab t :: map Num x ++ [Int tag]))
  | v => Thrown (NotATable table) (mk g (v :: st))
  end.
Proof.
  intros H. unfold member_function_tagged, bind. rewrite get_table_ok by lia.
  destruct (global g table) as [| | | | |t|]; try reflexivity.
  rewrite get_field_ok by lia. unfold insert_second; cbn [l_stack l_mem].
  rewrite push_numbers_ok by (cbn [length]; lia).
  rewrite push_ok by (rewrite app_length, rev_length, map_length; cbn [length]; lia).
  assert (E : Int tag :: rev (map Num x) ++ Tab t :: field g t m :: st =
              rev (Tab t :: map Num x ++ [Int tag]) ++ field g t m :: st).
  { cbn [rev]. rewrite rev_app_distr. cbn [rev app]. now rewrite <- app_assoc. }
  rewrite E.
  replace (1 + length x + 1) with (length (Tab t :: map (@Num num) x ++ [Int tag]))
    by (cbn [length]; rewrite app_length, map_length; cbn [length]; lia).
  rewrite call_and_read_ok by lia. reflexivity.
Qed.

Lemma pop_two a b g st : pop G num 2 (mk g (a :: b :: st)) = Done tt (mk g st).
Proof. reflexivity. Qed.

Lemma has_member_eq table m g st :
  length st + 2 <= stack_slots ->
  has_member G num L table m (mk g st) =
  match global g table with
  | Tab t => Done (match field g t m with Nil => false | _ => true end) (mk g st)
  | v => Thrown (NotATable table) (mk g (v :: st))
  end.
Proof.
  intros H. unfold has_member, bind. rewrite get_table_ok by lia.
  destruct (global g table) as [| | | | |t|]; try reflexivity.
  rewrite get_field_ok by lia. rewrite (peek_ok 0 (field g t m)) by reflexivity.
  rewrite pop_two. reflexivity.
Qed.

Lemma member_constant_eq table m g st :
  length st + 2 <= stack_slots ->
  member_constant G num L table m (mk g st) =
  match global g table with
  | Tab t => if is_number G num L (field g t m)
             then Done (to_number G num L (field g t m)) (mk g st)
             else Thrown (NotANumber (member_name table m) 0) (mk g (field g t m :: Tab t :: st))
  | v => Thrown (NotATable table) (mk g (v :: st))
  end.
Proof.
  intros H. unfold member_constant, bind. rewrite get_table_ok by lia.
  destruct (global g table) as [| | | | |t|]; try reflexivity.
  rewrite get_field_ok by lia. rewrite (peek_ok 0 (field g t m)) by reflexivity.
  destruct (is_number G num L (field g t m)); [rewrite pop_two|]; reflexivity.
Qed.

Lemma method_outcome_done name dout st r xs s' :
  method_outcome name dout st r = Done xs s' <->
  exists g' vs, r = (g', inl vs) /\ first_results L dout vs xs /\ s' = mk g' st.
Proof.
  destruct r as [g' [vs|e]]; cbn [method_outcome]; split.
  - destruct (scan 0 (adjust num dout vs)) as [ys|d] eqn:E; [|discriminate].
    intros H; injection H as <- <-. exists g', vs. repeat split; auto; eapply scan_adjust_inl; eauto.
  - intros (g1 & vs1 & H & F & ->). injection H as <- <-.
    apply (scan_adjust_inl _ _ _ 0) in F. now rewrite F.
  - destruct (to_text G num L e); discriminate.
  - intros (g1 & vs1 & H & _). discriminate.
Qed.

Lemma method_outcome_undefined name dout st r :
  method_outcome name dout st r = Undefined <->
  exists g' e, r = (g', inr e) /\ to_text G num L e = None.
Proof.
  destruct r as [g' [vs|e]]; cbn [method_outcome]; split.
  - destruct (scan 0 (adjust num dout vs)); discriminate.
  - intros (? & ? & H & _). discriminate.
  - destruct (to_text G num L e) eqn:E; [discriminate|]. eauto.
  - intros (g1 & e1 & H & E). injection H as <- <-. now rewrite E.
Qed.

(** Every request is answered as the script says, and leaves the stack as it found it. *)
Lemma serve_answered r g st xs s' :
  room st r ->
  (serve G num L r (mk g st) = Done xs s' <->
   exists g', answered L r g xs g' /\ s' = mk g' st).
Proof.
  unfold room. intros H. destruct r as [dout name x|dout table m x|dout table m x tag|table m|table m];
    cbn [serve slots] in *.
  - rewrite get_function_eq by lia. rewrite method_outcome_done. split.
    + intros (g' & vs & C & F & ->). exists g'. split; [|reflexivity]. econstructor; eauto.
    + intros (g' & A & ->). inversion A; subst. exists g', vs. auto.
  - rewrite member_function_eq by lia. split.
    + destruct (global g table) as [| | | | |t|] eqn:E; try discriminate.
      rewrite method_outcome_done. intros (g' & vs & C & F & ->). exists g'. split; [|reflexivity].
      econstructor; [exists t; split; [exact E|exact C]|exact F].
    + intros (g' & A & ->). inversion A as [|? ? ? ? ? ? ? ? (t & E & C) F| | | |]; subst.
      rewrite E. apply method_outcome_done. eauto.
  - rewrite member_function_tagged_eq by lia. split.
    + destruct (global g table) as [| | | | |t|] eqn:E; try discriminate.
      rewrite method_outcome_done. intros (g' & vs & C & F & ->). exists g'. split; [|reflexivity].
      econstructor; [exists t; split; [exact E|exact C]|exact F].
    + intros (g' & A & ->). inversion A as [| |? ? ? ? ? ? ? ? ? (t & E & C) F| | |]; subst.
      rewrite E. apply method_outcome_done. eauto.
  - unfold bind. rewrite member_constant_eq by lia. split.
    + destruct (global g table) as [| | | | |t|] eqn:E; try discriminate.
      destruct (is_number G num L (field g t m)) eqn:N; [|discriminate].
      unfold ret. intros K; injection K as <- <-. exists g. split; [|reflexivity].
      econstructor; [exact E|]. now apply numeric_to_number.
    + intros (g' & A & ->). inversion A as [| | |? ? ? t c E N| |]; subst. rewrite E.
      assert (B : is_number G num L (field g' t m) = true) by (apply is_number_numeric; eauto).
      rewrite B. unfold ret. now rewrite (to_number_numeric _ _ N).
  - unfold bind. rewrite has_member_eq by lia. split.
    + destruct (global g table) as [| | | | |t|] eqn:E; try discriminate.
      unfold ret. intros K; injection K as <- <-. exists g. split; [|reflexivity].
      destruct (field g t m) eqn:N; try (eapply answered_has; [exact E|congruence]).
      eapply answered_has_not; eauto.
    + intros (g' & A & ->). inversion A as [| | | |? ? ? t E N|? ? ? t E N]; subst; rewrite E.
      * destruct (field g' t m) eqn:F; try reflexivity. congruence.
      * rewrite N. reflexivity.
Qed.

Lemma serve_defined r g st :
  raises_text L -> room st r -> serve G num L r (mk g st) <> Undefined.
Proof.
  unfold room. intros HR H C.
  destruct r as [dout name x|dout table m x|dout table m x tag|table m|table m];
    cbn [serve slots] in *.
  - rewrite get_function_eq in C by lia. apply method_outcome_undefined in C.
    destruct C as (g' & e & K & T). now apply (HR _ _ _ _ _ K).
  - rewrite member_function_eq in C by lia. destruct (global g table); try discriminate.
    apply method_outcome_undefined in C. destruct C as (g' & e & K & T). now apply (HR _ _ _ _ _ K).
  - rewrite member_function_tagged_eq in C by lia. destruct (global g table); try discriminate.
    apply method_outcome_undefined in C. destruct C as (g' & e & K & T). now apply (HR _ _ _ _ _ K).
  - unfold bind in C. rewrite member_constant_eq in C by lia.
    destruct (global g table); try discriminate.
    destruct (is_number G num L (field g t m)); discriminate.
  - unfold bind in C. rewrite has_member_eq in C by lia.
    destruct (global g table); discriminate.
Qed.

Lemma serve_all_answered rs : forall g st xss s',
  Forall (room st) rs ->
  (serve_all G num L rs (mk g st) = Done xss s' <->
   exists g', answered_all L rs g xss g' /\ s' = mk g' st).
Proof.
  induction rs as [|r rs IH]; intros g st xss s' H; cbn [serve_all].
  - unfold ret. split.
    + intros K; injection K as <- <-. exists g. split; [constructor|reflexivity].
    + intros (g' & A & ->). inversion A; subst. reflexivity.
  - inversion H as [|? ? Hr Hrs]; subst. unfold bind. split.
    + destruct (serve G num L r (mk g st)) as [a s1| |] eqn:E; try discriminate.
      apply serve_answered in E; [|assumption]. destruct E as (g1 & A & ->).
      destruct (serve_all G num L rs (mk g1 st)) as [l s2| |] eqn:F; try discriminate.
      unfold ret. intros K; injection K as <- <-.
      apply IH in F; [|assumption]. destruct F as (g2 & B & ->).
      exists g2. split; [econstructor; eauto|reflexivity].
    + intros (g' & A & ->). inversion A as [|? ? ? xs g1 yss g2 A1 A2]; subst.
      assert (E : serve G num L r (mk g st) = Done xs (mk g1 st)).
      { apply serve_answered; [assumption|]. eauto. }
      rewrite E.
      assert (F : serve_all G num L rs (mk g1 st) = Done yss (mk g' st)).
      { apply IH; [assumption|]. eauto. }
      rewrite F. reflexivity.
Qed.

Lemma serve_all_defined rs : forall g st,
  raises_text L -> Forall (room st) rs -> serve_all G num L rs (mk g st) <> Undefined.
Proof.
  induction rs as [|r rs IH]; intros g st HR H; cbn [serve_all]; [discriminate|].
  inversion H as [|? ? Hr Hrs]; subst. unfold bind.
  destruct (serve G num L r (mk g st)) as [a s1| |] eqn:E; [|discriminate|].
  - apply serve_answered in E; [|assumption]. destruct E as (g1 & _ & ->).
    specialize (IH g1 st HR Hrs).
    destruct (serve_all G num L rs (mk g1 st)); [discriminate|discriminate|contradiction].
  - now apply serve_defined in E.
Qed.

Lemma answered_pure r g xs g' : pure_script L -> answered L r g xs g' -> g' = g.
Proof.
  intros P A. inversion A; subst; auto.
  - assert (K := P g (global g name) (map Num x)). rewrite H in K. auto.
  - destruct H as (t & E & C). assert (K := P g (field g t m) (Tab t :: map Num x)).
    rewrite C in K. auto.
  - destruct H as (t & E & C). assert (K := P g (field g t m) (Tab t :: map Num x ++ [Int tag])).
    rewrite C in K. auto.
Qed.

Lemma answered_all_pure rs : forall g xss g',
  pure_script L -> answered_all L rs g xss g' ->
  g' = g /\ Forall2 (fun r xs => answered L r g xs g) rs xss.
Proof.
  intros g xss g' P A. induction A as [g|r rs g xs g1 xss g2 A1 A2 IH].
  - split; [reflexivity|constructor].
  - assert (g1 = g) by (eapply answered_pure; eauto). subst g1. destruct IH as [-> F].
    split; [reflexivity|constructor; assumption].
Qed.

(** ** Loading and the scenarios *)

Lemma load_file_done dir file g0 st s' :
  length st + 2 <= stack_slots ->
  (load_file G num L dir file (mk g0 st) = Done tt s' <->
   exists g, file_loaded L g0 dir file g /\ s' = mk g st).
Proof.
  intros H. unfold load_file, bind. rewrite get_global_ok by lia.
  unfold file_loaded. split.
  - destruct (global g0 "package") as [| | | | |p|] eqn:EP; try discriminate.
    rewrite get_field_ok by lia. rewrite (peek_ok 0 (field g0 p "path")) by reflexivity.
    destruct (to_text G num L (field g0 p "path")) as [old|] eqn:ET; [|discriminate].
    unfold pop; cbn [l_stack l_mem length Nat.leb skipn]. rewrite push_ok by (cbn [length]; lia).
    cbn [l_stack l_mem length Nat.leb skipn].
    match goal with |- context [i_file G num L ?gg file] =>
      destruct (i_file G num L gg file) as [g err] eqn:EF end.
    destruct err as [e|]; cbn [report].
    + unfold bind. rewrite push_ok by lia. rewrite (peek_ok 0 e) by reflexivity.
      destruct (to_text G num L e) eqn:EE; [|discriminate].
      intros K; injection K as <-. exists g. split; [|reflexivity].
      exists p, old, (Some e). repeat split; auto. right. exists e. split; congruence.
    + unfold ret. intros K; injection K as <-. exists g. split; [|reflexivity].
      exists p, old, None. repeat split; auto.
  - intros (g & (p & old & err & EP & ET & EF & HE) & ->).
    rewrite EP. rewrite get_field_ok by lia. rewrite (peek_ok 0 (field g0 p "path")) by reflexivity.
    rewrite ET. unfold pop; cbn [l_stack l_mem length Nat.leb skipn].
    rewrite push_ok by (cbn [length]; lia). cbn [l_stack l_mem length Nat.leb skipn].
    unfold search_path in EF.
    match goal with |- context [i_file G num L ?gg file] =>
      change (i_file G num L gg file) with
        (i_file G num L (i_set G num L g0 p "path"
          (Str (old ++ ";" ++ dir ++ "/?.lua;" ++ dir ++ "/?/init.lua")%string)) file) end.
    rewrite EF. destruct err as [e|]; cbn [report]; [|reflexivity].
    destruct HE as [|(e' & K & HT)]; [discriminate|]. injection K as <-.
    unfold bind. rewrite push_ok by lia. rewrite (peek_ok 0 e) by reflexivity.
    destruct (to_text G num L e); [reflexivity|congruence].
Qed.

Lemma when_member_ok {A} table m (f d : A) g t :
  global g table = Tab t ->
  when_member G num L table m f d (mk g []) =
  Done (match field g t m with Nil => d | _ => f end) (mk g []).
Proof.
  intros E. unfold when_member, bind. rewrite has_member_eq by (apply Nat.leb_le; reflexivity). rewrite E.
  unfold ret. destruct (field g t m); reflexivity.
Qed.

Lemma when_member_fails {A} table m (f d : A) g :
  (forall t, global g table <> Tab t) ->
  when_member G num L table m f d (mk g []) = Thrown (NotATable table) (mk g [global g table]).
Proof.
  intros E. unfold when_member, bind. rewrite has_member_eq by (apply Nat.leb_le; reflexivity).
  destruct (global g table) as [| | | | |t|]; try reflexivity. now destruct (E t).
Qed.

Lemma member_function_is_method dout table m :
  is_method L (member_function G num L dout table m) dout table m.
Proof. intros x g st xs s' H. apply (serve_answered (AskMember num dout table m x)), H. Qed.

Lemma member_function_tagged_is_method dout table m :
  is_tagged_method L (member_function_tagged G num L dout table m) dout table m.
Proof. intros x tag g st xs s' H. apply (serve_answered (AskTagged num dout table m x tag)), H. Qed.

Lemma member_or_match {A} g t m (f d : A) (P Q : A -> Prop) :
  P f -> Q d ->
  member_or L g t m (P (match field g t m with Nil => d | _ => f end))
                    (Q (match field g t m with Nil => d | _ => f end)).
Proof.
  intros Hf Hd. split; intros H.
  - destruct (field g t m) eqn:E; [congruence|assumption..].
  - now rewrite H.
Qed.

Lemma optional_method_match g t table m dout :
  optional_method L g t
    (match field g t m with Nil => None | _ => Some (member_function G num L dout table m) end)
    dout table m.
Proof.
  split; intros H.
  - exists (member_function G num L dout table m).
    split; [destruct (field g t m); try reflexivity; now destruct H|apply member_function_is_method].
  - now rewrite H.
Qed.

Lemma bind_done {A B} (m : script G num A) (k : A -> script G num B) s b s2 :
  bind G num m k s = Done b s2 ->
  exists a s1, m s = Done a s1 /\ k a s1 = Done b s2.
Proof. unfold bind. destruct (m s) as [a s1| |]; try discriminate. eauto. Qed.

Lemma load_then {A} dir file g0 (k : script G num A) a s' :
  bind G num (load_file G num L dir file) (fun _ => k) (mk g0 []) = Done a s' ->
  exists g, file_loaded L g0 dir file g /\ k (mk g []) = Done a s'.
Proof.
  intros H. apply bind_done in H. destruct H as ([] & s1 & H & K).
  apply load_file_done in H; [|apply Nat.leb_le; reflexivity]. destruct H as (g & F & ->). eauto.
Qed.

Lemma then_load {A} dir file g0 g (k : script G num A) :
  file_loaded L g0 dir file g ->
  bind G num (load_file G num L dir file) (fun _ => k) (mk g0 []) = k (mk g []).
Proof.
  intros H. unfold bind.
  assert (E : load_file G num L dir file (mk g0 []) = Done tt (mk g [])).
  { apply load_file_done; [apply Nat.leb_le; reflexivity|]. eauto. }
  now rewrite E.
Qed.

Lemma when_member_table {A B} table m (f d : A) (k : A -> script G num B) g b s' :
  bind G num (when_member G num L table m f d) k (mk g []) = Done b s' ->
  exists t, global g table = Tab t.
Proof.
  intros H. apply bind_done in H. destruct H as (a & s1 & H & _).
  destruct (global g table) as [| | | | |t|] eqn:E; [..|eauto|];
    rewrite when_member_fails in H by congruence; discriminate.
Qed.

Lemma when_member_step {A B} table m (f d : A) (k : A -> script G num B) g t :
  global g table = Tab t ->
  bind G num (when_member G num L table m f d) k (mk g []) =
  k (match field g t m with Nil => d | _ => f end) (mk g []).
Proof. intros E. unfold bind at 1. now rewrite (when_member_ok _ _ _ _ _ t). Qed.

Lemma constant_step {B} table m (k : num -> script G num B) g t :
  global g table = Tab t ->
  bind G num (member_constant G num L table m) k (mk g []) =
  if is_number G num L (field g t m) then k (to_number G num L (field g t m)) (mk g [])
  else Thrown (NotANumber (member_name table m) 0) (mk g [field g t m; Tab t]).
Proof.
  intros E. unfold bind. rewrite member_constant_eq by (apply Nat.leb_le; reflexivity). rewrite E.
  destruct (is_number G num L (field g t m)); reflexivity.
Qed.

Lemma seas_reads_ok dim q table g t :
  global g table = Tab t ->
  exists sc, seas_reads L dim q table g t sc /\
  forall dir file g0, file_loaded L g0 dir file g ->
    seas_of_script G num L dim q dir file table (mk g0 []) = Done sc (mk g []).
Proof.
  intros E. eexists. split; cycle 1.
  - intros dir file g0 F. unfold seas_of_script. rewrite (then_load _ _ _ _ _ F).
    rewrite !(when_member_step _ _ _ _ _ _ t) by assumption. unfold ret. reflexivity.
  - unfold seas_reads. cbn [ss_warp ss_mu ss_lam ss_rho ss_boundary ss_solution ss_displacement
      ss_velocity]. repeat match goal with |- _ /\ _ => split end;
      try apply optional_method_match.
    + apply (member_or_match g t "warp" _ _
        (fun f => is_method L f dim table "warp") (fun f => forall x s, f x s = Done x s));
        [apply member_function_is_method|reflexivity].
    + apply (member_or_match g t "mu" _ _ (fun f => is_tagged_method L f 1 table "mu")
        (fun f => is_tagged_constant f _));
        [apply member_function_tagged_is_method|intros x tag s; reflexivity].
    + apply (member_or_match g t "lam" _ _ (fun f => is_tagged_method L f 1 table "lam")
        (fun f => is_tagged_constant f _));
        [apply member_function_tagged_is_method|intros x tag s; reflexivity].
    + apply (member_or_match g t "rho" _ _
        (fun r => exists f, r = Some f /\ is_tagged_method L f 1 table "rho") (fun r => r = None));
        [|reflexivity]. eexists. split; [reflexivity|apply member_function_tagged_is_method].
Qed.

Lemma friction_reads_ok tc q table g t :
  global g table = Tab t ->
  (exists v, numeric L (field g t "V0") v) ->
  (exists v, numeric L (field g t "b") v) ->
  (exists v, numeric L (field g t "f0") v) ->
  exists sc, friction_reads L tc q table g t sc /\
  forall dir file g0, file_loaded L g0 dir file g ->
    friction_of_script G num L tc q dir file table (mk g0 []) = Done sc (mk g []).
Proof.
  intros E N1 N2 N3. apply is_number_numeric in N1, N2, N3. eexists. split; cycle 1.
  - intros dir file g0 F. unfold friction_of_script. rewrite (then_load _ _ _ _ _ F).
    rewrite !(when_member_step _ _ _ _ _ _ t) by assumption.
    rewrite (constant_step _ _ _ _ t) by assumption. rewrite N1.
    rewrite (constant_step _ _ _ _ t) by assumption. rewrite N2.
    rewrite (constant_step _ _ _ _ t) by assumption. rewrite N3.
    rewrite !(when_member_step _ _ _ _ _ _ t) by assumption. unfold ret. reflexivity.
  - unfold friction_reads. cbn [fs_V0 fs_b fs_f0 fs_a fs_eta fs_L fs_Vinit fs_sn_pre fs_tau_pre
      fs_Sinit fs_source fs_delta_tau fs_delta_sn fs_solution].
    repeat match goal with |- _ /\ _ => split end;
      try apply optional_method_match; try apply member_function_is_method;
      try (apply numeric_to_number; assumption).
    + apply (member_or_match g t "sn_pre" _ _ (fun f => is_method L f 1 table "sn_pre")
        (fun f => is_constant f _)); [apply member_function_is_method|intros x s; reflexivity].
    + apply (member_or_match g t "tau_pre" _ _ (fun f => is_method L f tc table "tau_pre")
        (fun f => is_constant f _)); [apply member_function_is_method|intros x s; reflexivity].
    + apply (member_or_match g t "Sinit" _ _ (fun f => is_method L f tc table "Sinit")
        (fun f => is_constant f _)); [apply member_function_is_method|intros x s; reflexivity].
Qed.

Lemma static_reads_ok dim q table g t :
  global g table = Tab t ->
  exists sc, static_reads L dim q table g t sc /\
  forall dir file g0, file_loaded L g0 dir file g ->
    static_of_script G num L dim q dir file table (mk g0 []) = Done sc (mk g []).
Proof.
  intros E. eexists. split; cycle 1.
  - intros dir file g0 F. unfold static_of_script. rewrite (then_load _ _ _ _ _ F).
    rewrite !(when_member_step _ _ _ _ _ _ t) by assumption. unfold ret. reflexivity.
  - unfold static_reads. cbn [st_warp st_mu st_lam st_force st_boundary st_slip st_solution
      st_jacobian]. repeat match goal with |- _ /\ _ => split end;
      try apply optional_method_match.
    + apply (member_or_match g t "warp" _ _
        (fun f => is_method L f dim table "warp") (fun f => forall x s, f x s = Done x s));
        [apply member_function_is_method|reflexivity].
    + apply (member_or_match g t "mu" _ _ (fun f => is_tagged_method L f 1 table "mu")
        (fun f => is_tagged_constant f _));
        [apply member_function_tagged_is_method|intros x tag s; reflexivity].
    + apply (member_or_match g t "lam" _ _ (fun f => is_tagged_method L f 1 table "lam")
        (fun f => is_tagged_constant f _));
        [apply member_function_tagged_is_method|intros x tag s; reflexivity].
Qed.

(** What has to hold of the script for a constructor to succeed. *)
Lemma seas_of_script_needs dim q dir file table g0 sc s' :
  seas_of_script G num L dim q dir file table (mk g0 []) = Done sc s' ->
  exists g t, file_loaded L g0 dir file g /\ global g table = Tab t.
Proof.
  intros H. apply load_then in H. destruct H as (g & F & H). apply when_member_table in H.
  destruct H as (t & E). eauto.
Qed.

Lemma static_of_script_needs dim q dir file table g0 sc s' :
  static_of_script G num L dim q dir file table (mk g0 []) = Done sc s' ->
  exists g t, file_loaded L g0 dir file g /\ global g table = Tab t.
Proof.
  intros H. apply load_then in H. destruct H as (g & F & H). apply when_member_table in H.
  destruct H as (t & E). eauto.
Qed.

Lemma friction_of_script_needs tc q dir file table g0 sc s' :
  friction_of_script G num L tc q dir file table (mk g0 []) = Done sc s' ->
  exists g t, file_loaded L g0 dir file g /\ global g table = Tab t /\
    (exists v, numeric L (field g t "V0") v) /\ (exists v, numeric L (field g t "b") v) /\
    (exists v, numeric L (field g t "f0") v).
Proof.
  intros H. apply load_then in H. destruct H as (g & F & H).
  destruct (when_member_table _ _ _ _ _ _ _ _ H) as (t & E). exists g, t.
  split; [assumption|]. split; [assumption|].
  rewrite !(when_member_step _ _ _ _ _ _ t) in H by assumption.
  rewrite (constant_step _ _ _ _ t) in H by assumption.
  destruct (is_number G num L (field g t "V0")) eqn:N1; [|discriminate].
  rewrite (constant_step _ _ _ _ t) in H by assumption.
  destruct (is_number G num L (field g t "b")) eqn:N2; [|discriminate].
  rewrite (constant_step _ _ _ _ t) in H by assumption.
  destruct (is_number G num L (field g t "f0")) eqn:N3; [|discriminate].
  apply is_number_numeric in N1, N2, N3. auto.
Qed.

Lemma answered_one dout table m x g xs g' :
  answered L (AskMember num dout table m x) g xs g' -> length xs = dout.
Proof.
  intros A. inversion A as [|? ? ? ? ? vs ? ? M F| | | |]; subst. destruct F as [Hl F].
  assert (K : forall l ys, Forall2 (numeric L) l ys -> length l = length ys).
  { intros l ys HF. induction HF; cbn; congruence. }
  apply K in F. rewrite <- F, firstn_length. lia.
Qed.

Lemma first_one xs : length xs = 1 -> xs = [first G num L xs].
Proof. destruct xs as [|x [|]]; cbn; intros H; congruence. Qed.

Lemma gives_ok g0 t table m dout default (f : functional G num) x g xs s' :
  room [] (AskMember num dout table m x) ->
  member_or L g0 t m (is_method L f dout table m) (is_constant f default) ->
  (f x (mk g []) = Done xs s' <->
   exists g', gives L g0 t table m dout default x g xs g' /\ s' = mk g' []).
Proof.
  intros R [HP HA]. unfold gives, member_or. destruct (field g0 t m) eqn:E.
  - rewrite (HA eq_refl). split.
    + intros K; injection K as <- <-. exists g. repeat split; congruence.
    + intros (g' & [_ K] & ->). destruct (K eq_refl) as [-> ->]. reflexivity.
  - rewrite (HP ltac:(discriminate) x g [] xs s' R). split; intros (g' & K & ->); exists g';
      (split; [|reflexivity]); [split; [auto|discriminate]|apply K; discriminate].
  - rewrite (HP ltac:(discriminate) x g [] xs s' R). split; intros (g' & K & ->); exists g';
      (split; [|reflexivity]); [split; [auto|discriminate]|apply K; discriminate].
  - rewrite (HP ltac:(discriminate) x g [] xs s' R). split; intros (g' & K & ->); exists g';
      (split; [|reflexivity]); [split; [auto|discriminate]|apply K; discriminate].
  - rewrite (HP ltac:(discriminate) x g [] xs s' R). split; intros (g' & K & ->); exists g';
      (split; [|reflexivity]); [split; [auto|discriminate]|apply K; discriminate].
  - rewrite (HP ltac:(discriminate) x g [] xs s' R). split; intros (g' & K & ->); exists g';
      (split; [|reflexivity]); [split; [auto|discriminate]|apply K; discriminate].
  - rewrite (HP ltac:(discriminate) x g [] xs s' R). split; intros (g' & K & ->); exists g';
      (split; [|reflexivity]); [split; [auto|discriminate]|apply K; discriminate].
Qed.

Lemma gives_one g0 t table m d x g xs g' :
  gives L g0 t table m 1 [d] x g xs g' -> length xs = 1.
Proof.
  intros [HP HA]. destruct (field g0 t m) eqn:E.
  - destruct (HA eq_refl) as [-> _]. reflexivity.
  - eapply answered_one, HP; discriminate.
  - eapply answered_one, HP; discriminate.
  - eapply answered_one, HP; discriminate.
  - eapply answered_one, HP; discriminate.
  - eapply answered_one, HP; discriminate.
  - eapply answered_one, HP; discriminate.
Qed.

Lemma param_fun_ok tc q table g0 t sc x g p s' :
  friction_reads L tc q table g0 t sc ->
  2 + length x <= stack_slots -> tc <= stack_slots ->
  (param_fun G num L sc x (mk g []) = Done p s' <->
   exists g', params_at L g0 t tc table x g p g' /\ s' = mk g' []).
Proof.
  intros (_ & _ & _ & Ha & He & Hl & Hv & Hsn & Htau & Hsi & _) Hx Htc.
  assert (R1 : forall m, room [] (AskMember num 1 table m x)).
  { intros m. unfold room, stack_slots in *; cbn [length slots Nat.add] in *. lia. }
  assert (R2 : forall m, room [] (AskMember num tc table m x)).
  { intros m. unfold room, stack_slots in *; cbn [length slots Nat.add] in *. lia. }
  unfold params_at, param_fun. split.
  - intros H.
    apply bind_done in H. destruct H as (a & s1 & K1 & H).
    apply Ha in K1; [|apply R1]. destruct K1 as (g1 & A1 & ->).
    apply bind_done in H. destruct H as (e & s2 & K2 & H).
    apply He in K2; [|apply R1]. destruct K2 as (g2 & A2 & ->).
    apply bind_done in H. destruct H as (l & s3 & K3 & H).
    apply Hl in K3; [|apply R1]. destruct K3 as (g3 & A3 & ->).
    apply bind_done in H. destruct H as (sn & s4 & K4 & H).
    apply (gives_ok _ _ _ _ _ _ _ _ _ _ _ (R1 _) Hsn) in K4. destruct K4 as (g4 & A4 & ->).
    apply bind_done in H. destruct H as (tau & s5 & K5 & H).
    apply (gives_ok _ _ _ _ _ _ _ _ _ _ _ (R2 _) Htau) in K5. destruct K5 as (g5 & A5 & ->).
    apply bind_done in H. destruct H as (vi & s6 & K6 & H).
    apply Hv in K6; [|apply R2]. destruct K6 as (g6 & A6 & ->).
    apply bind_done in H. destruct H as (si & s7 & K7 & H).
    apply (gives_ok _ _ _ _ _ _ _ _ _ _ _ (R2 _) Hsi) in K7. destruct K7 as (g7 & A7 & ->).
    unfold ret in H. injection H as <- <-. exists g7. split; [|reflexivity].
    exists g1, g2, g3, g4, g5, g6.
    cbn [fp_a fp_eta fp_L fp_sn_pre fp_tau_pre fp_Vinit fp_Sinit].
    rewrite <- (first_one a) by (eapply answered_one; eauto).
    rewrite <- (first_one e) by (eapply answered_one; eauto).
    rewrite <- (first_one l) by (eapply answered_one; eauto).
    rewrite <- (first_one sn) by (eapply gives_one; eauto).
    exact (conj A1 (conj A2 (conj A3 (conj A4 (conj A5 (conj A6 A7)))))).
  - intros (g' & (g1 & g2 & g3 & g4 & g5 & g6 & A1 & A2 & A3 & A4 & A5 & A6 & A7) & ->).
    unfold bind.
    assert (K1 := proj2 (Ha x g [] _ _ (R1 _)) (ex_intro _ g1 (conj A1 eq_refl))). rewrite K1.
    assert (K2 := proj2 (He x g1 [] _ _ (R1 _)) (ex_intro _ g2 (conj A2 eq_refl))). rewrite K2.
    assert (K3 := proj2 (Hl x g2 [] _ _ (R1 _)) (ex_intro _ g3 (conj A3 eq_refl))). rewrite K3.
    assert (K4 := proj2 (gives_ok _ _ _ _ _ _ _ _ _ _ _ (R1 _) Hsn)
                    (ex_intro _ g4 (conj A4 eq_refl))). rewrite K4.
    assert (K5 := proj2 (gives_ok _ _ _ _ _ _ _ _ _ _ _ (R2 _) Htau)
                    (ex_intro _ g5 (conj A5 eq_refl))). rewrite K5.
    assert (K6 := proj2 (Hv x g5 [] _ _ (R2 _)) (ex_intro _ g6 (conj A6 eq_refl))). rewrite K6.
    assert (K7 := proj2 (gives_ok _ _ _ _ _ _ _ _ _ _ _ (R2 _) Hsi)
                    (ex_intro _ g' (conj A7 eq_refl))). rewrite K7.
    unfold ret, first. cbn [nth]. destruct p; reflexivity.
Qed.

Lemma optional_at_time f time dout table m :
  is_method L f dout table m -> is_method_at L (at_time G num f time) time dout table m.
Proof. intros H x g st xs s' R. unfold at_time. now apply H. Qed.

End Proofs.
