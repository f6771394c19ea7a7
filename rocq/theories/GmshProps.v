(** C14: reading Gmsh files. *)
Require Import ZArith Bool Ascii String List Lia.
Require Import Verif.GmshModel Verif.GmshSpec Verif.GmshLexProofs Verif.GmshParseProofs.
Import ListNotations.
Local Open Scope list_scope.
Local Open Scope Z_scope.

Section Props.
  Variable num : Type.
  Variable of_int : Z -> num.
  Variable strtod : text -> num.
  Variable version_ok : num -> bool.
  Notation P := (P num).
  Notation pstate := (pstate num).
  Notation call := (call num).
  Notation parse := (parse num of_int strtod version_ok).
  Notation value := (value num of_int strtod).
  Notation sections := (sections num of_int strtod).

  (** ** What holds after any of the functions, whether it succeeds or not *)
  Definition inv {A} (consumes : bool) (m : P A) (Q : A -> list call -> Prop) (E : list call -> Prop) : Prop :=
    forall s, match m s with
    | Ret a s' => errors s' = errors s /\ (exists cs, calls s' = calls s ++ cs /\ Q a cs) /\
        (exists ts, lexes (lx s) ts (lx s') /\ cur s' = last ts (cur s) /\ (consumes = true -> ts <> []))
    | Err s' => (exists e, errors s' = errors s ++ [e]) /\ (exists cs, calls s' = calls s ++ cs /\ E cs) /\
        (exists ts, lexes (lx s) ts (lx s') /\ cur s' = last ts (cur s) /\ (consumes = true -> ts <> []))
    | _ => True
    end.

  Lemma inv_bind : forall A B b b' (m : P A) (f : A -> P B) (Q1 : A -> list call -> Prop) (E1 : list call -> Prop) (Q : B -> list call -> Prop) (E : list call -> Prop),
    inv b m Q1 E1 ->
    (forall a cs1, Q1 a cs1 -> inv b' (f a) (fun x cs2 => Q x (cs1 ++ cs2)) (fun cs2 => E (cs1 ++ cs2))) ->
    (forall cs, E1 cs -> E cs) -> inv b (bind num m f) Q E.
  Proof.
    intros A B b b' m f Q1 E1 Q E Hm Hf HE s. unfold bind. specialize (Hm s).
    destruct (m s) as [a s1|s1| | |]; auto.
    - destruct Hm as (A1 & (cs1 & A2 & A3) & (ts1 & A4 & A5 & A6)). specialize (Hf a cs1 A3 s1).
      assert (Hseq : forall s2 : pstate, (exists ts, lexes (lx s1) ts (lx s2) /\ cur s2 = last ts (cur s1) /\ (b' = true -> ts <> [])) ->
                exists ts, lexes (lx s) ts (lx s2) /\ cur s2 = last ts (cur s) /\ (b = true -> ts <> [])).
      { intros s2 (ts2 & B4 & B5 & _). exists (ts1 ++ ts2). split; [apply lexes_app; eauto|].
        split; [rewrite last_app; congruence|]. intros Hb H. apply app_eq_nil in H as [H _]. apply A6; auto. }
      destruct (f a s1) as [x s2|s2| | |]; auto.
      + destruct Hf as (B1 & (cs2 & B2 & B3) & B4). split; [congruence|]. split; [|auto].
        exists (cs1 ++ cs2). split; auto. rewrite B2, A2, app_assoc; auto.
      + destruct Hf as ((e & B1) & (cs2 & B2 & B3) & B4). split; [exists e; congruence|]. split; [|auto].
        exists (cs1 ++ cs2). split; auto. rewrite B2, A2, app_assoc; auto.
    - destruct Hm as (A1 & (cs & A2 & A3) & A4). split; [auto|]. split; [|auto]. exists cs; auto.
  Qed.
  Lemma inv_weaken : forall A b (m : P A) (Q : A -> list call -> Prop) (E : list call -> Prop) (Q' : A -> list call -> Prop) (E' : list call -> Prop), inv b m Q E ->
    (forall a cs, Q a cs -> Q' a cs) -> (forall cs, E cs -> E' cs) -> inv b m Q' E'.
  Proof.
    intros A b m Q E Q' E' H HQ HE s. specialize (H s). destruct (m s); auto.
    - destruct H as (H1 & (cs & H2 & H3) & H4). split; [auto|]. split; [|auto]. exists cs; auto.
    - destruct H as (H1 & (cs & H2 & H3) & H4). split; [auto|]. split; [|auto]. exists cs; auto.
  Qed.
  Lemma inv_ret : forall A (x : A), inv false (ret num x) (fun a cs => a = x /\ cs = []) (fun _ => False).
  Proof.
    intros A x s. cbn. split; auto. split; [exists []; rewrite app_nil_r; auto|]. exists []. cbn. repeat split. discriminate.
  Qed.
  Lemma inv_emit : forall c, inv false (emit num c) (fun _ cs => cs = [c]) (fun _ => False).
  Proof. intros c s. cbn. split; auto. split; [exists [c]; auto|]. exists []. cbn. repeat split. discriminate. Qed.
  Lemma inv_next : inv true (next num) (fun _ cs => cs = []) (fun _ => False).
  Proof.
    intros s. unfold next. destruct (getToken (lx s)) as [t l| |] eqn:E; auto. cbn.
    split; auto. split; [exists []; rewrite app_nil_r; auto|]. exists [t]. cbn. repeat split; [eauto|discriminate].
  Qed.
  Lemma inv_test : forall A (f : P A) (ok : A -> Prop),
    (forall s, match f s with Ret a s' => s' = s /\ ok a | Err s' => exists e, s' = {| cur := cur s; lx := lx s; calls := calls s; errors := errors s ++ [e] |} | _ => True end) ->
    inv true (bind num (next num) (fun _ => f)) (fun a cs => ok a /\ cs = []) (fun cs => cs = []).
  Proof.
    intros A f ok Hf. apply inv_bind with (b' := false) (Q1 := fun _ cs => cs = []) (E1 := fun _ => False); [apply inv_next| |intros ? []].
    intros a cs1 ->. intros s. specialize (Hf s). destruct (f s) as [x s'|s'| | |]; auto.
    - destruct Hf as [-> Ho]. split; auto. split; [exists []; rewrite app_nil_r; auto|]. exists []. cbn. repeat split. discriminate.
    - destruct Hf as (e & ->). cbn. split; [exists e; auto|]. split; [exists []; rewrite app_nil_r; auto|].
      exists []. cbn. repeat split. discriminate.
  Qed.
  Lemma inv_integer : forall ok e, inv true (read_integer num ok e) (fun a cs => ok a = true /\ cs = []) (fun cs => cs = []).
  Proof.
    intros ok e. apply inv_test with (ok := fun a => ok a = true). intros s.
    destruct (cur s) eqn:Ec; try (eexists; unfold fail; rewrite Ec; reflexivity).
    destruct (ok n) eqn:E; [auto|]. eexists; unfold fail; rewrite Ec; reflexivity.
  Qed.
  Lemma inv_number : forall e, inv true (read_number num of_int strtod e) (fun a cs => True /\ cs = []) (fun cs => cs = []).
  Proof.
    intros e. apply inv_test with (ok := fun _ => True). intros s.
    destruct (cur s) eqn:Ec; try (eexists; unfold fail; rewrite Ec; reflexivity); auto.
  Qed.
  Lemma inv_expect : forall p e, inv true (read_expect num p e) (fun a cs => True /\ cs = []) (fun cs => cs = []).
  Proof.
    intros p e. apply inv_test with (ok := fun _ => True). intros s. unfold expect.
    destruct (p (cur s)); auto. exists e. reflexivity.
  Qed.
  Lemma inv_repeat : forall A b (f : P A) (R : A -> Prop) (Q : call -> Prop),
    inv b f (fun a cs => R a /\ Forall Q cs) (Forall Q) ->
    forall n, inv false (repeatP num n f) (fun l cs => Forall R l /\ List.length l = n /\ Forall Q cs) (Forall Q).
  Proof.
    intros A b f R Q Hf.
    assert (Hf' : inv false f (fun a cs => R a /\ Forall Q cs) (Forall Q)).
    { intros s. specialize (Hf s). destruct (f s); auto; destruct Hf as (H1 & H2 & (ts & H3 & H4 & H5)); split; auto; split; auto;
        exists ts; repeat split; auto; discriminate. }
    induction n as [|n IH]; cbn [repeatP].
    - eapply inv_weaken; [apply inv_ret|intros a cs [-> ->]; auto|intros cs []].
    - eapply inv_bind; [exact Hf'| |auto]. intros a cs1 [Ha Hc1].
      eapply inv_bind; [exact IH| |intros cs2 H; apply Forall_app; auto].
      intros l cs2 (Hl & Hn & Hc2). eapply inv_weaken; [apply inv_ret| |intros cs []].
      intros x cs [-> ->]. rewrite app_nil_r. repeat split; auto; [cbn; congruence|apply Forall_app; auto].
  Qed.

  (** ** Safety for any input *)
  Definition vertex_ok (n : Z) (c : call) : Prop :=
    match c with SetVertex id x => 0 <= id < n /\ List.length x = 3%nat | _ => False end.
  Definition element_ok (c : call) : Prop :=
    match c with
    | AddElement type tag nodes => 1 <= type <= 128 /\
        List.length nodes = nth (Z.to_nat (type - 1)) NumNodes 0%nat /\ Forall (fun k => 0 <= k) nodes
    | _ => False
    end.
  Lemma vertices_safe : forall n cs, Forall (vertex_ok n) cs -> calls_safe num n cs.
  Proof. induction 1 as [|c cs Hc _ IH]; cbn; auto. destruct c; cbn in *; tauto. Qed.
  Lemma elements_safe : forall n cs, Forall element_ok cs -> calls_safe num n cs.
  Proof. induction 1 as [|c cs Hc _ IH]; cbn; auto. destruct c; cbn in *; tauto. Qed.
  Definition any_safe (cs : list call) : Prop := forall n, calls_safe num n cs.
  Lemma any_safe_app : forall cs cs' n, calls_safe num n cs -> any_safe cs' -> calls_safe num n (cs ++ cs').
  Proof.
    induction cs as [|c cs IH]; intros cs' n H H'; cbn; [apply H'|]. destruct c; cbn in *; intuition auto.
  Qed.

  Lemma inv_nodes : inv true (parseNodes num of_int strtod) (fun _ cs => any_safe cs) any_safe.
  Proof.
    unfold parseNodes. eapply inv_bind with (b' := false); [apply inv_integer| |intros cs ->; intros n; exact I].
    intros k cs1 [Hk ->]. apply Z.leb_le in Hk. cbn [app].
    eapply inv_bind with (b' := false); [apply inv_emit| |intros ? []]. intros u cs1 ->. cbn [app].
    eapply inv_bind with (b' := true).
    - eapply inv_repeat with (b := true) (R := fun _ => True) (Q := vertex_ok k).
      unfold parseNode. eapply inv_bind with (b' := false); [apply inv_integer| |intros cs ->; auto].
      intros n cs1 [Hn ->]. apply andb_prop in Hn as [N1 N2]. apply Z.leb_le in N1, N2. cbn [app].
      eapply inv_bind with (b' := false).
      + eapply inv_repeat with (b := true) (R := fun _ => True) (Q := fun _ => False).
        eapply inv_weaken; [apply inv_number|intros a cs [_ ->]; auto|intros cs ->; auto].
      + intros x cs1 (_ & Hl & Hc). eapply inv_weaken; [apply inv_emit| |intros cs []].
        intros a cs ->. split; auto. destruct cs1; [|inversion Hc; contradiction]. cbn [app].
        constructor; auto. cbn. split; [lia|auto].
      + intros cs Hc. destruct cs; [auto|inversion Hc; contradiction].
    - intros l cs1 (_ & _ & Hc).
      assert (H : any_safe (SetNumVertices k :: cs1)) by (intros n; cbn; split; auto; apply vertices_safe; auto).
      eapply inv_bind with (b' := true); [apply inv_expect| |].
      + intros u' cs2 [_ ->]. cbn [app].
        eapply inv_bind with (b' := false); [apply inv_next| |intros ? []]. intros t cs3 ->. cbn [app].
        eapply inv_weaken; [apply inv_ret| |intros cs []]. intros a cs [_ ->]. rewrite app_nil_r. exact H.
      + intros cs ->. rewrite app_nil_r. exact H.
    - intros cs Hc n. cbn. split; auto. apply vertices_safe; auto.
  Qed.

  Lemma inv_elements : inv true (parseElements num) (fun _ cs => any_safe cs) any_safe.
  Proof.
    unfold parseElements. eapply inv_bind with (b' := false); [apply inv_integer| |intros cs ->; intros n; exact I].
    intros k cs1 [Hk ->]. apply Z.leb_le in Hk. cbn [app].
    eapply inv_bind with (b' := false); [apply inv_emit| |intros ? []]. intros u cs1 ->. cbn [app].
    eapply inv_bind with (b' := true) (Q1 := fun _ => Forall element_ok) (E1 := Forall element_ok).
    - generalize (-1). induction (Z.to_nat k) as [|n IH]; intros tag; cbn [parseElementLoop].
      { eapply inv_weaken; [apply inv_ret|intros a cs [_ ->]; auto|intros cs []]. }
      assert (He : inv false (parseElement num tag) (fun _ => Forall element_ok) (Forall element_ok)).
      { assert (He : inv true (parseElement num tag) (fun _ => Forall element_ok) (Forall element_ok)).
        { unfold parseElement. eapply inv_bind with (b' := true); [apply inv_integer| |intros cs ->; auto].
          intros no cs1 [_ ->]. cbn [app].
          eapply inv_bind with (b' := true); [apply inv_integer| |intros cs ->; auto].
          intros type cs1 [Hty ->]. apply andb_prop in Hty as [T1 T2]. apply Z.leb_le in T1, T2. cbn [app].
          eapply inv_bind with (b' := false); [apply inv_integer| |intros cs ->; auto].
          intros nt cs1 [_ ->]. cbn [app].
          eapply inv_bind with (b' := false).
          - eapply inv_repeat with (b := true) (R := fun _ => True) (Q := fun _ => False).
            eapply inv_weaken; [apply inv_integer|intros a cs [_ ->]; auto|intros cs ->; auto].
          - intros tags cs1 (_ & _ & Hc). destruct cs1; [|inversion Hc; contradiction]. cbn [app]. cbv zeta.
            eapply inv_bind with (b' := false).
            + eapply inv_repeat with (b := true) (R := fun k => 0 <= k) (Q := fun _ => False).
              eapply inv_bind with (b' := false); [apply inv_integer| |intros cs ->; auto].
              intros m cs1 [Hm ->]. apply Z.leb_le in Hm. cbn [app].
              eapply inv_weaken; [apply inv_ret|intros a cs [-> ->]; split; [lia|auto]|intros cs []].
            + intros nodes cs1 (Hn & Hl & Hc1). destruct cs1; [|inversion Hc1; contradiction]. cbn [app].
              eapply inv_bind with (b' := false); [apply inv_emit| |intros ? []]. intros u' cs1 ->. cbn [app].
              eapply inv_weaken; [apply inv_ret| |intros cs []]. intros a cs [_ ->].
              constructor; auto. cbn. auto.
            + intros cs Hc1. destruct cs; [auto|inversion Hc1; contradiction].
          - intros cs Hc. destruct cs; [auto|inversion Hc; contradiction]. }
        intros s. specialize (He s). destruct (parseElement num tag s); auto;
          destruct He as (H1 & H2 & (ts & H3 & H4 & H5)); split; auto; split; auto;
          exists ts; repeat split; auto; discriminate. }
      eapply inv_bind; [exact He| |auto]. intros tag' cs1 Hc1. eapply inv_weaken; [apply IH| |].
      + intros a cs Hc. apply Forall_app; auto.
      + intros cs Hc. apply Forall_app; auto.
    - intros l cs1 Hc.
      assert (H : any_safe (SetNumElements k :: cs1)) by (intros n; cbn; split; auto; apply elements_safe; auto).
      eapply inv_bind with (b' := true); [apply inv_expect| |].
      + intros u' cs2 [_ ->]. cbn [app].
        eapply inv_bind with (b' := false); [apply inv_next| |intros ? []]. intros t cs3 ->. cbn [app].
        eapply inv_weaken; [apply inv_ret| |intros cs []]. intros a cs [_ ->]. rewrite app_nil_r. exact H.
      + intros cs ->. rewrite app_nil_r. exact H.
    - intros cs Hc n. cbn. split; auto. apply elements_safe; auto.
  Qed.

  Lemma inv_ignore : forall m, inv true m (fun _ cs => any_safe cs) any_safe ->
    forall s u s', ignore_error num m s = Ret u s' ->
    (exists es, errors s' = errors s ++ es) /\ (exists cs, calls s' = calls s ++ cs /\ any_safe cs) /\
    (exists ts, lexes (lx s) ts (lx s') /\ cur s' = last ts (cur s) /\ ts <> []) /\
    (errors s' = errors s -> m s = Ret u s').
  Proof.
    intros m H s u s' E. specialize (H s). unfold ignore_error in E.
    destruct (m s) as [a s1|s1| | |]; try discriminate; injection E as <- <-.
    - destruct H as (H1 & H2 & (ts & H3 & H4 & H5)). split; [exists []; rewrite app_nil_r; auto|].
      split; auto. split; [exists ts; auto|]. auto.
    - destruct H as ((e & H1) & H2 & (ts & H3 & H4 & H5)). split; [exists [e]; auto|].
      split; auto. split; [exists ts; auto|]. intros Heq. exfalso. rewrite H1 in Heq.
      apply (f_equal (@List.length _)) in Heq. rewrite app_length in Heq. cbn in Heq. lia.
  Qed.
  Lemma ignore_not_err : forall m s s', ignore_error num m s <> Err s'.
  Proof. intros m s s'. unfold ignore_error. destruct (m s); discriminate. Qed.

  Lemma sections_step : forall fuel hn he s,
    match sections fuel hn he s with
    | Ret _ s' | Err s' => (exists es, errors s' = errors s ++ es) /\ exists cs, calls s' = calls s ++ cs /\ any_safe cs
    | _ => True
    end.
  Proof.
    induction fuel as [|fuel IH]; intros hn he s.
    - assert (H0 : (exists es, errors s = errors s ++ es) /\ exists cs, calls s = calls s ++ cs /\ any_safe cs).
      { split; exists []; rewrite app_nil_r; auto. split; auto. intros n; exact I. }
      cbn [GmshModel.sections]. destruct (cur s); auto.
    - assert (Hn : forall hn he, match bind num (next num) (fun _ => sections fuel hn he) s with
        | Ret _ s' | Err s' => (exists es, errors s' = errors s ++ es) /\ exists cs, calls s' = calls s ++ cs /\ any_safe cs
        | _ => True end).
      { intros hn' he'. unfold bind, next. destruct (getToken (lx s)) as [t l| |]; auto. exact (IH hn' he' {| cur := t; lx := l; calls := calls s; errors := errors s |}). }
      assert (Hi : forall m hn he, inv true m (fun _ cs => any_safe cs) any_safe ->
        match bind num (ignore_error num m) (fun _ => sections fuel hn he) s with
        | Ret _ s' | Err s' => (exists es, errors s' = errors s ++ es) /\ exists cs, calls s' = calls s ++ cs /\ any_safe cs
        | _ => True end).
      { intros m hn' he' Hm. unfold bind. destruct (ignore_error num m s) as [u s1|s1| | |] eqn:E; auto;
          [|exfalso; eapply ignore_not_err; eauto].
        destruct (inv_ignore m Hm s u s1 E) as ((es1 & A1) & (cs1 & A2 & A3) & _).
        specialize (IH hn' he' s1).
        destruct (sections fuel hn' he' s1) as [b s2|s2| | |]; auto;
        destruct IH as ((es2 & B1) & (cs2 & B2 & B3)); (split; [exists (es1 ++ es2); rewrite B1, A1, app_assoc; auto|]);
        exists (cs1 ++ cs2); rewrite B2, A2, app_assoc; split; auto; intros n; apply any_safe_app; auto. }
      cbn [GmshModel.sections]. destruct (cur s); try apply Hn.
      + split; exists []; rewrite app_nil_r; auto. split; auto. intros n; exact I.
      + apply Hi. apply inv_nodes.
      + apply Hi. apply inv_elements.
  Qed.

  (** Reading the header. *)
  Definition header : P num := bind num (next num) (fun _ => parseMeshFormat num of_int strtod).
  Lemma parse_header : forall fuel s, parse_ num of_int strtod version_ok fuel s =
    match header s with
    | Ret v s => if version_ok v then sections fuel false false s else fail num E_version s
    | Err s => fail num E_version s
    | Hang => Hang | Throw => Throw | Unfinished => Unfinished
    end.
  Proof.
    intros fuel s. unfold parse_, header, bind. unfold next. destruct (getToken (lx s)); reflexivity.
  Qed.
  Lemma header_assoc : forall s, header s =
    bind num (read_expect num is_mesh_format E_format) (fun _ =>
    bind num (read_number num of_int strtod E_version_number) (fun version =>
    bind num (read_integer num (fun n => n =? 0) E_zero) (fun _ =>
    bind num (next num) (fun _ =>
    bind num (read_expect num is_end_mesh_format E_end_format) (fun _ =>
    bind num (next num) (fun _ => ret num version)))))) s.
  Proof.
    intros s. unfold header, parseMeshFormat, read_expect.
    assert (Hassoc : forall A B C (m : P A) (f : A -> P B) (g : B -> P C) s,
      bind num m (fun x => bind num (f x) g) s = bind num (bind num m f) g s).
    { intros A B C m f g s1. unfold bind. destruct (m s1); reflexivity. }
    apply Hassoc.
  Qed.
  Lemma gram_header : gram num header
    (fun ts a cs => exists v d t, ts = [T_mesh_format; numeral_token v; T_integer 0; d; T_end_mesh_format; t] /\
       a = value v /\ cs = []).
  Proof.
    intros s a s'. rewrite header_assoc. revert s a s'.
    match goal with |- forall s a s', ?m s = _ <-> _ => change (gram num m (fun ts a cs => exists v d t, ts = [T_mesh_format; numeral_token v; T_integer 0; d; T_end_mesh_format; t] /\
       a = value v /\ cs = [])) end.
    eapply gram_ext.
    { apply gram_bind; [apply gram_expect|]. intros ?u.
      apply gram_bind; [apply gram_number|]. intros v.
      apply gram_bind; [apply gram_integer|]. intros z.
      apply gram_bind; [apply gram_next|]. intros d.
      apply gram_bind; [apply gram_expect|]. intros ?u.
      apply gram_bind; [apply gram_next|]. intros t. apply gram_ret. }
    intros ts a cs. split.
    - intros (ts1 & ts2 & u & cs1 & cs2 & -> & -> & (t1 & -> & H1 & ->) & H).
      destruct H as (ts3 & ts4 & v & cs3 & cs4 & -> & -> & (x & -> & -> & ->) & H).
      destruct H as (ts5 & ts6 & z & cs5 & cs6 & -> & -> & (-> & Hz & ->) & H).
      destruct H as (ts7 & ts8 & d & cs7 & cs8 & -> & -> & (-> & ->) & H).
      destruct H as (ts9 & ts10 & u2 & cs9 & cs10 & -> & -> & (t2 & -> & H2 & ->) & H).
      destruct H as (ts11 & ts12 & t & cs11 & cs12 & -> & -> & (-> & ->) & -> & -> & ->).
      apply Z.eqb_eq in Hz. subst z. destruct t1; try discriminate. destruct t2; try discriminate.
      exists x, d, t. auto.
    - intros (v & d & t & -> & -> & ->).
      exists [T_mesh_format], [numeral_token v; T_integer 0; d; T_end_mesh_format; t], tt, [], [].
      split; [reflexivity|]. split; [reflexivity|]. split; [exists T_mesh_format; auto|].
      exists [numeral_token v], [T_integer 0; d; T_end_mesh_format; t], (value v), [], [].
      split; [reflexivity|]. split; [reflexivity|]. split; [exists v; auto|].
      exists [T_integer 0], [d; T_end_mesh_format; t], 0, [], [].
      split; [reflexivity|]. split; [reflexivity|]. split; [auto|].
      exists [d], [T_end_mesh_format; t], d, [], [].
      split; [reflexivity|]. split; [reflexivity|]. split; [auto|].
      exists [T_end_mesh_format], [t], tt, [], [].
      split; [reflexivity|]. split; [reflexivity|]. split; [exists T_end_mesh_format; auto|].
      exists [t], [], t, [], []. repeat split.
  Qed.
  Lemma inv_header : inv true header (fun _ cs => cs = []) (fun cs => cs = []).
  Proof.
    intros s. rewrite header_assoc. revert s.
    match goal with |- forall s, match ?m s with _ => _ end => change (inv true m (fun _ cs => cs = []) (fun cs => cs = [])) end.
    eapply inv_bind with (b' := true); [apply inv_expect| |auto]. intros u cs1 [_ ->]. cbn [app].
    eapply inv_bind with (b' := true); [apply inv_number| |auto]. intros v cs1 [_ ->]. cbn [app].
    eapply inv_bind with (b' := true); [apply inv_integer| |auto]. intros z cs1 [_ ->]. cbn [app].
    eapply inv_bind with (b' := true); [apply inv_next| |intros ? []]. intros d cs1 ->. cbn [app].
    eapply inv_bind with (b' := true); [apply inv_expect| |auto]. intros u' cs1 [_ ->]. cbn [app].
    eapply inv_bind with (b' := false); [apply inv_next| |intros ? []]. intros t cs1 ->. cbn [app].
    eapply inv_weaken; [apply inv_ret|intros a cs [_ ->]; auto|intros cs []].
  Qed.

  (** Whatever the input: the vertices set lie in the range announced before, elements have a known type, the
      number of nodes of that type and non-negative node numbers. *)
  Theorem gmsh_calls_safe : forall fuel text,
    match parse fuel text with
    | Ret _ s | Err s => calls_safe num 0 (calls s)
    | _ => True
    end.
  Proof.
    intros fuel txt. unfold GmshModel.parse. rewrite parse_header.
    set (s0 := {| cur := T_eof; lx := _; calls := []; errors := [] |}).
    generalize (inv_header s0). destruct (header s0) as [v s|s| | |]; auto.
    - intros (_ & (cs & H & ->) & _). cbn in H. destruct (version_ok v).
      + generalize (sections_step fuel false false s).
        destruct (sections fuel false false s) as [b s'|s'| | |]; auto;
        intros (_ & cs & H1 & H2); rewrite H1, H; apply H2.
      + intros. cbn. rewrite H. exact I.
    - intros (_ & (cs & H & ->) & _). cbn in H |- *. rewrite H. exact I.
  Qed.

  (** ** Well-formed files *)
  Definition section_calls' (s : section) : list call :=
    match s with
    | Elements l => SetNumElements (Z.of_nat (List.length l)) :: elem_calls num (-1) l
    | _ => section_calls num of_int strtod s
    end.
  Lemma elem_calls_tagged : forall l tag, (forall e, In e l -> elem_tags e <> []) ->
    elem_calls num tag l = map (elem_call num) l.
  Proof.
    induction l as [|e l IH]; intros tag H; cbn [elem_calls map]; auto.
    assert (He : tag_after tag e = hd 0 (elem_tags e)).
    { unfold tag_after. specialize (H e (or_introl eq_refl)). destruct (elem_tags e); [congruence|reflexivity]. }
    rewrite He. rewrite IH; [reflexivity|]. intros; apply H; right; auto.
  Qed.
  Lemma section_calls_tagged : forall secs,
    (forall l e, In (Elements l) secs -> In e l -> elem_tags e <> []) ->
    flat_map section_calls' secs = flat_map (section_calls num of_int strtod) secs.
  Proof.
    induction secs as [|s secs IH]; intros H; cbn [flat_map]; auto.
    rewrite IH by (intros; eapply H; eauto; right; auto). f_equal.
    destruct s; cbn [section_calls' section_calls]; auto. f_equal. apply elem_calls_tagged.
    intros e He. eapply H; [left; reflexivity|auto].
  Qed.

  Lemma sections_fuel : forall fuel hn he s b s', sections fuel hn he s = Ret b s' ->
    forall fuel', (fuel <= fuel')%nat -> sections fuel' hn he s = Ret b s'.
  Proof.
    induction fuel as [|fuel IH]; intros hn he s b s' H fuel' Hf.
    - destruct fuel'; cbn [GmshModel.sections] in *; destruct (cur s); try discriminate; auto.
    - destruct fuel' as [|fuel']; [lia|]. cbn [GmshModel.sections] in *.
      destruct (cur s); auto; unfold bind in *;
        try (destruct (next num s) as [t s1|s1| | |]; try discriminate; apply IH; auto; lia);
        match goal with |- context [ignore_error num ?m s] => destruct (ignore_error num m s) as [t s1|s1| | |] end;
        try discriminate; apply IH; auto; lia.
  Qed.

  Lemma sections_accept : forall secs fuel hn he s ts l,
    Forall section_ok secs -> (List.length (flat_map section_tokens secs) <= fuel)%nat ->
    cur s :: ts = flat_map section_tokens secs ++ [T_eof] -> lexes (lx s) ts l ->
    exists s', sections fuel hn he s = Ret ((hn || existsb is_nodes secs) && (he || existsb is_elements secs)) s' /\
      errors s' = errors s /\ calls s' = calls s ++ flat_map section_calls' secs.
  Proof.
    induction secs as [|sec secs IH]; intros fuel hn he s ts l Hok Hf E Hl.
    - cbn in E. injection E as E _. exists s. cbn [existsb flat_map]. rewrite !orb_false_r, app_nil_r.
      destruct fuel; cbn [GmshModel.sections]; rewrite E; auto.
    - inversion Hok as [|? ? Hs Hok']; subst. cbn [flat_map] in *. rewrite app_length in Hf.
      rewrite <- app_assoc in E. destruct sec as [nl|el|os].
      + (* nodes *)
        cbn [section_tokens app] in E. injection E as E ->.
        destruct fuel as [|fuel]; [cbn in Hf; lia|].
        destruct (flat_map section_tokens secs ++ [T_eof]) as [|t rst] eqn:Er; [destruct (flat_map section_tokens secs); discriminate|].
        assert (Ets : T_integer (Z.of_nat (List.length nl)) :: (flat_map node_tokens nl ++ [T_end_nodes]) ++ t :: rst =
                      (T_integer (Z.of_nat (List.length nl)) :: flat_map node_tokens nl ++ [T_end_nodes; t]) ++ rst).
        { cbn [app]. rewrite <- !app_assoc. reflexivity. }
        rewrite Ets in Hl. apply lexes_app in Hl as (l1 & L1 & L2).
        set (s1 := {| cur := t; lx := l1; calls := calls s ++ section_calls num of_int strtod (Nodes nl); errors := errors s |}).
        assert (Hp : parseNodes num of_int strtod s = Ret tt s1).
        { apply gram_nodes. eexists _, _. split.
          - exists nl, t. split; [exact Hs|]. split; [|reflexivity]. cbn [section_tokens app].
            rewrite <- app_assoc. reflexivity.
          - repeat split; auto. cbn [cur s1].
            match goal with |- context [?a :: ?b ++ [?x] ++ [?y]] => change (a :: b ++ [x] ++ [y]) with ((a :: b) ++ [x; y]) end.
            rewrite last_app. reflexivity. }
        destruct (IH fuel true he s1 rst l) as (s' & H1 & H2 & H3); auto.
        { cbn in Hf. lia. }
        exists s'. cbn [GmshModel.sections]. rewrite E. unfold bind, ignore_error. rewrite Hp. rewrite H1.
        cbn [existsb is_nodes is_elements orb]. rewrite orb_true_r. split; auto. split; [exact H2|].
        rewrite H3. cbn [s1 calls section_calls']. rewrite <- app_assoc. reflexivity.
      + (* elements *)
        cbn [section_tokens app] in E. injection E as E ->.
        destruct fuel as [|fuel]; [cbn in Hf; lia|].
        destruct (flat_map section_tokens secs ++ [T_eof]) as [|t rst] eqn:Er; [destruct (flat_map section_tokens secs); discriminate|].
        assert (Ets : T_integer (Z.of_nat (List.length el)) :: (flat_map elem_tokens el ++ [T_end_elements]) ++ t :: rst =
                      (T_integer (Z.of_nat (List.length el)) :: flat_map elem_tokens el ++ [T_end_elements; t]) ++ rst).
        { cbn [app]. rewrite <- !app_assoc. reflexivity. }
        rewrite Ets in Hl. apply lexes_app in Hl as (l1 & L1 & L2).
        set (s1 := {| cur := t; lx := l1; calls := calls s ++ section_calls' (Elements el); errors := errors s |}).
        assert (Hp : parseElements num s = Ret tt s1).
        { apply gram_elements. eexists _, _. split.
          - exists el, t. split; [exact Hs|]. split; [|reflexivity]. cbn [section_tokens app].
            rewrite <- app_assoc. reflexivity.
          - repeat split; auto. cbn [cur s1].
            match goal with |- context [?a :: ?b ++ [?x] ++ [?y]] => change (a :: b ++ [x] ++ [y]) with ((a :: b) ++ [x; y]) end.
            rewrite last_app. reflexivity. }
        destruct (IH fuel hn true s1 rst l) as (s' & H1 & H2 & H3); auto.
        { cbn in Hf. lia. }
        exists s'. cbn [GmshModel.sections]. rewrite E. unfold bind, ignore_error. rewrite Hp. rewrite H1.
        cbn [existsb is_nodes is_elements orb]. rewrite orb_true_r. split; auto. split; [exact H2|].
        rewrite H3. cbn [s1 calls]. rewrite <- app_assoc. reflexivity.
      + (* other tokens *)
        cbn [section_ok section_tokens] in *. cbn [existsb is_nodes is_elements orb section_calls' section_calls app].
        clear Hok. revert fuel s ts Hf E Hl. induction os as [|o os IHo]; intros fuel s ts Hf E Hl.
        * cbn [app] in E. cbn [List.length] in Hf. apply (IH fuel hn he s ts l); auto.
        * inversion Hs as [|? ? Ho Hos]; subst. cbn [app] in E. injection E as E ->. destruct Ho as (O1 & O2 & O3).
          destruct fuel as [|fuel]; [cbn in Hf; lia|].
          destruct (os ++ flat_map section_tokens secs ++ [T_eof]) as [|t rst] eqn:Er;
            [destruct os, (flat_map section_tokens secs); discriminate|].
          destruct Hl as (l1 & L1 & L2).
          set (s1 := {| cur := t; lx := l1; calls := calls s; errors := errors s |}).
          destruct (IHo Hos fuel s1 rst) as (s' & H1 & H2 & H3); auto.
          { cbn in Hf. lia. }
          exists s'. split; [|auto]. cbn [GmshModel.sections]. rewrite E.
          destruct o; try congruence; unfold bind, next; rewrite L1; exact H1.
  Qed.

  (** A well-formed file, in any spelling, is read completely: parsing ends without a message, reports
      success if there are nodes and elements, and the builder is told exactly what the file says, in the
      order of the file. *)
  Theorem gmsh_reads_wellformed : forall m text fuel,
    msh_ok num of_int strtod version_ok m -> tagged m -> written (msh_tokens m) text ->
    (List.length (msh_tokens m) <= fuel)%nat ->
    exists s, parse fuel text = Ret (existsb is_nodes (body m) && existsb is_elements (body m)) s /\
      errors s = [] /\ calls s = msh_calls num of_int strtod m.
  Proof.
    intros m txt fuel [Hv Hok] Htag Hw Hf.
    destruct (lexer_reads_spelled _ _ " "%char Hw eq_refl) as [c Hl].
    set (s0 := {| cur := T_eof; lx := {| lastChar := " "; rest := txt |}; calls := @nil call; errors := [] |}).
    assert (Hl2 : lexes (lx s0) (msh_tokens m ++ [T_eof]) {| lastChar := c; rest := [] |}).
    { apply lexes_app. eexists. split; [exact Hl|]. apply lexes_eof. reflexivity. }
    unfold msh_tokens in Hl2. rewrite <- app_assoc in Hl2.
    destruct (flat_map section_tokens (body m) ++ [T_eof]) as [|t ts] eqn:Et;
      [destruct (flat_map section_tokens (body m)); discriminate|].
    change ([T_mesh_format; numeral_token (version m); T_integer 0; data_size m; T_end_mesh_format] ++ t :: ts)
      with ([T_mesh_format; numeral_token (version m); T_integer 0; data_size m; T_end_mesh_format; t] ++ ts) in Hl2.
    apply lexes_app in Hl2 as (l1 & L1 & L2).
    set (s1 := {| cur := t; lx := l1; calls := @nil call; errors := [] |}).
    assert (Hh : header s0 = Ret (value (version m)) s1).
    { apply gram_header. eexists _, _. split; [exists (version m), (data_size m), t; auto|].
      repeat split; auto. }
    unfold GmshModel.parse. fold s0. rewrite parse_header, Hh, Hv.
    destruct (sections_accept (body m) fuel false false s1 ts {| lastChar := c; rest := [] |}) as (s & H1 & H2 & H3); auto.
    { unfold msh_tokens in Hf. rewrite app_length in Hf. cbn in Hf. lia. }
    exists s. rewrite H1. cbn [orb]. split; auto. split; [exact H2|].
    rewrite H3. cbn [s1 calls app]. apply section_calls_tagged. exact Htag.
  Qed.

  (** ** Nothing else is accepted silently *)
  Lemma app_self_nil : forall A (l es : list A), l = l ++ es -> es = [].
  Proof. intros A l es H. apply (f_equal (@List.length A)) in H. rewrite app_length in H. destruct es; auto. cbn in H; lia. Qed.

  Lemma sections_sound : forall fuel hn he s b s',
    sections fuel hn he s = Ret b s' -> errors s' = errors s ->
    exists secs ts, Forall section_ok secs /\ cur s :: ts = flat_map section_tokens secs ++ [T_eof] /\
      lexes (lx s) ts (lx s') /\ calls s' = calls s ++ flat_map section_calls' secs /\
      b = (hn || existsb is_nodes secs) && (he || existsb is_elements secs).
  Proof.
    induction fuel as [|fuel IH]; intros hn he s b s' H He.
    - cbn [GmshModel.sections] in H. destruct (cur s) eqn:Ec; try discriminate. injection H as <- <-.
      exists [], []. cbn. rewrite app_nil_r, !orb_false_r. auto.
    - cbn [GmshModel.sections] in H.
      assert (Hother : forall hn he, other_ok (cur s) -> bind num (next num) (fun _ => sections fuel hn he) s = Ret b s' ->
        exists secs ts, Forall section_ok secs /\ cur s :: ts = flat_map section_tokens secs ++ [T_eof] /\
          lexes (lx s) ts (lx s') /\ calls s' = calls s ++ flat_map section_calls' secs /\
          b = (hn || existsb is_nodes secs) && (he || existsb is_elements secs)).
      { intros hn' he' Ho Hb. unfold bind in Hb. destruct (next num s) as [t s1|s1| | |] eqn:En; try discriminate.
        apply gram_next in En as (ts1 & cs1 & (-> & ->) & M1 & M2 & M3 & M4). rewrite app_nil_r in M2.
        destruct (IH hn' he' s1 b s' Hb) as (secs & ts & A1 & A2 & A3 & A4 & A5); [congruence|].
        exists (Other [cur s] :: secs), (cur s1 :: ts). cbn [last] in M4. split; [constructor; [constructor; auto|auto]|].
        split; [cbn [flat_map section_tokens app]; rewrite A2; reflexivity|].
        split; [|split; [rewrite A4, M2; reflexivity|exact A5]].
        cbn [lexes] in M1 |- *. destruct M1 as (l1 & M1 & <-). exists (lx s1). rewrite M4. auto. }
      destruct (cur s) eqn:Ec; try (apply Hother; [repeat split; congruence|exact H]); clear Hother.
      + injection H as <- <-. exists [], []. cbn. rewrite app_nil_r, !orb_false_r. auto.
      + unfold bind in H. destruct (ignore_error num (parseNodes num of_int strtod) s) as [u s1|s1| | |] eqn:Ei; try discriminate.
        destruct (inv_ignore _ inv_nodes s u s1 Ei) as ((es1 & A1) & _ & _ & A4).
        generalize (sections_step fuel true he s1). rewrite H. intros ((es2 & B1) & _).
        assert (es1 ++ es2 = []) by (apply app_self_nil with (l := errors s); rewrite app_assoc, <- A1, <- B1; auto).
        apply app_eq_nil in H0 as [-> ->]. rewrite app_nil_r in A1, B1.
        specialize (A4 A1). apply gram_nodes in A4 as (ts1 & cs1 & (nl & t & C1 & C2 & ->) & M1 & M2 & M3 & M4).
        destruct (IH true he s1 b s' H) as (secs & ts & D1 & D2 & D3 & D4 & D5); [congruence|].
        exists (Nodes nl :: secs), (ts1 ++ ts). split; [constructor; auto|].
        assert (Et : cur s1 = t).
        { rewrite M4. destruct ts1 as [|x ts1]; [cbn in C2; discriminate|].
          assert (last (T_nodes :: x :: ts1) T_eof = t) by (rewrite C2, last_last; reflexivity).
          rewrite <- H0. cbn. clear. revert x. induction ts1; intros; cbn; auto. }
        split; [|split; [apply lexes_app; eauto|split]].
        * change (T_nodes :: ts1 ++ ts) with ((T_nodes :: ts1) ++ ts). rewrite C2, <- app_assoc.
          change ([t] ++ ts) with (t :: ts). rewrite <- Et, D2. cbn [flat_map]. rewrite <- app_assoc. reflexivity.
        * rewrite D4, M2. cbn [flat_map]. rewrite <- app_assoc. reflexivity.
        * rewrite D5. cbn [existsb is_nodes is_elements orb]. rewrite orb_true_r. reflexivity.
      + unfold bind in H. destruct (ignore_error num (parseElements num) s) as [u s1|s1| | |] eqn:Ei; try discriminate.
        destruct (inv_ignore _ inv_elements s u s1 Ei) as ((es1 & A1) & _ & _ & A4).
        generalize (sections_step fuel hn true s1). rewrite H. intros ((es2 & B1) & _).
        assert (es1 ++ es2 = []) by (apply app_self_nil with (l := errors s); rewrite app_assoc, <- A1, <- B1; auto).
        apply app_eq_nil in H0 as [-> ->]. rewrite app_nil_r in A1, B1.
        specialize (A4 A1). apply gram_elements in A4 as (ts1 & cs1 & (el & t & C1 & C2 & ->) & M1 & M2 & M3 & M4).
        destruct (IH hn true s1 b s' H) as (secs & ts & D1 & D2 & D3 & D4 & D5); [congruence|].
        exists (Elements el :: secs), (ts1 ++ ts). split; [constructor; auto|].
        assert (Et : cur s1 = t).
        { rewrite M4. destruct ts1 as [|x ts1]; [cbn in C2; discriminate|].
          assert (last (T_elements :: x :: ts1) T_eof = t) by (rewrite C2, last_last; reflexivity).
          rewrite <- H0. cbn. clear. revert x. induction ts1; intros; cbn; auto. }
        split; [|split; [apply lexes_app; eauto|split]].
        * change (T_elements :: ts1 ++ ts) with ((T_elements :: ts1) ++ ts). rewrite C2, <- app_assoc.
          change ([t] ++ ts) with (t :: ts). rewrite <- Et, D2. cbn [flat_map]. rewrite <- app_assoc. reflexivity.
        * rewrite D4, M2. cbn [flat_map section_calls']. rewrite <- app_assoc. reflexivity.
        * rewrite D5. cbn [existsb is_nodes is_elements orb]. rewrite orb_true_r. reflexivity.
  Qed.

  (** If parsing any text ends without a message, then what the lexer saw is a well-formed file, and (if
      every element has a tag) the builder was told exactly what it says.  So a wrong node tag, an unknown
      element type, a node number 0, a missing number or a missing end of a section always leaves a
      message. *)
  Theorem gmsh_silent_wellformed : forall fuel text b s,
    parse fuel text = Ret b s -> errors s = [] ->
    exists m l, msh_ok num of_int strtod version_ok m /\ lexes (start text) (msh_tokens m ++ [T_eof]) l /\
      b = existsb is_nodes (body m) && existsb is_elements (body m) /\
      (tagged m -> calls s = msh_calls num of_int strtod m).
  Proof.
    intros fuel txt b s H He. unfold GmshModel.parse in H. rewrite parse_header in H.
    set (s0 := {| cur := T_eof; lx := _; calls := []; errors := [] |}) in *.
    destruct (header s0) as [v s1|s1| | |] eqn:Eh; try discriminate.
    destruct (version_ok v) eqn:Ev; [|discriminate].
    apply gram_header in Eh as (ts1 & cs1 & (x & d & t & -> & -> & ->) & M1 & M2 & M3 & M4).
    cbn [last calls errors s0 app] in *.
    destruct (sections_sound fuel false false s1 b s H) as (secs & ts & A1 & A2 & A3 & A4 & A5); [congruence|].
    exists {| version := x; data_size := d; body := secs |}, (lx s). unfold msh_ok. cbn [version data_size body].
    split; [auto|]. split; [|split; [exact A5|]].
    - unfold msh_tokens. cbn [version data_size body]. rewrite <- app_assoc, <- A2, M4.
      change ([T_mesh_format; numeral_token x; T_integer 0; d; T_end_mesh_format] ++ t :: ts)
        with ([T_mesh_format; numeral_token x; T_integer 0; d; T_end_mesh_format; t] ++ ts).
      apply lexes_app. exists (lx s1). auto.
    - intros Htag. rewrite A4, M2. cbn [app]. unfold msh_calls. cbn [body]. apply section_calls_tagged. exact Htag.
  Qed.

  (** A message is also left, and the result is false, when the header is wrong or the version is not
      supported. *)
  Theorem gmsh_failure_has_message : forall fuel text s, parse fuel text = Err s -> errors s <> [].
  Proof.
    intros fuel txt s H. unfold GmshModel.parse in H. rewrite parse_header in H.
    set (s0 := {| cur := T_eof; lx := _; calls := []; errors := [] |}) in *.
    assert (Hne : forall s1, fail num (A := bool) E_version s1 = Err s -> errors s <> []).
    { intros s1 E. injection E as <-. cbn. destruct (errors s1); discriminate. }
    destruct (header s0) as [v s1|s1| | |] eqn:Eh; try discriminate; [|eauto].
    destruct (version_ok v); [|eauto].
    exfalso. revert H. clear. generalize false at 1. generalize false. revert s1.
    induction fuel as [|fuel IH]; intros s1 he hn; cbn [GmshModel.sections].
    - destruct (cur s1); discriminate.
    - destruct (cur s1); try discriminate; unfold bind, next;
        try (destruct (getToken (lx s1)); [apply IH|discriminate..]);
        match goal with |- context [ignore_error num ?m ?s] => destruct (ignore_error num m s) as [t s2|s2| | |] eqn:E end;
        try discriminate; try apply IH; exfalso; eapply ignore_not_err; eauto.
  Qed.

  (** ** Termination *)
  Lemma lexes_shrinks : forall ts l l', lexes l ts l' -> ~ In T_unknown_token ts ->
    ts = [] \/ last ts T_unknown_token = T_eof \/ (List.length (rest l') < List.length (rest l))%nat.
  Proof.
    induction ts as [|t ts IH]; intros l l' H Hu; [left; auto|]. right.
    destruct H as (l1 & E & H). destruct (getToken_length _ _ _ E) as [G1 G2].
    assert (Ht : t <> T_unknown_token) by (intros ->; apply Hu; left; auto).
    destruct (IH l1 l' H) as [-> | [Hl|Hl]].
    - intros Hi; apply Hu; right; auto.
    - cbn in H. subst l'. cbn [last]. destruct t; try (right; apply G2; congruence). left; auto.
    - left. destruct ts; [discriminate|exact Hl].
    - right. lia.
  Qed.
  Lemma last_default : forall (ts : list token) d d', ts <> [] -> last ts d = last ts d'.
  Proof.
    induction ts as [|t ts IH]; intros d d' H; [congruence|]. destruct ts; [reflexivity|].
    change (last (t :: t0 :: ts) d) with (last (t0 :: ts) d). change (last (t :: t0 :: ts) d') with (last (t0 :: ts) d').
    apply IH; discriminate.
  Qed.

  Lemma sections_terminate : forall fuel hn he s,
    (List.length (rest (lx s)) < fuel)%nat ->
    (forall ts l, ~ lexes (lx s) (ts ++ [T_unknown_token]) l) ->
    sections fuel hn he s <> Unfinished.
  Proof.
    induction fuel as [|fuel IH]; intros hn he s Hf Hu; [lia|].
    assert (Hstep : forall hn he s1 ts, lexes (lx s) ts (lx s1) -> ts <> [] -> cur s1 = last ts (cur s) ->
              sections fuel hn he s1 <> Unfinished).
    { intros hn' he' s1 ts Hl Hne Hc.
      assert (Hnu : ~ In T_unknown_token ts).
      { intros Hi. apply in_split in Hi as (a & b & ->). change (T_unknown_token :: b) with ([T_unknown_token] ++ b) in Hl.
        rewrite app_assoc in Hl. apply lexes_app in Hl as (l' & Hl & _). exact (Hu _ _ Hl). }
      destruct (lexes_shrinks _ _ _ Hl Hnu) as [?|[He|Hs]]; [congruence| |].
      - rewrite (last_default ts (cur s) T_unknown_token Hne), He in Hc.
        destruct fuel; cbn [GmshModel.sections]; rewrite Hc; discriminate.
      - apply IH; [lia|]. intros ts' l' H'. apply (Hu (ts ++ ts') l'). rewrite <- app_assoc. apply lexes_app. eauto. }
    assert (Hn : forall hn he, bind num (next num) (fun _ => sections fuel hn he) s <> Unfinished).
    { intros hn' he'. unfold bind, next. destruct (getToken (lx s)) as [t l| |] eqn:E; try discriminate.
      apply Hstep with (ts := [t]); [cbn; eauto|discriminate|reflexivity]. }
    assert (Hi : forall m hn he, inv true m (fun _ cs => any_safe cs) any_safe -> (forall s, m s <> Unfinished) ->
              bind num (ignore_error num m) (fun _ => sections fuel hn he) s <> Unfinished).
    { intros m hn' he' Hm Hm2. unfold bind. destruct (ignore_error num m s) as [u s1|s1| | |] eqn:E; try discriminate.
      - destruct (inv_ignore m Hm s u s1 E) as (_ & _ & (ts & T1 & T2 & T3) & _).
        apply Hstep with (ts := ts); auto.
      - unfold ignore_error in E. specialize (Hm2 s). destruct (m s); congruence. }
    (* the functions called in the loop always finish *)
    assert (Hb : forall A B (m : P A) (f : A -> P B), (forall s, m s <> Unfinished) -> (forall a s, f a s <> Unfinished) ->
              forall s, bind num m f s <> Unfinished).
    { intros A B m f H1 H2 s1. unfold bind. specialize (H1 s1). destruct (m s1); try discriminate; auto. }
    assert (Hnx : forall s, next num s <> Unfinished).
    { intros s1. unfold next. destruct (getToken (lx s1)); discriminate. }
    assert (Hri : forall ok e s, read_integer num ok e s <> Unfinished).
    { intros ok e. apply Hb; auto. intros _ s1. destruct (cur s1); try discriminate. destruct (ok n); discriminate. }
    assert (Hrn : forall e s, read_number num of_int strtod e s <> Unfinished).
    { intros e. apply Hb; auto. intros _ s1. destruct (cur s1); discriminate. }
    assert (Hre : forall p e s, read_expect num p e s <> Unfinished).
    { intros p e. apply Hb; auto. intros _ s1. unfold expect. destruct (p (cur s1)); discriminate. }
    assert (Hrp : forall A (f : P A), (forall s, f s <> Unfinished) -> forall n s, repeatP num n f s <> Unfinished).
    { intros A f H1. induction n as [|n IHn]; intros s1; cbn [repeatP]; [discriminate|]. revert s1.
      apply Hb; auto. intros a. apply Hb; auto. intros l s1. discriminate. }
    cbn [GmshModel.sections]. destruct (cur s); try apply Hn; try discriminate.
    - apply Hi; [apply inv_nodes|]. unfold parseNodes. apply Hb; auto. intros k. apply Hb; [discriminate|]. intros u.
      apply Hb.
      + apply Hrp. unfold parseNode. apply Hb; auto. intros n. apply Hb; [apply Hrp; auto|]. intros x s1. discriminate.
      + intros l. apply Hb; auto. intros u'. apply Hb; auto. intros t s1. discriminate.
    - apply Hi; [apply inv_elements|]. unfold parseElements. apply Hb; auto. intros k. apply Hb; [discriminate|]. intros u.
      apply Hb.
      + generalize (-1). induction (Z.to_nat k) as [|n IHn]; intros tag; cbn [parseElementLoop]; [discriminate|].
        apply Hb; [|intros tag'; apply IHn]. unfold parseElement.
        apply Hb; auto. intros no. apply Hb; auto. intros ty. apply Hb; auto. intros nt.
        apply Hb; [apply Hrp; auto|]. intros tags. cbv zeta.
        apply Hb.
        * apply Hrp. apply Hb; auto. intros x s1. discriminate.
        * intros nodes. apply Hb; [discriminate|]. intros u' s1. discriminate.
      + intros l. apply Hb; auto. intros u'. apply Hb; auto. intros t s1. discriminate.
  Qed.

  (** The section loop ends after at most one iteration per character, unless the lexer meets a character
      it does not know. *)
  Theorem gmsh_terminates : forall text,
    (forall ts l, ~ lexes (start text) (ts ++ [T_unknown_token]) l) ->
    parse (S (List.length text)) text <> Unfinished.
  Proof.
    intros txt Hu. unfold GmshModel.parse. rewrite parse_header.
    set (s0 := {| cur := T_eof; lx := _; calls := []; errors := [] |}).
    generalize (inv_header s0). destruct (header s0) as [v s|s| | |] eqn:E; try discriminate.
    - intros (_ & _ & (ts & T1 & T2 & T3)). destruct (version_ok v); [|discriminate].
      apply sections_terminate.
      + assert (Hle : forall ts l l', lexes l ts l' -> (List.length (rest l') <= List.length (rest l))%nat).
        { clear. induction ts as [|t ts IH]; intros l l' H; [cbn in H; subst; lia|]. destruct H as (l1 & E & H).
          apply getToken_length in E as [E _]. apply IH in H. lia. }
        apply Hle in T1. cbn in T1. lia.
      + intros ts' l' H'. apply (Hu (ts ++ ts') l'). rewrite <- app_assoc. apply lexes_app. eauto.
    - unfold header, bind, parseMeshFormat, next in E. exfalso. revert E. clear.
      unfold expect, read_number, read_integer, read_expect, next, bind, ret, fail, expect.
      repeat match goal with
      | |- context [getToken ?x] => destruct (getToken x); try discriminate; cbn [cur lx]
      | |- context [if ?x then _ else _] => destruct x; try discriminate; cbn [cur lx]
      | |- context [match ?t with T_eof => _ | _ => _ end] => destruct t; try discriminate; cbn [cur lx]
      end.
  Qed.
End Props.

Print Assumptions lexer_reads_spelled.
Print Assumptions gmsh_calls_safe.
Print Assumptions gmsh_reads_wellformed.
Print Assumptions gmsh_silent_wellformed.
Print Assumptions gmsh_failure_has_message.
Print Assumptions gmsh_terminates.

(** ** A concrete file *)

(** Numbers are kept as written; version 2 or 2.2 is supported. *)
Definition show_version_ok (v : numeral) : bool :=
  match v with N_int n => n =? 2 | N_real b => if list_eq_dec ascii_dec b (str "2.2") then true else false end.
Definition parse_ex (fuel : nat) (t : text) := parse numeral N_int N_real show_version_ok fuel t.
Definition nl : text := [chr 10].
Definition line (s : string) : text := str s ++ nl.
Definition ex_header : text := line "$MeshFormat" ++ line "2.2 0 8" ++ line "$EndMeshFormat".
Definition ex_nodes : text :=
  line "$Nodes" ++ line "3" ++ line "1 0 0 0" ++ line "2 1 0 0" ++ line "3 0.0 1.0e0 0" ++ line "$EndNodes".
Definition ex_elements : text :=
  line "$Elements" ++ line "2" ++ line "1 1 2 5 1 1 2" ++ line "2 2 2 7 1 1 2 3" ++ line "$EndElements".
Definition ex_file : text := ex_header ++ ex_nodes ++ ex_elements.
Definition ex_msh : msh :=
  {| version := N_real (str "2.2"); data_size := T_integer 8;
     body := [Nodes [{| node_tag := 1; node_x := [N_int 0; N_int 0; N_int 0] |};
                     {| node_tag := 2; node_x := [N_int 1; N_int 0; N_int 0] |};
                     {| node_tag := 3; node_x := [N_real (str "0.0"); N_real (str "1.0e0"); N_int 0] |}];
              Elements [{| elem_no := 1; elem_type := 1; elem_tags := [5; 1]; elem_nodes := [1; 2] |};
                        {| elem_no := 2; elem_type := 2; elem_tags := [7; 1]; elem_nodes := [1; 2; 3] |}]] |}.
Definition outcome (r : result numeral bool) : option (bool * list (call numeral) * list error) :=
  match r with Ret b s => Some (b, calls s, errors s) | _ => None end.

Example ex_file_calls : outcome (parse_ex 100 ex_file) =
  Some (true, msh_calls numeral N_int N_real ex_msh, []).
Proof. vm_compute. reflexivity. Qed.
Example ex_msh_ok : msh_ok numeral N_int N_real show_version_ok ex_msh /\ tagged ex_msh.
Proof.
  split.
  - split; [reflexivity|]. constructor; [|constructor; [|constructor]]; cbn [section_ok].
    + repeat (apply Forall_cons || apply Forall_nil); split; cbn; lia.
    + apply Forall_cons; [|apply Forall_cons; [|apply Forall_nil]];
        (split; [cbn; lia|split; [reflexivity|cbn; repeat (apply Forall_cons || apply Forall_nil); lia]]).
  - intros l e [H|[H|[]]] He; [discriminate|]. injection H as <-. destruct He as [<- | [<- |[]]]; discriminate.
Qed.
Lemma ex_int : forall n ds, ds <> [] -> forallb isdigit ds = true -> (List.length ds < 128)%nat ->
  n = digits_number ds -> 0 <= n <= 9223372036854775807 -> spelled (T_integer n) ds.
Proof.
  intros n ds H1 H2 H3 H4 H5. apply (sp_integer [] ds n); auto. lia.
Qed.
(** The file is a spelling of that content. *)
Example ex_file_written : written (msh_tokens ex_msh) ex_file.
Proof.
  assert (Hr : forall b, b <> [] -> (List.length b < 128)%nat ->
            forallb (fun c => isdigit c || existsb (Ascii.eqb c) (str "+-.eE")) b = true ->
            existsb (fun c => existsb (Ascii.eqb c) (str ".eE")) b = true -> spelled (T_real b) b).
  { intros b H1 H2 H3 H4. apply sp_real; auto.
    - intros c Hc. rewrite forallb_forall in H3. apply H3 in Hc. apply orb_prop in Hc as [Hc|Hc]; [left; auto|right].
      apply existsb_exists in Hc as (x & Hx & E). apply Ascii.eqb_eq in E. subst; auto.
    - apply existsb_exists in H4 as (c & Hc & E). exists c. split; auto.
      apply existsb_exists in E as (x & Hx & E). apply Ascii.eqb_eq in E. subst; auto. }
  assert (Hw : forall t tx ts r tot, spelled t tx -> written ts r -> tot = tx ++ chr 10 :: r -> written (t :: ts) tot).
  { intros t tx ts r tot H1 H2 ->. apply (wr_more [] t tx (chr 10) ts r); auto. }
  assert (Hb : forall t tx ts r tot, spelled t tx -> written ts r -> tot = tx ++ " "%char :: r -> written (t :: ts) tot).
  { intros t tx ts r tot H1 H2 ->. apply (wr_more [] t tx " " ts r); auto. }
  assert (Hl : forall t tx tot, spelled t tx -> tot = tx ++ nl -> written [t] tot).
  { intros t tx tot H1 ->. apply (wr_last [] t tx (chr 10)); auto. }
  assert (Hi : forall n ds, ds <> [] -> forallb isdigit ds = true -> (List.length ds < 128)%nat ->
    n = digits_number ds -> 0 <= n <= 9223372036854775807 -> spelled (T_integer n) ds) by exact ex_int.
  Ltac ii := first [discriminate | reflexivity | cbn; lia].
  Ltac int_ Hi d := apply (Hi _ (str d)); ii.
  unfold ex_file.
  let l := eval vm_compute in (msh_tokens ex_msh) in change (msh_tokens ex_msh) with l.
  eapply Hw; [apply sp_section with (name := "$MeshFormat"%string); left; reflexivity| |reflexivity].
  eapply Hb; [apply Hr; first [discriminate|cbn; lia|reflexivity]| |reflexivity].
  eapply Hb; [int_ Hi "0"%string| |reflexivity].
  eapply Hw; [int_ Hi "8"%string| |reflexivity].
  eapply Hw; [apply sp_section with (name := "$EndMeshFormat"%string); right; left; reflexivity| |reflexivity].
  eapply Hw; [apply sp_section with (name := "$Nodes"%string); do 2 right; left; reflexivity| |reflexivity].
  eapply Hw; [int_ Hi "3"%string| |reflexivity].
  eapply Hb; [int_ Hi "1"%string| |reflexivity].
  eapply Hb; [int_ Hi "0"%string| |reflexivity].
  eapply Hb; [int_ Hi "0"%string| |reflexivity].
  eapply Hw; [int_ Hi "0"%string| |reflexivity].
  eapply Hb; [int_ Hi "2"%string| |reflexivity].
  eapply Hb; [int_ Hi "1"%string| |reflexivity].
  eapply Hb; [int_ Hi "0"%string| |reflexivity].
  eapply Hw; [int_ Hi "0"%string| |reflexivity].
  eapply Hb; [int_ Hi "3"%string| |reflexivity].
  eapply Hb; [apply Hr; first [discriminate|cbn; lia|reflexivity]| |reflexivity].
  eapply Hb; [apply Hr; first [discriminate|cbn; lia|reflexivity]| |reflexivity].
  eapply Hw; [int_ Hi "0"%string| |reflexivity].
  eapply Hw; [apply sp_section with (name := "$EndNodes"%string); do 3 right; left; reflexivity| |reflexivity].
  eapply Hw; [apply sp_section with (name := "$Elements"%string); do 4 right; left; reflexivity| |reflexivity].
  eapply Hw; [int_ Hi "2"%string| |reflexivity].
  eapply Hb; [int_ Hi "1"%string| |reflexivity].
  eapply Hb; [int_ Hi "1"%string| |reflexivity].
  eapply Hb; [int_ Hi "2"%string| |reflexivity].
  eapply Hb; [int_ Hi "5"%string| |reflexivity].
  eapply Hb; [int_ Hi "1"%string| |reflexivity].
  eapply Hb; [int_ Hi "1"%string| |reflexivity].
  eapply Hw; [int_ Hi "2"%string| |reflexivity].
  eapply Hb; [int_ Hi "2"%string| |reflexivity].
  eapply Hb; [int_ Hi "2"%string| |reflexivity].
  eapply Hb; [int_ Hi "2"%string| |reflexivity].
  eapply Hb; [int_ Hi "7"%string| |reflexivity].
  eapply Hb; [int_ Hi "1"%string| |reflexivity].
  eapply Hb; [int_ Hi "1"%string| |reflexivity].
  eapply Hb; [int_ Hi "2"%string| |reflexivity].
  eapply Hw; [int_ Hi "3"%string| |reflexivity].
  eapply Hl; [apply sp_section with (name := "$EndElements"%string); do 5 right; left; reflexivity|reflexivity].
Qed.

(** ** Where the reader falls short of what one may expect *)

(** parse returns true although a node line is wrong: only the message tells. *)
Definition bad_nodes : text :=
  ex_header ++ line "$Nodes" ++ line "1" ++ line "2 0 0 0" ++ line "$EndNodes" ++ ex_elements.
Theorem gmsh_bad_nodes_refuted : exists fuel s, parse_ex fuel bad_nodes = Ret true s /\ errors s = [E_node_tag].
Proof.
  assert (H : match parse_ex 100 bad_nodes with Ret true s => errors s = [E_node_tag] | _ => False end)
    by (vm_compute; reflexivity).
  destruct (parse_ex 100 bad_nodes) as [[|] s|s| | |] eqn:E; try contradiction. exists 100%nat, s. auto.
Qed.

(** An element without tags gets the tag of the previous element. *)
Definition untagged : text :=
  ex_header ++ ex_nodes ++ line "$Elements" ++ line "2" ++ line "1 1 1 5 1 2" ++ line "2 2 0 1 2 3" ++ line "$EndElements".
Theorem gmsh_untagged_refuted : exists fuel s cs, parse_ex fuel untagged = Ret true s /\ errors s = [] /\
  calls s = cs ++ [AddElement 1 5 [0; 1]; AddElement 2 5 [0; 1; 2]].
Proof.
  assert (H : match parse_ex 100 untagged with
              | Ret true s => errors s = [] /\ skipn 5 (calls s) = [AddElement 1 5 [0; 1]; AddElement 2 5 [0; 1; 2]]
              | _ => False end) by (vm_compute; auto).
  destruct (parse_ex 100 untagged) as [[|] s|s| | |] eqn:E; try contradiction. destruct H as [H1 H2].
  exists 100%nat, s, (firstn 5 (calls s)). split; auto. split; auto. rewrite <- H2. symmetry. apply firstn_skipn.
Qed.

(** Node numbers of elements are not compared with the number of nodes. *)
Definition dangling : text :=
  ex_header ++ ex_nodes ++ line "$Elements" ++ line "1" ++ line "1 1 1 5 1 99" ++ line "$EndElements".
Theorem gmsh_dangling_node_refuted : exists fuel s, parse_ex fuel dangling = Ret true s /\ errors s = [] /\
  In (SetNumVertices 3) (calls s) /\ In (AddElement 1 5 [0; 98]) (calls s).
Proof.
  assert (H : match parse_ex 100 dangling with
              | Ret true s => errors s = [] /\ nth_error (calls s) 0 = Some (SetNumVertices 3) /\
                              nth_error (calls s) 5 = Some (AddElement 1 5 [0; 98])
              | _ => False end) by (vm_compute; auto).
  destruct (parse_ex 100 dangling) as [[|] s|s| | |] eqn:E; try contradiction. destruct H as (H1 & H2 & H3).
  exists 100%nat, s. repeat split; auto; eapply nth_error_In; eauto.
Qed.

(** One more blank line, a line ending with carriage return and newline, or no newline at the end: the lexer
    never returns. *)
Theorem gmsh_blank_line_refuted : exists fuel, parse_ex fuel (ex_file ++ nl) = Hang.
Proof. exists 100%nat. vm_compute. reflexivity. Qed.
Theorem gmsh_crlf_refuted : exists fuel,
  parse_ex fuel (ex_header ++ ex_nodes ++ str "$Elements" ++ [chr 13; chr 10] ++ str "0" ++ [chr 13; chr 10] ++
                 str "$EndElements" ++ [chr 13; chr 10]) = Hang.
Proof. exists 100%nat. vm_compute. reflexivity. Qed.
Theorem gmsh_no_newline_refuted : exists fuel, parse_ex fuel (removelast ex_file) = Hang.
Proof. exists 100%nat. vm_compute. reflexivity. Qed.

(** A section that is to be skipped but contains a word that is neither a number nor in quotes: the section loop
    never ends, whatever the bound on the number of iterations. *)
Definition comments : text := ex_header ++ line "$Comments" ++ line "hello" ++ line "$EndComments" ++ ex_nodes ++ ex_elements.
Lemma unknown_forever : forall (l : lex), getToken l = Lexed T_unknown_token l ->
  forall fuel hn he s, cur s = T_unknown_token -> lx s = l ->
  sections numeral N_int N_real fuel hn he s = Unfinished.
Proof.
  intros l El. induction fuel as [|fuel IH]; intros hn he s Hc Hl; cbn [sections]; rewrite Hc; [reflexivity|].
  unfold bind, next. rewrite Hl, El. apply IH; reflexivity.
Qed.
Theorem gmsh_comments_refuted : forall fuel, parse_ex fuel comments = Unfinished.
Proof.
  intros fuel. unfold parse_ex, parse. rewrite parse_header.
  assert (H : match header numeral N_int N_real {| cur := T_eof; lx := start comments; calls := []; errors := [] |} with
              | Ret v s => show_version_ok v = true /\ cur s = T_unknown_section /\
                           match getToken (lx s) with Lexed T_unknown_token l => getToken l = Lexed T_unknown_token l | _ => False end
              | _ => False end).
  { vm_compute. auto. }
  fold (start comments).
  destruct (header numeral N_int N_real {| cur := T_eof; lx := start comments; calls := []; errors := [] |}) as [v s|s| | |];
    try contradiction. destruct H as (H1 & H2 & H3). rewrite H1.
  destruct fuel as [|fuel]; cbn [sections]; rewrite H2; [reflexivity|]. unfold bind, next.
  destruct (getToken (lx s)) as [t l| |]; try contradiction. destruct t; try contradiction.
  eapply unknown_forever; eauto.
Qed.
Print Assumptions gmsh_bad_nodes_refuted.
Print Assumptions gmsh_untagged_refuted.
Print Assumptions gmsh_dangling_node_refuted.
Print Assumptions gmsh_blank_line_refuted.
Print Assumptions gmsh_comments_refuted.
