(** The lexer reads spelled tokens back. *)
Require Import ZArith Bool Ascii String List Lia.
Require Import Verif.GmshModel Verif.GmshSpec.
Import ListNotations.
Local Open Scope list_scope.
Local Open Scope Z_scope.

Ltac by_chars c := destruct c as [[] [] [] [] [] [] [] []]; vm_compute; intros; try reflexivity; try discriminate.

Lemma space_not_number : forall c, isspace c = true -> isnumber c = false.
Proof. intros c. by_chars c. Qed.
Lemma space_not_alpha : forall c, isspace c = true -> isalpha c = false.
Proof. intros c. by_chars c. Qed.
Lemma number_facts : forall c, isnumber c = true -> isspace c = false /\ Ascii.eqb c "$" = false.
Proof. intros c. split; revert H; by_chars c. Qed.
Lemma alpha_facts : forall c, isalpha c = true -> isspace c = false.
Proof. intros c. by_chars c. Qed.
Lemma digit_facts : forall c, isdigit c = true ->
  isnumber c = true /\ mustbereal c = false /\ Ascii.eqb c "-" = false /\ Ascii.eqb c "+" = false.
Proof. intros c. repeat split; revert H; by_chars c. Qed.

Lemma skip_while_app : forall p w c r d r',
  c :: r = w ++ d :: r' -> forallb p w = true -> p d = false ->
  skip_while p c r = Some (w, {| lastChar := d; rest := r' |}).
Proof.
  intros p w. induction w as [|a w IH]; intros c r d r' E Hw Hd.
  - injection E as -> ->. destruct r'; cbn [skip_while]; rewrite Hd; reflexivity.
  - cbn [app] in E. injection E as -> ->. cbn [forallb] in Hw. apply andb_prop in Hw as [Ha Hw].
    destruct (w ++ d :: r') as [|c' r1] eqn:E1; [destruct w; discriminate|].
    cbn [skip_while]. rewrite Ha. rewrite (IH c' r1 d r'); auto.
Qed.

Lemma number_loop_app : forall b n h d r,
  forallb isnumber (h :: b) = true -> isnumber d = false -> (List.length (h :: b) <= n)%nat ->
  number_loop n {| lastChar := h; rest := b ++ d :: r |} = (h :: b, {| lastChar := d; rest := r |}).
Proof.
  induction b as [|a b IH]; intros n h d r Hb Hd Hn; destruct n as [|n]; [cbn in Hn; lia| |cbn in Hn; lia|].
  - cbn [number_loop app advance rest lastChar]. rewrite Hd. reflexivity.
  - cbn [number_loop app advance rest lastChar].
    cbn [forallb] in Hb. apply andb_prop in Hb as [Hh Hb]. cbn [forallb] in Hb.
    destruct (andb_prop _ _ Hb) as [Ha _]. rewrite Ha.
    rewrite IH; [reflexivity|exact Hb|exact Hd|cbn in *; lia].
Qed.

Lemma digits_value_all : forall ds acc, forallb isdigit ds = true ->
  digits_value ds acc = fold_left (fun a c => 10 * a + (code c - 48)) ds acc.
Proof.
  induction ds as [|c ds IH]; intros acc H; cbn [digits_value fold_left]; auto.
  cbn [forallb] in H. apply andb_prop in H as [Hc H]. rewrite Hc. apply IH; auto.
Qed.

Lemma strtol_spelled : forall sign ds n,
  ds <> [] -> forallb isdigit ds = true ->
  (sign = [] \/ sign = ["+"%char] \/ sign = ["-"%char]) ->
  n = (if existsb (fun c => Ascii.eqb c "-") sign then - digits_number ds else digits_number ds) ->
  -9223372036854775808 <= n <= 9223372036854775807 ->
  strtol (sign ++ ds) = n.
Proof.
  intros sign ds n Hne Hd Hs Hn Hr. unfold strtol.
  assert (E : match sign ++ ds with
              | [] => 0
              | c :: b' => if Ascii.eqb c "-" then - digits_value b' 0
                           else if Ascii.eqb c "+" then digits_value b' 0 else digits_value (sign ++ ds) 0
              end = n).
  { destruct Hs as [-> | [-> | ->]]; cbn [app existsb] in *.
    - destruct ds as [|c ds]; [congruence|].
      assert (Hc : isdigit c = true) by (cbn [forallb] in Hd; apply andb_prop in Hd as [? _]; auto).
      destruct (digit_facts c Hc) as (_ & _ & -> & ->). rewrite digits_value_all by auto. auto.
    - cbn [Ascii.eqb Bool.eqb] in *. rewrite digits_value_all by auto. auto.
    - cbn [Ascii.eqb Bool.eqb orb] in *. rewrite digits_value_all by auto. auto. }
  rewrite E. unfold long_min, long_max. lia.
Qed.

Lemma forallb_digit_number : forall ds, forallb isdigit ds = true ->
  forallb isnumber ds = true /\ existsb mustbereal ds = false.
Proof.
  induction ds as [|c ds IH]; intros H; [split; reflexivity|]. cbn [forallb existsb] in *.
  apply andb_prop in H as [Hc H]. destruct (digit_facts c Hc) as (-> & -> & _). destruct (IH H) as [-> ->]. auto.
Qed.

(** One token, followed by white space. *)
Lemma getToken_spelled : forall t tx w c0 d r,
  spelled t tx -> isspace c0 = true -> forallb isspace w = true -> isspace d = true ->
  getToken {| lastChar := c0; rest := w ++ tx ++ d :: r |} = Lexed t {| lastChar := d; rest := r |}.
Proof.
  intros t tx w c0 d r Hsp Hc0 Hw Hd.
  assert (Htx : exists h b, tx = h :: b /\ isspace h = false).
  { destruct Hsp as [sign ds n Hne Hdg _ Hs _ _|b Hne _ Hb _|b _|t name Hin|name _ _].
    - destruct Hs as [-> | [-> | ->]]; [|eexists _, _; split; reflexivity..].
      destruct ds as [|c ds]; [congruence|]. exists c, ds. split; auto.
      cbn [forallb] in Hdg. apply andb_prop in Hdg as [H _].
      apply number_facts. apply digit_facts; auto.
    - destruct b as [|c b]; [congruence|]. exists c, b. split; auto.
      destruct (Hb c (or_introl eq_refl)) as [H|H].
      + apply number_facts. apply digit_facts; auto.
      + cbn in H. destruct H as [<-|[<-|[<-|[<-|[<-|[]]]]]]; reflexivity.
    - eexists _, _; split; reflexivity.
    - cbn in Hin. destruct Hin as [E|[E|[E|[E|[E|[E|[]]]]]]]; injection E as <- <-;
        (eexists _, _; split; reflexivity).
    - eexists _, _; split; reflexivity. }
  destruct Htx as (h & b & -> & Hh).
  unfold getToken. cbn [rest lastChar].
  destruct (w ++ (h :: b) ++ d :: r) as [|a1 a2] eqn:E; [destruct w; discriminate|].
  assert (Hskip : skip_while isspace c0 (a1 :: a2) = Some (c0 :: w, {| lastChar := h; rest := b ++ d :: r |})).
  { apply skip_while_app; auto.
    - rewrite <- E. reflexivity.
    - cbn [forallb]. rewrite Hc0. auto. }
  rewrite Hskip. cbn [lastChar]. clear Hskip E a1 a2.
  inversion Hsp as [sign ds n Hne Hdg Hlen Hs Hn Hr|b' Hne Hlen Hb Hreal|b' Hq|t' name Hin|name Hal Hhash]; subst.
  - (* integer *)
    match goal with E : sign ++ ds = h :: b |- _ => rename E into H end.
    assert (Hall : forallb isnumber (h :: b) = true /\ existsb mustbereal (h :: b) = false).
    { rewrite <- H. destruct (forallb_digit_number ds Hdg) as [A B].
      destruct Hs as [-> | [-> | ->]]; cbn [app forallb existsb]; rewrite A, B; split; reflexivity. }
    destruct Hall as [A B].
    assert (Hnum : isnumber h = true) by (cbn [forallb] in A; apply andb_prop in A as [? _]; auto).
    destruct (number_facts h Hnum) as [_ ->]. rewrite Hnum.
    rewrite number_loop_app; auto.
    + rewrite H in Hlen. destruct (Nat.eqb_spec (List.length (h :: b)) MaxNumberLength) as [E|E];
        [unfold MaxNumberLength in E; rewrite E in Hlen; lia|].
      rewrite B. rewrite <- H.
      rewrite (strtol_spelled sign ds _ Hne Hdg Hs eq_refl Hr). reflexivity.
    + apply space_not_number; auto.
    + rewrite H in Hlen. unfold MaxNumberLength. lia.
  - (* real *)
    assert (A : forallb isnumber (h :: b) = true).
    { apply forallb_forall. intros c Hc. destruct (Hb c Hc) as [H|H].
      - apply digit_facts; auto.
      - cbn in H. destruct H as [<-|[<-|[<-|[<-|[<-|[]]]]]]; reflexivity. }
    assert (B : existsb mustbereal (h :: b) = true).
    { apply existsb_exists. destruct Hreal as (c & Hc1 & Hc2). exists c; split; auto.
      cbn in Hc2. destruct Hc2 as [<-|[<-|[<-|[]]]]; reflexivity. }
    assert (Hnum : isnumber h = true) by (cbn [forallb] in A; apply andb_prop in A as [? _]; auto).
    destruct (number_facts h Hnum) as [_ ->]. rewrite Hnum.
    rewrite number_loop_app; auto.
    + destruct (Nat.eqb_spec (List.length (h :: b)) MaxNumberLength) as [E|E];
        [unfold MaxNumberLength in E; rewrite E in Hlen; lia|].
      rewrite B. reflexivity.
    + apply space_not_number; auto.
    + unfold MaxNumberLength. lia.
  - (* string *)
    change (Ascii.eqb (chr 34) "$") with false. change (isnumber (chr 34)) with false.
    change (Ascii.eqb (chr 34) quote) with true. cbv iota. cbn [rest].
    destruct ((b' ++ [chr 34]) ++ d :: r) as [|c1 r1] eqn:E; [destruct b'; discriminate|].
    assert (Hs : skip_while (fun c => negb (Ascii.eqb c quote)) c1 r1
            = Some (b', {| lastChar := chr 34; rest := d :: r |})).
    { apply skip_while_app; [rewrite <- E, <- app_assoc; reflexivity| |reflexivity].
      apply forallb_forall. intros c Hc. destruct (Ascii.eqb_spec c quote) as [->|]; [exfalso; apply Hq; exact Hc|reflexivity].
      }
    rewrite Hs. reflexivity.
  - (* known sections *)
    assert (Hgen : forall name : string, h :: b = str (String "$" name) -> forallb isalpha (str name) = true ->
      (if Ascii.eqb h "$"
       then match skip_while isalpha (lastChar (advance {| lastChar := h; rest := b ++ d :: r |}))
                    (rest (advance {| lastChar := h; rest := b ++ d :: r |})) with
            | Some (nm, l) => Lexed (section_token nm) l
            | None => Lex_hang
            end else Lex_hang) = Lexed (section_token (str name)) {| lastChar := d; rest := r |}).
    { intros nm En Hal. unfold str in En. cbn [list_ascii_of_string] in En. injection En as -> ->.
      change (Ascii.eqb "$" "$") with true. cbv iota. fold (str nm).
      destruct (str nm ++ d :: r) as [|c1 r1] eqn:E; [destruct (str nm); discriminate|].
      cbn [advance rest lastChar].
      rewrite (skip_while_app isalpha (str nm) c1 r1 d r); auto. apply space_not_alpha; auto. }
    cbn in Hin. destruct Hin as [E|[E|[E|[E|[E|[E|[]]]]]]]; injection E as <- <-.
    all: match goal with H : str (String _ ?nm) = ?h :: ?b, Hgen : _ |- _ =>
           specialize (Hgen nm (eq_sym H) eq_refl);
           assert (h = "$"%char) as -> by (unfold str in H; cbn [list_ascii_of_string] in H; congruence) end.
    all: change (Ascii.eqb "$" "$") with true in *; cbv iota in *;
         match goal with Hgen : match skip_while _ _ _ with _ => _ end = _ |- _ => rewrite Hgen end; reflexivity.
  - (* other sections *)
    change (Ascii.eqb "$" "$") with true. cbv iota.
    destruct (b ++ d :: r) as [|c1 r1] eqn:E; [destruct b; discriminate|].
    cbn [advance rest lastChar].
    rewrite (skip_while_app isalpha b c1 r1 d r); auto; [|apply space_not_alpha; auto].
    f_equal. unfold section_token. cbn [map In] in Hhash.
    repeat match goal with |- context [?a =? ?b] => destruct (Z.eqb_spec a b); [exfalso; apply Hhash; auto 10|] end.
    reflexivity.
Qed.

Theorem lexer_reads_spelled : forall ts tx c0, written ts tx -> isspace c0 = true ->
  exists c, lexes {| lastChar := c0; rest := tx |} ts {| lastChar := c; rest := [] |}.
Proof.
  intros ts tx c0 H. revert c0. induction H as [w t tx c Hw Ht Hc|w t tx c ts r Hw Ht Hc Hr IH]; intros c0 Hc0.
  - exists c. cbn [lexes]. eexists. split; [apply getToken_spelled; auto|]. reflexivity.
  - destruct (IH c Hc) as [c' H']. exists c'. cbn [lexes]. eexists. split; [apply getToken_spelled; auto|]. exact H'.
Qed.

Lemma lexes_app : forall ts ts' l l'', lexes l (ts ++ ts') l'' <-> exists l', lexes l ts l' /\ lexes l' ts' l''.
Proof.
  induction ts as [|t ts IH]; intros ts' l l''; cbn [app lexes].
  - split; [intros H; exists l; auto|intros (l' & -> & H); auto].
  - split.
    + intros (l1 & E & H). apply IH in H as (l' & H1 & H2). exists l'. split; auto. exists l1; auto.
    + intros (l' & (l1 & E & H1) & H2). exists l1. split; auto. apply IH. exists l'; auto.
Qed.
Lemma lexes_eof : forall l, rest l = [] -> lexes l [T_eof] l.
Proof. intros l H. exists l. unfold getToken. rewrite H. split; reflexivity. Qed.

(** The stream shrinks with every token but eof and unknown_token. *)
Lemma skip_while_length : forall p r c w l, skip_while p c r = Some (w, l) ->
  (List.length (rest l) + List.length w = List.length r)%nat /\ c :: r = w ++ lastChar l :: rest l /\ p (lastChar l) = false.
Proof.
  intros p r. induction r as [|a r IH]; intros c w l H; cbn [skip_while] in H; destruct (p c) eqn:E.
  - discriminate.
  - injection H as <- <-. cbn. auto.
  - destruct (skip_while p a r) as [[w' l']|] eqn:E'; [|discriminate]. injection H as <- <-.
    destruct (IH _ _ _ E') as (H1 & H2 & H3). cbn [List.length app]. rewrite H2. split; [|auto]. lia.
  - injection H as <- <-. cbn. auto.
Qed.
Lemma number_loop_length : forall n l b l', number_loop n l = (b, l') ->
  (List.length (rest l') <= List.length (rest l))%nat /\
  (n <> 0%nat -> rest l <> [] -> (List.length (rest l') < List.length (rest l))%nat).
Proof.
  induction n as [|n IH]; intros l b l' H; cbn [number_loop] in H.
  - injection H as <- <-. split; [lia|congruence].
  - assert (Ha : (List.length (rest (advance l)) <= List.length (rest l))%nat /\
                 (rest l <> [] -> (List.length (rest (advance l)) < List.length (rest l))%nat)).
    { unfold advance. destruct (rest l) eqn:E; [rewrite E; cbn; split; [lia|congruence]|cbn; split; lia]. }
    destruct Ha as [Ha1 Ha2].
    destruct (isnumber (lastChar (advance l))).
    + destruct (number_loop n (advance l)) as [b' l''] eqn:E. injection H as <- <-.
      apply IH in E as [E1 _]. split; [lia|]. intros _ Hr. specialize (Ha2 Hr). lia.
    + injection H as <- <-. split; [lia|]. auto.
Qed.

Lemma getToken_length : forall l t l', getToken l = Lexed t l' ->
  (List.length (rest l') <= List.length (rest l))%nat /\
  (t <> T_eof -> t <> T_unknown_token -> (List.length (rest l') < List.length (rest l))%nat).
Proof.
  intros l t l' H. unfold getToken in H.
  destruct (rest l) as [|a r] eqn:Er; [injection H as <- <-; rewrite Er; split; [lia|congruence]|].
  destruct (skip_while isspace (lastChar l) (a :: r)) as [[w l1]|] eqn:Es; [|discriminate].
  apply skip_while_length in Es as (E1 & E2 & E3).
  assert (Hadv : forall k, (List.length (rest (advance k)) <= List.length (rest k))%nat /\
                 (rest k <> [] -> (List.length (rest (advance k)) < List.length (rest k))%nat)).
  { intros k. unfold advance. destruct (rest k) eqn:E; [rewrite E; cbn; split; [lia|congruence]|cbn; split; lia]. }
  (* either white space was skipped or the rest is unchanged and not empty *)
  assert (Hw : w = [] /\ rest l1 = a :: r \/ w <> [] /\ (List.length (rest l1) < List.length (a :: r))%nat).
  { destruct w as [|x w]; [left|right].
    - cbn [app] in E2. injection E2 as _ E2. auto.
    - split; [discriminate|]. cbn [List.length] in *. lia. }
  destruct (Ascii.eqb (lastChar l1) "$").
  - destruct (skip_while isalpha _ _) as [[nm l2]|] eqn:E; [|discriminate]. injection H as <- <-.
    apply skip_while_length in E as (F1 & _ & _). destruct (Hadv l1) as [G1 G2].
    destruct Hw as [[-> Hw]|[_ Hw]].
    + assert (rest l1 <> []) by (rewrite Hw; discriminate). specialize (G2 H). rewrite Hw in *. split; intros; lia.
    + split; intros; lia.
  - destruct (isnumber (lastChar l1)).
    + destruct (number_loop MaxNumberLength l1) as [b l2] eqn:E. apply number_loop_length in E as [F1 F2].
      assert (l' = l2) by (destruct (Nat.eqb _ _); [discriminate|]; destruct (existsb _ _); congruence). subst l2.
      destruct Hw as [[-> Hw]|[_ Hw]].
      * rewrite Hw in *. specialize (F2 ltac:(discriminate) ltac:(discriminate)). split; intros; lia.
      * split; intros; lia.
    + destruct (Ascii.eqb (lastChar l1) quote).
      * destruct (rest l1) as [|c r1] eqn:Er1.
        -- injection H as <- <-. rewrite Er1. cbn [List.length]. split; intros; lia.
        -- destruct (skip_while _ c r1) as [[w2 l2]|] eqn:E; [|discriminate]. injection H as <- <-.
           apply skip_while_length in E as (F1 & _ & _). destruct (Hadv l2) as [G1 _].
           cbn [List.length] in *. destruct Hw as [[-> Hw]|[_ Hw]].
           ++ injection Hw as -> ->. split; intros; lia.
           ++ split; intros; lia.
      * injection H as <- <-. split; [|congruence]. destruct Hw as [[_ ->]|[_ Hw]]; lia.
Qed.
