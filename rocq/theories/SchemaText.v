(** Lemmas about command line arguments. *)
Require Import ZArith QArith Bool Ascii String Lia List.
From Verif Require Import Base SchemaModel SchemaSpec SchemaProofs.
Import ListNotations.
Local Open Scope list_scope.
Local Open Scope Z_scope.

Lemma is_digit_b : forall c,
  ((0 <=? Z.of_nat (nat_of_ascii c) - 48) && (Z.of_nat (nat_of_ascii c) - 48 <=? 9) = true) <-> is_digit c.
Proof. intros c. unfold is_digit, code. rewrite andb_true_iff, !Z.leb_le. lia. Qed.

Lemma digits_decimal : forall ds rest acc, Forall is_digit ds ->
  (forall c r, rest = c :: r -> ~ is_digit c) ->
  digits acc (ds ++ rest) = fold_left (fun a c => 10 * a + (code c - 48)) ds acc.
Proof.
  induction ds as [| c ds IH]; intros rest acc Hd Hr; cbn [app fold_left].
  - destruct rest as [| c r]; [reflexivity |]. cbn [digits].
    destruct (_ && _) eqn:E; [| reflexivity]. apply is_digit_b in E. exfalso. eapply Hr; eauto.
  - cbn [digits]. rewrite (proj2 (is_digit_b c)) by (apply Forall_inv in Hd; exact Hd).
    apply IH; [apply Forall_inv_tail in Hd; exact Hd | exact Hr].
Qed.

(** The leading digits of a text. *)
Fixpoint leading (l : list ascii) : list ascii * list ascii :=
  match l with
  | [] => ([], [])
  | c :: r =>
      if (0 <=? Z.of_nat (nat_of_ascii c) - 48) && (Z.of_nat (nat_of_ascii c) - 48 <=? 9)
      then let '(a, b) := leading r in (c :: a, b) else ([], l)
  end.
Lemma leading_spec : forall l, let '(a, b) := leading l in
  l = a ++ b /\ Forall is_digit a /\ (forall c r, b = c :: r -> ~ is_digit c) /\
  (starts_with_digit l = true <-> a <> []).
Proof.
  induction l as [| c l IH].
  - cbn. split; [reflexivity |]. split; [constructor |]. split; [discriminate |].
    split; [discriminate | congruence].
  - cbn [leading starts_with_digit]. destruct (_ && _) eqn:E.
    + destruct (leading l) as [a b]. destruct IH as (-> & Ha & Hb & _).
      split; [reflexivity |]. split; [constructor; [apply is_digit_b; exact E | exact Ha] |].
      split; [exact Hb |]. split; [discriminate | reflexivity].
    + split; [reflexivity |]. split; [constructor |]. split.
      * intros c' r' H. injection H as <- <-. intros H. apply is_digit_b in H. congruence.
      * split; [discriminate | congruence].
Qed.
Lemma leading_unique : forall a b a' b', a ++ b = a' ++ b' ->
  Forall is_digit a -> Forall is_digit a' ->
  (forall c r, b = c :: r -> ~ is_digit c) -> (forall c r, b' = c :: r -> ~ is_digit c) ->
  a = a' /\ b = b'.
Proof.
  induction a as [| c a IH]; intros b [| c' a'] b' E Ha Ha' Hb Hb'; cbn in E.
  - auto.
  - subst b. exfalso. eapply Hb; [reflexivity |]. exact (Forall_inv Ha').
  - subst b'. exfalso. eapply Hb'; [reflexivity |]. exact (Forall_inv Ha).
  - injection E as -> E.
    destruct (IH b a' b' E (Forall_inv_tail Ha) (Forall_inv_tail Ha') Hb Hb') as [-> ->]. auto.
Qed.

Lemma over_read : forall (l mem : list ascii), l <> [] ->
  exists junk, firstn (2 * length l) (l ++ "000"%char :: mem) = l ++ "000"%char :: junk.
Proof.
  intros [| c l] mem H; [congruence |].
  exists (firstn (length l) mem).
  replace (2 * length (c :: l))%nat with (length (c :: l) + S (length l))%nat by (cbn; lia).
  rewrite firstn_app_2. reflexivity.
Qed.
Lemma zero_not_digit : ~ is_digit "000"%char.
Proof. unfold is_digit, code. cbn. lia. Qed.
Lemma minus_not_digit : ~ is_digit "-"%char.
Proof. unfold is_digit, code. cbn. lia. Qed.

Lemma stop_at_zero : forall (rest junk : list ascii), (forall c r, rest = c :: r -> ~ is_digit c) ->
  forall c r, rest ++ "000"%char :: junk = c :: r -> ~ is_digit c.
Proof.
  intros [| x rest] junk H c r E.
  - cbn in E. injection E as <- <-. exact zero_not_digit.
  - cbn in E. injection E as <- <-. eapply H. reflexivity.
Qed.

Lemma starts_app : forall ds rest, Forall is_digit ds -> ds <> [] ->
  starts_with_digit (ds ++ rest) = true.
Proof.
  intros [| c ds] rest H Hne; [congruence |]. cbn. apply is_digit_b. exact (Forall_inv H).
Qed.

(** What from_chars makes of an argument: nothing behind its end matters. *)
Lemma from_chars_text : forall stod lo hi s mem v,
  from_chars lo hi (firstn (2 * length (chars s)) (chars s ++ "000"%char :: mem)) = Some (Some v) <->
  reads_text stod (TInt lo hi) s v.
Proof.
  intros stod lo hi s mem v. split.
  - intros H. destruct (chars s) as [| c0 l0] eqn:Es; [discriminate |].
    destruct (over_read (c0 :: l0) mem ltac:(discriminate)) as [junk Hj]. rewrite Hj in H. clear Hj.
    unfold from_chars in H. cbn [app] in H.
    destruct (Ascii.eqb c0 "-" && (lo <? 0)) eqn:En; cbn [tl] in H.
    + apply andb_true_iff in En as [Ec Hlo]. apply Ascii.eqb_eq in Ec. subst c0.
      pose proof (leading_spec l0) as HL. destruct (leading l0) as [a b].
      destruct HL as (-> & Ha & Hb & Hs).
      rewrite <- app_assoc in H.
      destruct (starts_with_digit (a ++ b ++ "000"%char :: junk)) eqn:E; cbn [negb] in H; [| discriminate].
      rewrite (digits_decimal a) in H by (assumption || (apply stop_at_zero; assumption)).
      destruct (_ || _) eqn:Er; [discriminate |]. injection H as <-. apply orb_false_iff in Er.
      assert (a <> []).
      { intros ->. cbn [app] in E. destruct b as [| c b]; [discriminate |]. cbn [app starts_with_digit] in E.
        apply is_digit_b in E. eapply Hb; eauto. }
      apply T_neg with (rest := b); auto; unfold decimal; lia.
    + pose proof (leading_spec (c0 :: l0)) as HL. destruct (leading (c0 :: l0)) as [a b].
      destruct HL as (El & Ha & Hb & Hs).
      change (c0 :: l0 ++ "000"%char :: junk) with ((c0 :: l0) ++ "000"%char :: junk) in H.
      rewrite El, <- app_assoc in H.
      destruct (starts_with_digit (a ++ b ++ "000"%char :: junk)) eqn:E; cbn [negb] in H; [| discriminate].
      rewrite (digits_decimal a) in H by (assumption || (apply stop_at_zero; assumption)).
      destruct (_ || _) eqn:Er; [discriminate |]. injection H as <-. apply orb_false_iff in Er.
      assert (a <> []).
      { intros ->. cbn [app] in E. destruct b as [| c b]; [discriminate |]. cbn [app starts_with_digit] in E.
        apply is_digit_b in E. eapply Hb; eauto. }
      apply T_int with (rest := b); auto; [congruence | unfold decimal; lia].
  - intros H. inversion H as [| | | ? ? ? ds rest E Hne Hd Hr Hran | ? ? ? ds rest E Hne Hd Hr Hlo Hran]; subst.
    + destruct (over_read (chars s) mem) as [junk Hj].
      { rewrite E. destruct ds; [congruence | discriminate]. }
      rewrite Hj, E, <- app_assoc. unfold from_chars.
      assert (En : match ds ++ rest ++ "000"%char :: junk with
                   | [] => false | c :: _ => Ascii.eqb c "-" && (lo <? 0) end = false).
      { destruct ds as [| c ds]; [congruence |]. cbn [app]. apply andb_false_iff. left.
        apply Ascii.eqb_neq. intros ->. apply minus_not_digit. exact (Forall_inv Hd). }
      rewrite En. rewrite starts_app by assumption. cbn [negb].
      rewrite digits_decimal by (assumption || (apply stop_at_zero; assumption)).
      fold (decimal ds). destruct (_ || _) eqn:Er; [apply orb_true_iff in Er; lia | reflexivity].
    + destruct (over_read (chars s) mem) as [junk Hj]; [rewrite E; discriminate |].
      rewrite Hj, E. unfold from_chars. cbn [app tl].
      assert (En : Ascii.eqb "-" "-" && (lo <? 0) = true).
      { rewrite Ascii.eqb_refl. apply Z.ltb_lt. exact Hlo. }
      rewrite En. rewrite <- app_assoc. rewrite starts_app by assumption. cbn [negb].
      rewrite digits_decimal by (assumption || (apply stop_at_zero; assumption)).
      fold (decimal ds). destruct (_ || _) eqn:Er; [apply orb_true_iff in Er; lia | reflexivity].
Qed.

Lemma NoDup_map_same : forall {A B} (f : A -> B) l x y, NoDup (map f l) -> In x l -> In y l -> f x = f y -> x = y.
Proof.
  intros A B f l x y. induction l as [| a l IH]; intros Hnd Hx Hy E; [destruct Hx |].
  cbn [map] in Hnd. inversion Hnd as [| ? ? Hn Hnd']; subst.
  destruct Hx as [-> | Hx], Hy as [-> | Hy]; auto.
  - exfalso. apply Hn. rewrite E. apply in_map. exact Hy.
  - exfalso. apply Hn. rewrite <- E. apply in_map. exact Hx.
Qed.

Section Args.
Variable stod : string -> option double.
Variable memory : string -> list ascii.

Lemma string_value_text : forall ty s v, string_value stod memory ty s = Ok v <-> reads_text stod ty s v.
Proof.
  intros ty s v. destruct ty as [| lo hi | | |]; cbn [string_value].
  - split.
    + repeat destruct (list_eq_dec _ _ _); try discriminate; intros H; injection H as <-;
        constructor; cbn; auto.
    + intros H. inversion H as [| | ? b Hin | |]; subst. destruct b; cbn in Hin;
        destruct Hin as [E | [E | []]]; rewrite <- E; reflexivity.
  - rewrite <- (from_chars_text stod lo hi s (memory s)).
    destruct (from_chars lo hi _) as [[w |] |]; split; intros H; try discriminate; congruence.
  - destruct (stod s) as [f |] eqn:E; split; intros H; try discriminate.
    + injection H as <-. constructor. exact E.
    + inversion H; subst. congruence.
    + inversion H; subst. congruence.
  - split; intros H; [injection H as <-; constructor | inversion H; reflexivity].
  - split; intros H; [discriminate | inversion H].
Qed.
Lemma translate_string_text : forall s x v,
  translate_string stod memory s x = Ok v <-> fits_text stod s x v.
Proof.
  intros s x v. destruct s as [ty c k d | |]; cbn [translate_string].
  - rewrite obind_ok. split.
    + intros (w & Hw & H). apply validate_ok in H as [-> Hp]. destruct c as [f |].
      * apply FT_convert; assumption.
      * apply FT_value; [apply string_value_text; exact Hw | exact Hp].
    + intros H. exists v. inversion H; subst.
      * split; [apply string_value_text; assumption | apply validate_ok; auto].
      * split; [assumption | apply validate_ok; auto].
  - split; intros H; [discriminate | inversion H].
  - split; intros H; [discriminate | inversion H].
Qed.

Definition key_of (e : string * (nat * bool) * schema) : string := fst (fst e).

Lemma set_entry_ok : forall (entries : fields) m k i o s x m',
  NoDup (map key_of entries) -> In (k, (i, o), s) entries ->
  (set_entry stod memory entries m k x = Ok m' <->
   exists v, fits_text stod s x v /\ m' = set_member m i v).
Proof.
  induction entries as [| [[k' [i' o']] s'] r IH]; intros m k i o s x m' Hnd Hin; [destruct Hin |].
  cbn [map] in Hnd. inversion Hnd as [| ? ? Hn Hnd']; subst. cbn [set_entry].
  destruct Hin as [Heq | Hin].
  - injection Heq as -> -> -> ->. rewrite String.eqb_refl. split.
    + destruct (translate_string stod memory s x) as [v | |] eqn:E; try discriminate.
      intros H. injection H as <-. exists v. split; [apply translate_string_text; exact E | reflexivity].
    + intros (v & Hv & ->). apply translate_string_text in Hv. rewrite Hv. reflexivity.
  - destruct (String.eqb k k') eqn:E.
    + apply String.eqb_eq in E. subst k'. exfalso. apply Hn. exact (in_map key_of _ _ Hin).
    + eapply IH; eassumption.
Qed.

Definition is_value (s : schema) : Prop := exists ty c k d, s = SValue ty c k d.
Lemma cmd_line_args_in : forall (entries : fields) k,
  In k (cmd_line_args entries) <-> exists io s, In (k, io, s) entries /\ is_value s.
Proof.
  intros entries k. induction entries as [| [[k' io'] s'] r IH]; cbn [cmd_line_args].
  - split; [intros [] | intros (? & ? & [] & _)].
  - destruct s' as [ty c kk d | |]; cbn [In]; rewrite ?IH; split.
    + intros [-> | (io & s & H & Hv)]; [exists io', (SValue ty c kk d) | exists io, s].
      * split; [auto | exists ty, c, kk, d; reflexivity].
      * auto.
    + intros (io & s & [Heq | H] & Hv); [left; congruence | right; eauto].
    + intros (io & s & H & Hv). exists io, s. auto.
    + intros (io & s & [Heq | H] & ty & c & kk & d & ->); [discriminate |]. exists io. eexists.
      split; [exact H | eexists _, _, _, _; reflexivity].
    + intros (io & s & H & Hv). exists io, s. auto.
    + intros (io & s & [Heq | H] & ty & c & kk & d & ->); [discriminate |]. exists io. eexists.
      split; [exact H | eexists _, _, _, _; reflexivity].
Qed.
Lemma cmd_line_args_nodup : forall (entries : fields),
  NoDup (map key_of entries) -> NoDup (cmd_line_args entries).
Proof.
  induction entries as [| [[k io] s] r IH]; intros H; [constructor |].
  cbn [map] in H. inversion H as [| ? ? Hn H']; subst. cbn [cmd_line_args].
  destruct s; auto. constructor; auto.
  intros Hin. apply Hn. apply cmd_line_args_in in Hin as (io' & s' & Hin & _).
  exact (in_map key_of _ _ Hin).
Qed.

(** The effect of the options given. *)
Lemma apply_args_ok : forall (entries : fields) present keys m m',
  NoDup (map key_of entries) -> NoDup (map member_of entries) ->
  (forall k i o s, In (k, (i, o), s) entries -> (i < length m)%nat) ->
  NoDup keys -> (forall k, In k keys -> In k (cmd_line_args entries)) ->
  apply_args stod memory entries keys present m = Ok m' ->
  length m' = length m /\
  (forall k i o s x, In (k, (i, o), s) entries -> In k keys -> present k = Some x ->
     exists v, fits_text stod s x v /\ nth_error m' i = Some (Some v)) /\
  (forall i, (forall k o s x, In (k, (i, o), s) entries -> In k keys -> present k = Some x -> False) ->
     nth_error m' i = nth_error m i).
Proof.
  intros entries present keys. induction keys as [| k keys IH];
    intros m m' Hk Hm Hlt Hnd Hsub H; cbn [apply_args] in H.
  - injection H as <-. split; [reflexivity |]. split; [intros ? ? ? ? ? ? [] | reflexivity].
  - apply obind_ok in H as (m1 & H1 & H2).
    inversion Hnd as [| ? ? Hn Hnd']; subst.
    destruct (proj1 (cmd_line_args_in _ _) (Hsub k (or_introl eq_refl))) as ([i o] & s & Hin & _).
    assert (Hm1 : length m1 = length m /\ (forall j, j <> i -> nth_error m1 j = nth_error m j) /\
              match present k with
              | Some x => exists v, fits_text stod s x v /\ nth_error m1 i = Some (Some v)
              | None => m1 = m end).
    { destruct (present k) as [x |].
      - apply (set_entry_ok _ _ _ _ _ _ _ _ Hk Hin) in H1 as (v & Hv & ->).
        rewrite set_member_length. split; [reflexivity |]. split.
        + intros. apply set_member_other. congruence.
        + exists v. split; [exact Hv |]. apply set_member_same. eapply Hlt. exact Hin.
      - injection H1 as ->. auto. }
    destruct Hm1 as (L1 & O1 & S1).
    apply IH in H2; auto.
    2:{ intros. rewrite L1. eapply Hlt. eassumption. }
    2:{ intros. apply Hsub. right. assumption. }
    destruct H2 as (L2 & A & B).
    assert (Hkeys : forall k' o' s', In (k', (i, o'), s') entries -> k' = k).
    { intros k' o' s' Hin'.
      assert (E : (k', (i, o'), s') = (k, (i, o), s)).
      { eapply (NoDup_map_same member_of); eauto. }
      congruence. }
    split; [congruence |]. split.
    + intros k' i' o' s' x Hin' [<- | Hin2] Hx; [| eauto].
      assert (E : (k, (i', o'), s') = (k, (i, o), s)) by (eapply (NoDup_map_same key_of); eauto).
      injection E as -> -> ->. rewrite Hx in S1. destruct S1 as (v & Hv & Hi).
      exists v. split; [exact Hv |]. rewrite B; [exact Hi |].
      intros k' o' s' x' Hin'' Hk'' _. apply Hkeys in Hin''. subst k'. contradiction.
    + intros j Hj. rewrite B.
      * destruct (Nat.eq_dec j i) as [-> | Hne]; [| apply O1; exact Hne].
        destruct (present k) as [x |] eqn:Ek; [| congruence].
        exfalso. eapply Hj; [exact Hin | left; reflexivity | exact Ek].
      * intros k' o' s' x' Hin' Hk' Hx'. eapply Hj; [exact Hin' | right; exact Hk' | exact Hx'].
Qed.
End Args.
