(** C11: translation of configuration tables and command line arguments. *)
Require Import ZArith QArith Bool Ascii String Lia Permutation List.
From Verif Require Import Base SchemaModel SchemaSpec SchemaProofs SchemaText.
Import ListNotations.
Local Open Scope list_scope.
Local Open Scope Z_scope.

(** A schema for the examples: a checked number with a default, an optional text, a required array of
    tables, each with a converted text. *)
Definition positive (v : val) : bool :=
  match v with VFloat (DRat q) => negb (Qle_bool q 0) | _ => false end.
Definition colour (s : string) : outcome val :=
  if String.eqb s "red" then Ok (VEnum 0) else if String.eqb s "blue" then Ok (VEnum 1)
  else Error false [].
Definition ex_cell : schema :=
  STable [None] [("colour"%string, (0%nat, false), SValue TOther (Some colour) None None)] None None.
Definition ex_entries : fields :=
  [("cfl"%string, (0%nat, false), SValue TDouble None (Some positive) (Some (VFloat (DRat 1))));
   ("name"%string, (2%nat, true), SValue TString None None None);
   ("cells"%string, (1%nat, false), SArray 1 5 (Some ex_cell) None None)].
Definition ex_schema : schema := STable [None; None; None] ex_entries None None.
Definition ex_good : list (string * node) :=
  [("cells", NArr [NTab [("colour", NStr "blue")]]); ("cfl", NInt 2)]%string.
Definition ex_bad : list (string * node) :=
  [("cells", NArr [NTab [("colour", NStr "blue")]; NTab [("colour", NStr "green")]])]%string.

(** ** Translation
    Translating a node gives a value exactly when the node fits the schema, and then the value fits:
    every given key goes through conversion and check, missing keys get the default, or nothing if
    the member is optional. *)
Theorem schema_translate : forall s n v, well_formed s ->
  (translate s n = Ok v <-> fits s n v).
Proof. exact translate_fits. Qed.
Print Assumptions schema_translate.

(** A reported error names, innermost first, the keys and array entries leading to a real fault; a
    node with such a fault fits no value. *)
Theorem schema_error_located : forall s n rt p, well_formed s ->
  translate s n = Error rt p -> fault s n p /\ forall v, ~ fits s n v.
Proof.
  intros s n rt p Hwf H. assert (HF := translate_fault s n rt p Hwf H).
  split; [exact HF | exact (fault_unfit s n p HF Hwf)].
Qed.
Print Assumptions schema_error_located.

(** Unless a floating point number without 64 bit integer part is given, the outcome is a value or an
    error. *)
Theorem schema_decides : forall s n, well_formed s -> converters_defined s -> tame n ->
  (exists v, translate s n = Ok v /\ fits s n v) \/
  (exists rt p, translate s n = Error rt p /\ forall v, ~ fits s n v).
Proof.
  intros s n Hwf Hc Ht. pose proof (translate_defined s n Hc Ht) as Hd.
  destruct (translate s n) as [v | rt p |] eqn:E; [left | right | congruence].
  - exists v. split; [reflexivity | apply translate_fits; assumption].
  - exists rt, p. split; [reflexivity |]. apply (schema_error_located s n rt p Hwf E).
Qed.
Print Assumptions schema_decides.

Example ex_well_formed : well_formed ex_schema /\ converters_defined ex_schema.
Proof.
  split.
  - cbn. repeat split; try lia; repeat constructor; cbn; intuition lia.
  - cbn. repeat split; intros f x H; try discriminate. injection H as <-. unfold colour.
    destruct (String.eqb x "red"); [discriminate |]. destruct (String.eqb x "blue"); discriminate.
Qed.
Example ex_translate : translate ex_schema (NTab ex_good) =
  Ok (VRec [Some (VFloat (DRat 2)); Some (VArr [VRec [Some (VEnum 1)]]); None]).
Proof. reflexivity. Qed.
Example ex_located : translate ex_schema (NTab ex_bad) =
  Error true [Key "colour"; Entry 1; Key "cells"].
Proof. reflexivity. Qed.
Example ex_tame : tame (NTab ex_good).
Proof. cbn. tauto. Qed.

(** ** Unknown keys and order
    Nodes that look the same to the schema translate alike, errors included. *)
Theorem schema_only_known_keys : forall s n n', alike s n n' -> translate s n = translate s n'.
Proof. exact translate_alike. Qed.
Print Assumptions schema_only_known_keys.

Lemma get_permutation : forall l l' k, NoDup (map fst l) -> Permutation l l' -> get l k = get l' k.
Proof.
  intros l l' k Hnd HP. induction HP as [| [k' n] l l' HP IH | [k1 n1] [k2 n2] l | l l1 l2 H1 IH1 H2 IH2].
  - reflexivity.
  - cbn [get]. cbn in Hnd. inversion Hnd; subst. rewrite IH by assumption. reflexivity.
  - cbn [get]. cbn in Hnd. inversion Hnd as [| ? ? Hn Hnd']; subst.
    destruct (String.eqb k1 k) eqn:E1, (String.eqb k2 k) eqn:E2; auto.
    apply String.eqb_eq in E1, E2. subst. exfalso. apply Hn. left. reflexivity.
  - rewrite IH1 by assumption. apply IH2.
    eapply Permutation_NoDup; [apply Permutation_map; exact H1 | exact Hnd].
Qed.
Lemma get_app_other : forall l r k, ~ In k (map fst r) -> get (l ++ r) k = get l k.
Proof.
  induction l as [| [k' n] l IH]; intros r k H; cbn [get app].
  - induction r as [| [k' n] r IHr]; cbn [get]; [reflexivity |]. cbn in H.
    destruct (String.eqb k' k) eqn:E; [apply String.eqb_eq in E; subst; tauto | tauto].
  - destruct (String.eqb k' k); auto.
Qed.

(** The keys of a table in another order, and further keys the schema does not know: no difference. *)
Theorem schema_order_unknown : forall blank (entries : fields) chk d l l' extra,
  NoDup (map fst l) -> Permutation l l' ->
  (forall k, In k (map fst extra) -> ~ In k (map (fun e => fst (fst e)) entries)) ->
  translate (STable blank entries chk d) (NTab (l' ++ extra)) =
  translate (STable blank entries chk d) (NTab l).
Proof.
  intros blank entries chk d l l' extra Hnd HP Hex. cbn [translate].
  assert (E : forall m, translate_entries translate entries (NTab (l' ++ extra)) m =
                        translate_entries translate entries (NTab l) m).
  { induction entries as [| [[k [i o]] s] r IH]; intros m; [reflexivity |].
    cbn [translate_entries node_at].
    rewrite get_app_other by (intros Hin; apply (Hex k Hin); left; reflexivity).
    rewrite <- (get_permutation l l' k Hnd HP).
    destruct (match translate_member (translate s) i o s (get l k) m with
              | Error _ p => Error true (p ++ [Key k]) | o => o end); cbn [obind]; auto.
    apply IH. intros k' Hin Hin'. apply (Hex k' Hin). right. exact Hin'. }
  rewrite E. reflexivity.
Qed.
Print Assumptions schema_order_unknown.

Example ex_order : translate ex_schema (NTab (rev ex_good ++ [("colour", NInt 7)]%string)) =
  translate ex_schema (NTab ex_good).
Proof. reflexivity. Qed.

Lemma with_ts_file : forall raw, config_file raw (NTab (with_ts_checkpoint raw)).
Proof.
  intros raw. unfold config_file, with_ts_checkpoint. cbn [node_at].
  destruct (get raw "ts_checkpoint") as [x |] eqn:E.
  - split; [reflexivity |]. split; [discriminate |]. intros y H. congruence.
  - split; [| split; [reflexivity | discriminate]].
    intros k Hk. cbn [get]. destruct (String.eqb _ k) eqn:Ek; [| reflexivity].
    apply String.eqb_eq in Ek. congruence.
Qed.
Lemma config_file_translate : forall blank (entries : fields) chk d raw n n',
  config_file raw n -> config_file raw n' ->
  translate (STable blank entries chk d) n = translate (STable blank entries chk d) n'.
Proof.
  intros blank entries chk d raw n n' (A & B & C) (A' & B' & C').
  assert (E : forall k, node_at n k = node_at n' k).
  { intros k. destruct (string_dec k "ts_checkpoint") as [-> | Hk]; [| rewrite A, A'; auto].
    destruct (get raw "ts_checkpoint") as [x |]; [rewrite (C x), (C' x) | rewrite B, B']; auto. }
  cbn [translate].
  assert (E2 : forall m, translate_entries translate entries n m = translate_entries translate entries n' m).
  { induction entries as [| [[k [i o]] s] r IH]; intros m; [reflexivity |].
    cbn [translate_entries]. rewrite E.
    destruct (match translate_member (translate s) i o s (node_at n' k) m with
              | Error _ p => Error true (p ++ [Key k]) | o => o end); cbn [obind]; auto. }
  rewrite E2. reflexivity.
Qed.

(** ** Command line
    The configuration of a run: the file fits the schema, and every plain value also given on the
    command line is the accepted reading of that text instead; nothing else is touched.  What lies in
    memory behind an argument does not matter, although it is handed to the number parser. *)
Theorem config_cmdline : forall stod memory blank (entries : fields) chk raw present m,
  well_formed (STable blank entries chk None) -> NoDup (map (fun e => fst (fst e)) entries) ->
  read_config stod memory blank entries chk raw present = Ok m ->
  exists file m0,
    config_file raw file /\ fits (STable blank entries chk None) file (VRec m0) /\
    length m = length m0 /\
    (forall k i o ty c f d x, In (k, (i, o), SValue ty c f d) entries -> present k = Some x ->
       exists v, fits_text stod (SValue ty c f d) x v /\ nth_error m i = Some (Some v)) /\
    (forall i, (forall k o ty c f d x, In (k, (i, o), SValue ty c f d) entries ->
        present k = Some x -> False) -> nth_error m i = nth_error m0 i).
Proof.
  intros stod memory blank entries chk raw present m Hwf Hk H.
  unfold read_config in H. apply obind_ok in H as (v & Hv & H).
  apply translate_fits in Hv; [| exact Hwf]. inversion Hv; subst.
  exists (NTab (with_ts_checkpoint raw)), m0.
  split; [apply with_ts_file |]. split; [exact Hv |].
  destruct (well_formed_entries _ _ _ _ Hwf) as [Hnd Hall].
  apply apply_args_ok in H; auto.
  - destruct H as (L & A & B). split; [exact L |]. split.
    + intros k i o ty c f d x Hin Hx. eapply A; [exact Hin | | exact Hx].
      apply cmd_line_args_in. exists (i, o). eexists. split; [exact Hin |].
      exists ty, c, f, d. reflexivity.
    + intros i Hi. apply B. intros k o s x Hin Hkey Hx.
      apply cmd_line_args_in in Hkey as (io & s' & Hin' & ty & c & f & d & ->).
      assert (E : (k, io, SValue ty c f d) = (k, (i, o), s)) by (eapply (NoDup_map_same key_of); eauto).
      injection E as -> <-. eapply Hi; eassumption.
  - intros k i o s Hin. match goal with L : length m0 = length blank |- _ => rewrite L end.
    eapply Hall. exact Hin.
  - apply cmd_line_args_nodup. exact Hk.
Qed.
Print Assumptions config_cmdline.

(** Conversely a file that fits and arguments that are all acceptable give a configuration. *)
Theorem config_cmdline_accepts : forall stod memory blank (entries : fields) chk raw present file m0,
  well_formed (STable blank entries chk None) -> NoDup (map (fun e => fst (fst e)) entries) ->
  config_file raw file -> fits (STable blank entries chk None) file (VRec m0) ->
  (forall k io ty c f d x, In (k, io, SValue ty c f d) entries -> present k = Some x ->
     exists v, fits_text stod (SValue ty c f d) x v) ->
  exists m, read_config stod memory blank entries chk raw present = Ok m.
Proof.
  intros stod memory blank entries chk raw present file m0 Hwf Hk Hfile Hfit Hargs.
  apply translate_fits in Hfit; [| exact Hwf]. unfold read_config.
  rewrite (config_file_translate _ _ _ _ raw _ file (with_ts_file raw) Hfile), Hfit. cbn [obind].
  assert (Hsub : forall k, In k (cmd_line_args entries) -> In k (cmd_line_args entries)) by auto.
  revert Hsub. generalize (cmd_line_args entries) at 1 3. intros keys. clear Hfit.
  revert m0. induction keys as [| k keys IH]; intros m0 Hsub; cbn [apply_args]; [eauto |].
  destruct (proj1 (cmd_line_args_in _ _) (Hsub k (or_introl eq_refl)))
    as ([i o] & s & Hin & ty & c & f & d & ->).
  destruct (present k) as [x |] eqn:Ex.
  - destruct (Hargs _ _ _ _ _ _ _ Hin Ex) as (v & Hv).
    rewrite (proj2 (set_entry_ok stod memory entries m0 k i o _ x (set_member m0 i v) Hk Hin)) by eauto.
    cbn [obind]. apply IH. intros; apply Hsub; right; assumption.
  - cbn [obind]. apply IH. intros; apply Hsub; right; assumption.
Qed.
Print Assumptions config_cmdline_accepts.

Example ex_cmdline :
  read_config (fun s => if String.eqb s "0.5" then Some (DRat (1 # 2)) else None) (fun _ => []) 
    [None; None; None] ex_entries None ex_good
    (fun k => if String.eqb k "cfl" then Some "0.5"%string else None) =
  Ok [Some (VFloat (DRat (1 # 2))); Some (VArr [VRec [Some (VEnum 1)]]); None].
Proof. reflexivity. Qed.

(** ** What is not an error although one would expect it *)
(** A number, say, where a table is expected is taken for an empty table. *)
Theorem schema_non_table_refuted : exists s, well_formed s /\
  (exists blank entries chk d, s = STable blank entries chk d /\ entries <> []) /\
  translate s (NInt 7) = translate s (NTab []) /\ exists v, translate s (NInt 7) = Ok v.
Proof.
  exists (STable [None] [("freq"%string, (0%nat, false), SValue TDouble None None (Some (VFloat (DRat 30))))] None None).
  split; [cbn; repeat split; try lia; repeat constructor; cbn; tauto |].
  split; [eexists _, _, _, _; split; [reflexivity | discriminate] |].
  split; [reflexivity | eexists; reflexivity].
Qed.
(** The default of an optional member is ignored, and defaults are not checked. *)
Theorem schema_default_refuted : forall d, 
  translate (STable [None] [("x"%string, (0%nat, true), SValue TDouble None None (Some d))] None None) (NTab [])
    = Ok (VRec [None]) /\
  translate (STable [None] [("x"%string, (0%nat, false), SValue TDouble None (Some (fun _ => false)) (Some d))] None None)
    (NTab []) = Ok (VRec [Some d]).
Proof. intros d. split; reflexivity. Qed.
(** Whatever follows a number on the command line is ignored. *)
Theorem cmdline_trailing_text_refuted : forall stod memory,
  translate_string stod memory (SValue (TInt 0 4294967295) None None None) "2x" = Ok (VInt 2).
Proof. reflexivity. Qed.
(** A floating point number too large for 64 bits, or not a number, for an integer key. *)
Theorem schema_float_for_integer_refuted :
  translate (SValue (TInt 0 10) None None None) (NFloat DNan) = Undef /\
  translate (SValue (TInt 0 10) None None None) (NFloat (DRat (inject_Z (2 ^ 64)))) = Undef.
Proof. split; reflexivity. Qed.

(** Lower case: each capital letter becomes its small one, and no other character changes. *)
Definition capitals : string := "ABCDEFGHIJKLMNOPQRSTUVWXYZ".
Definition smalls : string := "abcdefghijklmnopqrstuvwxyz".
Theorem lower_case : lower capitals = chars smalls /\ forall c, ~ In c (chars capitals) -> tolower c = c.
Proof.
  split; [reflexivity |]. intros [[|] [|] [|] [|] [|] [|] [|] [|]] H; try reflexivity;
    exfalso; apply H; cbn; tauto.
Qed.
Print Assumptions lower_case.

(** ** Case insensitive names
    The comparison used by all converters accepts every prefix of the name. *)
Theorem iequals_prefix : forall a b, ~ In "000"%char (chars a) ->
  (iEquals a b = Some true <-> exists rest, lower a ++ rest = lower b) /\
  iEquals a b <> None.
Proof.
  intros a b Ha. unfold iEquals, lower. unfold chars in *.
  generalize dependent (list_ascii_of_string b).
  induction (list_ascii_of_string a) as [| x l IH]; intros r; cbn [i_equals_chars map app].
  - split; [| discriminate]. split; [intros _; exists (map tolower r); reflexivity | reflexivity].
  - destruct r as [| y r]; cbn [app map].
    + assert (E : Ascii.eqb (tolower x) (tolower "000") = false).
      { apply Ascii.eqb_neq. change (tolower "000") with "000"%char. intros E. apply Ha. left.
        unfold tolower in E. destruct (_ && _)%bool eqn:Eb; [| congruence].
        apply andb_true_iff in Eb as [E1 E2]. apply Nat.leb_le in E1, E2.
        apply (f_equal nat_of_ascii) in E. rewrite nat_ascii_embedding in E by lia.
        change (nat_of_ascii "000") with 0%nat in E. lia. }
      rewrite E. split; [| discriminate]. split; [discriminate |]. intros (rest & H). discriminate.
    + destruct (Ascii.eqb (tolower x) (tolower y)) eqn:E.
      * apply Ascii.eqb_eq in E. rewrite E.
        destruct (IH ltac:(intros H; apply Ha; right; exact H) r) as [IH1 IH2]. split; [| exact IH2].
        rewrite IH1. split; intros (rest & H); exists rest; [rewrite H; reflexivity | congruence].
      * split; [| discriminate]. split; [discriminate |]. intros (rest & H).
        injection H as H _. apply Ascii.eqb_neq in E. contradiction.
Qed.
Print Assumptions iequals_prefix.
(** So the empty text and every truncated name count as equal to the name. *)
Theorem iequals_refuted : iEquals "" "poisson" = Some true /\ iEquals "P" "poisson" = Some true.
Proof. split; reflexivity. Qed.
