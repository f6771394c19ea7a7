(** C50: the defaults of the configuration of tandem, as docs/first-model/parameters.rst gives them. *)
Require Import ZArith QArith Bool Ascii String Lia List.
From Verif Require Import Base SchemaModel SchemaSpec SchemaProofs SchemaText SchemaProps
  SeasConfigModel SeasConfigSpec SeasConfigProps.
Import ListNotations.
Local Open Scope string_scope.
Local Open Scope list_scope.
Local Open Scope Z_scope.

(** ** The documented defaults *)
Definition number (q : Q) : val := VFloat (DRat q).
(** docs/first-model/parameters.rst:15-19; enumerators by their number, 0 is TwoLevel.  The key, the
    position of the member in struct Config and the default. *)
Definition documented_top : list (string * nat * val) :=
  [("boundary_linear", 10%nat, VBool false); ("matrix_free", 11%nat, VBool false);
   ("cfl", 3%nat, number 1); ("mg_coarse_level", 13%nat, VInt 1); ("mg_strategy", 12%nat, VEnum 0)].
(** parameters.rst:50-54, for every kind of output. *)
Definition documented_output : list (string * nat * val) :=
  [("atol", 1%nat, number (1 # (10 ^ 50))); ("rtol", 2%nat, number (1 # 100)); ("t_min", 3%nat, number 0);
   ("t_max", 4%nat, number (inject_Z (365 * 24 * 3600)))].
(** parameters.rst:27-60, SeasConfig.cpp:36-45 and :112-158; writers and storage types by number, 1 is
    CSV and 2 is limited. *)
Definition documented_sections : list (string * nat * list (string * nat * val)) :=
  [("fault_output", 15%nat, documented_output);
   ("fault_scalar_output", 16%nat, documented_output ++ [("type", 5%nat, VEnum 1)]);
   ("domain_output", 17%nat, documented_output ++ [("jacobian", 5%nat, VBool false)]);
   ("fault_probe_output", 18%nat, documented_output ++ [("type", 5%nat, VEnum 1)]);
   ("domain_probe_output", 19%nat, documented_output ++ [("type", 5%nat, VEnum 1)]);
   ("moment_rate_output", 20%nat, documented_output);
   ("gf_checkpoint", 21%nat, [("prefix", 0%nat, VStr "gf_checkpoint"); ("freq_cputime", 1%nat, number 30)]);
   ("ts_checkpoint", 22%nat, [("save_directory", 1%nat, VStr "checkpoint"); ("freq_step", 2%nat, VInt 1000);
      ("freq_cputime", 3%nat, number 30); ("freq_physical_time", 4%nat, number 10000000000);
      ("storage_type", 5%nat, VEnum 2); ("storage_limited_size", 6%nat, VInt 2)])].

Section Defaults.
Variable D : Z.
Variable enable_hdf5 : bool.
Variable exists_path : string -> bool.
Variable parent_path : string -> option string.
Variable path_converter : string -> string.
Variable stod : string -> option double.
Variable memory : string -> list ascii.
Local Notation entries := (config_entries D enable_hdf5 exists_path parent_path path_converter).

(** Where an entry of the schema has a plain default. *)
Definition plain_default (es : fields) (x : string * nat * val) : Prop :=
  let '(k, i, v) := x in exists ty c f, In (k, (i, false), SValue ty c f (Some v)) es.
Definition section_default (s : string * nat * list (string * nat * val)) : Prop :=
  let '(k, i, l) := s in exists o b es f, In (k, (i, o), STable b es f None) entries /\
    forall x, In x l -> plain_default es x.
Ltac find := first [left; reflexivity | right; find].
Lemma top_defaults x : In x documented_top -> plain_default entries x.
Proof.
  cbn [documented_top In]. intros H. repeat destruct H as [H | H]; try contradiction H; subst;
    do 3 eexists; cbn [In]; find.
Qed.
Lemma section_defaults s : In s documented_sections -> section_default s.
Proof.
  cbn [documented_sections In]. intros H. repeat destruct H as [H | H]; try contradiction H; subst;
    (do 4 eexists; split; [cbn [In]; find |]); cbn [documented_output app In];
    (intros x H; repeat destruct H as [H | H]; try contradiction H; subst; do 3 eexists; cbn [In output_entries app]; find).
Qed.

Section Run.
Variable raw : list (string * node).
Variable present : string -> option string.
Variable m : list (option val).
Hypothesis Hrun : tandem_config D enable_hdf5 exists_path parent_path path_converter stod memory raw present = Ok m.

Lemma default_top k i v : In (k, i, v) documented_top -> get raw k = None -> present k = None ->
  nth_error m i = Some (Some v).
Proof.
  intros Hd Hr Hp. destruct (top_defaults _ Hd) as (ty & c & f & Hin).
  destruct (config_cmdline stod memory config_blank entries None raw present m
              (config_well_formed D enable_hdf5 exists_path parent_path path_converter)
              (config_keys D enable_hdf5 exists_path parent_path path_converter) Hrun) as (file & m0 & HF & Hfit & HL & HA & HB).
  rewrite HB.
  - inversion Hfit; subst.
    assert (E : node_at file k = None).
    { destruct HF as (A & _). rewrite A; [exact Hr |]. intros ->. cbn in Hd.
      repeat destruct Hd as [Hd | Hd]; try discriminate Hd; contradiction Hd. }
    match goal with HF : forall k i s, In (k, (i, false), s) _ -> _ |- _ =>
      destruct (HF _ _ _ Hin E) as (w & Hw & Hi) end.
    cbn in Hw. injection Hw as ->. exact Hi.
  - intros k' o' ty' c' f' d' x' Hin' Hx'.
    assert (E := NoDup_map_same member_of entries _ _ ltac:(rewrite entry_members; apply nodup_members; reflexivity) Hin Hin' eq_refl).
    congruence.
Qed.
Lemma default_section sec si l k i v t : In (sec, si, l) documented_sections -> In (k, i, v) l ->
  get raw sec = Some (NTab t) -> get t k = None ->
  exists r, nth_error m si = Some (Some (VRec r)) /\ nth_error r i = Some (Some v).
Proof.
  intros Hs Hd Hr Hk. destruct (section_defaults _ Hs) as (o & b & es & f & Hin & HD).
  destruct (HD _ Hd) as (ty & c & f' & Hin2).
  destruct (config_cmdline stod memory config_blank entries None raw present m
              (config_well_formed D enable_hdf5 exists_path parent_path path_converter)
              (config_keys D enable_hdf5 exists_path parent_path path_converter) Hrun) as (file & m0 & HF & Hfit & HL & HA & HB).
  rewrite HB.
  - inversion Hfit; subst.
    assert (E : node_at file sec = Some (NTab t)).
    { destruct HF as (A & _ & C). destruct (string_dec sec "ts_checkpoint") as [-> | N]; [apply C; exact Hr | rewrite A; assumption]. }
    match goal with HF : forall k i o s sub, _ -> has_key _ _ _ -> _ |- _ =>
      destruct (HF _ _ _ _ _ Hin E) as (w & Hw & Hfw) end.
    inversion Hfw; subst. match goal with |- context[nth_error m0 si] => idtac end.
    exists m1. split; [exact Hw |].
    match goal with HF : forall k i s, In (k, (i, false), s) es -> _ |- _ =>
      destruct (HF _ _ _ Hin2 Hk) as (w & Hw' & Hi) end.
    cbn in Hw'. injection Hw' as ->. exact Hi.
  - intros k' o' ty' c' f'' d' x' Hin' Hx'.
    assert (E := NoDup_map_same member_of entries _ _ ltac:(rewrite entry_members; apply nodup_members; reflexivity) Hin Hin' eq_refl).
    congruence.
Qed.
Lemma default_ts l k i v : In ("ts_checkpoint", 22%nat, l) documented_sections -> In (k, i, v) l ->
  get raw "ts_checkpoint" = None ->
  exists r, nth_error m 22 = Some (Some (VRec r)) /\ nth_error r i = Some (Some v).
Proof.
  intros Hs Hd Hr. destruct (section_defaults _ Hs) as (o & b & es & f & Hin & HD).
  destruct (HD _ Hd) as (ty & c & f' & Hin2).
  destruct (config_cmdline stod memory config_blank entries None raw present m
              (config_well_formed D enable_hdf5 exists_path parent_path path_converter)
              (config_keys D enable_hdf5 exists_path parent_path path_converter) Hrun) as (file & m0 & HF & Hfit & HL & HA & HB).
  rewrite HB.
  - inversion Hfit; subst.
    assert (E : node_at file "ts_checkpoint" = Some (NArr [])) by (destruct HF as (_ & B & _); apply B; exact Hr).
    match goal with HF : forall k i o s sub, _ -> has_key _ _ _ -> _ |- _ =>
      destruct (HF _ _ _ _ _ Hin E) as (w & Hw & Hfw) end.
    inversion Hfw; subst. exists m1. split; [exact Hw |].
    match goal with HF : forall k i s, In (k, (i, false), s) es -> _ |- _ =>
      destruct (HF _ _ _ Hin2 eq_refl) as (w & Hw' & Hi) end.
    cbn in Hw'. injection Hw' as ->. exact Hi.
  - intros k' o' ty' c' f'' d' x' Hin' Hx'.
    assert (E := NoDup_map_same member_of entries _ _ ltac:(rewrite entry_members; apply nodup_members; reflexivity) Hin Hin' eq_refl).
    congruence.
Qed.
End Run.
End Defaults.

(** Whatever file and command line are given: if tandem starts, a key given neither in the file nor on
    the command line has its documented default, a key not given in a section of the file has the
    default documented for that section, and without a section ts_checkpoint the defaults of that
    section hold all the same. *)
Theorem tandem_config_defaults : forall D enable_hdf5 exists_path parent_path path_converter stod memory raw present m,
  tandem_config D enable_hdf5 exists_path parent_path path_converter stod memory raw present = Ok m ->
  (forall k i v, In (k, i, v) documented_top -> get raw k = None -> present k = None -> nth_error m i = Some (Some v)) /\
  (forall sec si l k i v t, In (sec, si, l) documented_sections -> In (k, i, v) l ->
     get raw sec = Some (NTab t) -> get t k = None ->
     exists r, nth_error m si = Some (Some (VRec r)) /\ nth_error r i = Some (Some v)) /\
  (forall l k i v, In ("ts_checkpoint", 22%nat, l) documented_sections -> In (k, i, v) l ->
     get raw "ts_checkpoint" = None ->
     exists r, nth_error m 22 = Some (Some (VRec r)) /\ nth_error r i = Some (Some v)).
Proof.
  intros D e p q c stod memory raw present m H.
  split; [| split]; intros; [eapply default_top | eapply default_section | eapply default_ts]; eassumption.
Qed.
Print Assumptions tandem_config_defaults.
(** A file with a section for the domain and one for Green's functions. *)
Example ex_section_defaults : exists m,
  ex_config (("domain_output", NTab [("prefix", NStr "d"); ("rtol", NInt 1)]) :: ("gf_checkpoint", NTab [("prefix", NStr "gf")]) :: ex_raw) = Ok m /\
  nth_error m 17 = Some (Some (VRec [Some (VStr "d"); Some (number (1 # (10 ^ 50))); Some (number 1); Some (number 0);
                                     Some (number 31536000); Some (VBool false)])) /\
  nth_error m 21 = Some (Some (VRec [Some (VStr "gf"); Some (number 30)])).
Proof. eexists. split; [reflexivity |]. split; reflexivity. Qed.
