(** C50: the configurations tandem accepts. *)
Require Import ZArith QArith Bool Ascii String Lia List.
From Verif Require Import Base SchemaModel SchemaSpec SchemaProofs SchemaText SchemaProps
  SeasConfigModel SeasConfigSpec.
Import ListNotations.
Local Open Scope list_scope.
Local Open Scope Z_scope.

(** ** From fits to members *)
Lemma table_has : forall blank (entries : fields) chk d n m k i s (P : val -> Prop),
  fits (STable blank entries chk d) n (VRec m) -> In (k, (i, false), s) entries ->
  (forall n v, fits s n v -> P v) -> (forall v, get_default_value s = Some v -> P v) -> has m i P.
Proof.
  intros blank entries chk d n m k i s P Hf Hin HP Hd. inversion Hf; subst.
  destruct (node_at n k) as [sub |] eqn:E.
  - match goal with HF : forall k i o s sub, _ -> has_key _ _ _ -> _ |- _ =>
      destruct (HF _ _ _ _ _ Hin E) as (v & Hv & Hfv) end. exists v. eauto.
  - match goal with HF : forall k i s, In (k, (i, false), s) _ -> _ |- _ =>
      destruct (HF _ _ _ Hin E) as (v & Hv & Hi) end. exists v. auto.
Qed.
Lemma table_may : forall blank (entries : fields) chk d n m k i s (P : val -> Prop),
  fits (STable blank entries chk d) n (VRec m) -> In (k, (i, true), s) entries ->
  nth_error blank i = Some None ->
  (forall n v, fits s n v -> P v) -> may m i P.
Proof.
  intros blank entries chk d n m k i s P Hf Hin Hb HP. inversion Hf; subst.
  destruct (node_at n k) as [sub |] eqn:E.
  - match goal with HF : forall k i o s sub, _ -> has_key _ _ _ -> _ |- _ =>
      destruct (HF _ _ _ _ _ Hin E) as (v & Hv & Hfv) end. right. exists v. eauto.
  - match goal with HF : forall k i s, In (k, (i, true), s) _ -> _ |- _ =>
      pose proof (HF _ _ _ Hin E) as Hi end. left. congruence.
Qed.
Lemma fits_struct : forall blank entries chk d n v (P : list (option val) -> Prop),
  fits (STable blank entries chk d) n v ->
  (forall m, fits (STable blank entries chk d) n (VRec m) -> P m) -> struct P v.
Proof.
  intros blank entries chk d n v P Hf HP. inversion Hf; subst. exists m. auto.
Qed.
Lemma fits_list : forall lo hi s chk d n v (N : Z -> Prop) (P : val -> Prop),
  fits (SArray lo hi (Some s) chk d) n v ->
  (forall k, lo <= k <= hi -> N k) -> (forall n v, fits s n v -> P v) -> list_of N P v.
Proof.
  intros lo hi s chk d n v N P Hf HN HP. inversion Hf; subst. exists vs.
  match goal with HF : Forall2 _ l vs |- _ => rename HF into H2 end.
  split; [reflexivity |]. split.
  - apply HN. rewrite <- (Forall2_same_length _ _ _ H2). assumption.
  - intros x Hx. clear - H2 HP Hx. induction H2; [destruct Hx |].
    destruct Hx as [<- | Hx]; eauto.
Qed.

(** ** Plain values *)
Lemma fits_value : forall ty chk d n v (P : val -> Prop),
  fits (SValue ty None chk d) n v ->
  (forall n v, reads ty n v -> passes chk v -> P v) -> P v.
Proof. intros. inversion H; subst. eauto. Qed.
Lemma fits_converted : forall ty f chk d n v (P : val -> Prop),
  fits (SValue ty (Some f) chk d) n v ->
  (forall s, f s = Ok v -> passes chk v -> P v) -> P v.
Proof. intros. inversion H; subst. eauto. Qed.

Lemma nonneg_ge0 : forall f, nonneg (VFloat f) = true -> ge0 (VFloat f).
Proof.
  intros [| [|] | q] H; try discriminate; [left; reflexivity |].
  right. exists q. split; [reflexivity |]. apply Qle_bool_iff. exact H.
Qed.
Lemma pos_gt0 : forall f, pos (VFloat f) = true -> gt0 (VFloat f).
Proof.
  intros [| [|] | q] H; try discriminate; [left; reflexivity |].
  right. exists q. split; [reflexivity |]. cbn in H. apply negb_true_iff in H.
  apply Qnot_le_lt. intros Hle. apply Qle_bool_iff in Hle. congruence.
Qed.
Lemma read_number : forall n v, reads TDouble n v -> is_number v.
Proof. intros n v H. inversion H; eexists; reflexivity. Qed.
Lemma text_number : forall stod x v, reads_text stod TDouble x v -> is_number v.
Proof. intros stod x v H. inversion H; eexists; reflexivity. Qed.
Lemma number_ge0 : forall v, is_number v -> passes (Some nonneg) v -> ge0 v.
Proof. intros v (f & ->) H. apply nonneg_ge0. apply H. reflexivity. Qed.
Lemma number_gt0 : forall v, is_number v -> passes (Some pos) v -> gt0 v.
Proof. intros v (f & ->) H. apply pos_gt0. apply H. reflexivity. Qed.
Lemma read_text' : forall n v, reads TString n v -> is_text v.
Proof. intros n v H. inversion H; eexists; reflexivity. Qed.
Lemma read_truth : forall n v, reads TBool n v -> is_truth v.
Proof. intros n v H. inversion H; eexists; reflexivity. Qed.
Lemma read_int : forall lo hi n v, lo <= 0 -> 1 <= hi -> reads (TInt lo hi) n v -> is_int lo hi v.
Proof.
  intros lo hi n v Hl Hh H. inversion H; subst; eexists; (split; [reflexivity |]); auto.
  destruct b; lia.
Qed.
Lemma int_pos : forall lo hi v, is_int lo hi v -> passes (Some pos) v -> is_int 1 hi v.
Proof.
  intros lo hi v (z & -> & H) Hp. exists z. split; [reflexivity |].
  specialize (Hp _ eq_refl). cbn in Hp. lia.
Qed.
Lemma by_name_result : forall names unknown s v, by_name names unknown s = Ok v ->
  v = VEnum unknown \/ exists a, In (a, Ok v) names.
Proof.
  induction names as [| [a x] r IH]; intros unknown s v H; cbn [by_name] in H.
  - left. congruence.
  - destruct (iEquals s a) as [[|] |]; [| | discriminate].
    + right. exists a. left. congruence.
    + destruct (IH _ _ _ H) as [-> | (b & Hb)]; [left; reflexivity | right; exists b; right; exact Hb].
Qed.
Lemma known_name : forall names unknown s v ks, by_name names unknown s = Ok v ->
  passes (Some (not_enum unknown)) v ->
  (forall a k, In (a, Ok (VEnum k)) names -> In k ks) ->
  (forall a w, In (a, Ok w) names -> exists k, w = VEnum k) -> one_of ks v.
Proof.
  intros names unknown s v ks H Hp Hk He.
  destruct (by_name_result _ _ _ _ H) as [-> | (a & Ha)].
  - specialize (Hp _ eq_refl). cbn in Hp. rewrite Nat.eqb_refl in Hp. discriminate.
  - destruct (He _ _ Ha) as (k & ->). exists k. split; [reflexivity | eauto].
Qed.
(** The lists of names above. *)
Ltac names :=
  clear; let H := fresh in intros ? ? H; cbn [In] in H;
  repeat match type of H with _ \/ _ => destruct H as [H | H] end;
  try contradiction;
  (first [discriminate H | injection H as <- <-]);
  (first [eexists; reflexivity | cbn; tauto]).

Section Accepted.
Variable D : Z.
Variable enable_hdf5 : bool.
Variable exists_path : string -> bool.
Variable parent_path : string -> option string.
Variable path_converter : string -> string.
Hypothesis HD : 1 <= D.
(** The default prefix for checkpoints is in the working directory. *)
Hypothesis Hcheckpoint : forall d, parent_path "checkpoint" = Some d -> exists_path d = true.

Local Notation existing := (existing exists_path).
Local Notation in_existing := (in_existing exists_path parent_path).

Lemma text_parent : forall v, is_text v ->
  passes (Some (ParentPathExists exists_path parent_path)) v -> in_existing v.
Proof.
  intros v (s & ->) H. exists s. split; [reflexivity |]. specialize (H _ eq_refl). cbn in H.
  intros d Hd. rewrite Hd in H. exact H.
Qed.
Lemma text_exists : forall v, is_text v -> passes (Some (PathExists exists_path)) v -> existing v.
Proof.
  intros v (s & ->) H. exists s. split; [reflexivity |]. exact (H _ eq_refl).
Qed.

Lemma default_ge0 : forall q v, num q = Some v -> (0 <= q)%Q -> ge0 v.
Proof. intros q v H Hq. injection H as <-. right. exists q. auto. Qed.
Lemma default_gt0 : forall q v, num q = Some v -> (0 < q)%Q -> gt0 v.
Proof. intros q v H Hq. injection H as <-. right. exists q. auto. Qed.

Lemma output_valid : forall blank (extra : fields) chk d n m,
  fits (STable blank (output_entries exists_path parent_path ++ extra) chk d) n (VRec m) ->
  valid_output exists_path parent_path m.
Proof.
  intros blank extra chk d n m H. unfold valid_output.
  assert (Hin : forall e, In e (output_entries exists_path parent_path) ->
                          In e (output_entries exists_path parent_path ++ extra))
    by (intros; apply in_or_app; left; assumption).
  split; [| split; [| split; [| split]]].
  - eapply table_has; [exact H | apply Hin; do 0 right; left; reflexivity | | cbn; discriminate].
    intros n' v Hv. eapply fits_value; [exact Hv |]. eauto using text_parent, read_text'.
  - eapply table_has; [exact H | apply Hin; do 1 right; left; reflexivity | |].
    + intros n' v Hv. eapply fits_value; [exact Hv |]. eauto using number_ge0, read_number.
    + intros v Hv. eapply default_ge0; [exact Hv |]. discriminate.
  - eapply table_has; [exact H | apply Hin; do 2 right; left; reflexivity | |].
    + intros n' v Hv. eapply fits_value; [exact Hv |]. eauto using number_ge0, read_number.
    + intros v Hv. eapply default_ge0; [exact Hv |]. discriminate.
  - eapply table_has; [exact H | apply Hin; do 3 right; left; reflexivity | |].
    + intros n' v Hv. eapply fits_value; [exact Hv |]. eauto using number_ge0, read_number.
    + intros v Hv. eapply default_ge0; [exact Hv |]. discriminate.
  - eapply table_has; [exact H | apply Hin; do 4 right; left; reflexivity | |].
    + intros n' v Hv. eapply fits_value; [exact Hv |]. eauto using number_gt0, read_number.
    + intros v Hv. eapply default_gt0; [exact Hv |]. reflexivity.
Qed.

Lemma point_valid : forall chk d n v,
  fits (SArray D D (Some (SValue TDouble None None None)) chk d) n v -> list_of (eq D) is_number v.
Proof.
  intros chk d n v H. eapply fits_list; [exact H | lia |].
  intros n' v' Hv. eapply fits_value; [exact Hv |]. eauto using read_number.
Qed.

Lemma probes_valid : forall n m, fits (probe_schema D enable_hdf5 exists_path parent_path) n (VRec m) ->
  valid_probes D enable_hdf5 exists_path parent_path m.
Proof.
  intros n m H. unfold probe_schema in H. split; [eapply output_valid; exact H |]. split.
  - eapply table_has; [exact H | apply in_or_app; right; left; reflexivity | |].
    + intros n' v Hv. eapply fits_converted; [exact Hv |]. intros s Hs Hp.
      eapply known_name; [exact Hs | exact Hp | |]; destruct enable_hdf5; names.
    + intros v Hv. injection Hv as <-. exists 1%nat. split; [reflexivity |].
      destruct enable_hdf5; cbn; auto.
  - eapply table_has; [exact H | apply in_or_app; right; right; left; reflexivity | | cbn; discriminate].
    intros n' v Hv. eapply fits_list; [exact Hv | auto |].
    intros n2 v2 Hv2. eapply fits_struct; [exact Hv2 |]. intros p Hp. split.
    + eapply table_has; [exact Hp | left; reflexivity | | cbn; discriminate].
      intros n3 v3 Hv3. eapply fits_value; [exact Hv3 |]. eauto using read_text'.
    + eapply table_has; [exact Hp | right; left; reflexivity | | cbn; discriminate].
      intros n3 v3 Hv3. eapply point_valid. exact Hv3.
Qed.

Lemma mesh_valid : forall n m, fits (gen_mesh_schema D) n (VRec m) -> valid_mesh D m.
Proof.
  intros n m H. split.
  - eapply table_has; [exact H | left; reflexivity | | cbn; discriminate].
    intros n1 v1 H1. eapply fits_list; [exact H1 | lia |].
    intros n2 v2 H2. eapply fits_list; [exact H2 | lia |].
    intros n3 v3 H3. eapply fits_value; [exact H3 |]. eauto using read_number.
  - eapply table_has; [exact H | right; left; reflexivity | | cbn; discriminate].
    intros n1 v1 H1. eapply fits_list; [exact H1 | lia |].
    intros n2 v2 H2. eapply fits_list; [exact H2 | auto |].
    intros n3 v3 H3. eapply fits_struct; [exact H3 |]. intros b Hb. split; [| split].
    + eapply table_has; [exact Hb | left; reflexivity | | cbn; discriminate].
      intros n4 v4 H4. eapply fits_converted; [exact H4 |]. intros s Hs _.
      unfold bc_converter in Hs. destruct s as [| c s]; [discriminate |].
      destruct (Ascii.eqb _ "d"); [injection Hs as <-; exists 5%nat; cbn; auto |].
      destruct (Ascii.eqb _ "n"); [injection Hs as <-; exists 1%nat; cbn; auto |].
      destruct (Ascii.eqb _ "f"); [injection Hs as <-; exists 3%nat; cbn; auto | discriminate].
    + eapply table_has; [exact Hb | right; left; reflexivity | | cbn; discriminate].
      intros n4 v4 H4. eapply fits_value; [exact H4 |]. intros n5 v5 H5 _.
      eapply read_int; [| | exact H5]; lia.
    + eapply table_may; [exact Hb | right; right; left; reflexivity | reflexivity |].
      intros n4 v4 H4. eapply fits_list; [exact H4 | lia |].
      intros n5 v5 H5. eapply fits_value; [exact H5 |]. intros n6 v6 H6 _.
      eapply read_int; [| | exact H6]; lia.
Qed.

Lemma checkpoint_valid : forall n m, fits (ts_checkpoint_schema exists_path parent_path) n (VRec m) ->
  valid_checkpoint exists_path parent_path m.
Proof.
  intros n m H. split; [| split; [| split; [| split; [| split; [| split]]]]].
  - eapply table_may; [exact H | do 0 right; left; reflexivity | reflexivity |].
    intros n' v Hv. eapply fits_value; [exact Hv |]. eauto using text_exists, read_text'.
  - eapply table_has; [exact H | do 1 right; left; reflexivity | |].
    + intros n' v Hv. eapply fits_value; [exact Hv |]. eauto using text_parent, read_text'.
    + intros v Hv. injection Hv as <-. exists "checkpoint"%string. auto.
  - eapply table_has; [exact H | do 2 right; left; reflexivity | |].
    + intros n' v Hv. eapply fits_value; [exact Hv |]. intros n2 v2 H2 Hp.
      eapply int_pos; [eapply read_int; [| | exact H2]; lia | exact Hp].
    + intros v Hv. injection Hv as <-. exists 1000. split; [reflexivity | lia].
  - eapply table_has; [exact H | do 3 right; left; reflexivity | |].
    + intros n' v Hv. eapply fits_value; [exact Hv |]. eauto using number_gt0, read_number.
    + intros v Hv. eapply default_gt0; [exact Hv |]. reflexivity.
  - eapply table_has; [exact H | do 4 right; left; reflexivity | |].
    + intros n' v Hv. eapply fits_value; [exact Hv |]. eauto using number_gt0, read_number.
    + intros v Hv. eapply default_gt0; [exact Hv |]. reflexivity.
  - eapply table_has; [exact H | do 5 right; left; reflexivity | |].
    + intros n' v Hv. eapply fits_converted; [exact Hv |]. intros s Hs Hp.
      eapply known_name; [exact Hs | exact Hp | |]; names.
    + intros v Hv. injection Hv as <-. exists 2%nat. cbn. auto.
  - eapply table_has; [exact H | do 6 right; left; reflexivity | |].
    + intros n' v Hv. eapply fits_value; [exact Hv |]. intros n2 v2 H2 Hp.
      eapply int_pos; [eapply read_int; [| | exact H2]; lia | exact Hp].
    + intros v Hv. injection Hv as <-. exists 2. split; [reflexivity | lia].
Qed.

Local Notation entries := (config_entries D enable_hdf5 exists_path parent_path path_converter).

Lemma nodup_check {A} (dec : forall x y : A, {x = y} + {x <> y}) l : nodup dec l = l -> NoDup l.
Proof. intros <-. apply NoDup_nodup. Qed.
Lemma entry_members : map member_of entries =
  [0; 1; 2; 3; 4; 5; 6; 7; 8; 9; 10; 11; 13; 12; 14; 15; 16; 17; 18; 19; 20; 21; 22]%nat.
Proof. reflexivity. Qed.
Lemma config_keys : NoDup (map (fun e : entry => fst (fst e)) entries).
Proof. apply (nodup_check string_dec). reflexivity. Qed.
Lemma nodup_members : forall l : list nat, nodup Nat.eq_dec l = l -> NoDup l.
Proof. exact (nodup_check Nat.eq_dec). Qed.
Lemma config_well_formed : well_formed (STable config_blank entries None None).
Proof.
  cbn. 
  repeat match goal with |- _ /\ _ => split | |- True => exact I | |- NoDup _ => apply nodup_members; reflexivity | |- (_ < _)%nat => lia end.
Qed.

Section Run.
Variable stod : string -> option double.
Variable memory : string -> list ascii.
Variable raw : list (string * node).
Variable present : string -> option string.
Variable m : list (option val).
Hypothesis Hrun : tandem_config D enable_hdf5 exists_path parent_path path_converter stod memory raw present = Ok m.

Lemma config_member : forall k i o s, In (k, (i, o), s) entries ->
  (exists x v, fits_text stod s x v /\ nth_error m i = Some (Some v)) \/
  (exists n v, fits s n v /\ nth_error m i = Some (Some v)) \/
  (o = false /\ exists v, get_default_value s = Some v /\ nth_error m i = Some (Some v)) \/
  (o = true /\ nth_error m i = Some None).
Proof.
  intros k i o s Hin.
  destruct (config_cmdline stod memory config_blank entries None raw present m config_well_formed
              config_keys Hrun) as (file & m0 & _ & Hfit & HL & HA & HB).
  assert (Hcase : (exists ty c f d x, s = SValue ty c f d /\ present k = Some x) \/
                  nth_error m i = nth_error m0 i).
  { destruct (present k) as [x |] eqn:Ex.
    - destruct s as [ty c f d | lo hi of f d | b e f d]; [left; exists ty, c, f, d, x; auto | right | right];
        apply HB; intros k' o' ty' c' f' d' x' Hin' Hx';
        assert (E := NoDup_map_same member_of entries _ _ ltac:(rewrite entry_members; apply nodup_members; reflexivity) Hin Hin' eq_refl);
        congruence.
    - right. apply HB. intros k' o' ty' c' f' d' x' Hin' Hx'.
      assert (E := NoDup_map_same member_of entries _ _ ltac:(rewrite entry_members; apply nodup_members; reflexivity) Hin Hin' eq_refl).
      congruence. }
  destruct Hcase as [(ty & c & f & d & x & -> & Hx) | Hm].
  - left. destruct (HA _ _ _ _ _ _ _ _ Hin Hx) as (v & Hv & Hi). exists x, v. auto.
  - right. rewrite Hm. inversion Hfit; subst.
    destruct (node_at file k) as [sub |] eqn:E.
    + left. match goal with HF : forall k i o s sub, _ -> has_key _ _ _ -> _ |- _ =>
        destruct (HF _ _ _ _ _ Hin E) as (v & Hv & Hfv) end. exists sub, v. auto.
    + right. destruct o.
      * right. split; [reflexivity |].
        match goal with HF : forall k i s, In (k, (i, true), s) _ -> _ |- _ =>
          rewrite (HF _ _ _ Hin E) end.
        unfold config_blank. apply nth_error_repeat.
        apply (in_map member_of) in Hin. rewrite entry_members in Hin. unfold member_of in Hin. cbn in Hin. lia.
      * left. split; [reflexivity |].
        match goal with HF : forall k i s, In (k, (i, false), s) _ -> _ |- _ =>
          destruct (HF _ _ _ Hin E) as (v & Hv & Hi) end. exists v. auto.
Qed.

Lemma config_has : forall k i s (P : val -> Prop), In (k, (i, false), s) entries ->
  (forall n v, fits s n v -> P v) -> (forall x v, fits_text stod s x v -> P v) ->
  (forall v, get_default_value s = Some v -> P v) -> has m i P.
Proof.
  intros k i s P Hin H1 H2 H3.
  destruct (config_member k i false s Hin) as [(x & v & Hv & Hi) | [(n & v & Hv & Hi) | [(_ & v & Hv & Hi) | (E & _)]]];
    [exists v; eauto | exists v; eauto | exists v; eauto | discriminate].
Qed.
Lemma config_may : forall k i s (P : val -> Prop), In (k, (i, true), s) entries ->
  (forall n v, fits s n v -> P v) -> (forall x v, fits_text stod s x v -> P v) -> may m i P.
Proof.
  intros k i s P Hin H1 H2.
  destruct (config_member k i true s Hin) as [(x & v & Hv & Hi) | [(n & v & Hv & Hi) | [(E & _) | (_ & Hi)]]];
    [right; exists v; eauto | right; exists v; eauto | discriminate | left; exact Hi].
Qed.

Lemma text_value : forall ty chk d x v (P : val -> Prop),
  fits_text stod (SValue ty None chk d) x v ->
  (forall v, reads_text stod ty x v -> passes chk v -> P v) -> P v.
Proof. intros. inversion H; subst. eauto. Qed.
Lemma text_converted : forall ty f chk d x v (P : val -> Prop),
  fits_text stod (SValue ty (Some f) chk d) x v ->
  (f x = Ok v -> passes chk v -> P v) -> P v.
Proof. intros. inversion H; subst. eauto. Qed.
Lemma no_text_table : forall b e f d x v, ~ fits_text stod (STable b e f d) x v.
Proof. intros b e f d x v H. inversion H. Qed.
Lemma no_text_array : forall lo hi s f d x v, ~ fits_text stod (SArray lo hi s f d) x v.
Proof. intros lo hi s f d x v H. inversion H. Qed.
Lemma text_text : forall x v, reads_text stod TString x v -> is_text v.
Proof. intros x v H. inversion H; eexists; reflexivity. Qed.
Lemma text_truth : forall x v, reads_text stod TBool x v -> is_truth v.
Proof. intros x v H. inversion H; eexists; reflexivity. Qed.
Lemma text_int : forall lo hi x v, reads_text stod (TInt lo hi) x v -> is_int lo hi v.
Proof. intros lo hi x v H. inversion H; subst; eexists; (split; [reflexivity |]); assumption. Qed.

Tactic Notation "pick" integer(n) := do n right; left; reflexivity.
Ltac plain lem1 lem2 chk :=
  let v := fresh in let H := fresh in
  first [ intros ? v H; eapply fits_value; [exact H |]; eauto using lem1, chk
        | intros ? v H; eapply text_value; [exact H |]; eauto using lem2, chk ].
Ltac named :=
  let v := fresh in let H := fresh in
  first [ intros ? v H; eapply fits_converted; [exact H |]; intros ? ? ?; eapply known_name; [eassumption | eassumption | |]; names
        | intros ? v H; eapply text_converted; [exact H |]; intros ? ?; eapply known_name; [eassumption | eassumption | |]; names ].

Lemma converted_path : forall s v, Ok (VStr (path_converter s)) = Ok v ->
  passes (Some (PathExists exists_path)) v -> existing v.
Proof. intros s v H Hp. injection H as <-. apply text_exists; [eexists; reflexivity | exact Hp]. Qed.

Lemma default_up_valid : list_of (eq D) is_number (default_up D).
Proof.
  unfold default_up. eexists. split; [reflexivity |]. split.
  - rewrite map_length, seq_length. lia.
  - intros x Hx. apply in_map_iff in Hx as (d & <- & _). eexists. reflexivity.
Qed.

Lemma config_length : length m = 23%nat.
Proof.
  destruct (config_cmdline stod memory config_blank entries None raw present m config_well_formed
              config_keys Hrun) as (file & m0 & _ & Hfit & HL & _).
  inversion Hfit; subst. rewrite HL. match goal with L : length m0 = _ |- _ => rewrite L end. reflexivity.
Qed.

Lemma config_valid : valid_config D enable_hdf5 exists_path parent_path m.
Proof.
  unfold valid_config. split; [exact config_length |].
  split. { eapply config_may; [pick 0 | plain read_number text_number number_gt0 | plain read_number text_number number_gt0]. }
  split. { eapply config_has; [pick 1 | plain read_number text_number number_ge0 | plain read_number text_number number_ge0 | discriminate]. }
  split. { eapply config_may; [pick 2 | |]; intros ? v H.
           - eapply fits_converted; [exact H |]. intros s. apply converted_path.
           - eapply text_converted; [exact H |]. apply converted_path. }
  split. { eapply config_has; [pick 3 | plain read_number text_number number_gt0 | plain read_number text_number number_gt0 |].
           intros v Hv. eapply default_gt0; [exact Hv | reflexivity]. }
  split. { eapply config_has; [pick 4 | named | named | discriminate]. }
  split. { eapply config_has; [pick 5 | named | named | discriminate]. }
  split. { eapply config_has; [pick 6 | | | discriminate]; intros ? v H.
           - eapply fits_converted; [exact H |]. intros s. apply converted_path.
           - eapply text_converted; [exact H |]. apply converted_path. }
  split. { eapply config_has; [pick 7 | plain read_text' text_text text_text | plain read_text' text_text text_text | discriminate]. }
  split. { eapply config_has; [pick 8 | intros ? ?; apply point_valid | intros ? ? H; destruct (no_text_array _ _ _ _ _ _ _ H) |].
           intros v Hv. injection Hv as <-. exact default_up_valid. }
  split. { eapply config_has; [pick 9 | intros ? ?; apply point_valid | intros ? ? H; destruct (no_text_array _ _ _ _ _ _ _ H) | discriminate]. }
  split. { eapply config_has; [pick 10 | plain read_truth text_truth text_truth | plain read_truth text_truth text_truth |].
           intros v Hv. injection Hv as <-. eexists; reflexivity. }
  split. { eapply config_has; [pick 11 | plain read_truth text_truth text_truth | plain read_truth text_truth text_truth |].
           intros v Hv. injection Hv as <-. eexists; reflexivity. }
  split. { eapply config_has; [pick 13 | named | named |].
           intros v Hv. injection Hv as <-. exists 0%nat. cbn. auto. }
  split. { eapply config_has; [pick 12 | | |].
           - intros n v H. eapply fits_value; [exact H |]. intros n' v' H' _. eapply read_int; [| | exact H']; lia.
           - intros n v H. eapply text_value; [exact H |]. intros v' H' _. eapply text_int; exact H'.
           - intros v Hv. injection Hv as <-. exists 1. split; [reflexivity | lia]. }
  split. { eapply config_may; [pick 14 | | intros ? ? H; destruct (no_text_table _ _ _ _ _ _ H)].
           intros n v H. eapply fits_struct; [exact H |]. intros m'. apply mesh_valid. }
  split. { eapply config_may; [pick 15 | | intros ? ? H; destruct (no_text_table _ _ _ _ _ _ H)].
           intros n v H. eapply fits_struct; [exact H |]. intros m' H'.
           apply (output_valid [None; None; None; None; None] [] None None n). rewrite app_nil_r. exact H'. }
  split. { eapply config_may; [pick 16 | | intros ? ? H; destruct (no_text_table _ _ _ _ _ _ H)].
           intros n v H. eapply fits_struct; [exact H |]. intros m' H'. split.
           - eapply output_valid. exact H'.
           - eapply table_has; [exact H' | apply in_or_app; right; left; reflexivity | named |].
             intros v' Hv. injection Hv as <-. exists 1%nat. cbn. auto. }
  split. { eapply config_may; [pick 17 | | intros ? ? H; destruct (no_text_table _ _ _ _ _ _ H)].
           intros n v H. eapply fits_struct; [exact H |]. intros m' H'. split.
           - eapply output_valid. exact H'.
           - eapply table_has; [exact H' | apply in_or_app; right; left; reflexivity | plain read_truth text_truth text_truth |].
             intros v' Hv. injection Hv as <-. eexists; reflexivity. }
  split. { eapply config_may; [pick 18 | | intros ? ? H; destruct (no_text_table _ _ _ _ _ _ H)].
           intros n v H. eapply fits_struct; [exact H |]. intros m'. apply probes_valid. }
  split. { eapply config_may; [pick 19 | | intros ? ? H; destruct (no_text_table _ _ _ _ _ _ H)].
           intros n v H. eapply fits_struct; [exact H |]. intros m'. apply probes_valid. }
  split. { eapply config_may; [pick 20 | | intros ? ? H; destruct (no_text_table _ _ _ _ _ _ H)].
           intros n v H. eapply fits_struct; [exact H |]. intros m' H'.
           apply (output_valid [None; None; None; None; None] [] None None n). rewrite app_nil_r. exact H'. }
  split. { eapply config_may; [pick 21 | | intros ? ? H; destruct (no_text_table _ _ _ _ _ _ H)].
           intros n v H. eapply fits_struct; [exact H |]. intros m' H'. split.
           - eapply table_has; [exact H' | pick 0 | plain read_text' text_text text_text |].
             intros v' Hv. injection Hv as <-. eexists; reflexivity.
           - eapply table_has; [exact H' | pick 1 | plain read_number text_number text_number |].
             intros v' Hv. injection Hv as <-. eexists; reflexivity. }
  eapply config_has; [pick 22 | | intros ? ? H; destruct (no_text_table _ _ _ _ _ _ H) | discriminate].
  intros n v H. eapply fits_struct; [exact H |]. intros m'. apply checkpoint_valid.
Qed.
End Run.
End Accepted.

(** ** The configurations tandem accepts
    Whatever file and command line are given: if tandem starts, final time, tolerances, frequencies
    and resolution are in range (and not NaN), all names are known, all paths exist, vectors have one
    entry per dimension, generated meshes have boundary conditions and at least two points per
    dimension. *)
Theorem tandem_config_valid : forall D enable_hdf5 exists_path parent_path path_converter stod memory
    raw present m,
  1 <= D -> (forall d, parent_path "checkpoint"%string = Some d -> exists_path d = true) ->
  tandem_config D enable_hdf5 exists_path parent_path path_converter stod memory raw present = Ok m ->
  valid_config D enable_hdf5 exists_path parent_path m.
Proof. intros. eapply config_valid; eassumption. Qed.
Print Assumptions tandem_config_valid.

(** A file with the required keys only. *)
Definition ex_raw : list (string * node) :=
  [("final_time", NInt 100); ("mode", NStr "QD"); ("type", NStr "poisson"); ("lib", NStr "a.lua");
   ("scenario", NStr "bp1"); ("ref_normal", NArr [NInt (-1); NInt 0]); ("mesh_file", NStr "a.msh")]%string.
Definition ex_config (raw : list (string * node)) :=
  tandem_config 2 true (fun _ => true) (fun _ => None) (fun s => s) (fun _ => None) (fun _ => []) raw
    (fun k => if String.eqb k "mg_coarse_level" then Some "2"%string else None).
(** The documented defaults. *)
Example ex_defaults : ex_config ex_raw =
  Ok [None; Some (VFloat (DRat 100)); Some (VStr "a.msh"); Some (VFloat (DRat 1)); Some (VEnum 1);
      Some (VEnum 1); Some (VStr "a.lua"); Some (VStr "bp1");
      Some (VArr [VFloat (DRat 0); VFloat (DRat 1)]);
      Some (VArr [VFloat (DRat (- 1)); VFloat (DRat 0)]);
      Some (VBool false); Some (VBool false); Some (VEnum 0); Some (VInt 2);
      None; None; None; None; None; None; None; None;
      Some (VRec [None; Some (VStr "checkpoint"); Some (VInt 1000); Some (VFloat (DRat 30));
                  Some (VFloat (DRat 10000000000)); Some (VEnum 2); Some (VInt 2)])].
Proof. reflexivity. Qed.
(** A negative final time is reported under its key. *)
Example ex_negative_time :
  ex_config (("final_time", NFloat (DRat (- 1)))%string :: tl ex_raw) = Error true [Key "final_time"].
Proof. reflexivity. Qed.

(** ** What the checks do not catch *)
(** With the other required keys in place a final time is accepted exactly if it is not negative. *)
Theorem config_final_time_exact : forall q,
  (exists m, ex_config (("final_time"%string, NFloat (DRat q)) :: tl ex_raw) = Ok m /\ has m 1 (eq (VFloat (DRat q)))) <-> (0 <= q)%Q.
Proof.
  intros [[| p | p] d]; (split; [intros (m & H & _) | intro H]).
  - unfold Qle; cbn; lia.
  - eexists. split; [vm_compute; reflexivity |]. eexists. split; reflexivity.
  - unfold Qle; cbn; lia.
  - eexists. split; [vm_compute; reflexivity |]. eexists. split; reflexivity.
  - vm_compute in H. discriminate H.
  - unfold Qle in H; cbn in H; lia.
Qed.
Print Assumptions config_final_time_exact.
(** An empty mode and an abbreviated type are accepted. *)
Theorem config_empty_mode_refuted : exists m,
  ex_config ([("mode", NStr ""); ("type", NStr "e")]%string ++ ex_raw) = Ok m /\
  has m 4 (eq (VEnum 1)) /\ has m 5 (eq (VEnum 2)).
Proof.
  eexists. split; [reflexivity |]. split; eexists; (split; [reflexivity | reflexivity]).
Qed.
(** A section that is no table at all counts as empty. *)
Theorem config_section_not_table_refuted : exists m,
  ex_config (("gf_checkpoint", NBool false)%string :: ex_raw) = Ok m /\
  has m 21 (struct (fun t => has t 0 (eq (VStr "gf_checkpoint")))).
Proof.
  eexists. split; [reflexivity |]. eexists. split; [reflexivity |].
  eexists. split; [reflexivity |]. eexists. split; reflexivity.
Qed.
(** The largest time between two outputs may be below the smallest. *)
Theorem config_output_times_refuted : exists m,
  ex_config (("fault_output", NTab [("prefix", NStr "f"); ("t_min", NInt 10); ("t_max", NInt 1)])%string
               :: ex_raw) = Ok m /\
  has m 15 (struct (fun t => has t 3 (eq (VFloat (DRat 10))) /\ has t 4 (eq (VFloat (DRat 1))))).
Proof.
  eexists. split; [reflexivity |]. eexists. split; [reflexivity |].
  eexists. split; [reflexivity |]. split; eexists; (split; reflexivity).
Qed.
