(** Property C31: tabular output files have one well-formed row per write. *)
Require Import Ascii String List Bool Arith Lia.
Require Import Verif.TableModel.
Import ListNotations.
Local Open Scope list_scope.

(** ** Specification *)

(** Fields separated by single separators, no separator at the end. *)
Fixpoint join (c : ascii) (fields : list text) : text :=
  match fields with
  | [] => []
  | [f] => f
  | f :: r => f ++ [c] ++ join c r
  end.

Definition line (t : text) : text := t ++ [newline].

(** What a file of the given kind starts with. *)
Definition header_spec (k : kind) (title : text) (names : list text) : text :=
  let quoted := map (fun n => [quote] ++ n ++ [quote]) (str "Time" :: names) in
  match k with
  | Csv c => line (str "# " ++ title) ++ line (join c quoted)
  | Tecplot => line (str "TITLE = " ++ [quote] ++ title ++ [quote]) ++
               line (str "VARIABLES = " ++ join ","%char quoted)
  end.

Definition row_sep (k : kind) : ascii := match k with Csv c => c | Tecplot => " "%char end.

(** One line per row. *)
Definition rows_spec (k : kind) (rows : list (list text)) : text :=
  flat_map (fun r => line (join (row_sep k) r)) rows.

(** Cut a text at every occurrence of a character. *)
Fixpoint split (c : ascii) (t : text) : list text :=
  match t with
  | [] => [[]]
  | x :: r =>
      if Ascii.eqb x c then [] :: split c r
      else match split c r with [] => [[x]] | f :: fs => (x :: f) :: fs end
  end.

(** ** Proofs *)

Definition at_end (s : stream) : Prop := pos s = length (content s) /\ failed s = false.

Lemma put_end : forall t s, at_end s ->
  at_end (put t s) /\ content (put t s) = content s ++ t /\ sep (put t s) = sep s.
Proof.
  intros t s [Hp Hf]. unfold put. rewrite Hf. cbn. unfold at_end. cbn.
  rewrite Hp, firstn_all, skipn_all2 by lia. rewrite app_nil_r.
  split; [|split; reflexivity]. split; [rewrite app_length; lia|reflexivity].
Qed.

Lemma fields_put : forall (f : text -> text) (g : text -> stream -> stream),
  (forall t s, g t s = put [sep s] (put (f t) s)) ->
  forall ts s, at_end s ->
  let s' := fold_left (fun s t => g t s) ts s in
  at_end s' /\ content s' = content s ++ flat_map (fun t => f t ++ [sep s]) ts /\ sep s' = sep s.
Proof.
  intros f g Hg. induction ts as [|t ts IH]; intros s Hs; cbn [fold_left flat_map].
  - rewrite app_nil_r. auto.
  - rewrite Hg.
    destruct (put_end (f t) s Hs) as (A1 & A2 & A3).
    destruct (put_end [sep s] _ A1) as (B1 & B2 & B3).
    specialize (IH (put [sep s] (put (f t) s)) B1). cbv zeta in IH.
    destruct IH as (C1 & C2 & C3). split; [exact C1|]. split; [|congruence].
    rewrite C2, B3, B2, A2, A3. rewrite <- !app_assoc. reflexivity.
Qed.

Lemma join_seps : forall c fs, fs <> [] ->
  flat_map (fun t => t ++ [c]) fs = join c fs ++ [c].
Proof.
  induction fs as [|f fs IH]; intro H; [congruence|].
  destruct fs as [|g fs]; [cbn; rewrite app_nil_r; reflexivity|].
  cbn [flat_map] in *. rewrite IH by discriminate. cbn [join]. rewrite <- !app_assoc. reflexivity.
Qed.

(** The last separator is replaced by a newline. *)
Lemma endrow_end : forall s t c, at_end s -> content s = t ++ [c] ->
  at_end (endrow s) /\ content (endrow s) = line t /\ sep (endrow s) = sep s.
Proof.
  intros [co po fa se] t c [Hp Hf] Hc. cbn in *. subst.
  unfold endrow, seek_back, put, at_end, line. cbn [failed pos content sep].
  rewrite app_length. cbn [length]. replace (length t + 1)%nat with (S (length t)) by lia.
  cbn [failed pos content sep length].
  rewrite firstn_app, firstn_all2 by lia. replace (length t - length t)%nat with O by lia.
  cbn [firstn]. rewrite app_nil_r.
  rewrite skipn_all2 by (rewrite app_length; cbn; lia). rewrite app_nil_r.
  split; [|split; reflexivity]. rewrite app_length. cbn. split; [lia|reflexivity].
Qed.

Lemma write_row_spec : forall row s, at_end s -> row <> [] ->
  at_end (write_row row s) /\ content (write_row row s) = content s ++ line (join (sep s) row) /\
  sep (write_row row s) = sep s.
Proof.
  intros row s Hs Hr. unfold write_row.
  destruct (fields_put (fun t => t) add (fun t s => eq_refl) row s Hs) as (A1 & A2 & A3).
  cbv zeta in A1, A2, A3. rewrite (join_seps (sep s)) in A2 by exact Hr. rewrite app_assoc in A2.
  destruct (endrow_end _ _ _ A1 A2) as (B1 & B2 & B3). split; [exact B1|].
  split; [|congruence]. rewrite B2. unfold line. rewrite <- app_assoc. reflexivity.
Qed.

Lemma flat_map_map : forall (A B C : Type) (f : A -> B) (g : B -> list C) l,
  flat_map g (map f l) = flat_map (fun x => g (f x)) l.
Proof. induction l; cbn; [reflexivity|]. rewrite IHl. reflexivity. Qed.

Lemma header_fields : forall names s, at_end s ->
  let s' := endrow (fold_left (fun s n => add_string n s) (str "Time" :: names) s) in
  at_end s' /\ sep s' = sep s /\
  content s' = content s ++ line (join (sep s) (map (fun n => [quote] ++ n ++ [quote]) (str "Time" :: names))).
Proof.
  intros names s Hs s'.
  destruct (fields_put (fun t => [quote] ++ t ++ [quote]) add_string (fun t s => eq_refl)
              (str "Time" :: names) s Hs) as (A1 & A2 & A3). cbv zeta in A1, A2, A3.
  rewrite <- (flat_map_map _ _ _ (fun t => [quote] ++ t ++ [quote]) (fun t => t ++ [sep s])) in A2.
  rewrite (join_seps (sep s)) in A2 by discriminate. rewrite app_assoc in A2.
  destruct (endrow_end _ _ _ A1 A2) as (B1 & B2 & B3). unfold s'.
  split; [exact B1|]. split; [congruence|]. rewrite B2. unfold line. rewrite <- app_assoc. reflexivity.
Qed.

Lemma write_header_spec : forall k title names old,
  let s := write_header k title names (open (row_sep k) old false) in
  at_end s /\ content s = header_spec k title names /\ sep s = row_sep k.
Proof.
  intros k title names old. set (s0 := open (row_sep k) old false).
  assert (H0 : at_end s0) by (split; reflexivity).
  destruct k as [c|]; unfold write_header; cbn [add_title beginheader endheader].
  - destruct (put_end (str "# " ++ title ++ [newline]) s0 H0) as (A1 & A2 & A3).
    destruct (header_fields names _ A1) as (B1 & B2 & B3).
    split; [exact B1|]. rewrite B3, A2, A3, B2, A3. split; [|reflexivity].
    unfold header_spec, line. cbn [content s0 open app row_sep sep]. rewrite <- !app_assoc. reflexivity.
  - destruct (put_end (str "TITLE = " ++ [quote] ++ title ++ [quote] ++ [newline]) s0 H0) as (A1 & A2 & A3).
    destruct (put_end (str "VARIABLES = ") _ A1) as (C1 & C2 & C3).
    set (s2 := put (str "VARIABLES = ") (put (str "TITLE = " ++ [quote] ++ title ++ [quote] ++ [newline]) s0)) in *.
    assert (H2 : at_end (set_sep "," s2)) by exact C1.
    destruct (header_fields names _ H2) as (B1 & B2 & B3).
    cbv zeta. split; [exact B1|]. split; [|reflexivity].
    unfold set_sep at 1. cbn [content]. rewrite B3. cbn [set_sep content sep].
    rewrite C2, A2. unfold header_spec, line. change (content s0) with (@nil ascii). rewrite <- !app_assoc. reflexivity.
Qed.

Lemma write_file_spec : forall k title names early row file, row <> [] ->
  write_file k (row_sep k) title names early row file =
  ((match file with Some old => if early then header_spec k title names else old
                  | None => header_spec k title names end) ++ line (join (row_sep k) row),
   row_sep k).
Proof.
  intros k title names early row file Hr. unfold write_file. cbv zeta.
  destruct (write_header_spec k title names (match file with Some t => t | None => [] end)) as (H1 & H2 & H3).
  set (sh := write_header k title names (open (row_sep k) _ false)) in *. clearbody sh.
  destruct (write_row_spec row sh H1 Hr) as (R1 & R2 & R3).
  assert (G : forall old, let s := open (row_sep k) old true in
    content (write_row row s) = old ++ line (join (row_sep k) row) /\ sep (write_row row s) = row_sep k).
  { intros old s. assert (Hs : at_end s) by (split; reflexivity).
    destruct (write_row_spec row s Hs Hr) as (_ & -> & ->). split; reflexivity. }
  destruct early; [|destruct file as [old|]].
  - destruct file; rewrite R2, R3, H2, H3; reflexivity.
  - destruct (G old) as [-> ->]. reflexivity.
  - rewrite R2, R3, H2, H3. reflexivity.
Qed.

(** ** The property *)

(** Writes at positive times only: earlier content is kept unaltered and each write adds one line;
    a file that does not exist is started with title and header. *)
Theorem table_appends : forall k title names h file,
  (forall e, In e h -> fst e = false /\ snd e <> []) -> h <> [] ->
  run k (initial_sep k) title names h file =
  Some ((match file with Some old => old | None => header_spec k title names end) ++
        rows_spec k (map snd h)).
Proof.
  intros k title names. change (initial_sep k) with (row_sep k).
  induction h as [|[early row] h IH]; intros file Hh Hne; [congruence|].
  destruct (Hh (early, row)) as [E Hr]; [left; reflexivity|]. cbn [fst snd] in E, Hr. subst early.
  cbn [run]. rewrite write_file_spec by exact Hr.
  assert (Hc : (match file with Some old => if false then header_spec k title names else old
                | None => header_spec k title names end) =
               match file with Some old => old | None => header_spec k title names end)
    by (destruct file; reflexivity).
  try rewrite Hc; clear Hc.
  destruct h as [|e h].
  - cbn [run rows_spec map flat_map snd]. rewrite app_nil_r. reflexivity.
  - rewrite IH; [|intros; apply Hh; right; assumption|discriminate].
    cbn [rows_spec map flat_map snd]. rewrite <- !app_assoc. reflexivity.
Qed.

(** A write at time <= 0 starts the file afresh, whatever happened before: afterwards the file
    holds title, header and one line per write since then. *)
Theorem table_restarts : forall k title names h1 row h2 file,
  (forall e, In e h1 -> snd e <> []) -> row <> [] ->
  (forall e, In e h2 -> fst e = false /\ snd e <> []) ->
  run k (initial_sep k) title names (h1 ++ (true, row) :: h2) file =
  Some (header_spec k title names ++ rows_spec k (row :: map snd h2)).
Proof.
  intros k title names h1 row h2 file H1 Hr H2. change (initial_sep k) with (row_sep k).
  revert file. induction h1 as [|[early r1] h1 IH]; intro file; cbn [app].
  - cbn [run]. rewrite write_file_spec by exact Hr.
    assert (Hc : forall x : text, (match file with Some old => x | None => x end) = x)
      by (destruct file; reflexivity).
    rewrite Hc. clear Hc. destruct h2 as [|e h2].
    + cbn [run rows_spec map flat_map]. rewrite app_nil_r. reflexivity.
    + change (row_sep k) with (initial_sep k). rewrite table_appends; [|exact H2|discriminate].
      change (initial_sep k) with (row_sep k).
      cbn [rows_spec map flat_map snd]. rewrite <- !app_assoc. reflexivity.
  - cbn [run]. rewrite write_file_spec by (apply (H1 (early, r1)); left; reflexivity).
    apply IH. intros e He. apply H1. right. exact He.
Qed.

(** Rows can be read back: cutting the rows at newlines and each line at the separator gives the
    fields, if the number texts contain neither. *)
Lemma split_app : forall c f t, ~ In c f -> split c (f ++ c :: t) = f :: split c t.
Proof.
  induction f as [|x f IH]; intros t H; cbn [app split].
  - rewrite Ascii.eqb_refl. reflexivity.
  - destruct (Ascii.eqb x c) eqn:E.
    + apply Ascii.eqb_eq in E. exfalso. apply H. left. exact E.
    + rewrite IH by (intro A; apply H; right; exact A). reflexivity.
Qed.

Lemma split_none : forall c f, ~ In c f -> split c f = [f].
Proof.
  induction f as [|x f IH]; intro H; cbn [split]; [reflexivity|].
  destruct (Ascii.eqb x c) eqn:E.
  - apply Ascii.eqb_eq in E. exfalso. apply H. left. exact E.
  - rewrite IH by (intro A; apply H; right; exact A). reflexivity.
Qed.

Lemma split_join : forall c fs, fs <> [] -> (forall f, In f fs -> ~ In c f) ->
  split c (join c fs) = fs.
Proof.
  induction fs as [|f fs IH]; intros Hne H; [congruence|]. destruct fs as [|g fs].
  - apply split_none. apply H. left. reflexivity.
  - change (join c (f :: g :: fs)) with (f ++ c :: join c (g :: fs)).
    rewrite split_app by (apply H; left; reflexivity).
    rewrite IH; [reflexivity|discriminate|]. intros f' Hf. apply H. right. exact Hf.
Qed.

Lemma in_join : forall c x fs, In x (join c fs) -> x = c \/ exists f, In f fs /\ In x f.
Proof.
  induction fs as [|f fs IH]; intro H; [contradiction|]. destruct fs as [|g fs].
  - right. exists f. split; [left; reflexivity|exact H].
  - change (join c (f :: g :: fs)) with (f ++ c :: join c (g :: fs)) in H.
    apply in_app_or in H. destruct H as [H|H].
    + right. exists f. split; [left; reflexivity|exact H].
    + destruct H as [H|H]; [left; symmetry; exact H|]. destruct (IH H) as [E|(f' & A & B)].
      * left. exact E.
      * right. exists f'. split; [right; exact A|exact B].
Qed.

Theorem table_rows_readable : forall k rows,
  row_sep k <> newline ->
  (forall r, In r rows -> r <> [] /\ forall f, In f r -> ~ In (row_sep k) f /\ ~ In newline f) ->
  map (split (row_sep k)) (split newline (rows_spec k rows)) = rows ++ [[[]]].
Proof.
  intros k rows Hs. induction rows as [|r rows IH]; intro H; [reflexivity|].
  destruct (H r) as [Hne Hf]; [left; reflexivity|].
  cbn [rows_spec flat_map]. unfold line at 1. rewrite <- app_assoc. cbn [app].
  rewrite split_app.
  - cbn [map app]. rewrite split_join by (auto; intros f Hi; apply Hf; exact Hi).
    f_equal. apply IH. intros r' Hr. apply H. right. exact Hr.
  - intro A. apply in_join in A. destruct A as [A|(f & Hi & A)]; [congruence|].
    apply (Hf f Hi). exact A.
Qed.

(** ** Probe writers *)

Section ProbeProofs.
  Variable name : Type.
  Variable name_eqb : name -> name -> bool.
  Hypothesis name_eqb_spec : forall a b, name_eqb a b = true <-> a = b.

  Lemma store_same : forall n t fs, store name name_eqb n t fs n = Some t.
  Proof.
    intros n t fs. unfold store. rewrite (proj2 (name_eqb_spec n n) eq_refl). reflexivity.
  Qed.
  Lemma store_other : forall n m t fs, m <> n -> store name name_eqb n t fs m = fs m.
  Proof.
    intros n m t fs H. unfold store. destruct (name_eqb m n) eqn:E; [|reflexivity].
    apply name_eqb_spec in E. contradiction.
  Qed.

  Lemma write_probes_spec : forall k names early probes rows fs fs' c',
    NoDup (map fst probes) -> length rows = length probes -> (forall r, In r rows -> r <> []) ->
    write_probes name name_eqb k (row_sep k) names early probes rows fs = (fs', c') ->
    c' = row_sep k /\
    (forall n, ~ In n (map fst probes) -> fs' n = fs n) /\
    (forall i n title row, nth_error probes i = Some (n, title) -> nth_error rows i = Some row ->
       fs' n = Some (fst (write_file k (row_sep k) title names early row (fs n)))).
  Proof.
    intros k names early. induction probes as [|[n title] ps IH]; intros rows fs fs' c' Hnd Hlen Hne H;
      destruct rows as [|row rs]; try discriminate.
    - cbn in H. injection H as <- <-. split; [reflexivity|]. split; [reflexivity|].
      intros [|i] ? ? ? A; discriminate.
    - cbn [write_probes] in H. rewrite write_file_spec in H by (apply Hne; left; reflexivity).
      cbn [map fst] in Hnd. apply NoDup_cons_iff in Hnd. destruct Hnd as [Hn Hnd].
      apply IH in H; auto; [|intros; apply Hne; right; assumption].
      destruct H as (Hc & Ho & Hp). split; [exact Hc|]. split.
      + intros m Hm. cbn in Hm. rewrite Ho by tauto. apply store_other. intros ->. tauto.
      + intros [|i] m t r Hi Hr.
        * cbn in Hi, Hr. injection Hi as -> ->. injection Hr as ->.
          rewrite Ho by exact Hn. rewrite store_same.
          rewrite write_file_spec by (apply Hne; left; reflexivity). reflexivity.
        * cbn in Hi, Hr. rewrite (Hp i m t r Hi Hr). rewrite store_other; [reflexivity|].
          intros ->. apply Hn. apply in_map_iff. exists (n, t). split; [reflexivity|].
          eapply nth_error_In. exact Hi.
  Qed.

  (** With distinct file names the file of each probe is what a single writer would produce from
      that probe's rows, and no other file changes. *)
  Theorem probe_files_independent : forall k names probes h fs,
    NoDup (map fst probes) ->
    (forall e, In e h -> length (snd e) = length probes /\ forall r, In r (snd e) -> r <> []) ->
    (forall n, ~ In n (map fst probes) ->
       run_probes name name_eqb k (initial_sep k) names probes h fs n = fs n) /\
    (forall i n title, nth_error probes i = Some (n, title) ->
       run_probes name name_eqb k (initial_sep k) names probes h fs n =
       run k (initial_sep k) title names (map (fun e => (fst e, nth i (snd e) [])) h) (fs n)).
  Proof.
    intros k names probes h fs Hnd. change (initial_sep k) with (row_sep k).
    revert fs. induction h as [|[early rows] h IH]; intros fs Hh.
    - cbn. split; reflexivity.
    - destruct (Hh (early, rows)) as [Hlen Hne]; [left; reflexivity|]. cbn [snd] in Hlen, Hne.
      cbn [run_probes map run fst snd].
      destruct (write_probes name name_eqb k (row_sep k) names early probes rows fs) as [fs' c'] eqn:E.
      destruct (write_probes_spec _ _ _ _ _ _ _ _ Hnd Hlen Hne E) as (-> & Ho & Hp).
      destruct (IH fs') as [I1 I2]; [intros e He; apply Hh; right; exact He|].
      split.
      + intros n Hn. rewrite I1 by exact Hn. apply Ho. exact Hn.
      + intros i n title Hi. rewrite (I2 i n title Hi).
        assert (Hrow : nth_error rows i = Some (nth i rows [])).
        { apply nth_error_nth'. rewrite Hlen. apply nth_error_Some. congruence. }
        rewrite (Hp i n title _ Hi Hrow). rewrite write_file_spec; [reflexivity|].
        apply Hne. apply nth_In. rewrite Hlen. apply nth_error_Some. congruence.
  Qed.
End ProbeProofs.

(** Finding: two probes with the same name share a file, and the second truncates what the first
    wrote at time <= 0. *)
Theorem probe_same_name_refuted :
  run_probes nat Nat.eqb (Csv ",") "," [] [(0, str "A"); (0, str "B")]
    [(true, [[str "0"]; [str "0"]])] (fun _ => None) 0 =
  Some (header_spec (Csv ",") (str "B") [] ++ rows_spec (Csv ",") [[str "0"]]).
Proof. reflexivity. Qed.

(** ** Examples *)

Example table_example :
  run (Csv ",") "," (str "Scalar output") [str "VMax"]
    [(true, [str "0.0"; str "1.0"]); (false, [str "0.5"; str "2.0"])] (Some (str "old")) =
  Some (line (str "# Scalar output") ++
        line ([quote] ++ str "Time" ++ [quote] ++ str "," ++ [quote] ++ str "VMax" ++ [quote]) ++
        line (str "0.0,1.0") ++ line (str "0.5,2.0")).
Proof. reflexivity. Qed.

Example tecplot_example :
  run Tecplot " " (str "S") [] [(false, [str "0.5"; str "2.0"])] None =
  Some (line (str "TITLE = " ++ [quote] ++ str "S" ++ [quote]) ++
        line (str "VARIABLES = " ++ [quote] ++ str "Time" ++ [quote]) ++ line (str "0.5 2.0")).
Proof. reflexivity. Qed.

Example readable_example :
  map (split ",") (split newline (rows_spec (Csv ",") [[str "0.0"; str "1.0"]; [str "2"; str "3"]])) =
  [[str "0.0"; str "1.0"]; [str "2"; str "3"]; [[]]].
Proof. reflexivity. Qed.

Example probes_example :
  run_probes nat Nat.eqb Tecplot " " [str "u"] [(1, str "A"); (2, str "B")]
    [(true, [[str "0"; str "1"]; [str "0"; str "2"]]); (false, [[str "3"; str "4"]; [str "3"; str "5"]])]
    (fun _ => None) 2 =
  Some (header_spec Tecplot (str "B") [str "u"] ++ line (str "0 2") ++ line (str "3 5")).
Proof. reflexivity. Qed.

Print Assumptions table_appends.
Print Assumptions table_restarts.
Print Assumptions table_rows_readable.
Print Assumptions probe_files_independent.
