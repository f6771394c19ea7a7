(** Each function of the parser accepts exactly the tokens of a small grammar. *)
Require Import ZArith Bool Ascii String List Lia.
Require Import Verif.GmshModel Verif.GmshSpec Verif.GmshLexProofs.
Import ListNotations.
Local Open Scope list_scope.
Local Open Scope Z_scope.

Section Gram.
  Variable num : Type.
  Variable of_int : Z -> num.
  Variable strtod : text -> num.
  Notation P := (P num).
  Notation pstate := (pstate num).
  Notation call := (call num).

  Definition moved (s : pstate) (ts : list token) (cs : list call) (s' : pstate) : Prop :=
    lexes (lx s) ts (lx s') /\ calls s' = calls s ++ cs /\ errors s' = errors s /\ cur s' = last ts (cur s).
  Definition gram {A} (m : P A) (R : list token -> A -> list call -> Prop) : Prop :=
    forall s a s', m s = Ret a s' <-> exists ts cs, R ts a cs /\ moved s ts cs s'.

  Lemma pstate_eq : forall s s' : pstate,
    cur s = cur s' -> lx s = lx s' -> calls s = calls s' -> errors s = errors s' -> s = s'.
  Proof. intros [] []; cbn; congruence. Qed.
  Lemma last_app : forall (a b : list token) d, last (a ++ b) d = last b (last a d).
  Proof.
    intros a b. induction b as [|x b IH] using rev_ind; intros d; [rewrite app_nil_r; reflexivity|].
    rewrite app_assoc, !last_last. reflexivity.
  Qed.
  Lemma moved_refl : forall s, moved s [] [] s.
  Proof. intros s. repeat split. rewrite app_nil_r; auto. Qed.
  Lemma moved_nil : forall s s', moved s [] [] s' -> s' = s.
  Proof. intros s s' (H1 & H2 & H3 & H4). apply pstate_eq; auto. rewrite H2, app_nil_r; auto. Qed.
  Lemma moved_trans : forall s s1 s' ts1 cs1 ts2 cs2,
    moved s ts1 cs1 s1 -> moved s1 ts2 cs2 s' -> moved s (ts1 ++ ts2) (cs1 ++ cs2) s'.
  Proof.
    intros s s1 s' ts1 cs1 ts2 cs2 (A1 & A2 & A3 & A4) (B1 & B2 & B3 & B4). repeat split.
    - apply lexes_app. exists (lx s1); auto.
    - rewrite B2, A2, app_assoc; auto.
    - congruence.
    - rewrite last_app. congruence.
  Qed.
  Lemma moved_split : forall s s' ts1 cs1 ts2 cs2,
    moved s (ts1 ++ ts2) (cs1 ++ cs2) s' -> exists s1, moved s ts1 cs1 s1 /\ moved s1 ts2 cs2 s'.
  Proof.
    intros s s' ts1 cs1 ts2 cs2 (A1 & A2 & A3 & A4). apply lexes_app in A1 as (l & L1 & L2).
    exists {| cur := last ts1 (cur s); lx := l; calls := calls s ++ cs1; errors := errors s |}.
    repeat split; cbn; auto. rewrite A2, app_assoc; auto. rewrite A4, last_app; auto.
  Qed.

  Lemma gram_ext : forall A (m : P A) R R',
    gram m R -> (forall ts a cs, R ts a cs <-> R' ts a cs) -> gram m R'.
  Proof.
    intros A m R R' H E s a s'. rewrite (H s a s'). split; intros (ts & cs & H1 & H2); exists ts, cs; split; auto; apply E; auto.
  Qed.
  Lemma gram_ret : forall A (x : A), gram (ret num x) (fun ts a cs => ts = [] /\ a = x /\ cs = []).
  Proof.
    intros A x s a s'. unfold ret. split.
    - intros E. injection E as <- <-. exists [], []. split; auto. apply moved_refl.
    - intros (ts & cs & (-> & -> & ->) & H). apply moved_nil in H as ->. reflexivity.
  Qed.
  Lemma gram_bind : forall A B (m : P A) (f : A -> P B) R1 R2,
    gram m R1 -> (forall a, gram (f a) (R2 a)) ->
    gram (bind num m f) (fun ts b cs => exists ts1 ts2 a cs1 cs2,
      ts = ts1 ++ ts2 /\ cs = cs1 ++ cs2 /\ R1 ts1 a cs1 /\ R2 a ts2 b cs2).
  Proof.
    intros A B m f R1 R2 Hm Hf s b s'. unfold bind. split.
    - destruct (m s) as [a s1|s1| | |] eqn:E; try discriminate. intros Ef.
      apply Hm in E as (ts1 & cs1 & H1 & H2). apply Hf in Ef as (ts2 & cs2 & H3 & H4).
      exists (ts1 ++ ts2), (cs1 ++ cs2). split; [exists ts1, ts2, a, cs1, cs2; auto|].
      eapply moved_trans; eauto.
    - intros (ts & cs & (ts1 & ts2 & a & cs1 & cs2 & -> & -> & H1 & H2) & H).
      apply moved_split in H as (s1 & M1 & M2).
      assert (E : m s = Ret a s1) by (apply Hm; exists ts1, cs1; auto). rewrite E.
      apply Hf. exists ts2, cs2; auto.
  Qed.
  Lemma gram_next : gram (next num) (fun ts a cs => ts = [a] /\ cs = []).
  Proof.
    intros s a s'. unfold next. split.
    - destruct (getToken (lx s)) as [t l| |] eqn:E; try discriminate. intros Er. injection Er as <- <-.
      exists [t], []. split; auto. repeat split; cbn [cur lx calls errors last]; [|rewrite app_nil_r; auto].
      cbn [lexes]. exists l; auto.
    - intros (ts & cs & (-> & ->) & H1 & H2 & H3 & H4). cbn [lexes last] in *. destruct H1 as (l1 & -> & E).
      f_equal. apply pstate_eq; cbn; auto. rewrite H2, app_nil_r; auto.
  Qed.
  (* next followed by a test of the current token *)
  Lemma gram_test : forall A (f : P A) (v : token -> option A),
    (forall s a s', f s = Ret a s' <-> v (cur s) = Some a /\ s' = s) ->
    gram (bind num (next num) (fun _ => f)) (fun ts a cs => exists t, ts = [t] /\ v t = Some a /\ cs = []).
  Proof.
    intros A f v Hf s a s'. unfold bind. split.
    - destruct (next num s) as [t s1|s1| | |] eqn:E; try discriminate. intros Ef.
      apply gram_next in E as (ts & cs & (-> & ->) & H). apply Hf in Ef as [Ev ->].
      exists [t], []. split; auto. exists t. split; auto.
      destruct H as (_ & _ & _ & Hc). cbn [last] in Hc. rewrite Hc in Ev. auto.
    - intros (ts & cs & (t & -> & Ev & ->) & H).
      assert (E : next num s = Ret t s') by (apply gram_next; exists [t], []; auto). rewrite E.
      apply Hf. destruct H as (_ & _ & _ & Hc). cbn [last] in Hc. rewrite Hc. auto.
  Qed.
  Lemma gram_integer : forall ok e, gram (read_integer num ok e)
    (fun ts n cs => ts = [T_integer n] /\ ok n = true /\ cs = []).
  Proof.
    intros ok e. unfold read_integer.
    eapply gram_ext; [apply gram_test with (v := fun t => match t with T_integer n => if ok n then Some n else None | _ => None end)|].
    - intros s a s'. destruct (cur s); try (split; [discriminate|intros [? _]; discriminate]).
      destruct (ok n) eqn:E; [|split; [discriminate|intros [? _]; discriminate]].
      split; [intros H; injection H as <- <-; auto|intros [H ->]; injection H as <-; auto].
    - intros ts n cs. split.
      + intros (t & -> & Hv & ->). destruct t; try discriminate. destruct (ok n0) eqn:E; [|discriminate].
        injection Hv as <-. auto.
      + intros (-> & Hok & ->). exists (T_integer n). rewrite Hok. auto.
  Qed.
  Lemma gram_number : forall e, gram (read_number num of_int strtod e)
    (fun ts x cs => exists v, ts = [numeral_token v] /\ x = value num of_int strtod v /\ cs = []).
  Proof.
    intros e. unfold read_number.
    eapply gram_ext; [apply gram_test with (v := fun t => match t with T_integer n => Some (of_int n) | T_real b => Some (strtod b) | _ => None end)|].
    - intros s a s'. destruct (cur s); try (split; [discriminate|intros [? _]; discriminate]);
      (split; [intros H; injection H as <- <-; auto|intros [H ->]; injection H as <-; auto]).
    - intros ts x cs. split.
      + intros (t & -> & Hv & ->). destruct t; try discriminate; injection Hv as <-.
        * exists (N_int n); auto.
        * exists (N_real digits); auto.
      + intros (v & -> & -> & ->). exists (numeral_token v). destruct v; auto.
  Qed.
  Lemma gram_expect : forall p e, gram (read_expect num p e)
    (fun ts a cs => exists t, ts = [t] /\ p t = true /\ cs = []).
  Proof.
    intros p e. unfold read_expect.
    eapply gram_ext; [apply gram_test with (v := fun t => if p t then Some tt else None)|].
    - intros s [] s'. unfold expect. destruct (p (cur s)).
      + split; [intros H; injection H as <-; auto|intros [_ ->]; auto].
      + split; [discriminate|intros [? _]; discriminate].
    - intros ts [] cs. split; intros (t & -> & H & ->); exists t; split; auto; destruct (p t); auto; discriminate.
  Qed.
  Lemma gram_emit : forall c, gram (emit num c) (fun ts a cs => ts = [] /\ cs = [c]).
  Proof.
    intros c s [] s'. unfold emit. split.
    - intros E. injection E as <-. exists [], [c]. split; auto. repeat split.
    - intros (ts & cs & (-> & ->) & H1 & H2 & H3 & H4). cbn [lexes last] in *. f_equal. apply pstate_eq; cbn; congruence.
  Qed.
  (* n times the same function: X describes one item *)
  Lemma gram_repeat : forall A X (f : P A) (R : list token -> A -> list call -> Prop) (tk : X -> list token) (vl : X -> A)
      (cl : X -> list call) (ok : X -> Prop),
    gram f R -> (forall ts a cs, R ts a cs <-> exists x, ok x /\ ts = tk x /\ a = vl x /\ cs = cl x) ->
    forall n, gram (repeatP num n f) (fun ts l cs => exists xs, List.length xs = n /\ Forall ok xs /\
       ts = flat_map tk xs /\ l = map vl xs /\ cs = flat_map cl xs).
  Proof.
    intros A X f R tk vl cl ok Hf HR. induction n as [|n IH]; cbn [repeatP].
    - eapply gram_ext; [apply gram_ret|]. intros ts l cs. split.
      + intros (-> & -> & ->). exists []. cbn. auto.
      + intros (xs & Hl & _ & -> & -> & ->). destruct xs; [auto|discriminate].
    - eapply gram_ext.
      { apply gram_bind; [exact Hf|]. intros a. apply gram_bind; [exact IH|]. intros l. apply gram_ret. }
      intros ts l cs. split.
      + intros (ts1 & ts2 & a & cs1 & cs2 & -> & -> & H1 & ts3 & ts4 & l' & cs3 & cs4 & -> & -> & H2 & -> & -> & ->).
        apply HR in H1 as (x & Hx & -> & -> & ->). destruct H2 as (xs & Hl & Ho & -> & -> & ->).
        exists (x :: xs). cbn [List.length flat_map map]. rewrite !app_nil_r. auto.
      + intros (xs & Hl & Ho & -> & -> & ->). destruct xs as [|x xs]; [discriminate|].
        cbn [List.length flat_map map] in *. inversion Ho; subst.
        exists (tk x), (flat_map tk xs), (vl x), (cl x), (flat_map cl xs). repeat split; auto.
        * apply HR. exists x; auto.
        * exists (flat_map tk xs), [], (map vl xs), (flat_map cl xs), []. rewrite !app_nil_r. repeat split; auto.
          exists xs. repeat split; auto.
  Qed.

  (** ** Sections *)
  Notation value := (value num of_int strtod).
  Notation node_call := (node_call num of_int strtod).
  Notation elem_call := (elem_call num).

  Lemma gram_node : forall n, gram (parseNode num of_int strtod (Z.of_nat n))
    (fun ts _ cs => exists v, node_ok n v /\ ts = node_tokens v /\ cs = [node_call v]).
  Proof.
    intros n. unfold parseNode. eapply gram_ext.
    { apply gram_bind; [apply gram_integer|]. intros k.
      apply gram_bind.
      - eapply gram_repeat with (X := numeral) (tk := fun x => [numeral_token x]) (vl := value) (cl := fun _ => []) (ok := fun _ => True);
          [apply gram_number|].
        intros ts a cs. split; intros (v & H); exists v; tauto.
      - intros x. apply gram_emit. }
    intros ts [] cs. split.
    - intros (ts1 & ts2 & k & cs1 & cs2 & -> & -> & (-> & Hk & ->) & ts3 & ts4 & x & cs3 & cs4 & -> & -> & (xs & Hl & _ & -> & -> & ->) & -> & ->).
      exists {| node_tag := k; node_x := xs |}. split; [|split].
      + apply andb_prop in Hk as [H1 H2]. apply Z.leb_le in H1, H2. unfold node_ok. cbn. auto.
      + unfold node_tokens. cbn. rewrite app_nil_r. reflexivity.
      + replace (flat_map (fun _ : numeral => @nil call) xs) with (@nil call); [reflexivity|].
        clear. induction xs; cbn; auto.
    - intros (v & [[H1 H1'] H2] & -> & ->). unfold node_tokens.
      exists [T_integer (node_tag v)], (map numeral_token (node_x v)), (node_tag v), [], [node_call v].
      split; [reflexivity|]. split; [reflexivity|]. split.
      + split; auto. split; auto. apply andb_true_intro. split; apply Z.leb_le; auto.
      + exists (map numeral_token (node_x v)), [], (map value (node_x v)), [], [node_call v].
        rewrite app_nil_r. split; [reflexivity|]. split; [reflexivity|]. split.
        * exists (node_x v). split; [exact H2|]. split; [apply Forall_forall; auto|].
          split; [clear; induction (node_x v); cbn; congruence|]. split; [reflexivity|].
          clear. induction (node_x v); cbn; auto.
        * split; auto.
  Qed.

  Lemma flat_map_single : forall A B (f : A -> B) l, flat_map (fun x => [f x]) l = map f l.
  Proof. induction l; cbn; congruence. Qed.

  Lemma gram_nodes : gram (parseNodes num of_int strtod)
    (fun ts _ cs => exists l t, section_ok (Nodes l) /\ T_nodes :: ts = section_tokens (Nodes l) ++ [t] /\
        cs = section_calls num of_int strtod (Nodes l)).
  Proof.
    unfold parseNodes. eapply gram_ext.
    { apply gram_bind; [apply gram_integer|]. intros k.
      apply gram_bind; [apply gram_emit|]. intros ?u.
      assert (Hk : gram (repeatP num (Z.to_nat k) (parseNode num of_int strtod k))
        (fun ts l cs => (0 <= k -> exists xs, List.length xs = Z.to_nat k /\ Forall (node_ok (Z.to_nat k)) xs /\
            ts = flat_map node_tokens xs /\ l = map (fun _ => tt) xs /\ cs = flat_map (fun v => [node_call v]) xs) /\
            (k < 0 -> ts = [] /\ l = [] /\ cs = []))).
      { destruct (Z.leb_spec 0 k) as [Hk|Hk].
        - rewrite <- (Z2Nat.id k Hk) at 2. eapply gram_ext.
          + eapply gram_repeat with (X := node) (tk := node_tokens) (vl := fun _ => tt) (cl := fun v => [node_call v])
              (ok := node_ok (Z.to_nat k)); [apply gram_node|].
            intros ts [] cs. split; intros (v & H); exists v; tauto.
          + intros ts l cs. split; [intros H; split; [auto|lia]|intros [H _]; auto].
        - replace (Z.to_nat k) with 0%nat by lia. cbn [repeatP]. eapply gram_ext; [apply gram_ret|].
          intros ts l cs. split; [intros H; split; [lia|auto]|intros [_ H]; auto]. }
      apply gram_bind; [exact Hk|]. intros l.
      apply gram_bind; [apply gram_expect|]. intros ?u.
      apply gram_bind; [apply gram_next|]. intros t. apply gram_ret. }
    intros ts [] cs. split.
    - intros (ts1 & ts2 & k & cs1 & cs2 & -> & -> & (-> & Hk & ->) & H). apply Z.leb_le in Hk.
      destruct H as (ts3 & ts4 & u & cs3 & cs4 & -> & -> & (-> & ->) & H).
      destruct H as (ts5 & ts6 & l & cs5 & cs6 & -> & -> & [Hl _] & H).
      destruct (Hl Hk) as (xs & Hlen & Hok & -> & -> & ->).
      destruct H as (ts7 & ts8 & u' & cs7 & cs8 & -> & -> & (t1 & -> & Ht1 & ->) & H).
      destruct H as (ts9 & ts10 & t & cs9 & cs10 & -> & -> & (-> & ->) & -> & _ & ->).
      exists xs, t. cbn [section_ok section_tokens section_calls]. rewrite Hlen. split; [auto|].
      rewrite Z2Nat.id by auto. split.
      + destruct t1; try discriminate. cbn [app]. rewrite <- !app_assoc. reflexivity.
      + rewrite flat_map_single. cbn [app]. rewrite !app_nil_r. reflexivity.
    - intros (l & t & Hok & E & ->). cbn [section_ok section_tokens section_calls] in *.
      cbn [app] in E. injection E as ->.
      set (n := Z.of_nat (List.length l)).
      exists [T_integer n], (flat_map node_tokens l ++ [T_end_nodes; t]), n, [], (SetNumVertices n :: map node_call l).
      split; [rewrite <- app_assoc; reflexivity|]. split; [reflexivity|].
      split; [split; [reflexivity|]; split; [apply Z.leb_le; lia|reflexivity]|].
      exists [], (flat_map node_tokens l ++ [T_end_nodes; t]), tt, [SetNumVertices n], (map node_call l).
      split; [reflexivity|]. split; [reflexivity|]. split; [split; reflexivity|].
      exists (flat_map node_tokens l), [T_end_nodes; t], (map (fun _ => tt) l), (map node_call l), [].
      split; [reflexivity|]. split; [rewrite app_nil_r; reflexivity|]. split.
      { split; [|lia]. intros _. exists l. subst n. rewrite Nat2Z.id. repeat split; auto. }
      exists [T_end_nodes], [t], tt, [], []. split; [reflexivity|]. split; [reflexivity|].
      split; [exists T_end_nodes; auto|].
      exists [t], [], t, [], []. repeat split.
  Qed.

  (** The tag of an element without tags is that of the element before. *)
  Definition tag_after (tag : Z) (e : elem) : Z := hd tag (elem_tags e).
  Fixpoint elem_calls (tag : Z) (l : list elem) : list call :=
    match l with
    | [] => []
    | e :: l => AddElement (elem_type e) (tag_after tag e) (map (fun n => n - 1) (elem_nodes e))
                :: elem_calls (tag_after tag e) l
    end.

  Lemma gram_ints : forall n e, gram (repeatP num n (read_integer num (fun _ => true) e))
    (fun ts l cs => List.length l = n /\ ts = map T_integer l /\ cs = []).
  Proof.
    intros n e. eapply gram_ext.
    - eapply gram_repeat with (X := Z) (tk := fun x => [T_integer x]) (vl := fun x => x) (cl := fun _ => []) (ok := fun _ => True);
        [apply gram_integer|].
      intros ts a cs. split; [intros (-> & _ & ->); exists a; auto|intros (x & _ & -> & -> & ->); auto].
    - intros ts l cs. split.
      + intros (xs & Hl & _ & -> & -> & ->). rewrite map_id, flat_map_single. repeat split; auto.
        clear. induction xs; cbn; auto.
      + intros (Hl & -> & ->). exists l. rewrite map_id, flat_map_single. repeat split; auto.
        * apply Forall_forall; auto.
        * clear. induction l; cbn; auto.
  Qed.

  Lemma gram_node_nos : forall n e,
    gram (repeatP num n (bind num (read_integer num (fun k => 1 <=? k) e) (fun k => ret num (k - 1))))
    (fun ts l cs => exists ns, List.length ns = n /\ Forall (fun k => 1 <= k) ns /\ ts = map T_integer ns /\
       l = map (fun k => k - 1) ns /\ cs = []).
  Proof.
    intros n e. eapply gram_ext.
    - eapply gram_repeat with (X := Z) (tk := fun x => [T_integer x]) (vl := fun x => x - 1) (cl := fun _ => []) (ok := fun k => 1 <= k).
      + apply gram_bind; [apply gram_integer|]. intros k. apply gram_ret.
      + intros ts a cs. split.
        * intros (ts1 & ts2 & k & cs1 & cs2 & -> & -> & (-> & Hk & ->) & -> & -> & ->). exists k.
          apply Z.leb_le in Hk. auto.
        * intros (x & Hx & -> & -> & ->). exists [T_integer x], [], x, [], []. repeat split. apply Z.leb_le; auto.
    - intros ts l cs. split.
      + intros (xs & Hl & Ho & -> & -> & ->). exists xs. rewrite flat_map_single. repeat split; auto.
        clear. induction xs; cbn; auto.
      + intros (ns & Hl & Ho & -> & -> & ->). exists ns. rewrite flat_map_single. repeat split; auto.
        clear. induction ns; cbn; auto.
  Qed.

  Lemma gram_element : forall tag, gram (parseElement num tag)
    (fun ts tag' cs => exists e, elem_ok e /\ ts = elem_tokens e /\ tag' = tag_after tag e /\
       cs = [AddElement (elem_type e) (tag_after tag e) (map (fun n => n - 1) (elem_nodes e))]).
  Proof.
    intros tag. unfold parseElement. eapply gram_ext.
    { apply gram_bind; [apply gram_integer|]. intros no.
      apply gram_bind; [apply gram_integer|]. intros type.
      apply gram_bind; [apply gram_integer|]. intros nt.
      apply gram_bind; [apply gram_ints|]. intros tags. cbv zeta.
      apply gram_bind; [apply gram_node_nos|]. intros nodes.
      apply gram_bind; [apply gram_emit|]. intros ?u. apply gram_ret. }
    intros ts tag' cs. split.
    - intros (ts1 & ts2 & no & cs1 & cs2 & -> & -> & (-> & _ & ->) & H).
      destruct H as (ts3 & ts4 & type & cs3 & cs4 & -> & -> & (-> & Hty & ->) & H).
      destruct H as (ts5 & ts6 & nt & cs5 & cs6 & -> & -> & (-> & Hnt & ->) & H).
      destruct H as (ts7 & ts8 & tags & cs7 & cs8 & -> & -> & (Hlt & -> & ->) & H).
      destruct H as (ts9 & ts10 & nodes & cs9 & cs10 & -> & -> & (ns & Hln & Hns & -> & -> & ->) & H).
      destruct H as (ts11 & ts12 & u & cs11 & cs12 & -> & -> & (-> & ->) & -> & -> & ->).
      apply Z.leb_le in Hnt. apply andb_prop in Hty as [T1 T2]. apply Z.leb_le in T1, T2.
      exists {| elem_no := no; elem_type := type; elem_tags := tags; elem_nodes := ns |}.
      unfold elem_ok, elem_tokens, tag_after. cbn [elem_no elem_type elem_tags elem_nodes].
      split; [auto|]. split; [|split].
      + rewrite Hlt, Z2Nat.id by auto. cbn [app]. rewrite app_nil_r. reflexivity.
      + destruct tags; reflexivity.
      + cbn [app]. destruct tags; reflexivity.
    - intros (e & (H1 & H2 & H3) & -> & -> & ->). unfold elem_tokens. destruct e as [no type tags ns].
      cbn [elem_no elem_type elem_tags elem_nodes] in *.
      set (c := AddElement _ _ _).
      exists [T_integer no], ([T_integer type; T_integer (Z.of_nat (List.length tags))] ++ map T_integer tags ++ map T_integer ns), no, [], [c].
      split; [reflexivity|]. split; [reflexivity|]. split; [auto|].
      exists [T_integer type], ([T_integer (Z.of_nat (List.length tags))] ++ map T_integer tags ++ map T_integer ns), type, [], [c].
      split; [reflexivity|]. split; [reflexivity|].
      split; [split; auto; split; auto; apply andb_true_intro; split; apply Z.leb_le; lia|].
      exists [T_integer (Z.of_nat (List.length tags))], (map T_integer tags ++ map T_integer ns), (Z.of_nat (List.length tags)), [], [c].
      split; [reflexivity|]. split; [reflexivity|]. split; [split; auto; split; auto; apply Z.leb_le; lia|].
      exists (map T_integer tags), (map T_integer ns), tags, [], [c].
      split; [reflexivity|]. split; [reflexivity|]. split; [rewrite Nat2Z.id; auto|].
      exists (map T_integer ns), [], (map (fun k => k - 1) ns), [], [c].
      split; [rewrite app_nil_r; reflexivity|]. split; [reflexivity|].
      split; [exists ns; repeat split; auto|].
      exists [], [], tt, [c], []. split; [reflexivity|]. split; [reflexivity|].
      split; [split; [reflexivity|]; subst c; unfold tag_after; cbn [elem_tags]; destruct tags; reflexivity|].
      repeat split.
  Qed.

  Lemma gram_element_loop : forall n tag, gram (parseElementLoop num n tag)
    (fun ts _ cs => exists l, List.length l = n /\ Forall elem_ok l /\ ts = flat_map elem_tokens l /\ cs = elem_calls tag l).
  Proof.
    induction n as [|n IH]; intros tag; cbn [parseElementLoop].
    - eapply gram_ext; [apply gram_ret|]. intros ts [] cs. split.
      + intros (-> & _ & ->). exists []. repeat split; auto.
      + intros (l & Hl & _ & -> & ->). destruct l; [auto|discriminate].
    - eapply gram_ext; [apply gram_bind; [apply gram_element|]; intros a; apply IH|].
      intros ts [] cs. split.
      + intros (ts1 & ts2 & tag' & cs1 & cs2 & -> & -> & (e & He & -> & -> & ->) & l & Hl & Ho & -> & ->).
        exists (e :: l). cbn [List.length flat_map elem_calls]. auto.
      + intros (l & Hl & Ho & -> & ->). destruct l as [|e l]; [discriminate|]. inversion Ho; subst.
        cbn [List.length flat_map elem_calls] in *.
        exists (elem_tokens e), (flat_map elem_tokens l), (tag_after tag e),
          [AddElement (elem_type e) (tag_after tag e) (map (fun n => n - 1) (elem_nodes e))], (elem_calls (tag_after tag e) l).
        split; [reflexivity|]. split; [|split; [exists e; auto|exists l; auto]]. reflexivity.
  Qed.

  Lemma gram_elements : gram (parseElements num)
    (fun ts _ cs => exists l t, section_ok (Elements l) /\ T_elements :: ts = section_tokens (Elements l) ++ [t] /\
        cs = SetNumElements (Z.of_nat (List.length l)) :: elem_calls (-1) l).
  Proof.
    unfold parseElements. eapply gram_ext.
    { apply gram_bind; [apply gram_integer|]. intros k.
      apply gram_bind; [apply gram_emit|]. intros ?u.
      apply gram_bind; [apply gram_element_loop|]. intros ?u.
      apply gram_bind; [apply gram_expect|]. intros ?u.
      apply gram_bind; [apply gram_next|]. intros t. apply gram_ret. }
    intros ts [] cs. split.
    - intros (ts1 & ts2 & k & cs1 & cs2 & -> & -> & (-> & Hk & ->) & H). apply Z.leb_le in Hk.
      destruct H as (ts3 & ts4 & u & cs3 & cs4 & -> & -> & (-> & ->) & H).
      destruct H as (ts5 & ts6 & u2 & cs5 & cs6 & -> & -> & (l & Hlen & Hok & -> & ->) & H).
      destruct H as (ts7 & ts8 & u' & cs7 & cs8 & -> & -> & (t1 & -> & Ht1 & ->) & H).
      destruct H as (ts9 & ts10 & t & cs9 & cs10 & -> & -> & (-> & ->) & -> & _ & ->).
      exists l, t. cbn [section_ok section_tokens]. rewrite Hlen. split; [auto|].
      rewrite Z2Nat.id by auto. split.
      + destruct t1; try discriminate. cbn [app]. rewrite <- !app_assoc. reflexivity.
      + cbn [app]. rewrite !app_nil_r. reflexivity.
    - intros (l & t & Hok & E & ->). cbn [section_ok section_tokens] in *.
      cbn [app] in E. injection E as ->.
      set (n := Z.of_nat (List.length l)).
      exists [T_integer n], (flat_map elem_tokens l ++ [T_end_elements; t]), n, [], (SetNumElements n :: elem_calls (-1) l).
      split; [rewrite <- app_assoc; reflexivity|]. split; [reflexivity|].
      split; [split; [reflexivity|]; split; [apply Z.leb_le; lia|reflexivity]|].
      exists [], (flat_map elem_tokens l ++ [T_end_elements; t]), tt, [SetNumElements n], (elem_calls (-1) l).
      split; [reflexivity|]. split; [reflexivity|]. split; [split; reflexivity|].
      exists (flat_map elem_tokens l), [T_end_elements; t], tt, (elem_calls (-1) l), [].
      split; [reflexivity|]. split; [rewrite app_nil_r; reflexivity|]. split.
      { exists l. subst n. rewrite Nat2Z.id. repeat split; auto. }
      exists [T_end_elements], [t], tt, [], []. split; [reflexivity|]. split; [reflexivity|].
      split; [exists T_end_elements; auto|].
      exists [t], [], t, [], []. repeat split.
  Qed.
End Gram.
