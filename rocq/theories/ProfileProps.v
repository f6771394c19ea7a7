(** Theorems about the table of times. *)
Require Import ZArith Reals Lra Lia Ascii List Arith Permutation Sorted.
Require Import Verif.Base Verif.ProfileModel Verif.ProfileSpec.
Import ListNotations.
Local Open Scope R_scope.

(** * Profile *)
Lemma update_spec : forall l i f, (i < length l)%nat -> exists l', update l i f = Some l' /\ length l' = length l /\
  forall d j, (j < length l)%nat -> nth j l' d = if (j =? i)%nat then f (nth i l d) else nth j l d.
Proof.
  intros l i f Hi. unfold update. destruct (nth_error l i) as [r|] eqn:E.
  2:{ apply nth_error_None in E. lia. }
  eexists. split; [reflexivity|]. destruct (nth_error_split l i E) as (a & b & -> & Hl).
  assert (F : firstn i (a ++ r :: b) = a) by (rewrite firstn_app, <- Hl, firstn_all, Nat.sub_diag; cbn; apply app_nil_r).
  assert (S' : skipn (S i) (a ++ r :: b) = b).
  { rewrite skipn_app. rewrite (skipn_all2 a) by lia. replace (S i - length a)%nat with 1%nat by lia. reflexivity. }
  rewrite F, S'. split; [rewrite !app_length; cbn; lia|].
  intros d j Hj. destruct (Nat.eqb_spec j i) as [->|Hn].
  - rewrite !app_nth2 by lia. rewrite Hl, Nat.sub_diag. reflexivity.
  - destruct (Nat.lt_ge_cases j i).
    + rewrite !app_nth1 by lia. reflexivity.
    + rewrite !app_nth2 by lia. destruct (j - length a)%nat eqn:Ej; [lia|]. reflexivity.
Qed.

Definition opened_at (o : option timespec) (r : region) : Prop :=
  match o with Some t => w_start (r_watch r) = t | None => True end.

Lemma do_events_spec : forall es l i o d, (i < length l)%nat ->
  Forall (fun e => (event_region e < length l)%nat) es ->
  paired i (match o with Some _ => true | None => false end) es ->
  opened_at o (nth i l d) -> w_time (r_watch (nth i l d)) = 0%Z ->
  exists l', do_events l es = Some l' /\ length l' = length l /\
    r_time (nth i l' d) = r_time (nth i l d) + seconds (spent i o es) /\
    (r_flops (nth i l' d) mod 2 ^ 64 = (r_flops (nth i l d) + reported i es) mod 2 ^ 64)%Z.
Proof.
  induction es as [|e es IH]; intros l i o d Hi HF HP HO HT.
  - exists l. cbn [do_events spent reported]. repeat split; [unfold seconds; simpl; lra | f_equal; lia].
  - apply Forall_cons_iff in HF. destruct HF as [He HF]. cbn [do_events].
    destruct e as [j now | j now fl]; cbn [event_region] in He; cbn [do_event].
    + destruct (update_spec l j (fun r => {| r_watch := start now (r_watch r); r_time := r_time r; r_flops := r_flops r |}) He)
        as (l1 & E & L1 & N1). rewrite E. cbn [paired spent reported] in *. specialize (N1 d i Hi).
      rewrite <- L1 in Hi, HF.
      destruct (Nat.eqb_spec j i) as [->|Hn].
      * rewrite Nat.eqb_refl in N1.
        destruct (IH l1 i (Some now) d Hi HF HP) as (l' & A & B & C & D).
        -- rewrite N1. reflexivity.
        -- rewrite N1. exact HT.
        -- exists l'. rewrite N1 in C, D. cbn in C, D. repeat split; [exact A | congruence | exact C | exact D].
      * rewrite (proj2 (Nat.eqb_neq i j)) in N1 by congruence.
        destruct (IH l1 i o d Hi HF HP) as (l' & A & B & C & D); try (rewrite N1; assumption).
        exists l'. rewrite N1 in C, D. repeat split; [exact A | congruence | exact C | exact D].
    + match goal with |- context [update l j ?f] => destruct (update_spec l j f He) as (l1 & E & L1 & N1) end.
      rewrite E. cbn [paired spent reported] in *. specialize (N1 d i Hi). rewrite <- L1 in Hi, HF.
      destruct (Nat.eqb_spec j i) as [->|Hn].
      * rewrite Nat.eqb_refl in N1. destruct HP as [HO' HP]. destruct o as [s|]; [|discriminate]. cbn [opened_at] in HO.
        unfold stop, pause in N1. cbn in N1.
        destruct (IH l1 i None d Hi HF HP) as (l' & A & B & C & D).
        -- exact I.
        -- rewrite N1. reflexivity.
        -- exists l'. rewrite N1 in C, D. cbn [r_time r_flops] in C, D.
           split; [exact A|]. split; [congruence|]. split.
           ++ rewrite C, HT, HO. unfold seconds, difftime, ns. rewrite Rplus_assoc. f_equal.
              rewrite <- Rmult_plus_distr_l, <- plus_IZR. f_equal. f_equal. lia.
           ++ rewrite D. rewrite Z.add_mod_idemp_l by lia. f_equal. lia.
      * rewrite (proj2 (Nat.eqb_neq i j)) in N1 by congruence.
        destruct (IH l1 i o d Hi HF HP) as (l' & A & B & C & D); try (rewrite N1; assumption).
        exists l'. rewrite N1 in C, D. repeat split; [exact A | congruence | exact C | exact D].
Qed.

Lemma flops_small : forall es l l', do_events l es = Some l' -> Forall (fun r => (0 <= r_flops r < 2 ^ 64)%Z) l ->
  Forall (fun r => (0 <= r_flops r < 2 ^ 64)%Z) l'.
Proof.
  assert (U : forall l i f l', update l i f = Some l' -> (forall r, In r l -> (0 <= r_flops (f r) < 2 ^ 64)%Z) ->
    Forall (fun r => (0 <= r_flops r < 2 ^ 64)%Z) l -> Forall (fun r => (0 <= r_flops r < 2 ^ 64)%Z) l').
  { intros l i f l' H Hf HF. unfold update in H. destruct (nth_error l i) as [r|] eqn:E; [|discriminate].
    apply (f_equal (fun o => match o with Some x => x | None => l' end)) in H. cbv beta iota in H. subst l'.
    destruct (nth_error_split l i E) as (a & b & -> & Hl).
    assert (F : firstn i (a ++ r :: b) = a) by (rewrite firstn_app, <- Hl, firstn_all, Nat.sub_diag; cbn; apply app_nil_r).
    assert (S' : skipn (S i) (a ++ r :: b) = b).
    { rewrite skipn_app. rewrite (skipn_all2 a) by lia. replace (S i - length a)%nat with 1%nat by lia. reflexivity. }
    rewrite F, S'. apply Forall_app in HF. destruct HF as [Ha Hb]. apply Forall_cons_iff in Hb. destruct Hb as [Hr Hb].
    apply Forall_app. split; [exact Ha|]. constructor; [|exact Hb]. apply Hf. apply in_or_app. right. left. reflexivity. }
  induction es as [|e es IH]; intros l l' H HF; cbn [do_events] in H; [injection H as <-; exact HF|].
  destruct (do_event l e) as [l1|] eqn:E; [|discriminate]. apply (IH l1 l' H).
  rewrite Forall_forall in HF. destruct e as [j now|j now fl]; cbn [do_event] in E; apply (U _ _ _ _ E).
  - intros r Hr. apply (HF r Hr).
  - apply Forall_forall. exact HF.
  - intros r Hr. unfold stop, pause. cbn. apply Z.mod_pos_bound. reflexivity.
  - apply Forall_forall. exact HF.
Qed.

(** C95.  However a program enters and leaves its regions, each region's time is the sum of what passed between entering and
    leaving it, and its operations are those reported (modulo 2^64); regions may overlap. *)
Theorem profile_times : forall s0 num es,
  Forall (fun e => (event_region e < num)%nat) es -> (forall i, (i < num)%nat -> paired i false es) ->
  exists l, do_events (repeat (new_region s0) num) es = Some l /\ length l = num /\
    forall i, (i < num)%nat -> r_time (nth i l (new_region s0)) = / 10 ^ 9 * IZR (spent i None es) /\
                               r_flops (nth i l (new_region s0)) = (reported i es mod 2 ^ 64)%Z.
Proof.
  intros s0 num es HF HP. set (d := new_region s0).
  assert (Hd : forall i, nth i (repeat d num) d = d).
  { intros i. destruct (Nat.lt_ge_cases i num); [apply nth_repeat | apply nth_overflow; rewrite repeat_length; lia]. }
  assert (K : forall i, (i < num)%nat -> exists l, do_events (repeat d num) es = Some l /\ length l = num /\
    r_time (nth i l d) = / 10 ^ 9 * IZR (spent i None es) /\ r_flops (nth i l d) = (reported i es mod 2 ^ 64)%Z).
  { intros i Hi. destruct (do_events_spec es (repeat d num) i None d) as (l & A & B & C & D).
    - rewrite repeat_length. exact Hi.
    - rewrite repeat_length. exact HF.
    - exact (HP i Hi).
    - exact I.
    - rewrite Hd. reflexivity.
    - exists l. rewrite repeat_length in B. rewrite Hd in C, D. cbn [d new_region r_time r_flops] in C, D.
      split; [exact A|]. split; [exact B|]. split.
      + rewrite C. unfold seconds. rewrite Rplus_0_l. f_equal. f_equal. simpl. lra.
      + rewrite <- (Z.mod_small (r_flops (nth i l d)) (2 ^ 64)); [exact D|].
        assert (FS := flops_small es _ _ A). rewrite !Forall_forall in FS. apply FS.
        * intros r Hr. apply repeat_spec in Hr. subst r. cbn. lia.
        * apply nth_In. lia. }
  destruct num as [|num].
  - destruct es as [|e es]; [|apply Forall_cons_iff in HF; lia]. exists []. repeat split; lia.
  - destruct (K 0%nat ltac:(lia)) as (l & A & B & _). exists l. split; [exact A|]. split; [exact B|].
    intros i Hi. destruct (K i Hi) as (l2 & A2 & _ & C & D). rewrite A in A2. injection A2 as <-. split; assumption.
Qed.
Print Assumptions profile_times.

(** C95.  Looking up a name gives the first region that has it, or the number of regions if none has it. *)
Theorem profile_get : forall eqb, (forall a b, eqb a b = true <-> a = b) -> forall name names,
  (In name names -> nth_error names (get eqb name names) = Some name /\
                    forall i, (i < get eqb name names)%nat -> nth_error names i <> Some name) /\
  (~ In name names -> get eqb name names = length names).
Proof.
  intros eqb HE name names. induction names as [|n names [IH1 IH2]]; cbn [get length].
  - split; [intros []|reflexivity].
  - destruct (eqb n name) eqn:E.
    + apply HE in E. subst n. split; [|intros H; destruct H; left; reflexivity]. intros _. split; [reflexivity|]. intros i Hi. lia.
    + assert (N : n <> name) by (intros ->; rewrite (proj2 (HE name name) eq_refl) in E; discriminate).
      split.
      * intros [->|H]; [congruence|]. destruct (IH1 H) as [A B]. split; [exact A|]. intros [|i] Hi; cbn; [congruence|]. apply B. lia.
      * intros H. f_equal. apply IH2. intros H'. apply H. right. exact H'.
Qed.
Print Assumptions profile_get.

(** * Summary *)
Lemma count_perm : forall p l l', Permutation l l' -> count p l = count p l'.
Proof.
  unfold count. intros p l l' H. induction H; cbn [filter]; try congruence.
  - destruct (p x); cbn [length]; congruence.
  - destruct (p x), (p y); reflexivity.
Qed.

Lemma kth_perm : forall l l' k x, Permutation l l' -> kth l' k x -> kth l k x.
Proof.
  intros l l' k x P [A B]. unfold kth. rewrite !(count_perm _ _ _ P). split; [|exact B].
  apply (Permutation_in x (Permutation_sym P)). exact A.
Qed.

Lemma sorted_nth : forall l, StronglySorted Rle l -> forall i j, (i <= j < length l)%nat -> nth i l 0 <= nth j l 0.
Proof.
  induction 1 as [|a l H IH F]; intros i j Hij; cbn in Hij; [lia|].
  destruct i as [|i]; destruct j as [|j]; cbn [nth]; try lia.
  - lra.
  - rewrite Forall_forall in F. apply F, nth_In. lia.
  - apply IH. lia.
Qed.

Lemma count_none : forall p l, (forall v, In v l -> p v = false) -> count p l = 0%nat.
Proof.
  induction l as [|a l IH]; intros H; [reflexivity|]. unfold count in *. cbn [filter]. rewrite (H a) by (left; reflexivity).
  apply IH. intros v Hv. apply H. right. exact Hv.
Qed.
Lemma count_all : forall p l, (forall v, In v l -> p v = true) -> count p l = length l.
Proof.
  induction l as [|a l IH]; intros H; [reflexivity|]. unfold count in *. cbn [filter]. rewrite (H a) by (left; reflexivity).
  cbn [length]. f_equal. apply IH. intros v Hv. apply H. right. exact Hv.
Qed.
Lemma count_app : forall p a b, count p (a ++ b) = (count p a + count p b)%nat.
Proof. intros. unfold count. rewrite filter_app, app_length. reflexivity. Qed.
Lemma count_le : forall p l, (count p l <= length l)%nat.
Proof. intros. unfold count. induction l as [|a l IH]; cbn; [lia|]. destruct (p a); cbn; lia. Qed.

Lemma in_firstn : forall (l : list R) n v, In v (firstn n l) -> exists i, (i < n)%nat /\ (i < length l)%nat /\ v = nth i l 0.
Proof.
  induction l as [|a l IH]; intros [|n] v H; cbn in H; try contradiction. destruct H as [<-|H].
  - exists 0%nat. cbn. repeat split; lia.
  - destruct (IH n v H) as (i & A & B & C). exists (S i). cbn. repeat split; [lia|lia|exact C].
Qed.
Lemma in_skipn : forall (l : list R) n v, In v (skipn n l) -> exists i, (n <= i < length l)%nat /\ v = nth i l 0.
Proof.
  intros l n v H. apply (In_nth _ _ 0) in H. destruct H as (i & A & B). rewrite skipn_length in A.
  exists (n + i)%nat. split; [lia|]. rewrite <- B. transitivity (nth (n + i) (firstn n l ++ skipn n l) 0).
  - rewrite app_nth2; rewrite firstn_length; [f_equal; lia|lia].
  - rewrite firstn_skipn. reflexivity.
Qed.

Lemma sorted_kth : forall l, StronglySorted Rle l -> forall k, (k < length l)%nat -> kth l k (nth k l 0).
Proof.
  intros l S k Hk. split; [apply nth_In; exact Hk|].
  assert (CS : forall p n, count p l = (count p (firstn n l) + count p (skipn n l))%nat)
    by (intros p n; rewrite <- count_app, firstn_skipn; reflexivity). split.
  - rewrite (CS _ k).
    rewrite (count_none _ (skipn k l)).
    + pose proof (count_le (fun v => ltb v (nth k l 0)) (firstn k l)) as C. rewrite firstn_length in C. lia.
    + intros v Hv. apply in_skipn in Hv. destruct Hv as (i & Hi & ->). unfold ltb.
      destruct (Rlt_dec (nth i l 0) (nth k l 0)) as [L|]; [|reflexivity]. pose proof (sorted_nth l S k i ltac:(lia)). lra.
  - rewrite (CS _ (k + 1)%nat).
    rewrite (count_all _ (firstn (k + 1) l)).
    + rewrite firstn_length. lia.
    + intros v Hv. apply in_firstn in Hv. destruct Hv as (i & Hi & Hl & ->). unfold leb.
      destruct (Rle_dec (nth i l 0) (nth k l 0)) as [|N]; [reflexivity|]. pose proof (sorted_nth l S i k ltac:(lia)). lra.
Qed.

Lemma fold_total : forall l a, fold_left Rplus l a = a + total l.
Proof. induction l as [|v l IH]; intros a; cbn; [lra|]. rewrite IH. lra. Qed.
Lemma total_perm : forall l l', Permutation l l' -> total l = total l'.
Proof. intros l l' H. induction H; cbn; lra. Qed.

Lemma nth_last : forall (l : list R), last l 0 = nth (length l - 1) l 0.
Proof.
  induction l as [|a l IH]; [reflexivity|]. destruct l as [|b l]; [reflexivity|].
  change (last (a :: b :: l) 0) with (last (b :: l) 0). rewrite IH. cbn. rewrite Nat.sub_0_r. reflexivity.
Qed.

(** C95.  Whatever sorting algorithm is used, the printed minimum, median, mean and maximum are those of the times of the
    processes, whose order does not matter. *)
Theorem summary_correct : forall sort values, sorts sort -> values <> [] -> is_summary values (Summary sort values).
Proof.
  intros sort values HS HN. destruct (HS values) as [P S]. unfold Summary, of_sorted.
  pose proof (Permutation_length P) as HL.
  assert (L0 : (0 < length values)%nat) by (destruct values; [congruence|cbn; lia]).
  set (l := sort values) in *. constructor; cbn [s_min s_median s_mean s_max].
  - split.
    + apply (Permutation_in _ (Permutation_sym P)), nth_In. lia.
    + intros v Hv. apply (Permutation_in _ P), (In_nth _ _ 0) in Hv. destruct Hv as (i & Hi & <-). apply (sorted_nth l S). lia.
  - rewrite <- HL. split; intros h Hh.
    + rewrite Hh. replace ((2 * h + 1) mod 2)%nat with 1%nat
        by (rewrite Nat.add_comm, (Nat.mul_comm 2), Nat.mod_add by lia; reflexivity).
      rewrite Nat.eqb_refl. replace ((2 * h + 1) / 2)%nat with h
        by (rewrite Nat.add_comm, (Nat.mul_comm 2), Nat.div_add by lia; reflexivity).
      apply (kth_perm _ _ _ _ P). apply (sorted_kth l S). lia.
    + rewrite Hh. replace ((2 * h + 2) mod 2)%nat with 0%nat
        by (rewrite Nat.add_comm, (Nat.mul_comm 2), Nat.mod_add by lia; reflexivity).
      cbn [Nat.eqb]. replace ((2 * h + 2) / 2)%nat with (h + 1)%nat
        by (rewrite (Nat.add_comm (2 * h)), (Nat.mul_comm 2), Nat.div_add by lia; cbn; lia).
      replace (h + 1 - 1)%nat with h by lia. exists (nth h l 0), (nth (h + 1) l 0).
      split; [apply (kth_perm _ _ _ _ P), (sorted_kth l S); lia|].
      split; [apply (kth_perm _ _ _ _ P), (sorted_kth l S); lia|]. lra.
  - rewrite fold_total, (total_perm _ _ P), <- HL. assert (INR (length values) <> 0) by (apply not_0_INR; lia).
    fold l. field. assumption.
  - rewrite nth_last. split.
    + apply (Permutation_in _ (Permutation_sym P)), nth_In. lia.
    + intros v Hv. apply (Permutation_in _ P), (In_nth _ _ 0) in Hv. destruct Hv as (i & Hi & <-). apply (sorted_nth l S). lia.
Qed.
Print Assumptions summary_correct.

(** The k-th value is determined by the values. *)
Lemma kth_unique : forall l k x y, kth l k x -> kth l k y -> x = y.
Proof.
  assert (M : forall l x y, x < y -> (count (fun v => leb v x) l <= count (fun v => ltb v y) l)%nat).
  { intros l x y Hxy. unfold count. induction l as [|a l IH]; cbn; [lia|]. unfold leb, ltb in *.
    destruct (Rle_dec a x), (Rlt_dec a y); cbn; try lia. lra. }
  intros l k x y [_ [A B]] [_ [C D]]. destruct (Rtotal_order x y) as [L|[E|L]]; [|exact E|].
  - pose proof (M l x y L). lia.
  - pose proof (M l y x L). lia.
Qed.

Lemma fold_row : forall (f : nat -> R) l a, fold_left (fun s r => s + f r) l a = a + total (map f l).
Proof. induction l as [|v l IH]; intros a; cbn; [lra|]. rewrite IH. lra. Qed.

Lemma total_swap : forall (f : nat -> nat -> R) ps rs,
  total (map (fun p => total (map (f p) rs)) ps) = total (map (fun r => total (map (fun p => f p r) ps)) rs).
Proof.
  intros f ps rs. induction ps as [|p ps IH]; cbn.
  - induction rs as [|r rs IHr]; cbn; lra.
  - rewrite IH. clear IH. induction rs as [|r rs IHr]; cbn; lra.
Qed.

Lemma total_le : forall (f g : nat -> R) l, (forall r, In r l -> f r <= g r) -> total (map f l) <= total (map g l).
Proof.
  induction l as [|r l IH]; intros H; cbn; [lra|]. pose proof (H r (or_introl eq_refl)).
  assert (total (map f l) <= total (map g l)) by (apply IH; intros; apply H; right; assumption). lra.
Qed.

(** C95.  The row of the total: its mean is the sum of the means above; its minimum is at least the sum of the minima and its
    maximum at most the sum of the maxima. *)
Theorem total_row : forall sort procs num times, sorts sort -> (0 < procs)%nat ->
  let rows := firstn num (printed_rows sort procs num times) in
  let last := nth num (printed_rows sort procs num times) {| s_min := 0; s_median := 0; s_mean := 0; s_max := 0 |} in
  length (printed_rows sort procs num times) = (num + 1)%nat /\
  (forall r, (r < num)%nat -> is_summary (map (fun p => times p r) (seq 0 procs)) (nth r rows last)) /\
  is_summary (map (fun p => total (map (times p) (seq 0 num))) (seq 0 procs)) last /\
  s_mean last = total (map s_mean rows) /\ total (map s_min rows) <= s_min last /\ s_max last <= total (map s_max rows).
Proof.
  intros sort procs num times HS HP. unfold printed_rows.
  set (row := fun r => Summary sort (map (fun p => times p r) (seq 0 procs))).
  assert (NE : forall (f : nat -> R), map f (seq 0 procs) <> []) by (intros f; destruct procs; [lia|discriminate]).
  assert (E1 : firstn num (map row (seq 0 num) ++ [Summary sort (map (fun p => fold_left (fun s r => s + times p r) (seq 0 num) 0) (seq 0 procs))]) = map row (seq 0 num)).
  { rewrite firstn_app, map_length, seq_length, Nat.sub_diag. cbn. rewrite app_nil_r.
    rewrite <- (seq_length num 0) at 1. rewrite <- (map_length row) at 1. apply firstn_all. }
  cbv zeta. rewrite E1. rewrite app_nth2 by (rewrite map_length, seq_length; lia).
  rewrite map_length, seq_length, Nat.sub_diag. cbn [nth].
  rewrite (map_ext (fun p => fold_left (fun s r => s + times p r) (seq 0 num) 0) (fun p => total (map (times p) (seq 0 num))))
    by (intros p; rewrite fold_row; lra).
  set (tot := Summary sort (map (fun p => total (map (times p) (seq 0 num))) (seq 0 procs))).
  assert (ST : is_summary (map (fun p => total (map (times p) (seq 0 num))) (seq 0 procs)) tot) by (apply summary_correct; auto).
  assert (SR : forall r, is_summary (map (fun p => times p r) (seq 0 procs)) (row r)) by (intros r; unfold row; apply summary_correct; auto).
  split; [rewrite app_length, map_length, seq_length; reflexivity|].
  split.
  { intros r Hr. rewrite (nth_indep _ tot (row 0%nat)) by (rewrite map_length, seq_length; lia).
    rewrite map_nth, seq_nth by lia. apply SR. }
  split; [exact ST|]. rewrite !map_map. split; [|split].
  - assert (HI : INR procs <> 0) by (apply not_0_INR; lia).
    apply (Rmult_eq_reg_r (INR procs)); [|exact HI].
    pose proof (is_mean _ _ ST) as M. rewrite map_length, seq_length in M. rewrite M, total_swap.
    clear - SR. induction (seq 0 num) as [|r l IH]; cbn [map total]; [lra|]. rewrite IH.
    pose proof (is_mean _ _ (SR r)) as M. rewrite map_length, seq_length in M. rewrite <- M. lra.
  - destruct (is_min _ _ ST) as [I _]. apply in_map_iff in I. destruct I as (p & E & Ip). rewrite <- E.
    apply total_le. intros r _. apply (proj2 (is_min _ _ (SR r))). apply in_map_iff. exists p. split; [reflexivity|exact Ip].
  - destruct (is_max _ _ ST) as [I _]. apply in_map_iff in I. destruct I as (p & E & Ip). rewrite <- E.
    apply total_le. intros r _. apply (proj2 (is_max _ _ (SR r))). apply in_map_iff. exists p. split; [reflexivity|exact Ip].
Qed.
Print Assumptions total_row.

(** * TablePrinter *)
Lemma shows_cell : forall w ws i r rest, (length i <= w)%nat -> shows ws rest r -> shows (w :: ws) (setw " " w i ++ rest) (i :: r).
Proof.
  intros w ws i r rest H S. cbn [shows]. exists (repeat " "%char (w - length i)), rest. unfold setw.
  split; [rewrite app_assoc; reflexivity|]. split; [rewrite app_length, repeat_length; lia|]. split; [|exact S].
  apply Forall_forall. intros c Hc. exact (repeat_spec _ _ _ Hc).
Qed.

Lemma shows_app : forall ws1 l1 i1 ws2 l2 i2, shows ws1 l1 i1 -> shows ws2 l2 i2 -> shows (ws1 ++ ws2) (l1 ++ l2) (i1 ++ i2).
Proof.
  induction ws1 as [|w ws1 IH]; intros l1 i1 ws2 l2 i2 H1 H2; destruct i1 as [|i i1]; cbn [shows] in H1; try contradiction.
  - subst l1. exact H2.
  - destruct H1 as (b & rest & -> & L & F & S). cbn [app shows]. exists b, (rest ++ l2).
    split; [rewrite <- !app_assoc; reflexivity|]. split; [exact L|]. split; [exact F|]. apply IH; assumption.
Qed.

Lemma shows_length : forall ws line items, shows ws line items -> length line = fold_left Nat.add ws 0%nat /\ length items = length ws.
Proof.
  assert (FA : forall ws a, fold_left Nat.add ws a = (a + fold_left Nat.add ws 0)%nat).
  { induction ws as [|w ws IH]; intros a; cbn; [lia|]. rewrite (IH (a + w)%nat), (IH w). lia. }
  induction ws as [|w ws IH]; intros line [|i items] H; cbn [shows] in H; try contradiction.
  - subst. split; reflexivity.
  - destruct H as (b & rest & -> & L & _ & S). destruct (IH _ _ S) as [A B]. cbn [fold_left length]. rewrite FA. cbn.
    rewrite app_assoc, app_length, L, A, B. split; reflexivity.
Qed.

Lemma header_more_spec : forall names back ws line, header_more back names = (ws, line) ->
  shows ws line names /\ length ws = length names /\
  forall c n, nth_error names c = Some n -> (back <= nth c ws 0 /\ length n < nth c ws 0)%nat.
Proof.
  induction names as [|n names IH]; intros back ws line H; cbn [header_more] in H.
  - injection H as <- <-. repeat split; destruct c; discriminate.
  - destruct (header_more (Nat.max back (1 + length n)) names) as [ws' line'] eqn:E. injection H as <- <-.
    destruct (IH _ _ _ E) as (A & B & C). split; [|split].
    + apply shows_cell; [lia|exact A].
    + cbn. lia.
    + intros [|c] m Hm; cbn in Hm |- *.
      * injection Hm as <-. lia.
      * destruct (C c m Hm). lia.
Qed.

Lemma header_named_spec : forall number widths col names ws line more, header_named number col widths names = (ws, line, more) ->
  (forall c, (c < length widths)%nat -> (length (number (col + c)) <= 4)%nat) ->
  more = skipn (length widths) names /\ length ws = length widths /\
  shows ws line (map (fun c => match nth_error names c with Some n => n | None => number (col + c)%nat end) (seq 0 (length widths))) /\
  (forall c, (c < length widths)%nat -> (nth c widths 0 <= nth c ws 0)%nat) /\
  (forall c n, (c < length widths)%nat -> nth_error names c = Some n -> (length n < nth c ws 0)%nat).
Proof.
  intros number. induction widths as [|w widths IH]; intros col names ws line more H HN; cbn [header_named] in H.
  - injection H as <- <- <-. cbn. repeat split; intros; lia.
  - destruct names as [|n names].
    + destruct (header_named number (col + 1) widths []) as [[ws' line'] more'] eqn:E. injection H as <- <- <-.
      destruct (IH _ _ _ _ _ E) as (A & B & C & D & F).
      { intros c Hc. specialize (HN (S c)). replace (col + 1 + c)%nat with (col + S c)%nat by lia. apply HN. cbn. lia. }
      split; [rewrite A, !skipn_nil; reflexivity|]. split; [cbn; lia|]. cbn [fst snd length]. split; [|split].
      * cbn [seq map nth_error]. rewrite Nat.add_0_r, <- seq_shift, map_map. apply shows_cell.
        -- pose proof (HN 0%nat (Nat.lt_0_succ _)) as H0. rewrite Nat.add_0_r in H0.
           change (length (number col) <= Nat.max 4 w)%nat. lia.
        -- rewrite (map_ext _ (fun c => match nth_error (@nil text) c with Some n => n | None => number (col + 1 + c)%nat end)); [exact C|].
           intros c. cbn [nth_error]. replace (nth_error (@nil text) c) with (@None text) by (destruct c; reflexivity).
           f_equal. lia.
      * intros [|c] Hc; [change (w <= Nat.max 4 w)%nat; lia|]. cbn. apply D. lia.
      * intros [|c] m Hc Hm; discriminate Hm.
    + destruct (header_named number (col + 1) widths names) as [[ws' line'] more'] eqn:E. injection H as <- <- <-.
      destruct (IH _ _ _ _ _ E) as (A & B & C & D & F).
      { intros c Hc. specialize (HN (S c)). replace (col + 1 + c)%nat with (col + S c)%nat by lia. apply HN. cbn. lia. }
      split; [rewrite A; reflexivity|]. split; [cbn; lia|]. cbn [fst snd length]. split; [|split].
      * cbn [seq map nth_error]. rewrite <- seq_shift, map_map. apply shows_cell; [lia|].
        rewrite (map_ext _ (fun c => match nth_error names c with Some n => n | None => number (col + 1 + c)%nat end)); [exact C|].
        intros c. cbn [nth_error]. destruct (nth_error names c); [reflexivity|]. f_equal. lia.
      * intros [|c] Hc; cbn; [lia|]. apply D. lia.
      * intros [|c] m Hc Hm; cbn in Hm |- *; [injection Hm as <-; lia|]. apply F; [lia|exact Hm].
Qed.

(** C95.  The header has as many columns as the larger of the numbers of widths and names; a column is at least as wide as asked for
    (those beyond the widths, as the last one) and wider than its name; the header shows the names, then column numbers. *)
Theorem table_header : forall number widths names, widths <> [] ->
  (forall c, (c < length widths)%nat -> (length (number c) <= 4)%nat) ->
  exists ws line, TablePrinter number widths names = Some (ws, [line; repeat "-"%char (length line)]) /\
    length ws = Nat.max (length widths) (length names) /\
    shows ws line (map (label number names) (seq 0 (length ws))) /\
    (forall c, (c < length ws)%nat -> (nth c widths (last widths 0) <= nth c ws 0)%nat) /\
    (forall c n, nth_error names c = Some n -> (length n < nth c ws 0)%nat).
Proof.
  intros number widths names HW HN. unfold TablePrinter.
  destruct (header_named number 0 widths names) as [[ws line] more] eqn:E.
  destruct (header_named_spec _ _ _ _ _ _ _ E HN) as (A & B & C & D & F). cbn [Nat.add] in C.
  assert (LM : length more = (length names - length widths)%nat) by (rewrite A; apply skipn_length).
  assert (LW : (0 < length widths)%nat) by (destruct widths; [congruence|cbn; lia]).
  assert (LST : last widths 0%nat = nth (length widths - 1) widths 0%nat).
  { destruct (exists_last HW) as (w0 & x & ->). rewrite last_last, app_length. cbn. rewrite Nat.add_sub, app_nth2, Nat.sub_diag by lia. reflexivity. }
  assert (SEP : forall ws' line' items, shows ws' line' items -> separator ws' = repeat "-"%char (length line')).
  { intros ws' line' items S. unfold separator, setw. rewrite (proj1 (shows_length _ _ _ S)), app_nil_r, Nat.sub_0_r. reflexivity. }
  destruct more as [|m more].
  - exists ws, line. cbn in LM. split; [rewrite (SEP _ _ _ C); reflexivity|]. split; [lia|]. rewrite B. split; [exact C|]. split.
    + intros c Hc. rewrite (nth_indep _ _ 0%nat) by lia. apply D. exact Hc.
    + intros c n Hn. apply F; [|exact Hn]. assert (c < length names)%nat by (apply nth_error_Some; congruence). lia.
  - destruct (rev ws) as [|b wr] eqn:ER.
    { apply (f_equal (@length nat)) in ER. rewrite rev_length in ER. cbn in ER. lia. }
    assert (EW : ws = rev wr ++ [b]) by (rewrite <- (rev_involutive ws), ER; reflexivity).
    destruct (header_more b (m :: more)) as [ws2 line2] eqn:E2.
    destruct (header_more_spec _ _ _ _ E2) as (A2 & B2 & C2).
    assert (HB : (last widths 0 <= b)%nat).
    { rewrite LST. pose proof (D (length widths - 1)%nat ltac:(lia)) as H. rewrite EW, app_nth2 in H; rewrite EW, app_length in B; cbn in B.
      - replace (length widths - 1 - length (rev wr))%nat with 0%nat in H by lia. exact H.
      - lia. }
    assert (SH : shows (ws ++ ws2) (line ++ line2) (map (label number names) (seq 0 (length (ws ++ ws2))))).
    { rewrite app_length, B, B2, seq_app, map_app. apply shows_app; [exact C|]. cbn [Nat.add].
      replace (map (label number names) (seq (length widths) (length (m :: more)))) with (m :: more); [exact A2|].
      rewrite A. clear. revert names. generalize (length widths). intros k names.
      assert (K : forall (l : list text) (f : nat -> text) k, (k <= length l)%nat ->
        skipn k l = map (label f l) (seq k (length (skipn k l)))).
      { induction l as [|x l IH]; intros f k' Hk.
        - rewrite skipn_nil. reflexivity.
        - destruct k' as [|k']; cbn [skipn length].
          + cbn [seq map label nth_error]. f_equal. rewrite <- seq_shift, map_map.
            exact (IH (fun c => f (S c)) 0%nat (Nat.le_0_l _)).
          + cbn in Hk. rewrite <- seq_shift, map_map. exact (IH (fun c => f (S c)) k' ltac:(lia)). }
      destruct (Nat.le_gt_cases k (length names)) as [Hk|Hk]; [apply K; exact Hk|]. rewrite skipn_all2 by lia. reflexivity. }
    exists (ws ++ ws2), (line ++ line2). split; [rewrite (SEP _ _ _ SH); reflexivity|].
    split; [rewrite app_length; lia|]. split; [exact SH|].
    assert (NE : forall c, (length widths <= c)%nat -> nth_error names c = nth_error (m :: more) (c - length widths)).
    { intros c Hc. rewrite A. rewrite <- (firstn_skipn (length widths) names) at 1.
      assert (LF : length (firstn (length widths) names) = length widths) by (rewrite firstn_length; cbn in LM; lia).
      rewrite nth_error_app2 by lia. rewrite LF. reflexivity. }
    split.
    + intros c Hc. rewrite app_length in Hc. destruct (Nat.lt_ge_cases c (length widths)) as [H|H].
      * rewrite app_nth1 by lia. rewrite (nth_indep _ _ 0%nat) by lia. apply D. exact H.
      * rewrite app_nth2 by lia. rewrite (nth_overflow widths) by lia. rewrite B.
        destruct (nth_error (m :: more) (c - length widths)) as [x|] eqn:EX.
        -- destruct (C2 _ _ EX). lia.
        -- apply nth_error_None in EX. lia.
    + intros c n Hn. destruct (Nat.lt_ge_cases c (length widths)) as [H|H].
      * rewrite app_nth1 by lia. apply F; assumption.
      * rewrite app_nth2 by lia. rewrite B. rewrite (NE c H) in Hn. apply (C2 _ _ Hn).
Qed.
Print Assumptions table_header.

Lemma put_row : forall widths (row : list text) col (line : text) lines, (col + length row = length widths)%nat -> row <> [] ->
  Forall2 (fun (i : text) w => (length i <= w)%nat) row (skipn col widths) ->
  exists rest : text, fold_left (put widths) row (col, line, lines) = (0%nat, [] : text, lines ++ [line ++ rest]) /\ shows (skipn col widths) rest row.
Proof.
  intros widths. induction row as [|i row IH]; intros col line lines HL HR HF; [congruence|].
  cbn [length] in HL. inversion HF as [|i' w row' ws H1 H2 E1 E2]. subst i' row'. cbn [fold_left].
  assert (EW : nth col widths 0%nat = w).
  { rewrite <- (firstn_skipn col widths), <- E2. rewrite app_nth2; rewrite firstn_length; [|lia].
    replace (col - Nat.min col (length widths))%nat with 0%nat by lia. reflexivity. }
  assert (ES : skipn (col + 1) widths = ws).
  { rewrite Nat.add_1_r. symmetry in E2. clear -E2. revert widths E2. induction col as [|col IHc]; intros [|x l] E2; cbn in E2; try discriminate.
    - injection E2 as -> ->. reflexivity.
    - exact (IHc l E2). }
  unfold put at 2. rewrite (proj2 (Nat.ltb_lt col (length widths))) by lia. rewrite EW.
  destruct (Nat.leb_spec (length widths) (col + 1)) as [H|H].
  - destruct row as [|j row]; [|cbn in HL; lia]. cbn [fold_left]. exists (setw " " w i). split; [reflexivity|].
    inversion H2. subst ws. rewrite <- (app_nil_r (setw " " w i)). apply shows_cell; [exact H1|reflexivity].
  - destruct (IH (col + 1)%nat (line ++ setw " " w i) lines) as (rest & A & B).
    + lia.
    + destruct row; [cbn in HL; lia|discriminate].
    + rewrite ES. exact H2.
    + exists (setw " " w i ++ rest). split; [etransitivity; [exact A|rewrite <- app_assoc; reflexivity]|]. rewrite ES in B. apply shows_cell; assumption.
Qed.

(** C95.  Items that fit are printed as rows, below each other in their columns. *)
Theorem table_rows : forall widths (rows : list (list text)), widths <> [] ->
  Forall (fun row => Forall2 (fun (i : text) w => (length i <= w)%nat) row widths) rows ->
  exists lines, fold_left (put widths) (concat rows) (0%nat, [], []) = (0%nat, [], lines) /\
    Forall2 (shows widths) lines rows /\ Forall (fun line => length line = fold_left Nat.add widths 0%nat) lines.
Proof.
  intros widths rows HW HF.
  assert (K : forall lines0, exists lines, fold_left (put widths) (concat rows) (0%nat, [], lines0) = (0%nat, [], lines0 ++ lines) /\
    Forall2 (shows widths) lines rows).
  { induction rows as [|row rows IH]; intros lines0.
    - exists []. rewrite app_nil_r. split; [reflexivity|constructor].
    - apply Forall_cons_iff in HF. destruct HF as [H1 HF]. cbn [concat]. rewrite fold_left_app.
      assert (LR : length row = length widths) by (clear -H1; induction H1; cbn; congruence).
      destruct (put_row widths row 0 [] lines0) as (rest & A & B).
      + exact LR.
      + destruct row; [destruct widths; [congruence|discriminate]|discriminate].
      + exact H1.
      + destruct (IH HF (lines0 ++ [[] ++ rest])) as (lines & C & D). exists (rest :: lines).
        split; [etransitivity; [apply f_equal; exact A|]; etransitivity; [exact C|]; rewrite <- app_assoc; reflexivity|]. constructor; assumption. }
  destruct (K []) as (lines & A & B). exists lines. split; [exact A|]. split; [exact B|].
  clear -B. induction B as [|line row lines rows H _ IH]; constructor; [apply (shows_length _ _ _ H)|exact IH].
Qed.
Print Assumptions table_rows.

(** C95.  The table needs a width: with names only, the constructor reads the last element of an empty vector. *)
Theorem table_header_refuted : forall number name names, TablePrinter number [] (name :: names) = None.
Proof. reflexivity. Qed.
Print Assumptions table_header_refuted.
