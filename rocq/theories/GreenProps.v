(** C39-C41: the discrete Green's function. *)
Require Import List Arith Bool Reals Lia Lra Permutation.
Require Import Verif.Base Verif.VecModel Verif.GreenModel Verif.GreenProofs.
Import ListNotations.

(** ** C39 *)
Lemma nth_vadd : forall a b k, length a = length b -> nth k (vadd a b) 0%R = (nth k a 0 + nth k b 0)%R.
Proof.
  unfold vadd. induction a as [|x a IH]; intros [|y b] [|k] L; try discriminate; cbn; try lra. apply IH. cbn in L. lia.
Qed.
Lemma vadd_length : forall a b, length a = length b -> length (vadd a b) = length a.
Proof. unfold vadd. induction a as [|x a IH]; intros [|y b] L; try discriminate; cbn; auto. Qed.
Lemma nth_vscale : forall s a k, nth k (vscale s a) 0%R = (s * nth k a 0)%R.
Proof. intros s. induction a as [|x a IH]; intros [|k]; cbn; try lra. apply IH. Qed.
Lemma vscale_length : forall s a, length (vscale s a) = length a.
Proof. intros. unfold vscale. apply map_length. Qed.
Lemma sumR_app : forall a b, sumR (a ++ b) = (sumR a + sumR b)%R.
Proof. induction a as [|x a IH]; intros b; [cbn; rewrite Rplus_0_l; reflexivity|]. cbn [app]. change (x + sumR (a ++ b) = x + sumR a + sumR b)%R. rewrite IH. lra. Qed.
Lemma vec_ext : forall a b, length a = length b -> (forall k, k < length a -> nth k a 0%R = nth k b 0%R) -> a = b.
Proof. intros a b L H. apply nth_ext with (d := 0%R) (d' := 0%R); auto. Qed.

(** The solver is linear: boundary data is proportional to time, and the traction depends linearly on time and slip. *)
Definition linear_solver (n m : nat) (T : option R -> list R -> list R) : Prop :=
  (forall o S, length S = n -> length (T o S) = m) /\
  (forall S, length S = n -> T None S = T (Some 0%R) S) /\
  (forall a s S b t S', length S = n -> length S' = n ->
     T (Some (a * s + b * t)%R) (vadd (vscale a S) (vscale b S')) = vadd (vscale a (T (Some s) S)) (vscale b (T (Some t) S'))).

Section C39.
  Variables n m : nat.
  Variable T : option R -> list R -> list R.
  Hypothesis HT : linear_solver n m T.
  Definition cut (j : nat) (S : list R) : list R := map (fun l => if l <? j then nth l S 0%R else 0%R) (seq 0 n).
  Lemma cut_length : forall j S, length (cut j S) = n.
  Proof. intros. unfold cut. rewrite map_length, seq_length. auto. Qed.
  Lemma superposition : forall S j k, length S = n -> j <= n ->
    nth k (T (Some 0%R) (cut j S)) 0%R = sumR (map (fun l => nth k (T (Some 0%R) (unit_vec n l)) 0 * nth l S 0)%R (seq 0 j)).
  Proof.
    destruct HT as (H1 & _ & H3). intros S j k LS. induction j as [|j IH]; intros Hj.
    - cbn [seq map sumR fold_right].
      replace (cut 0 S) with (vadd (vscale 0 (cut 0 S)) (vscale 0 (cut 0 S))).
      2:{ apply vec_ext; [rewrite vadd_length; rewrite !vscale_length; auto|]. intros i _. rewrite nth_vadd by (rewrite !vscale_length; auto). rewrite !nth_vscale.
          unfold cut. destruct (Nat.lt_ge_cases i n) as [Hi|Hi].
          - rewrite nth_map_seq0 by auto. cbn. lra.
          - rewrite nth_overflow by (rewrite map_length, seq_length; auto). lra. }
      replace 0%R with (0 * 0 + 0 * 0)%R at 1 by lra. rewrite H3 by apply cut_length.
      rewrite nth_vadd by (rewrite !vscale_length; auto). rewrite !nth_vscale. lra.
    - rewrite seq_S, map_app, sumR_app, <- IH by lia. cbn [map sumR fold_right Nat.add].
      replace (cut (j + 1) S) with (cut (Datatypes.S j) S) by (f_equal; lia).
      replace (cut (Datatypes.S j) S) with (vadd (vscale 1 (cut j S)) (vscale (nth j S 0%R) (unit_vec n j))).
      2:{ apply vec_ext; [rewrite vadd_length; rewrite !vscale_length, ?cut_length, ?unit_vec_length; auto|].
          rewrite vadd_length; rewrite !vscale_length, ?cut_length, ?unit_vec_length; auto. intros i Hi.
          rewrite nth_vadd by (rewrite !vscale_length, cut_length, unit_vec_length; auto). rewrite !nth_vscale.
          unfold cut, unit_vec. rewrite !nth_map_seq0 by auto.
          destruct (Nat.eqb_spec i j), (Nat.ltb_spec i j), (Nat.ltb_spec i (Datatypes.S j)); subst; try lia; lra. }
      replace 0%R with (1 * 0 + nth j S 0 * 0)%R at 1 by lra. rewrite H3 by (rewrite ?cut_length, ?unit_vec_length; auto).
      rewrite nth_vadd by (rewrite !vscale_length, !H1; rewrite ?cut_length, ?unit_vec_length; auto). rewrite !nth_vscale. lra.
  Qed.
  Lemma cut_all : forall S, length S = n -> cut n S = S.
  Proof.
    intros S L. apply vec_ext; rewrite cut_length; auto. intros i Hi. unfold cut. rewrite nth_map_seq0 by auto. destruct (Nat.ltb_spec i n); auto. lia.
  Qed.
End C39.

(** The operator applied to the slip plus time times the boundary traction is what the full solve gives, for every slip
    and time.  (A traction block has at least as many entries as a slip block.) *)
Theorem greens_function_reproduces : forall sbs mbs numel traction p, sbs <= mbs ->
  let n := list_sum (numel p) * sbs in let m := list_sum (numel p) * mbs in
  linear_solver n m (traction p) ->
  forall time state, length state = list_sum (numel p) -> Forall (fun b => sbs <= length b) state ->
    let '(G, tb) := run_plain sbs mbs numel traction p in
    update_traction sbs mbs numel p G tb time state = traction p (Some time) (flat_map (firstn sbs) state).
Proof.
  intros sbs mbs numel traction p Hbs n m HT time state Ls Fs. unfold run_plain, update_traction.
  pose proof (N_eq sbs numel p) as EN. pose proof (M_eq mbs numel p) as EM. fold (num_elements numel p) in n, m. fold n in EN. fold m in EM.
  set (S := flat_map (firstn sbs) state).
  assert (LS : length S = n).
  { unfold S, n, num_elements. rewrite <- Ls. clear - Fs. induction state as [|b state IH]; cbn [flat_map length Nat.mul]; auto.
    rewrite app_length, IH by (inversion Fs; auto). rewrite firstn_length. pose proof (Forall_inv Fs). cbn beta in H. lia. }
  destruct HT as (H1 & H2 & H3).
  assert (Hl : forall o S, length S = N sbs numel p -> length (traction p o S) = M mbs numel p) by (intros; rewrite EM; apply H1; congruence).
  rewrite <- partial_0 with (traction := traction). rewrite columns_done by auto. cbn [Nat.add]. rewrite partial_full.
  apply vec_ext.
  - rewrite vadd_length; unfold mat_vec; rewrite map_length, seq_length; rewrite ?vscale_length; unfold boundary_traction; rewrite ?Hl; auto.
    + rewrite EN. auto.
    + apply repeat_length.
  - rewrite vadd_length.
    2:{ unfold mat_vec. rewrite map_length, seq_length, vscale_length. unfold boundary_traction. rewrite Hl; auto. apply repeat_length. }
    unfold mat_vec at 1. rewrite map_length, seq_length. intros k Hk.
    rewrite nth_vadd.
    2:{ unfold mat_vec. rewrite map_length, seq_length, vscale_length. unfold boundary_traction. rewrite Hl; auto. apply repeat_length. }
    rewrite nth_vscale. unfold mat_vec. rewrite nth_map_seq0 by auto.
    replace (traction p (Some time) S) with (traction p (Some (1 * 0 + time * 1))%R (vadd (vscale 1 S) (vscale time (repeat 0%R n)))).
    2:{ f_equal; [f_equal; lra|]. apply vec_ext; [rewrite vadd_length; rewrite !vscale_length, ?repeat_length; auto|].
        intros i _. rewrite nth_vadd by (rewrite !vscale_length, repeat_length; auto). rewrite !nth_vscale, nth_repeat. lra. }
    rewrite H3 by (rewrite ?repeat_length; auto). rewrite nth_vadd by (rewrite !vscale_length, !H1; rewrite ?repeat_length; auto). rewrite !nth_vscale.
    unfold boundary_traction. rewrite EN. f_equal. rewrite Rmult_1_l.
    pose proof (superposition n m (traction p) (conj H1 (conj H2 H3)) S n k LS (Nat.le_refl n)) as Hsp. rewrite (cut_all n S LS) in Hsp. rewrite Hsp. clear Hsp.
    f_equal. apply map_ext_in. intros l Hl'. apply in_seq in Hl'. f_equal. unfold entry, exact, green_column. rewrite nth_map_seq0 by lia.
    rewrite EN. rewrite H2 by apply unit_vec_length. reflexivity.
  - exact Hbs.
Qed.

(** If the traction blocks were smaller than the slip blocks, columns would be missing. *)
Theorem greens_small_traction_refuted : exists sbs mbs numel traction p, mbs < sbs /\
  linear_solver (list_sum (numel p) * sbs) (list_sum (numel p) * mbs) (traction p) /\
  let '(G, tb) := run_plain sbs mbs numel traction p in
  update_traction sbs mbs numel p G tb 0 [[0; 1]%R] <> traction p (Some 0%R) [0; 1]%R.
Proof.
  exists 2, 1, (fun _ => [1]), (fun _ _ S => [(nth 0 S 0 + nth 1 S 0)%R]), 1. split; [auto|]. split.
  - cbn [list_sum fold_right Nat.add Nat.mul]. split; [|split]; auto.
    intros a s [|x [|y [|]]] b t [|x' [|y' [|]]] L L'; try discriminate. cbn. f_equal. ring.
  - assert (E : run_plain 2 1 (fun _ => [1]) (fun _ _ S => [(nth 0 S 0 + nth 1 S 0)%R]) 1 = ([[1 + 0]; [0 + 0]], [0 + 0])%R) by reflexivity.
    rewrite E. unfold update_traction. change (flat_map (firstn 2) [[0%R; 1%R]]) with [0%R; 1%R].
    change (M 1 (fun _ => [1]) 1) with 1. change (N 2 (fun _ => [1]) 1) with 2. cbn. intros H. injection H as H. lra.
Qed.

(** ** C40 *)
Section C40.
  Variables sbs mbs : nat.
  Variable numel : nat -> list nat.
  Variable facets : nat -> list label.
  Variable traction : nat -> option R -> list R -> list R.
  Notation run := (run sbs mbs numel facets traction).
  Notation operator p := (fst (run_plain sbs mbs numel traction p)).
  Notation boundary p := (snd (run_plain sbs mbs numel traction p)).

  (** Directories that can be found after any number of runs on p processes, each stopped anywhere, the time between
      checkpoints being arbitrary. *)
  Inductive history (p : nat) : disk -> Prop :=
  | new_directory : history p empty_disk
  | stopped : forall d d' sched, history p d -> In d' (fst (run p sched d)) -> history p d'.

  Variable p : nat.
  Hypothesis Hbs : sbs <= mbs.
  Hypothesis Hlen : forall o S, length S = list_sum (numel p) * sbs -> length (traction p o S) = list_sum (numel p) * mbs.
  Hypothesis Hsome : 0 < list_sum (numel p) * sbs.
  Notation ok := (ok sbs mbs numel facets traction p).

  Lemma Hlen' : forall o S, length S = N sbs numel p -> length (traction p o S) = M mbs numel p.
  Proof. rewrite N_eq, M_eq. exact Hlen. Qed.
  Lemma HN : 0 < N sbs numel p.
  Proof. rewrite N_eq. exact Hsome. Qed.
  Lemma operator_exact : operator p = exact sbs numel traction p.
  Proof.
    unfold run_plain. cbn [fst]. rewrite <- partial_0 with (traction := traction).
    rewrite columns_done; auto; [|apply Hlen']. apply partial_full; auto.
  Qed.

  Lemma run_ok : forall sched d, ok d -> exists tr d', get_operator sbs mbs numel facets traction p sched d = (tr, Some (operator p, d', None)) /\
    main (op_file d') = Some (Whole (p, N sbs numel p, operator p)) /\ (forall x, In x (fst (run p sched d)) -> ok x) /\
    (vec_file d <> Some Torn -> snd (run p sched d) = Some (operator p, boundary p)).
  Proof.
    intros sched d Hd. rewrite operator_exact. unfold GreenModel.run.
    destruct (get_operator_ok sbs mbs numel facets traction p Hbs Hlen' sched d HN Hd) as (tr & d' & E & T1 & T2 & T3 & T4 & _).
    exists tr, d'. split; auto. split; auto. rewrite E. unfold get_boundary. rewrite T3.
    destruct Hd as (_ & _ & Hv). destruct (vec_file d) as [[|v]|] eqn:Ev.
    - cbn. rewrite app_nil_r. split; auto. congruence.
    - cbn. rewrite app_nil_r. split; auto. intros _. destruct Hv as [Hv|Hv]; [discriminate|discriminate|]. injection Hv as ->. reflexivity.
    - cbn. split; auto. intros x Hx. apply in_app_iff in Hx as [Hx|[<- |[<- |[]]]]; auto;
        destruct T2 as (O1 & O2 & O3); split; auto; split; auto; cbn; auto.
  Qed.
  Lemma history_ok : forall d, history p d -> ok d.
  Proof.
    induction 1 as [|d d' sched Hd IH Hin].
    - split; [exact I|]. split; [exact I|]. cbn. congruence.
    - destruct (run_ok sched d IH) as (_ & _ & _ & _ & H & _). auto.
  Qed.

  (** Whatever was interrupted before, the next run on as many processes that is not interrupted ends with the operator
      of a run without checkpoints, and leaves it complete on disk. *)
  Theorem greens_survives_interruption : forall d sched, history p d ->
    exists tr d', get_operator sbs mbs numel facets traction p sched d = (tr, Some (operator p, d', None)) /\
      main (op_file d') = Some (Whole (p, list_sum (numel p) * sbs, operator p)) /\
      (vec_file d <> Some Torn -> snd (run p sched d) = Some (operator p, boundary p)).
  Proof.
    intros d sched Hd. destruct (run_ok sched d (history_ok d Hd)) as (tr & d' & H1 & H2 & _ & H4). rewrite N_eq in H2. eauto.
  Qed.

  (** Never is there a partly written operator file, and what it says about itself is true: the first k columns are
      those of the operator. *)
  Theorem greens_file_never_torn : forall d, history p d ->
    match main (op_file d) with
    | None => True
    | Some Torn => False
    | Some (Whole (procs, k, G)) => procs = p /\ k <= list_sum (numel p) * sbs /\ forall j, j < k -> nth j G [] = nth j (operator p) []
    end.
  Proof.
    intros d Hd. apply history_ok in Hd as (H & _). unfold file_ok, op_ok in H. destruct (main (op_file d)) as [[|[[c k] G]]|]; auto.
    destruct H as (k' & Hk & [= -> -> ->]). split; auto. rewrite N_eq in Hk. split; auto. intros j Hj. rewrite operator_exact.
    unfold partial, exact. assert (j < N sbs numel p) by (rewrite N_eq; lia).
    rewrite !nth_map_seq0 by auto. destruct (Nat.ltb_spec j k'); auto. lia.
  Qed.
End C40.

(** A crash at any point of writing a checkpoint leaves the old operator file, the new one or none. *)
Theorem greens_crash_atomic : forall facets p k G d d', In d' (write_operator facets p k G d) ->
  main (op_file d') = main (op_file d) \/ main (op_file d') = None \/ main (op_file d') = Some (Whole (p, k, G)).
Proof. intros facets p k G d d' H. apply (write_operator_states facets p k G d d' H). Qed.

(** ** C41 *)
(** The operator and the boundary traction of a layout: K f d g e is component d of the traction at facet f due to
    component e of the slip at facet g. *)
Definition represents (sbs mbs : nat) (layout : list label) (K : label -> nat -> label -> nat -> R) (G : matrix) : Prop :=
  forall i j d e, i < length layout -> j < length layout -> d < mbs -> e < sbs ->
    entry G (i * mbs + d) (j * sbs + e) = K (nth i layout []) d (nth j layout []) e.
Definition represents_vec (mbs : nat) (layout : list label) (B : label -> nat -> R) (v : list R) : Prop :=
  forall i d, i < length layout -> d < mbs -> nth (i * mbs + d) v 0%R = B (nth i layout []) d.

Lemma last_position_spec : forall f l k,
  match last_position f l k with
  | Some i => k <= i < k + length l /\ nth_error l (i - k) = Some f
  | None => ~ In f l
  end.
Proof.
  intros f. induction l as [|x l IH]; intros k; cbn [last_position]; [intros []|].
  specialize (IH (k + 1)). destruct (last_position f l (k + 1)) as [i|].
  - destruct IH as [H1 H2]. cbn [length]. split; [lia|]. replace (i - k) with (S (i - (k + 1))) by lia. exact H2.
  - destruct (label_eq_dec f x) as [<- |Hx].
    + cbn [length]. split; [lia|]. rewrite Nat.sub_diag. reflexivity.
    + intros [H|H]; auto.
Qed.
Lemma permutation_index_spec : forall saved fs, incl fs saved -> exists perm, permutation_index saved fs = Some perm /\
  length perm = length fs /\ forall i f, nth_error fs i = Some f -> nth i perm 0 < length saved /\ nth_error saved (nth i perm 0) = Some f.
Proof.
  intros saved. induction fs as [|f fs IH]; intros Hi; cbn [permutation_index].
  - exists []. split; auto. split; auto. intros [|i]; discriminate.
  - pose proof (last_position_spec f saved 0) as Hl. destruct (last_position f saved 0) as [k|].
    + destruct IH as (perm & -> & L & H); [intros x Hx; apply Hi; right; auto|]. exists (k :: perm). split; auto. split; [cbn; auto|].
      intros [|i] g Hg; cbn in *; [|auto]. injection Hg as <-. destruct Hl as [H1 H2]. rewrite Nat.sub_0_r in H2. split; auto. lia.
    + exfalso. apply Hl, Hi. left. auto.
Qed.

Section Perm.
  Variable numel : nat -> list nat.
  Variable q : nat.
  Notation E := (num_elements numel q).
  Variables (perm : list nat) (bs : nat).

  Lemma perm_entries_in : forall swap a b, In (a, b) (perm_entries numel q bs swap perm) <->
    exists g d, g < E /\ d < bs /\ (if swap then (bs * nth g perm 0 + d, bs * g + d) else (bs * g + d, bs * nth g perm 0 + d)) = (a, b).
  Proof.
    intros swap a b. unfold perm_entries. rewrite in_flat_map. split.
    - intros (r & Hr & H). apply in_flat_map in H as (f & Hf & H). apply in_map_iff in H as (d & H & Hd).
      apply in_seq in Hd. exists (mb_offset numel q r + f), d. split; [|split; [lia|exact H]].
      assert (Hin : In (mb_offset numel q r + f) (seq 0 E)).
      { unfold num_elements. rewrite <- (global_numbers (numel q)). apply in_flat_map. exists r. split; auto. apply in_map. auto. }
      apply in_seq in Hin. lia.
    - intros (g & d & Hg & Hd & H). assert (Hin : In g (seq 0 E)) by (apply in_seq; lia).
      unfold num_elements in Hin. rewrite <- (global_numbers (numel q)) in Hin. apply in_flat_map in Hin as (r & Hr & Hf).
      apply in_map_iff in Hf as (f & <- & Hf). exists r. split; auto. apply in_flat_map. exists f. split; auto. apply in_map_iff. exists d.
      split; [exact H|apply in_seq; lia].
  Qed.
  Lemma divmod_unique : forall a b d e, d < bs -> e < bs -> bs * a + d = bs * b + e -> a = b /\ d = e.
  Proof. intros a b d e Hd He H. assert (a = b) by nia. subst. split; auto. lia. Qed.

  Lemma perm_row : forall n g d l, g < E -> d < bs -> bs * g + d < n -> l < n ->
    entry (perm_matrix numel q bs false perm n) (bs * g + d) l = if l =? bs * nth g perm 0 + d then 1%R else 0%R.
  Proof.
    intros n g d l Hg Hd Hn Hl. unfold entry, perm_matrix. rewrite nth_map_seq0 by auto. rewrite nth_map_seq0 by auto.
    destruct (in_dec pair_eq_dec (bs * g + d, l) (perm_entries numel q bs false perm)) as [H|H].
    - apply perm_entries_in in H as (g' & d' & Hg' & Hd' & [= H1 H2]). apply divmod_unique in H1 as [-> ->]; auto. rewrite H2, Nat.eqb_refl. auto.
    - destruct (Nat.eqb_spec l (bs * nth g perm 0 + d)) as [-> |]; auto. exfalso. apply H. apply perm_entries_in. exists g, d. auto.
  Qed.
  Lemma perm_col : forall n g d l, g < E -> d < bs -> bs * g + d < n -> l < n ->
    entry (perm_matrix numel q bs true perm n) l (bs * g + d) = if l =? bs * nth g perm 0 + d then 1%R else 0%R.
  Proof.
    intros n g d l Hg Hd Hn Hl. unfold entry, perm_matrix. rewrite nth_map_seq0 by auto. rewrite nth_map_seq0 by auto.
    destruct (in_dec pair_eq_dec (l, bs * g + d) (perm_entries numel q bs true perm)) as [H|H].
    - apply perm_entries_in in H as (g' & d' & Hg' & Hd' & [= H1 H2]). apply divmod_unique in H2 as [-> ->]; auto. rewrite H1, Nat.eqb_refl. auto.
    - destruct (Nat.eqb_spec l (bs * nth g perm 0 + d)) as [-> |]; auto. exfalso. apply H. apply perm_entries_in. exists g, d. auto.
  Qed.
End Perm.

Lemma sum_single : forall n a f, a < n -> sumR (map (fun l => (if l =? a then 1 else 0) * f l)%R (seq 0 n)) = f a.
Proof.
  intros n a f Ha. assert (H : forall k, sumR (map (fun l => (if l =? a then 1 else 0) * f l)%R (seq 0 k)) = if a <? k then f a else 0%R).
  { induction k as [|k IH]; [reflexivity|]. rewrite seq_S, map_app, sumR_app, IH. cbn [map sumR fold_right Nat.add].
    destruct (Nat.ltb_spec a k), (Nat.ltb_spec a (S k)), (Nat.eqb_spec k a); subst; try lia; lra. }
  rewrite H. destruct (Nat.ltb_spec a n); auto. lia.
Qed.
Lemma entry_mat_mult : forall m k n A B i j, i < m -> j < n ->
  entry (mat_mult m k n A B) i j = sumR (map (fun l => (entry A i l * entry B l j)%R) (seq 0 k)).
Proof. intros. unfold mat_mult. unfold entry at 1. rewrite nth_map_seq0 by auto. rewrite nth_map_seq0 by auto. reflexivity. Qed.

Section C41.
  Variables sbs mbs : nat.
  Variable numel : nat -> list nat.
  Variable facets : nat -> list label.
  Variable traction : nat -> option R -> list R -> list R.
  Variables p q : nat.
  (** Both numbers of processes distribute the same fault facets. *)
  Hypothesis Hp : length (facets p) = list_sum (numel p).
  Hypothesis Hq : length (facets q) = list_sum (numel q).
  Hypothesis Hpq : Permutation (facets p) (facets q).
  Hypothesis Hmbs : 0 < mbs.
  Hypothesis Hsbs : 0 < sbs.
  Hypothesis Hne : facets q <> [].

  Lemma Eq_pos : 0 < num_elements numel q.
  Proof. unfold num_elements. rewrite <- Hq. destruct (facets q); [congruence|cbn; lia]. Qed.
  Lemma br_eq : M mbs numel q / num_elements numel q = mbs.
  Proof. rewrite M_eq. rewrite Nat.mul_comm. apply Nat.div_mul. pose proof Eq_pos. lia. Qed.
  Lemma bc_eq : N sbs numel q / num_elements numel q = sbs.
  Proof. rewrite N_eq. rewrite Nat.mul_comm. apply Nat.div_mul. pose proof Eq_pos. lia. Qed.

  Lemma relayout : forall K B G v perm, represents sbs mbs (facets p) K G -> represents_vec mbs (facets p) B v ->
    (forall i f, nth_error (facets q) i = Some f -> nth i perm 0 < length (facets p) /\ nth_error (facets p) (nth i perm 0) = Some f) ->
    represents sbs mbs (facets q) K (mat_mult (M mbs numel q) (M mbs numel q) (N sbs numel q) (perm_matrix numel q mbs false perm (M mbs numel q))
       (mat_mult (M mbs numel q) (N sbs numel q) (N sbs numel q) G (perm_matrix numel q sbs true perm (N sbs numel q)))) /\
    represents_vec mbs (facets q) B (mat_vec (M mbs numel q) (M mbs numel q) (perm_matrix numel q mbs false perm (M mbs numel q)) v).
  Proof.
    intros K B G v perm HG Hv Hperm.
    assert (Hl : length (facets p) = length (facets q)) by (apply Permutation_length; auto).
    assert (HM : forall i d, i < length (facets q) -> d < mbs -> mbs * i + d < M mbs numel q) by (intros; rewrite M_eq; unfold num_elements; rewrite <- Hq; nia).
    assert (HN' : forall i d, i < length (facets q) -> d < sbs -> sbs * i + d < N sbs numel q) by (intros; rewrite N_eq; unfold num_elements; rewrite <- Hq; nia).
    assert (Hat : forall i, i < length (facets q) -> nth i perm 0 < length (facets q) /\ nth (nth i perm 0) (facets p) [] = nth i (facets q) []).
    { intros i Hi. destruct (Hperm i (nth i (facets q) [])) as [H1 H2]; [apply nth_error_nth'; auto|]. split; [lia|]. apply nth_error_nth. auto. }
    assert (HE : forall i, i < length (facets q) -> i < num_elements numel q) by (intros; unfold num_elements; lia).
    split.
    - intros i j d e Hi Hj Hd He. destruct (Hat i Hi) as [Pi Fi]. destruct (Hat j Hj) as [Pj Fj].
      rewrite (Nat.mul_comm i), (Nat.mul_comm j). rewrite entry_mat_mult by auto.
      erewrite map_ext_in.
      2:{ intros l Hl'. apply in_seq in Hl'. rewrite perm_row by (auto; lia). reflexivity. }
      rewrite sum_single by auto. rewrite entry_mat_mult by auto.
      erewrite map_ext_in.
      2:{ intros l Hl'. apply in_seq in Hl'. rewrite perm_col by (auto; lia). rewrite Rmult_comm. reflexivity. }
      rewrite sum_single by auto. rewrite (Nat.mul_comm mbs), (Nat.mul_comm sbs). rewrite HG by (auto; lia). rewrite Fi, Fj. reflexivity.
    - intros i d Hi Hd. destruct (Hat i Hi) as [Pi Fi]. rewrite (Nat.mul_comm i). unfold mat_vec. rewrite nth_map_seq0 by auto.
      erewrite map_ext_in.
      2:{ intros l Hl'. apply in_seq in Hl'. rewrite perm_row by (auto; lia). reflexivity. }
      rewrite sum_single by auto. rewrite (Nat.mul_comm mbs). rewrite Hv by (auto; lia). rewrite Fi. reflexivity.
  Qed.

  (** Complete files written by p processes and read by q: the operator and boundary traction are those of the new
      layout, without any solve, and the files are not touched. *)
  Theorem greens_relayout : forall K B G v d sched, p <> q ->
    main (op_file d) = Some (Whole (p, list_sum (numel q) * sbs, G)) -> main (facet_file d) = Some (Whole (facets p)) ->
    vec_file d = Some (Whole v) ->
    represents sbs mbs (facets p) K G -> represents_vec mbs (facets p) B v ->
    exists G' v', run sbs mbs numel facets traction q sched d = ([], Some (G', v')) /\
      represents sbs mbs (facets q) K G' /\ represents_vec mbs (facets q) B v'.
  Proof.
    intros K B G v d sched Hd Ho Hf Hv HG HB. unfold run, get_operator, load_operator. rewrite Ho, Hf.
    destruct (Nat.eqb_spec q p) as [E|_]; [congruence|].
    destruct (permutation_index_spec (facets p) (facets q)) as (perm & -> & _ & Hperm).
    { intros f Hin. eapply Permutation_in; [apply Permutation_sym; exact Hpq|auto]. }
    rewrite br_eq, bc_eq. change (list_sum (numel q)) with (num_elements numel q). rewrite <- (N_eq sbs numel q). rewrite Nat.sub_diag. cbn [seq assemble_loop].
    rewrite Nat.eqb_refl. cbn [last app]. unfold get_boundary. rewrite Hv, br_eq. cbn [app option_map].
    do 2 eexists. split; [reflexivity|]. apply relayout; auto.
  Qed.
End C41.

(** A run that was not interrupted leaves complete files. *)
Definition complete (sbs : nat) (numel : nat -> list nat) (facets : nat -> list label) (p : nat) (d : disk) : Prop :=
  (exists G, main (op_file d) = Some (Whole (p, list_sum (numel p) * sbs, G))) /\
  main (facet_file d) = Some (Whole (facets p)) /\ (exists v, vec_file d = Some (Whole v)).

(** C40 and C41 together: however often the assembly on p processes was interrupted, once its files are complete every
    run on any number of processes gets the operator of its own layout. *)
Theorem greens_computed_once : forall sbs mbs numel facets traction p q d sched K B,
  sbs <= mbs -> 0 < sbs -> 0 < list_sum (numel p) ->
  (forall o S, length S = list_sum (numel p) * sbs -> length (traction p o S) = list_sum (numel p) * mbs) ->
  length (facets p) = list_sum (numel p) -> length (facets q) = list_sum (numel q) -> Permutation (facets p) (facets q) ->
  represents sbs mbs (facets p) K (fst (run_plain sbs mbs numel traction p)) ->
  represents_vec mbs (facets p) B (snd (run_plain sbs mbs numel traction p)) ->
  history sbs mbs numel facets traction p d -> complete sbs numel facets p d ->
  exists G v, run sbs mbs numel facets traction q sched d = ([], Some (G, v)) /\
    represents sbs mbs (facets q) K G /\ represents_vec mbs (facets q) B v.
Proof.
  intros sbs mbs numel facets traction p q d sched K B Hbs Hs Hne Hlen Hp Hq Hpq HK HB Hh ((G & HG) & Hf & (v & Hv)).
  pose proof (history_ok sbs mbs numel facets traction p Hbs Hlen ltac:(nia) d Hh) as (O1 & _ & O3).
  rewrite HG in O1. destruct O1 as (k & _ & [= Ek EG]).
  assert (E : G = fst (run_plain sbs mbs numel traction p)).
  { rewrite operator_exact; auto. rewrite EG, <- Ek. change (list_sum (numel p)) with (num_elements numel p). rewrite <- (N_eq sbs numel p). apply partial_full. exact Hbs. }
  assert (Ev : v = snd (run_plain sbs mbs numel traction p)).
  { rewrite Hv in O3. destruct O3 as [O3|O3]; [discriminate|discriminate|]. injection O3 as ->. reflexivity. }
  clear EG. subst G v. destruct (Nat.eq_dec p q) as [<- |Hd].
  - exists (fst (run_plain sbs mbs numel traction p)), (snd (run_plain sbs mbs numel traction p)). split; [|auto].
    unfold run, get_operator, load_operator. rewrite HG, Nat.eqb_refl. change (list_sum (numel p)) with (num_elements numel p).
    rewrite <- (N_eq sbs numel p), Nat.sub_diag. cbn [seq assemble_loop]. rewrite Nat.eqb_refl. cbn [last app]. unfold get_boundary. rewrite Hv. reflexivity.
  - apply (greens_relayout sbs mbs numel facets traction p q) with (G := fst (run_plain sbs mbs numel traction p)) (v := snd (run_plain sbs mbs numel traction p)); auto; try lia.
    + intros Hnil. apply Permutation_length in Hpq. rewrite Hnil in Hpq. cbn in Hpq. lia.
    + rewrite HG. do 3 f_equal. rewrite <- Hp, <- Hq. rewrite (Permutation_length Hpq). reflexivity.
Qed.

(** ** Examples: two fault facets [0] and [1] with one unknown each, in opposite order on one and on two processes.  The
    traction is the slip plus time times 1 at [0] and 2 at [1]. *)
Definition ex_numel (p : nat) : list nat := if p =? 1 then [2] else [1; 1].
Definition ex_facets (p : nat) : list label := if p =? 1 then [[0]; [1]] else [[1]; [0]].
Definition ex_traction (p : nat) (o : option R) (S : list R) : list R :=
  let t := match o with Some t => t | None => 0%R end in
  match S with
  | [x; y] => if p =? 1 then [x + t; y + 2 * t]%R else [x + 2 * t; y + t]%R
  | _ => [0; 0]%R
  end.
Example ex_linear : forall p, linear_solver (list_sum (ex_numel p) * 1) (list_sum (ex_numel p) * 1) (ex_traction p).
Proof.
  intros p. assert (E : list_sum (ex_numel p) * 1 = 2) by (unfold ex_numel; destruct (p =? 1); reflexivity). rewrite E. unfold ex_traction.
  split; [|split].
  - intros o [|x [|y [|]]] L; try discriminate. destruct (p =? 1); reflexivity.
  - intros [|x [|y [|]]] L; reflexivity.
  - intros a s [|x [|y [|]]] b t [|x' [|y' [|]]] L L'; try discriminate. cbn. destruct (p =? 1); cbn; f_equal; try (f_equal; ring); ring.
Qed.
Example ex_reproduces : let '(G, tb) := run_plain 1 1 ex_numel ex_traction 2 in
  update_traction 1 1 ex_numel 2 G tb 7 [[3]; [4]]%R = [3 + 2 * 7; 4 + 7]%R.
Proof.
  pose proof (greens_function_reproduces 1 1 ex_numel ex_traction 2 (le_n 1) (ex_linear 2) 7%R [[3]; [4]]%R eq_refl ltac:(repeat constructor)) as H.
  destruct (run_plain 1 1 ex_numel ex_traction 2) as [G tb]. rewrite H. reflexivity.
Qed.
Definition ex_K (f : label) (d : nat) (g : label) (e : nat) : R := if label_eq_dec f g then 1%R else 0%R.
Definition ex_B (f : label) (d : nat) : R := if label_eq_dec f [0] then 1%R else 2%R.
Example ex_represents : forall p, represents 1 1 (ex_facets p) ex_K (fst (run_plain 1 1 ex_numel ex_traction p)) /\
  represents_vec 1 (ex_facets p) ex_B (snd (run_plain 1 1 ex_numel ex_traction p)).
Proof.
  intros p. unfold run_plain, ex_facets, ex_numel, ex_traction, represents, represents_vec.
  assert (Hc : forall i, i < 2 -> i = 0 \/ i = 1) by lia.
  destruct (Nat.eqb_spec p 1) as [-> |Hp].
  - split.
    + intros i j d e Hi Hj Hd He. assert (d = 0) by lia. assert (e = 0) by lia. subst.
      apply Hc in Hi, Hj. destruct Hi as [-> | ->], Hj as [-> | ->]; cbv -[Rplus Rmult IZR]; ring.
    + intros i d Hi Hd. assert (d = 0) by lia. subst. apply Hc in Hi. destruct Hi as [-> | ->]; cbv -[Rplus Rmult IZR]; ring.
  - apply Nat.eqb_neq in Hp.
    assert (E : forall A (x y : A), (if p =? 1 then x else y) = y) by (intros; rewrite Hp; auto).
    unfold add_column, create_matrix, boundary_traction, unit_slip, M, N, n_local, m_local, nb_offset, mb_offset, n_local. rewrite !E.
    split.
    + intros i j d e Hi Hj Hd He. assert (d = 0) by lia. assert (e = 0) by lia. subst.
      apply Hc in Hi, Hj. destruct Hi as [-> | ->], Hj as [-> | ->]; cbv -[Rplus Rmult IZR Nat.eqb]; rewrite ?Hp; cbv -[Rplus Rmult IZR]; ring.
    + intros i d Hi Hd. assert (d = 0) by lia. subst. apply Hc in Hi. destruct Hi as [-> | ->]; cbv -[Rplus Rmult IZR Nat.eqb]; rewrite ?Hp; cbv -[Rplus Rmult IZR]; ring.
Qed.

Notation ex_run := (run 1 1 ex_numel ex_facets ex_traction).
Notation ex_history := (history 1 1 ex_numel ex_facets ex_traction).
(** A run on one process, stopped after the checkpoint that follows the first column, then a complete one. *)
Definition ex_disk1 : disk := nth 5 (fst (ex_run 1 (fun i => i =? 0) empty_disk)) empty_disk.
Definition ex_disk2 : disk := last (fst (ex_run 1 (fun i => i =? 0) ex_disk1)) empty_disk.
Example ex_history1 : ex_history 1 ex_disk1.
Proof. eapply stopped; [apply new_directory|]. apply nth_In. vm_compute. lia. Qed.
Example ex_history2 : ex_history 1 ex_disk2 /\ complete 1 ex_numel ex_facets 1 ex_disk2.
Proof.
  split.
  - eapply stopped with (sched := fun i => i =? 0); [apply ex_history1|]. unfold ex_disk2.
    assert (H : fst (ex_run 1 (fun i => i =? 0) ex_disk1) <> []) by (vm_compute; discriminate).
    destruct (exists_last H) as (l & x & ->). rewrite last_last. apply in_app_iff. right. left. auto.
  - split; [|split]; [eexists| |eexists]; vm_compute; reflexivity.
Qed.

(** An incomplete operator read on another number of processes: the first columns of the new layout need not be the
    computed ones, and are never computed. *)
Theorem greens_partial_relayout_refuted : exists d sched G v, ex_history 1 d /\
  snd (ex_run 2 sched d) = Some (G, v) /\ entry G 0 0 = 0%R /\ entry (fst (run_plain 1 1 ex_numel ex_traction 2)) 0 0 = 1%R.
Proof.
  exists ex_disk1, (fun _ => false). do 2 eexists. split; [apply ex_history1|]. split; [cbv -[Rplus Rmult IZR]; reflexivity|].
  split; cbv -[Rplus Rmult IZR]; ring.
Qed.

(** gf_vec.bin does not say by how many processes it was written.  If a run is stopped after the operator is complete,
    and the next run has another number of processes, the boundary traction is in the order of that run, but the later
    ones take it for that of the first. *)
Theorem greens_boundary_layout_refuted : exists d1 d2 sched G v, ex_history 1 d1 /\
  In d2 (fst (ex_run 2 sched d1)) /\ snd (ex_run 1 sched d2) = Some (G, v) /\
  nth 0 v 0%R = 2%R /\ nth 0 (snd (run_plain 1 1 ex_numel ex_traction 1)) 0%R = 1%R.
Proof.
  exists (nth 5 (fst (ex_run 1 (fun _ => false) empty_disk)) empty_disk).
  exists (nth 1 (fst (ex_run 2 (fun _ => false) (nth 5 (fst (ex_run 1 (fun _ => false) empty_disk)) empty_disk))) empty_disk).
  exists (fun _ => false). do 2 eexists. split.
  { eapply stopped with (sched := fun _ => false); [apply new_directory|]. apply nth_In. vm_compute. lia. }
  split; [apply nth_In; vm_compute; lia|]. split; [cbv -[Rplus Rmult IZR]; reflexivity|]. split; cbv -[Rplus Rmult IZR]; ring.
Qed.

(** gf_vec.bin is written under its own name: after a crash in this write no later run succeeds. *)
Theorem greens_boundary_torn_refuted : exists d, ex_history 1 d /\ vec_file d = Some Torn /\
  forall procs sched, snd (ex_run procs sched d) = None.
Proof.
  exists (nth 6 (fst (ex_run 1 (fun _ => false) empty_disk)) empty_disk). split.
  { eapply stopped with (sched := fun _ => false); [apply new_directory|]. apply nth_In. vm_compute. lia. }
  split; [vm_compute; reflexivity|].
  intros procs sched. unfold run. set (d := nth 6 _ _).
  assert (Hv : forall is_ G d0, vec_file d0 = Some Torn -> vec_file (snd (assemble_loop 1 1 ex_numel ex_facets ex_traction procs sched is_ G d0)) = Some Torn).
  { induction is_ as [|i is_ IH]; intros G d0 H; cbn [assemble_loop]; auto.
    specialize (IH (add_column 1 1 ex_numel ex_traction procs G i) (last (if sched i then write_operator ex_facets procs (i + 1) (add_column 1 1 ex_numel ex_traction procs G i) d0 else []) d0)).
    destruct (assemble_loop _ _ _ _ _ _ _ _ _ _) as [[tr G''] d'']. cbn [snd] in *. apply IH. destruct (sched i); [|exact H].
    pose proof (write_operator_last ex_facets procs (i + 1) (add_column 1 1 ex_numel ex_traction procs G i) d0 d0) as (_ & _ & -> & _). exact H. }
  unfold get_operator. destruct (match main (op_file d) with None => _ | Some _ => _ end) as [[[k G0] perm]|]; [|reflexivity].
  specialize (Hv (seq k (N 1 ex_numel procs - k)) G0 d ltac:(vm_compute; reflexivity)).
  destruct (assemble_loop _ _ _ _ _ _ _ _ _ _) as [[tr G] d']. cbn [snd] in Hv. unfold get_boundary.
  assert (Hl : vec_file (last (if k =? N 1 ex_numel procs then [] else write_operator ex_facets procs (N 1 ex_numel procs) G d') d') = Some Torn).
  { destruct (k =? N 1 ex_numel procs); [exact Hv|]. pose proof (write_operator_last ex_facets procs (N 1 ex_numel procs) G d' d') as (_ & _ & -> & _). exact Hv. }
  rewrite Hl. reflexivity.
Qed.

(** Between the two renames there is no operator file, although all columns are on disk under the other names; a run
    looks at the main name only (get_operator) and begins again. *)
Theorem greens_backup_unused_refuted : exists d, ex_history 1 d /\ main (op_file d) = None /\
  (exists G, bu (op_file d) = Some (Whole (1, 1, G))) /\ (exists G, tmp (op_file d) = Some (Whole (1, 2, G))).
Proof.
  exists (nth 2 (fst (ex_run 1 (fun _ => false) ex_disk1)) empty_disk). split.
  { eapply stopped with (sched := fun _ => false); [apply ex_history1|]. apply nth_In. vm_compute. lia. }
  split; [vm_compute; reflexivity|]. split; eexists; vm_compute; reflexivity.
Qed.

Print Assumptions greens_function_reproduces.
Print Assumptions greens_survives_interruption.
Print Assumptions greens_file_never_torn.
Print Assumptions greens_crash_atomic.
Print Assumptions greens_relayout.
Print Assumptions greens_computed_once.
