(** C42, C43: checkpoints of the time stepper. *)
Require Import List Arith Bool ZArith Lia Reals Lra.
Require Import Verif.Base Verif.TsCheckpointModel.
Import ListNotations.
Local Open Scope opt_scope.

Section Files.
  Context {Real Vec Opq : Type}.
  Variable adapt_none : Opq.
  Notation ts := (ts Real Vec Opq).
  Notation fs := (fs Real Vec Opq).
  Notation op := (op Real Vec Opq).

  (** The directory holds all that was written for state s. *)
  Definition complete (d : fs) (slot : nat) (s : ts) : Prop :=
    d (TsBin slot) = Some (map Bin (ts_view adapt_none s)) /\ d (TsImpl slot) = Some (map Bin (ts_impl_view s)) /\
    d (StateVec slot) = Some [Bin (Vector (vec_sol s))].

  Lemma exec_app a b (d : fs) : exec (a ++ b) d = exec b (exec a d).
  Proof. apply fold_left_app. Qed.
  Lemma bins_map (l : list (item Real Vec Opq)) : bins (map Bin l) = Some l.
  Proof. induction l as [|i l IH]; auto. cbn [map bins]. rewrite IH. auto. Qed.
  Lemma rd_vecs_map (vs : list Vec) : rd_vecs (Opq := Opq) (Real := Real) (length vs) (map Vector vs) = Some vs.
  Proof. induction vs as [|v vs IH]; auto. cbn [length map rd_vecs rd_vec bind]. rewrite IH. auto. Qed.

  (** C43: reading a complete checkpoint gives back every saved part of the state, whatever the time stepper held before. *)
  Theorem checkpoint_restores_state : forall (ops_load : nat -> bool) (t s : ts) d slot,
    complete d slot s -> type_name s = 0 -> ops_load 0 = true -> length (stages t) = length (stages s) -> adapt_obj s <> None ->
    checkpoint_load ops_load t d slot = Some s.
  Proof.
    intros ops_load t s d slot (F1 & F2 & F3) T0 OL LS AO. unfold checkpoint_load. rewrite F1. cbn [bind]. rewrite bins_map. cbn [bind].
    destruct s as [ty st p1 p2 p3 p4 p5 ad dm' sol dmts' [] stg]. cbn in T0, LS, AO. subst ty. destruct ad as [o|]; [|congruence].
    unfold ts_load, ts_view, adapt_members_view. cbn. rewrite OL. cbn. rewrite F2. cbn [bind]. rewrite bins_map. cbn [bind].
    unfold ts_impl_load, ts_impl_view. cbn [type_name Nat.eqb app rd_int bind stages]. cbn [Z.eqb negb]. rewrite Z.eqb_refl. cbn [negb rd_name bind].
    rewrite LS, rd_vecs_map. cbn [bind]. rewrite F3. cbn. auto.
  Qed.

  (** Operations on one file leave the others alone. *)
  Definition op_file (o : op) : file := match o with Trunc f => f | Append f _ => f end.
  Lemma exec_other ops : forall (d : fs) f, (forall o, In o ops -> op_file o <> f) -> exec ops d f = d f.
  Proof.
    induction ops as [|o ops IH]; intros d f H; auto. change (exec (o :: ops) d) with (exec ops (step_op d o)).
    rewrite IH by (intros; apply H; right; auto). specialize (H o (or_introl eq_refl)).
    destruct o as [g|g c]; cbn in *; destruct (file_dec f g); congruence.
  Qed.
  Lemma write_file_files f cs (o : op) : In o (write_file f cs) -> op_file o = f.
  Proof. intros [<-|H]; auto. apply in_map_iff in H as (c & <- & _). auto. Qed.
  Lemma exec_append f : forall cs (d : fs) l, d f = Some l -> exec (map (Append f) cs) d f = Some (l ++ cs).
  Proof.
    induction cs as [|c cs IH]; intros d l H; [rewrite app_nil_r; auto|]. cbn [map]. change (exec (Append f c :: map (Append f) cs) d) with (exec (map (Append f) cs) (step_op d (Append f c))).
    rewrite (IH _ (l ++ [c])); [rewrite <- app_assoc; auto|]. cbn. destruct (file_dec f f); [|congruence]. rewrite H. auto.
  Qed.
  Lemma exec_write f cs (d : fs) : exec (write_file f cs) d f = Some cs.
  Proof.
    unfold write_file. change (exec (Trunc f :: map (Append f) cs) d) with (exec (map (Append f) cs) (step_op d (Trunc f))).
    rewrite (exec_append f cs _ []); auto. cbn. destruct (file_dec f f); congruence.
  Qed.
  Lemma data_files slot s (o : op) : In o (data_ops adapt_none slot s) ->
    op_file o = TsBin slot \/ op_file o = TsImpl slot \/ op_file o = StateVec slot \/ op_file o = Info slot.
  Proof.
    unfold data_ops. rewrite !in_app_iff. intros [H|[H|[H|H]]]; apply write_file_files in H; auto.
  Qed.
  Lemma data_complete slot s (d : fs) : complete (exec (data_ops adapt_none slot s) d) slot s.
  Proof.
    unfold data_ops. rewrite !exec_app. split; [|split].
    - rewrite exec_other by (intros o H; apply write_file_files in H; rewrite H; discriminate).
      rewrite exec_other by (intros o H; apply write_file_files in H; rewrite H; discriminate).
      rewrite exec_other by (intros o H; apply write_file_files in H; rewrite H; discriminate). apply exec_write.
    - rewrite exec_other by (intros o H; apply write_file_files in H; rewrite H; discriminate).
      rewrite exec_other by (intros o H; apply write_file_files in H; rewrite H; discriminate). apply exec_write.
    - rewrite exec_other by (intros o H; apply write_file_files in H; rewrite H; discriminate). apply exec_write.
  Qed.
  Lemma complete_ext (d d' : fs) slot s : (forall f, f <> Last -> d' f = d f) -> complete d slot s -> complete d' slot s.
  Proof. intros H (A & B & C). unfold complete. rewrite !H by discriminate. auto. Qed.
  Lemma complete_other (d : fs) ops slot s : (forall o, In o ops -> op_file o <> TsBin slot /\ op_file o <> TsImpl slot /\ op_file o <> StateVec slot) ->
    complete d slot s -> complete (exec ops d) slot s.
  Proof.
    intros H (A & B & C). unfold complete. rewrite !exec_other; auto; intros o Ho; apply H in Ho; tauto.
  Qed.

  (** All file operations of a run that writes the given checkpoints (directory, state), one after another. *)
  Definition run_ops (ws : list (nat * ts)) : list op := concat (map (fun w => write_ops adapt_none (fst w) (snd w)) ws).
  (** No checkpoint goes to the directory of the one before. *)
  Fixpoint moves (prev : option nat) (ws : list (nat * ts)) : Prop :=
    match ws with
    | [] => True
    | w :: t => prev <> Some (fst w) /\ moves (Some (fst w)) t
    end.

  Lemma prefix_app {A} (a b p q : list A) : p ++ q = a ++ b -> (exists p2, a = p ++ p2) \/ (exists p2, p = a ++ p2 /\ p2 ++ q = b).
  Proof.
    revert p. induction a as [|x a IH]; intros p H; [right; exists p; auto|]. destruct p as [|y p]; [left; exists (x :: a); auto|].
    cbn in H. inversion H; subst. destruct (IH p H2) as [(p2 & ->)|(p2 & -> & E)]; [left; exists p2; auto|right; exists p2; auto].
  Qed.

  (** During the data writes the pointer and the directory it names are untouched. *)
  Lemma during_data slot s pre post (d : fs) : data_ops adapt_none slot s = pre ++ post ->
    exec pre d Last = d Last /\ (forall slot' s', slot' <> slot -> complete d slot' s' -> complete (exec pre d) slot' s').
  Proof.
    intro H. assert (I : forall o, In o pre -> In o (data_ops adapt_none slot s)) by (intros o Ho; rewrite H; apply in_or_app; auto). split.
    - apply exec_other. intros o Ho. apply I, data_files in Ho as [->|[->|[->| ->]]]; discriminate.
    - intros slot' s' Hne C. apply complete_other; auto. intros o Ho. apply I, data_files in Ho as [->|[->|[->| ->]]]; repeat split; congruence.
  Qed.
  Lemma during_pointer slot pre post (d : fs) : pointer_ops slot = pre ++ post ->
    (pre = [] \/ pre = [Trunc Last] /\ exec pre d Last = Some [] \/ exists l, exec pre d Last = Some (DirLine slot :: l)) /\
    forall f, f <> Last -> exec pre d f = d f.
  Proof.
    intro H. split.
    - unfold pointer_ops, write_file in H. destruct pre as [|o1 pre]; auto. cbn [app] in H. inversion H; subst o1. destruct pre as [|o2 pre].
      + right. left. split; auto.
      + right. right. cbn [map app] in H. inversion H; subst o2.
        change (exec (Trunc Last :: Append Last (DirLine slot) :: pre) d) with (exec pre (exec [Trunc Last; Append Last (DirLine slot)] d)).
        destruct (prefix_app (map (Append Last) (repeat OtherLine 8)) [] pre post) as [(p2 & E)|(p2 & E & E')].
        { rewrite app_nil_r. symmetry. exact H3. }
        * apply map_eq_app in E as (l1 & l2 & _ & <- & _). exists l1. rewrite (exec_append Last l1 _ [DirLine slot]); auto.
        * destruct p2; [|discriminate]. rewrite app_nil_r in E. subst pre. exists (repeat OtherLine 8).
          rewrite (exec_append Last _ _ [DirLine slot]); auto.
    - intros f Hf. apply exec_other. intros o Ho. assert (In o (pointer_ops slot)) by (rewrite H; apply in_or_app; auto). apply write_file_files in H0. congruence.
  Qed.

  Lemma crash_aux : forall ws (d : fs) prev pre post,
    match prev with Some (i, s) => pointer d = Some i /\ complete d i s | None => pointer d = None end ->
    moves (option_map fst prev) ws -> run_ops ws = pre ++ post ->
    forall slot, pointer (exec pre d) = Some slot ->
    exists s, (prev = Some (slot, s) \/ In (slot, s) ws) /\ complete (exec pre d) slot s.
  Proof.
    induction ws as [|[i s] ws IH]; intros d prev pre post HP HM H slot HS.
    - destruct pre; [|discriminate]. cbn in HS |- *. destruct prev as [[j s']|]; [|congruence]. destruct HP as [HP C].
      exists s'. assert (j = slot) by congruence. subst. auto.
    - unfold run_ops in H. cbn [map concat fst snd] in H. destruct HM as [M1 M2]. cbn [fst] in M1, M2.
      assert (ND : forall (d' : fs), (forall f, f <> Last -> d' f = exec (data_ops adapt_none i s) d f) -> complete d' i s).
      { intros d' Hd'. eapply complete_ext; [exact Hd'|apply data_complete]. }
      unfold write_ops in H. rewrite <- app_assoc in H.
      destruct (prefix_app _ _ _ _ (eq_sym H)) as [(p2 & E)|(p2 & -> & E)].
      + destruct (during_data i s pre p2 d E) as [D1 D2]. unfold pointer in HS. rewrite D1 in HS. fold (pointer d) in HS.
        destruct prev as [[j s']|]; [|congruence]. destruct HP as [HP C]. assert (j = slot) by congruence. subst j. exists s'. split; auto.
        apply D2; auto. cbn in M1. congruence.
      + rewrite exec_app in *. destruct (prefix_app _ _ _ _ E) as [(p3 & E3)|(p3 & -> & E3)].
        * destruct (during_pointer i p2 p3 (exec (data_ops adapt_none i s) d) E3) as [[->|[[-> Hl]|(l & Hl)]] Hf].
          -- cbn [exec fold_left] in *. destruct (during_data i s _ [] d (eq_sym (app_nil_r _))) as [D1 D2]. unfold pointer in HS. rewrite D1 in HS. fold (pointer d) in HS.
             destruct prev as [[j s']|]; [|congruence]. destruct HP as [HP C]. assert (j = slot) by congruence. subst j. exists s'. split; auto.
             apply D2; auto. cbn in M1. congruence.
          -- unfold pointer in HS. rewrite Hl in HS. discriminate.
          -- unfold pointer in HS. rewrite Hl in HS. inversion HS; subst slot. exists s. split; [right; left; auto|]. apply ND; auto.
        * rewrite exec_app in *. destruct (IH (exec (pointer_ops i) (exec (data_ops adapt_none i s) d)) (Some (i, s)) p3 post) with (slot := slot) as (s' & HS' & C'); auto.
          -- split; [unfold pointer, pointer_ops; rewrite exec_write; auto|]. apply ND. intros f Hf. apply exec_other.
             intros o Ho. apply write_file_files in Ho. congruence.
          -- exists s'. split; auto. destruct HS' as [HS'|HS']; [inversion HS'; subst; right; left; auto|right; right; auto].
  Qed.

  (** C42: wherever a run is interrupted, if the last-checkpoint file names a directory, that directory holds a
      complete checkpoint of this run (or the one the file named at the start). *)
  Theorem checkpoint_crash_safe : forall ws (d : fs) prev pre post,
    match prev with Some (i, s) => pointer d = Some i /\ complete d i s | None => pointer d = None end ->
    moves (option_map fst prev) ws -> run_ops ws = pre ++ post ->
    forall slot, pointer (exec pre d) = Some slot ->
    exists s, (prev = Some (slot, s) \/ In (slot, s) ws) /\ complete (exec pre d) slot s.
  Proof. exact crash_aux. Qed.

  (** C42: and from the start of a checkpoint to the update of the file it names the previous one. *)
  Theorem checkpoint_previous_survives : forall ws i s j s' ws' (d : fs) pre post,
    moves None (ws ++ (i, s) :: (j, s') :: ws') -> data_ops adapt_none j s' = pre ++ post ->
    let d' := exec (run_ops (ws ++ [(i, s)]) ++ pre) d in
    pointer d' = Some i /\ complete d' i s.
  Proof.
    intros ws i s j s' ws' d pre post HM HP. cbv zeta.
    assert (Hij : i <> j).
    { clear -HM. revert HM. generalize (@None nat). induction ws as [|w ws IH]; intros p HM; cbn [app moves fst] in HM.
      - destruct HM as (_ & H & _). congruence.
      - destruct HM as [_ HM]. eauto. }
    unfold run_ops. rewrite map_app, concat_app. cbn [map concat fst snd]. rewrite app_nil_r. unfold write_ops. rewrite !exec_app.
    set (d0 := exec (concat _) d). destruct (during_data j s' pre post (exec (pointer_ops i) (exec (data_ops adapt_none i s) d0)) HP) as [D1 D2].
    split; [unfold pointer; rewrite D1; unfold pointer_ops; rewrite exec_write; auto|]. apply D2; auto.
    eapply complete_ext; [|apply data_complete]. intros f Hf. apply exec_other. intros o Ho. apply write_file_files in Ho. congruence.
  Qed.

  (** Found: while the last-checkpoint file itself is rewritten in place, it names no directory. *)
  Theorem pointer_update_not_atomic_refuted : forall i s j s' (d : fs),
    exists pre post, run_ops [(i, s); (j, s')] = pre ++ post /\ length (run_ops [(i, s)]) < length pre /\ pointer (exec pre d) = None.
  Proof.
    intros i s j s' d. exists (run_ops [(i, s)] ++ data_ops adapt_none j s' ++ [Trunc Last]), (map (Append Last) (DirLine j :: repeat OtherLine 8)).
    split; [unfold run_ops, write_ops; cbn [map concat fst snd]; rewrite !app_nil_r, <- !app_assoc; reflexivity|]. split.
    - rewrite !app_length. cbn. lia.
    - rewrite !exec_app. unfold pointer. cbn. auto.
  Qed.
  (** Found: with one slot, the checkpoint the file names is destroyed while the next one is written. *)
  Theorem one_slot_not_safe_refuted : forall i s s' (d : fs),
    exists pre post, run_ops [(i, s); (i, s')] = pre ++ post /\ pointer (exec pre d) = Some i /\ forall s'', ~ complete (exec pre d) i s''.
  Proof.
    intros i s s' d. exists (run_ops [(i, s)] ++ [Trunc (TsBin i)]), (tl (data_ops adapt_none i s') ++ pointer_ops i). split.
    - unfold run_ops, write_ops. cbn [map concat fst snd]. rewrite !app_nil_r, <- !app_assoc. reflexivity.
    - rewrite exec_app. split.
      + unfold pointer. cbn [exec fold_left step_op]. destruct (file_dec Last (TsBin i)); [discriminate|].
        unfold run_ops, write_ops. cbn [map concat fst snd]. rewrite app_nil_r, exec_app. unfold pointer_ops. rewrite exec_write. auto.
      + intros s'' (A & _). cbn [exec fold_left step_op] in A. destruct (file_dec (TsBin i) (TsBin i)); [|congruence]. discriminate.
  Qed.
End Files.
Print Assumptions checkpoint_restores_state.
Print Assumptions checkpoint_crash_safe.
Print Assumptions checkpoint_previous_survives.

Lemma nth_error_firstn_lt {A} : forall n (l : list A) i, i < n -> nth_error (firstn n l) i = nth_error l i.
Proof. induction n as [|n IH]; intros l i H; [lia|]. destruct l as [|x l]; [destruct i; auto|]. destruct i; auto. cbn. apply IH. lia. Qed.
Lemma nth_error_skipn_add {A} : forall n (l : list A) i, nth_error (skipn n l) i = nth_error l (n + i).
Proof. induction n as [|n IH]; intros l i; auto. destruct l as [|x l]; [destruct i; auto|]. cbn. apply IH. Qed.

(** * When checkpoints are taken *)
Local Open Scope R_scope.
Lemma Rge_b_true x y : Rge_b x y = true <-> x >= y.
Proof. unfold Rge_b. destruct (Rge_dec x y); split; intro; try discriminate; tauto. Qed.
Lemma Rge_b_false x y : Rge_b x y = false <-> x < y.
Proof. unfold Rge_b. destruct (Rge_dec x y); split; intro; try discriminate; auto; lra. Qed.

Lemma checkpoints_length procs : forall calls cs out cs', checkpoints procs cs calls = Some (out, cs') -> length out = length calls.
Proof.
  induction calls as [|[[cpu st] t] calls IH]; intros cs out cs' H; cbn [checkpoints] in H; [inversion H; auto|].
  destruct (checkpoint_test (cs 0%nat) cpu st t) as [[c g]|]; [|discriminate]. cbn [bind] in H.
  destruct (checkpoints procs _ calls) as [[o c']|] eqn:E; [|discriminate]. cbn [bind] in H. inversion H; subst. cbn [length]. f_equal. eapply IH; eauto.
Qed.
(** The calls before and after one. *)
Lemma checkpoints_app procs : forall a b cs out cs', checkpoints procs cs (a ++ b) = Some (out, cs') ->
  exists oa ca ob, checkpoints procs cs a = Some (oa, ca) /\ checkpoints procs ca b = Some (ob, cs') /\ out = oa ++ ob.
Proof.
  induction a as [|[[cpu st] t] a IH]; intros b cs out cs' H.
  - exists [], cs, out. auto.
  - cbn [app checkpoints] in H |- *. destruct (checkpoint_test (cs 0%nat) cpu st t) as [[c g]|]; [|discriminate]. cbn [bind] in H |- *.
    destruct (checkpoints procs _ (a ++ b)) as [[o c']|] eqn:E; [|discriminate]. cbn [bind] in H. inversion H; subst.
    apply IH in E as (oa & ca & ob & E1 & E2 & ->). rewrite E1. cbn [bind]. eauto 10.
Qed.

(** What a call does to rank 0's counters. *)
Lemma test_facts c cpu st t c' g : checkpoint_test c cpu st t = Some (c', g) ->
  freq_step c' = freq_step c /\ freq_cpu c' = freq_cpu c /\ freq_phys c' = freq_phys c /\ mode c' = mode c /\ n c' = n c /\
  (g = false -> cputime_last c' = cputime_last c /\ time_last c' = time_last c /\ cpu - cputime_last c < freq_cpu c * 60 /\
     t - time_last c < freq_phys c /\ Z.rem st (freq_step c) <> 0%Z) /\
  (cputime_last c' = cputime_last c \/ cputime_last c' = cpu) /\ (time_last c' = time_last c \/ time_last c' = t) /\
  (g = true -> cpu - cputime_last c >= freq_cpu c * 60 \/ Z.rem st (freq_step c) = 0%Z \/ t - time_last c >= freq_phys c).
Proof.
  unfold checkpoint_test. destruct (freq_step c =? 0)%Z; [discriminate|]. intro H. inversion H; subst. clear H. cbn.
  destruct (Rge_b (cpu - cputime_last c) (freq_cpu c * 60)) eqn:E1; [apply Rge_b_true in E1|apply Rge_b_false in E1];
  (destruct (Rge_b (t - time_last c) (freq_phys c)) eqn:E3; [apply Rge_b_true in E3|apply Rge_b_false in E3]);
  (destruct (Z.rem st (freq_step c) =? 0)%Z eqn:E2; [apply Z.eqb_eq in E2|apply Z.eqb_neq in E2]); cbn;
  (split; [auto|]; split; [auto|]; split; [auto|]; split; [auto|]; split; [auto|]; split; [intro Q; try discriminate Q; auto|]; split; [auto|]; split; [auto|]);
  intro Q; try discriminate Q; auto.
Qed.

Lemma due_aux procs : forall calls cs out cs' t0 c0, checkpoints procs cs calls = Some (out, cs') ->
  time_last (cs 0%nat) <= t0 -> cputime_last (cs 0%nat) <= c0 ->
  forall j cpu st t, nth_error calls j = Some (cpu, st, t) ->
    t - t0 >= freq_phys (cs 0%nat) \/ cpu - c0 >= freq_cpu (cs 0%nat) * 60 \/ Z.rem st (freq_step (cs 0%nat)) = 0%Z ->
    exists k slot, (k <= j)%nat /\ nth_error out k = Some (Some slot) /\ (Z.rem st (freq_step (cs 0%nat)) = 0%Z -> exists slot', nth_error out j = Some (Some slot')).
Proof.
  induction calls as [|[[cpu0 st0] tt0] calls IH]; intros cs out cs' t0 c0 H H1 H2 j cpu st t Hj HD; [destruct j; discriminate|].
  cbn [checkpoints] in H. destruct (checkpoint_test (cs 0%nat) cpu0 st0 tt0) as [[c g]|] eqn:ET; [|discriminate]. cbn [bind snd] in H.
  destruct (checkpoints procs _ calls) as [[o c']|] eqn:E; [|discriminate]. cbn [bind fst snd] in H. inversion H; subst out c'. clear H.
  pose proof (test_facts _ _ _ _ _ _ ET) as (F1 & F2 & F3 & F4 & F5 & F6 & F7 & F8 & F9).
  set (cs1 := fun q => _) in E.
  assert (C1 : cs1 0%nat = if g then next c else c) by (unfold cs1; rewrite ET; auto).
  assert (FR : freq_step (cs1 0%nat) = freq_step (cs 0%nat) /\ freq_phys (cs1 0%nat) = freq_phys (cs 0%nat) /\ freq_cpu (cs1 0%nat) = freq_cpu (cs 0%nat)).
  { rewrite C1. destruct g; cbn; auto. }
  destruct FR as (FR1 & FR2 & FR3).
  destruct j as [|j].
  - cbn in Hj. inversion Hj; subst. destruct g.
    + eexists 0%nat. eexists. split; [lia|]. split; [reflexivity|]. intros _. eexists. reflexivity.
    + exfalso. destruct (F6 eq_refl) as (_ & _ & G1 & G2 & G3). destruct HD as [HD|[HD|HD]]; [lra|lra|tauto].
  - cbn in Hj.
    assert (ST : Z.rem st (freq_step (cs 0%nat)) = 0%Z -> exists slot', nth_error o j = Some (Some slot')).
    { intro Z0. destruct (IH cs1 o cs' (Rmax (time_last (cs1 0%nat)) 0) (Rmax (cputime_last (cs1 0%nat)) 0) E (Rmax_l _ _) (Rmax_l _ _) j cpu st t Hj) as (k & slot & _ & _ & X).
      - right. right. congruence.
      - apply X. congruence. }
    destruct g eqn:Eg.
    + eexists 0%nat. eexists. split; [lia|]. split; [reflexivity|]. intro Z0. apply ST; auto.
    + destruct (F6 eq_refl) as (G1 & G2 & _). destruct (IH cs1 o cs' t0 c0 E) with (j := j) (cpu := cpu) (st := st) (t := t) as (k & slot & K1 & K2 & K3); auto.
      * rewrite C1, G2. auto.
      * rewrite C1, G1. auto.
      * rewrite FR1, FR2, FR3. auto.
      * exists (S k), slot. split; [lia|]. split; auto.
Qed.

Lemma bounds procs : forall calls cs out cs' M Mc, checkpoints procs cs calls = Some (out, cs') ->
  time_last (cs 0%nat) <= M -> cputime_last (cs 0%nat) <= Mc -> (forall cpu st t, In (cpu, st, t) calls -> t <= M /\ cpu <= Mc) ->
  time_last (cs' 0%nat) <= M /\ cputime_last (cs' 0%nat) <= Mc /\ freq_phys (cs' 0%nat) = freq_phys (cs 0%nat) /\ freq_cpu (cs' 0%nat) = freq_cpu (cs 0%nat) /\
  freq_step (cs' 0%nat) = freq_step (cs 0%nat).
Proof.
  induction calls as [|[[cpu0 st0] tt0] calls IH]; intros cs out cs' M Mc H H1 H2 HI; [inversion H; subst; auto|].
  cbn [checkpoints] in H. destruct (checkpoint_test (cs 0%nat) cpu0 st0 tt0) as [[c g]|] eqn:ET; [|discriminate]. cbn [bind snd] in H.
  destruct (checkpoints procs _ calls) as [[o c']|] eqn:E; [|discriminate]. cbn [bind fst snd] in H. inversion H; subst out c'. clear H.
  pose proof (test_facts _ _ _ _ _ _ ET) as (F1 & F2 & F3 & F4 & F5 & F6 & F7 & F8 & F9). destruct (HI cpu0 st0 tt0 (or_introl eq_refl)) as [B1 B2].
  eapply IH in E; [|rewrite ET| rewrite ET|intros; eapply HI; right; eauto].
  - destruct E as (A & B & C & D & F). rewrite ET in C, D, F. split; [exact A|]. split; [exact B|]. destruct g; cbn in C, D, F; repeat split; congruence.
  - destruct g; cbn; destruct F8 as [-> | ->]; auto.
  - destruct g; cbn; destruct F7 as [-> | ->]; auto.
Qed.

(** C43: a checkpoint is taken at every call whose step number is a multiple of the interval, and between any two
    calls (after the first, up to the second) that are at least the physical time interval, or the CPU time
    interval, apart. *)
Theorem checkpoint_taken_when_due : forall procs cs calls out cs',
  checkpoints procs cs calls = Some (out, cs') ->
  (forall i j cpu st t cpu' st' t', (i < j)%nat -> nth_error calls i = Some (cpu, st, t) -> nth_error calls j = Some (cpu', st', t') -> t <= t' /\ cpu <= cpu') ->
  (forall j cpu st t, nth_error calls j = Some (cpu, st, t) -> time_last (cs 0%nat) <= t /\ cputime_last (cs 0%nat) <= cpu) ->
  (forall j cpu st t, nth_error calls j = Some (cpu, st, t) -> Z.rem st (freq_step (cs 0%nat)) = 0%Z -> exists slot, nth_error out j = Some (Some slot)) /\
  (forall i j cpu st t cpu' st' t', (i < j)%nat -> nth_error calls i = Some (cpu, st, t) -> nth_error calls j = Some (cpu', st', t') ->
     t' - t >= freq_phys (cs 0%nat) \/ cpu' - cpu >= freq_cpu (cs 0%nat) * 60 ->
     exists k slot, (i < k <= j)%nat /\ nth_error out k = Some (Some slot)).
Proof.
  intros procs cs calls out cs' H HM H0. split.
  - intros j cpu st t Hj HZ. destruct (due_aux procs calls cs out cs' (Rmax (time_last (cs 0%nat)) 0) (Rmax (cputime_last (cs 0%nat)) 0) H (Rmax_l _ _) (Rmax_l _ _) j cpu st t Hj) as (k & s & _ & _ & X); auto.
  - intros i j cpu st t cpu' st' t' Hij Hi Hj HD.
    assert (SP : calls = firstn (S i) calls ++ skipn (S i) calls) by (symmetry; apply firstn_skipn). rewrite SP in H.
    assert (Li : (i < length calls)%nat) by (apply nth_error_Some; congruence).
    apply checkpoints_app in H as (oa & ca & ob & E1 & E2 & ->). pose proof (checkpoints_length _ _ _ _ _ E1) as L1. rewrite firstn_length_le in L1 by lia.
    destruct (bounds procs _ cs oa ca t cpu E1) as (B1 & B2 & B3 & B4 & B5).
    { destruct (H0 i cpu st t Hi). auto. }
    { destruct (H0 i cpu st t Hi). auto. }
    { intros cp0 s0 t0 Hin. apply In_nth_error in Hin as (q & Hq). assert (Hq' : (q < length (firstn (S i) calls))%nat) by (apply nth_error_Some; rewrite Hq; discriminate). rewrite firstn_length_le in Hq' by lia.
      rewrite nth_error_firstn_lt in Hq by lia. destruct (Nat.eq_dec q i) as [->|Ne].
      - rewrite Hi in Hq. inversion Hq; subst. lra.
      - apply (HM q i cp0 s0 t0 cpu st t); auto. lia. }
    destruct (due_aux procs _ ca ob cs' t cpu E2 B1 B2 (j - S i)%nat cpu' st' t') as (k & slot & K1 & K2 & _).
    { rewrite nth_error_skipn_add. rewrite <- Hj. f_equal. lia. }
    { rewrite B3, B4. tauto. }
    exists (S i + k)%nat, slot. split; [lia|]. rewrite nth_error_app2 by lia. rewrite <- K2. f_equal. lia.
Qed.
Print Assumptions checkpoint_taken_when_due.

(** C42: the directories of one run: with at least two slots, or one directory per step, no checkpoint goes to the
    directory of the one before. *)
Fixpoint written {S : Type} (out : list (option nat)) (states : list S) : list (nat * S) :=
  match out, states with
  | Some slot :: o, s :: t => (slot, s) :: written o t
  | None :: o, _ :: t => written o t
  | _, _ => []
  end.
Lemma mod_succ_neq a k : (2 <= k)%nat -> a mod k <> (a + 1) mod k.
Proof.
  intros Hk H. pose proof (Nat.div_mod a k ltac:(lia)) as A. pose proof (Nat.div_mod (a + 1) k ltac:(lia)) as B. rewrite H in A.
  pose proof (Nat.mod_upper_bound (a + 1) k ltac:(lia)). set (r := (a + 1) mod k) in *. set (q := (a / k)%nat) in *. set (q' := ((a + 1) / k)%nat) in *.
  assert (k * q' = k * q + 1)%nat by lia. assert (q' = q \/ q' <= q - 1 \/ q' >= q + 1)%nat as [->|[X|X]] by lia; nia.
Qed.
Theorem slots_move : forall {Real Vec Opq} procs cs calls out cs' (states : list (ts Real Vec Opq)),
  checkpoints procs cs calls = Some (out, cs') ->
  match mode (cs 0%nat) with
  | Limited size => (2 <= size)%nat
  | Unlimited => forall i j cpu st t cpu' st' t', (i < j)%nat -> nth_error calls i = Some (cpu, st, t) -> nth_error calls j = Some (cpu', st', t') -> (0 <= st < st')%Z
  end ->
  moves None (written out states).
Proof.
  intros Real Vec Opq procs cs calls out cs' states H HM.
  assert (G : forall calls cs out cs' (states : list (ts Real Vec Opq)) prev,
    checkpoints procs cs calls = Some (out, cs') ->
    match mode (cs 0%nat) with
    | Limited size => (2 <= size)%nat /\ match prev with Some p => exists m, p = m mod size /\ n (cs 0%nat) = (m + 1)%nat | None => True end
    | Unlimited => (forall i j cpu st t cpu' st' t', (i < j)%nat -> nth_error calls i = Some (cpu, st, t) -> nth_error calls j = Some (cpu', st', t') -> (0 <= st < st')%Z) /\
        match prev with Some p => forall cpu st t, In (cpu, st, t) calls -> (Z.of_nat p < st)%Z | None => True end
    end -> moves prev (written out states)).
  2:{ apply (G calls cs out cs' states None H). destruct (mode (cs 0%nat)); auto. }
  clear. induction calls as [|[[cpu0 st0] tt0] calls IH]; intros cs out cs' states prev H HM; [inversion H; subst; cbn; auto|].
  cbn [checkpoints] in H. destruct (checkpoint_test (cs 0%nat) cpu0 st0 tt0) as [[c g]|] eqn:ET; [|discriminate]. cbn [bind snd] in H.
  destruct (checkpoints procs _ calls) as [[o c']|] eqn:E; [|discriminate]. cbn [bind fst snd] in H. inversion H; subst out c'. clear H.
  pose proof (test_facts _ _ _ _ _ _ ET) as (F1 & F2 & F3 & F4 & F5 & _).
  destruct states as [|s states]; [destruct g; cbn; auto|].
  assert (SH : forall i j cpu st t cpu' st' t', (forall i j cpu st t cpu' st' t', (i < j)%nat -> nth_error ((cpu0, st0, tt0) :: calls) i = Some (cpu, st, t) -> nth_error ((cpu0, st0, tt0) :: calls) j = Some (cpu', st', t') -> (0 <= st < st')%Z) ->
     (i < j)%nat -> nth_error calls i = Some (cpu, st, t) -> nth_error calls j = Some (cpu', st', t') -> (0 <= st < st')%Z).
  { intros i j cpu st t cpu' st' t' HH Hij Hi Hj. apply (HH (Datatypes.S i) (Datatypes.S j) cpu st t cpu' st' t'); auto. lia. }
  destruct g; cbn [written].
  - cbn [moves fst]. split.
    + unfold slot_of. destruct (mode (cs 0%nat)) as [|size].
      * destruct HM as [_ HM]. destruct prev as [p|]; [|discriminate]. specialize (HM cpu0 st0 tt0 (or_introl eq_refl)). intro X. inversion X; subst. lia.
      * destruct HM as [H2 HM]. destruct prev as [p|]; [|discriminate]. destruct HM as (m & -> & ->). intro X. injection X as X. apply (mod_succ_neq m size H2). auto.
    + eapply IH; [exact E|]. cbv beta. rewrite ET. cbn. rewrite F4. unfold slot_of. destruct (mode (cs 0%nat)) as [|size].
      * destruct HM as [HM _]. split; [intros; eapply SH; eauto|]. intros cpu st t Hin. apply In_nth_error in Hin as (q & Hq).
        pose proof (HM 0%nat (Datatypes.S q) cpu0 st0 tt0 cpu st t ltac:(lia) eq_refl Hq). lia.
      * destruct HM as [H2 _]. split; auto. exists (n (cs 0%nat)). rewrite F5. auto.
  - eapply IH; [exact E|]. cbv beta. rewrite ET. rewrite F4. destruct (mode (cs 0%nat)) as [|size].
    + destruct HM as [HM HP]. split; [intros; eapply SH; eauto|]. destruct prev as [p|]; auto. intros cpu st t Hin. apply (HP cpu st t). right. auto.
    + rewrite F5. auto.
Qed.

(** C42: all ranks compute the same directory, though their clocks differ. *)
Theorem slots_agree_on_ranks : forall procs cs calls out cs', checkpoints procs cs calls = Some (out, cs') ->
  (forall q, n (cs q) = n (cs 0%nat) /\ mode (cs q) = mode (cs 0%nat) /\ freq_step (cs q) = freq_step (cs 0%nat)) ->
  forall q step, slot_of (cs' q) step = slot_of (cs' 0%nat) step.
Proof.
  intros procs cs calls out cs' H HA.
  cut (forall q, n (cs' q) = n (cs' 0%nat) /\ mode (cs' q) = mode (cs' 0%nat) /\ freq_step (cs' q) = freq_step (cs' 0%nat)).
  { intros G q step. unfold slot_of. destruct (G q) as (-> & -> & _). auto. }
  revert cs out cs' H HA. induction calls as [|[[cpu0 st0] tt0] calls IH]; intros cs out cs' H HA; [inversion H; subst; auto|].
  cbn [checkpoints] in H. destruct (checkpoint_test (cs 0%nat) cpu0 st0 tt0) as [[c g]|] eqn:ET; [|discriminate]. cbn [bind snd] in H.
  destruct (checkpoints procs _ calls) as [[o c']|] eqn:E; [|discriminate]. cbn [bind fst snd] in H. inversion H; subst out c'. clear H.
  eapply IH; [exact E|]. intro q. cbv beta. rewrite ET. destruct (HA q) as (A & B & C).
  pose proof (test_facts _ _ _ _ _ _ ET) as (F1 & F2 & F3 & F4 & F5 & _).
  destruct (checkpoint_test (cs q) cpu0 st0 tt0) as [[c1 g1]|] eqn:EQ.
  - pose proof (test_facts _ _ _ _ _ _ EQ) as (G1 & G2 & G3 & G4 & G5 & _). destruct g; cbn; repeat split; congruence.
  - exfalso. unfold checkpoint_test in ET, EQ. rewrite C in EQ. destruct (freq_step (cs 0%nat) =? 0)%Z; discriminate.
Qed.
Print Assumptions slots_agree_on_ranks.

(** C43: conversely there is a reason for every checkpoint. *)
Theorem checkpoint_only_when_due : forall procs cs calls out cs' j cpu st t slot,
  checkpoints procs cs calls = Some (out, cs') -> nth_error calls j = Some (cpu, st, t) -> nth_error out j = Some (Some slot) ->
  Z.rem st (freq_step (cs 0%nat)) = 0%Z \/
  (exists t0, (t0 = time_last (cs 0%nat) \/ exists i cpu' st', (i < j)%nat /\ nth_error calls i = Some (cpu', st', t0)) /\ t - t0 >= freq_phys (cs 0%nat)) \/
  (exists c0, (c0 = cputime_last (cs 0%nat) \/ exists i st' t', (i < j)%nat /\ nth_error calls i = Some (c0, st', t')) /\ cpu - c0 >= freq_cpu (cs 0%nat) * 60).
Proof.
  intros procs cs calls out cs' j cpu st t slot. revert cs out cs' j. induction calls as [|[[cpu0 st0] tt0] calls IH]; intros cs out cs' j H Hj Ho; [destruct j; discriminate|].
  cbn [checkpoints] in H. destruct (checkpoint_test (cs 0%nat) cpu0 st0 tt0) as [[c g]|] eqn:ET; [|discriminate]. cbn [bind snd] in H.
  destruct (checkpoints procs _ calls) as [[o c']|] eqn:E; [|discriminate]. cbn [bind fst snd] in H. inversion H; subst out c'. clear H.
  pose proof (test_facts _ _ _ _ _ _ ET) as (F1 & F2 & F3 & F4 & F5 & F6 & F7 & F8 & F9). destruct j as [|j].
  - cbn in Hj, Ho. inversion Hj; subst. destruct g; [|discriminate]. destruct (F9 eq_refl) as [X|[X|X]]; [right; right; eexists; split; [left; reflexivity|auto]|auto|right; left; eexists; split; [left; reflexivity|auto]].
  - cbn in Hj, Ho. specialize (IH _ _ _ j E Hj Ho). cbv beta in IH. rewrite ET in IH.
    assert (Q1 : freq_step (if g then next c else c) = freq_step (cs 0%nat)) by (destruct g; auto).
    assert (Q2 : freq_phys (if g then next c else c) = freq_phys (cs 0%nat)) by (destruct g; auto).
    assert (Q3 : freq_cpu (if g then next c else c) = freq_cpu (cs 0%nat)) by (destruct g; auto).
    assert (Q4 : time_last (if g then next c else c) = time_last c) by (destruct g; auto).
    assert (Q5 : cputime_last (if g then next c else c) = cputime_last c) by (destruct g; auto).
    rewrite Q1, Q2, Q3, Q4, Q5 in IH. destruct IH as [IH|[(t0 & A & B)|(c0 & A & B)]]; [auto| |].
    + right. left. exists t0. split; auto. destruct A as [A|(i & a & b & Hi & A)]; [|right; exists (S i), a, b; split; [lia|auto]].
      destruct F8 as [X|X]; [left; congruence|]. right. exists 0%nat, cpu0, st0. split; [lia|]. cbn. congruence.
    + right. right. exists c0. split; auto. destruct A as [A|(i & a & b & Hi & A)]; [|right; exists (S i), a, b; split; [lia|auto]].
      destruct F7 as [X|X]; [left; congruence|]. right. exists 0%nat, st0, tt0. split; [lia|]. cbn. congruence.
Qed.
Print Assumptions checkpoint_only_when_due.

(** * Both together: a run of the time stepper. *)
Section Run.
  Context {Real Vec Opq : Type}.
  Variable adapt_none : Opq.
  (** C42: a run that starts without a last-checkpoint file and is interrupted anywhere can be restarted from what
      that file names: the state restored is exactly the one passed to some earlier checkpoint call. *)
  Theorem restart_after_crash : forall procs cs calls out cs' (states : list (ts Real Vec Opq)) d pre post slot ops_load t,
    checkpoints procs cs calls = Some (out, cs') -> length states = length calls ->
    match mode (cs 0%nat) with
    | Limited size => (2 <= size)%nat
    | Unlimited => forall i j cpu st t cpu' st' t', (i < j)%nat -> nth_error calls i = Some (cpu, st, t) -> nth_error calls j = Some (cpu', st', t') -> (0 <= st < st')%Z
    end ->
    (forall s, In s states -> type_name s = 0%nat /\ adapt_obj s <> None /\ length (stages s) = length (stages t)) -> ops_load 0%nat = true ->
    pointer d = None -> run_ops adapt_none (written out states) = pre ++ post -> pointer (exec pre d) = Some slot ->
    exists i s, nth_error states i = Some s /\ nth_error out i = Some (Some slot) /\ checkpoint_load ops_load t (exec pre d) slot = Some s.
  Proof.
    intros procs cs calls out cs' states d pre post slot ops_load t H HL HM HS OL HP HE HPT.
    destruct (checkpoint_crash_safe adapt_none (written out states) d None pre post HP (slots_move procs cs calls out cs' states H HM) HE slot HPT) as (s & [X|Hin] & C); [discriminate|].
    assert (G : exists i, nth_error states i = Some s /\ nth_error out i = Some (Some slot)).
    { clear -Hin. revert states Hin. induction out as [|[x|] out IH]; intros [|s0 states] Hin; cbn [written] in Hin; try (destruct Hin; fail).
      - destruct Hin as [Hin|Hin]; [inversion Hin; subst; exists 0%nat; auto|]. destruct (IH states Hin) as (i & A & B). exists (S i). auto.
      - destruct (IH states Hin) as (i & A & B). exists (S i). auto. }
    destruct G as (i & G1 & G2). exists i, s. split; auto. split; auto.
    destruct (HS s (nth_error_In _ _ G1)) as (A & B & E). apply (checkpoint_restores_state adapt_none); auto.
  Qed.
End Run.
Print Assumptions restart_after_crash.

(** Found: the checkpoint counter is not restored, so after a restart with limited storage the first checkpoint may
    go to the very directory the last-checkpoint file names. *)
Theorem restart_overwrites_slot_refuted : exists size d (s s' : ts unit unit unit) slot,
  (2 <= size)%nat /\ pointer d = Some slot /\ complete tt d slot s /\
  (* the first checkpoint of a new run *)
  slot_of (mkCP 1 0 0 0 0 0 (Limited size)) 101 = slot /\
  exists pre post, write_ops tt slot s' = pre ++ post /\ pointer (exec pre d) = Some slot /\ forall s'', ~ complete tt (exec pre d) slot s''.
Proof.
  pose (a := mkA (Real := unit) true tt tt tt tt tt tt tt true tt tt tt 0%Z 0%Z).
  pose (s := mkT (Real := unit) (Vec := unit) (Opq := unit) 0%nat 100%Z tt tt tt tt tt (Some tt) tt tt tt a [tt]).
  exists 2%nat, (exec (write_ops tt 0%nat s) (fun _ => None)), s, s, 0%nat. split; [lia|]. split; [reflexivity|]. split.
  { unfold write_ops. rewrite exec_app. eapply complete_ext; [|apply data_complete]. intros f Hf. apply exec_other. intros o Ho. apply write_file_files in Ho. congruence. }
  split; [reflexivity|]. exists [Trunc (TsBin 0)], (tl (write_ops tt 0%nat s)). split; [reflexivity|]. split; [reflexivity|].
  intros s'' (A & _). cbn in A. discriminate.
Qed.
(** Found: for a time stepper type without load function, whose TSAdapt does not exist yet, the TSAdapt object is
    read twice and loading fails. *)
Theorem adapt_loaded_twice_refuted : exists (s t : ts unit unit unit) d,
  complete tt d 0%nat s /\ stages t = stages s /\ adapt_obj t = None /\ checkpoint_load (fun _ => false) t d 0%nat <> Some s.
Proof.
  pose (a := mkA (Real := unit) true tt tt tt tt tt tt tt true tt tt tt 0%Z 0%Z).
  exists (mkT 1%nat 100%Z tt tt tt tt tt (Some tt) tt tt tt a []), (mkT 1%nat 0%Z tt tt tt tt tt None tt tt tt a []).
  exists (exec (data_ops tt 0%nat (mkT 1%nat 100%Z tt tt tt tt tt (Some tt) tt tt tt a [])) (fun _ => None)).
  split; [apply data_complete|]. split; auto. split; auto. cbn. discriminate.
Qed.
(** Found: an interval of zero steps is a remainder by zero. *)
Theorem zero_step_interval_refuted : exists c cpu st t, checkpoint_test c cpu st t = None.
Proof. exists (mkCP 0 0 0 0 0 0 Unlimited), 0, 1%Z, 0. reflexivity. Qed.

(** Two slots, a checkpoint at every step. *)
Lemma test_every_step c cpu st t : freq_step c = 1%Z -> cpu - cputime_last c < freq_cpu c * 60 -> t - time_last c < freq_phys c ->
  checkpoint_test c cpu st t = Some (c, true).
Proof.
  intros F A B. unfold checkpoint_test. rewrite F. cbn [Z.eqb]. apply Rge_b_false in A. apply Rge_b_false in B. rewrite A, B. rewrite Z.rem_1_r.
  cbn. destruct c; cbn in F; subst; auto.
Qed.
Example run_ex : let c := mkCP 1 1000 1000 0 0 0 (Limited 2) in
  exists cs', checkpoints 4 (fun _ => c) [(0, 1%Z, 1); (0, 2%Z, 2); (1, 3%Z, 3)] = Some ([Some 0; Some 1; Some 0]%nat, cs').
Proof.
  intro c. cbn [checkpoints]. rewrite (test_every_step c) by (cbn; auto; lra). cbn [bind snd]. rewrite (test_every_step (next c)) by (cbn; auto; lra). cbn [bind snd].
  rewrite (test_every_step (next (next c))) by (cbn; auto; lra). cbn [bind fst snd]. eexists. reflexivity.
Qed.
