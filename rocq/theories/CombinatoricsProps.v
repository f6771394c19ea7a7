(** Property theorems: enumeration of k-subsets and integer sums (C06). *)
Require Import List Arith Lia Bool Sorted Permutation.
Require Import Verif.Base Verif.CombinatoricsModel Verif.CombinatoricsProofs.
Import ListNotations.
Local Open Scope opt_scope.

(** Specification vocabulary.  A k-subset of {0..n-1} is written as its increasing list. *)
Definition is_subset (n k : nat) (c : list nat) : Prop :=
  length c = k /\ (forall x, In x c -> x < n) /\ StronglySorted lt c.
(** Lexicographic order of lists of equal length. *)
Inductive lexlt : list nat -> list nat -> Prop :=
| lex_here a b t u : a < b -> lexlt (a :: t) (b :: u)
| lex_there a t u : lexlt t u -> lexlt (a :: t) (a :: u).

Lemma cvalid_sorted n : forall c lo, cvalid lo n c <->
  (forall x, In x c -> lo <= x < n) /\ StronglySorted lt c.
Proof.
  induction c as [|a t IH]; intro lo.
  - simpl. split; auto. intros _; split; [tauto|constructor].
  - cbn [cvalid]. rewrite IH. split.
    + intros (A & B & C & D). split.
      * intros x [<-|Hx]; [lia|]. apply C in Hx. lia.
      * constructor; auto. apply Forall_forall. intros x Hx. apply C in Hx. lia.
    + intros [A S]. inversion S as [|? ? S' F]; subst. rewrite Forall_forall in F.
      split; [apply A; left; auto|]. split; [apply A; left; auto|]. split; auto.
      intros x Hx. specialize (F x Hx). split; [lia|]. apply A; right; auto.
Qed.
Lemma cset_subset n k c : cset n k c <-> is_subset n k c.
Proof.
  unfold cset, is_subset. rewrite cvalid_sorted. split; intros (A & B & C); repeat split; auto.
  - intros; apply B; auto.
  - lia.
Qed.
Lemma lex_lexlt : forall c d, lex c d -> lexlt c d.
Proof.
  induction c as [|a t IH]; intros [|b u] H; try contradiction.
  destruct H as [H|[-> H]]; [apply lex_here|apply lex_there]; auto.
Qed.

(** C06a: binom(n,k) = n! / (k! (n-k)!) for k <= n. *)
Theorem binom_correct : forall n k, k <= n ->
  exists b, binom n k = Some b /\ b * (Factorial.fact k * Factorial.fact (n - k)) = Factorial.fact n.
Proof. exact binom_spec. Qed.
Print Assumptions binom_correct.

(** C06b: the do-while loop over Choose<k>(n) terminates and visits every k-subset of {0..n-1},
    each once, in increasing lexicographic order, binom(n,k) in total. *)
Theorem choose_enumerates : forall n k, k <= n ->
  exists fuel l, choose_all fuel n (choose_begin k) = Some l /\
    (forall c, In c l <-> is_subset n k c) /\ NoDup l /\
    StronglySorted lexlt l /\ binom n k = Some (length l).
Proof.
  intros n k H. exists (n ^ k).
  destruct (choose_enum_spec n k H (n ^ k) (le_n _)) as (l & E & S & I).
  exists l. split; auto.
  assert (ND : NoDup l) by (eapply sorted_NoDup; eauto).
  split; [intro c; rewrite I; apply cset_subset|]. split; auto. split.
  - assert (F : forall c, In c l -> cset n k c) by (intro; apply I). clear I E ND.
    induction S as [|a l S IH Ha]; constructor.
    + apply IH. intros; apply F; right; auto.
    + rewrite Forall_forall in *. intros z Hz. apply lex_lexlt.
      destruct (F a (or_introl eq_refl)) as [La Va]. destruct (F z (or_intror Hz)) as [Lz Vz].
      eapply cval_lex; eauto. congruence.
  - rewrite (subsets_length n k 0 H). f_equal. apply same_members_length; auto.
    + apply subsets_NoDup.
    + intro c. rewrite subsets_In, I. reflexivity.
Qed.
Print Assumptions choose_enumerates.

Example choose_ex : choose_all 99 4 (choose_begin 2) = Some [[0;1];[0;2];[0;3];[1;2];[1;3];[2;3]].
Proof. reflexivity. Qed.

(** C06c: the loop over AllIntegerSums<D>(N) terminates and visits every D-tuple of naturals with
    sum at most N (sum equal to N if EnableLess is false) exactly once; there are
    binom(N+D,D) of them in the first case. *)
Theorem integer_sums_enumerate : forall D N less, 0 < D ->
  exists fuel l, sums_loop fuel (sums_begin D less N) (sums_end D less N) = Some l /\
    NoDup l /\
    (forall x, In x l <-> length x = D /\ (if less then list_sum x <= N else list_sum x = N)) /\
    (less = true -> binom (N + D) D = Some (length l)).
Proof.
  intros D N less HD. rewrite sums_end_mend by auto.
  set (b := sums_begin D less N).
  assert (Vb : mset D N b /\ lst b = (if less then 0 else N)).
  { unfold b, sums_begin, sums_iter. destruct less.
    - replace D with (S (D - 1)) by lia. rewrite repeat_snoc. unfold mset, lst. rewrite last_last.
      rewrite app_length, repeat_length. simpl. repeat split; try lia.
      clear. induction (D - 1) as [|n IH]; simpl; auto. destruct n; simpl in *; split; auto; lia.
    - unfold mset, lst. rewrite last_last.
      rewrite app_length, repeat_length. simpl. repeat split; try lia.
      clear. induction (D - 1) as [|n IH]; simpl; auto. destruct n; simpl in *; split; auto; lia. }
  destruct Vb as [Vb Lb].
  assert (Mb : mval (N + 2) b = (if less then 0 else N * (N + 2) ^ (D - 1))).
  { unfold b, sums_begin, sums_iter. destruct less.
    - generalize D. induction D0; simpl; auto. rewrite IHD0. lia.
    - generalize (D - 1). induction n; cbn [repeat app mval]; [simpl; lia|]. rewrite IHn. cbn [Nat.pow]. lia. }
  exists ((N + 2) ^ D).
  destruct (sums_enum D N HD ((N + 2) ^ D) b Vb ltac:(lia)) as (l & E & S & I).
  exists (map sums_deref l). split; [|split; [|split]].
  - apply sums_loop_enum; auto.
    + apply mset_not_end; auto.
    + intros y Hy. apply I; auto.
  - apply NoDup_map_inj; [|eapply sorted_NoDup; eauto].
    intros x y Hx Hy. apply (deref_inj D N); [apply I in Hx|apply I in Hy]; tauto.
  - intro x. rewrite in_map_iff. split.
    + intros (m & <- & Hm). apply I in Hm. destruct Hm as [Vm Hm].
      destruct (deref_spec D N m Vm) as [L Sm]. split; auto. rewrite Sm.
      destruct Vm as (Lm & Nm & Hl). destruct less; auto.
      pose proof (mval_lt_last (N + 2) m) as Q.
      destruct Q as [_ Q]. { destruct m; simpl in *; [lia|congruence]. }
      { apply (mset_small D N). repeat split; auto. }
      rewrite Lm in Q. rewrite Mb in Hm.
      assert (N * (N + 2) ^ (D - 1) < (lst m + 1) * (N + 2) ^ (D - 1)) by lia.
      apply Nat.mul_lt_mono_pos_r in H; [lia|].
      apply Nat.neq_0_lt_0. apply Nat.pow_nonzero. lia.
    + intros [L Sx]. destruct (deref_surj D N x HD L) as (m & Vm & Em & Lm).
      { destruct less; lia. }
      exists m. split; auto. apply I. split; auto. rewrite Mb.
      destruct less; [lia|]. rewrite Sx in Lm.
      pose proof Vm as (Lm' & Nm & Hl).
      pose proof (mval_lt_last (N + 2) m) as [Q _]. { destruct m; simpl in *; [lia|congruence]. }
      { apply (mset_small D N); auto. }
      rewrite Lm, Lm' in Q. auto.
  - intros ->. rewrite map_length. apply mset_count; auto.
    + eapply sorted_NoDup; eauto.
    + intro z. rewrite I, Mb. split; [tauto|]. intro; split; auto. lia.
Qed.
Print Assumptions integer_sums_enumerate.

Example sums_ex : sums_loop 99 (sums_begin 2 true 2) (sums_end 2 true 2)
  = Some [[0;0];[1;0];[0;1];[2;0];[1;1];[0;2]] /\
  sums_loop 99 (sums_begin 2 false 2) (sums_end 2 false 2) = Some [[2;0];[1;1];[0;2]].
Proof. split; reflexivity. Qed.
