Require Import List Arith ZArith Lia Bool Permutation.
Require Import Verif.Base Verif.LehmerModel.
Import ListNotations.

Definition unseen (seen : list nat) (i : nat) : bool := negb (seen_bit seen i).
Definition uidx (seen : list nat) (k : nat) : nat := length (filter (unseen seen) (seq 0 k)).

Lemma seen_bit_In seen i : seen_bit seen i = true <-> In i seen.
Proof.
  unfold seen_bit. rewrite existsb_exists. split.
  - intros (x & H & E). apply Nat.eqb_eq in E; subst; auto.
  - intro H. exists i. rewrite Nat.eqb_refl. auto.
Qed.

Lemma filter_split {A} (f : A -> bool) l :
  length (filter f l) + length (filter (fun x => negb (f x)) l) = length l.
Proof. induction l; simpl; auto. destruct (f a); simpl; lia. Qed.

Lemma count_uidx seen k : k - count_below (k :: seen) k = uidx seen k.
Proof.
  unfold count_below, uidx.
  assert (E : filter (seen_bit (k :: seen)) (seq 0 k) = filter (seen_bit seen) (seq 0 k)).
  { apply filter_ext_in. intros i Hi. apply in_seq in Hi. unfold seen_bit. cbn.
    destruct (Nat.eqb_spec i k); auto; lia. }
  rewrite E. pose proof (filter_split (seen_bit seen) (seq 0 k)) as S. rewrite seq_length in S.
  unfold unseen. lia.
Qed.

Fixpoint digits (p seen : list nat) : list nat :=
  match p with [] => [] | k :: ps => uidx seen k :: digits ps (k :: seen) end.
Lemma lehmer_digits p : forall seen, lehmer_loop p seen = digits p seen.
Proof. induction p; intro seen; cbn; auto. rewrite IHp. f_equal. apply count_uidx. Qed.

Lemma digits_length p : forall s, length (digits p s) = length p.
Proof. induction p; intro; simpl; auto. Qed.

(** uidx is strictly increasing over unseen elements *)
Lemma uidx_mono seen k k' : k < k' -> unseen seen k = true -> uidx seen k < uidx seen k'.
Proof.
  intros H U. unfold uidx.
  replace k' with (k + (1 + (k' - k - 1))) by lia.
  rewrite seq_app, filter_app, app_length. cbn. rewrite U. simpl. lia.
Qed.

Lemma uidx_inj seen k k' : unseen seen k = true -> unseen seen k' = true ->
  uidx seen k = uidx seen k' -> k = k'.
Proof.
  intros U U' E. destruct (Nat.lt_trichotomy k k') as [H|[H|H]]; auto.
  - pose proof (uidx_mono seen k k' H U). lia.
  - pose proof (uidx_mono seen k' k H U'). lia.
Qed.

Definition rem (N : nat) (seen : list nat) : nat := uidx seen N.

Lemma uidx_bound N seen k : k < N -> unseen seen k = true -> uidx seen k < rem N seen.
Proof. intros. apply uidx_mono; auto. Qed.

Lemma uidx_surj N seen d : d < rem N seen -> exists k, k < N /\ unseen seen k = true /\ uidx seen k = d.
Proof.
  unfold rem. induction N as [|N IH]; intro H; [cbn in H; lia|].
  unfold uidx in H. rewrite seq_S, filter_app, app_length in H. cbn in H.
  fold (uidx seen N) in H.
  destruct (lt_dec d (uidx seen N)) as [K|K].
  - destruct (IH K) as (k & A & B & C). exists k. auto.
  - destruct (unseen seen N) eqn:U; simpl in H; [|lia]. exists N. repeat split; auto. lia.
Qed.

Lemma rem_cons N seen k : k < N -> unseen seen k = true -> rem N (k :: seen) + 1 = rem N seen.
Proof.
  intros H U. unfold rem, uidx.
  replace N with (k + (1 + (N - k - 1))) by lia.
  rewrite !seq_app, !filter_app, !app_length. cbn [seq filter].
  assert (Uk : unseen (k :: seen) k = false).
  { unfold unseen, seen_bit. cbn. rewrite Nat.eqb_refl. auto. }
  rewrite Nat.add_0_l. rewrite Uk, U. cbn [length].
  assert (E : forall a n, (forall i, a <= i < a + n -> i <> k) ->
     filter (unseen (k :: seen)) (seq a n) = filter (unseen seen) (seq a n)).
  { intros a n Hne. apply filter_ext_in. intros i Hi. apply in_seq in Hi.
    unfold unseen, seen_bit. cbn. rewrite (proj2 (Nat.eqb_neq i k)); auto. }
  rewrite !E by (intros; lia). lia.
Qed.

Lemma rem_nil N : rem N [] = N.
Proof. unfold rem, uidx. induction N; auto. rewrite seq_S, filter_app, app_length, IHN. simpl. lia. Qed.

(** p continues seen: distinct, unseen, below N *)
Fixpoint cont (N : nat) (p seen : list nat) : Prop :=
  match p with [] => True | k :: ps => k < N /\ unseen seen k = true /\ cont N ps (k :: seen) end.

Fixpoint dvalid (L : list nat) : Prop :=
  match L with [] => True | d :: t => d <= length t /\ dvalid t end.

Lemma digits_valid N p : forall seen, cont N p seen -> rem N seen = length p -> dvalid (digits p seen).
Proof.
  induction p as [|k ps IH]; intros seen C R; cbn; auto. destruct C as (A & U & C).
  pose proof (rem_cons N seen k A U). pose proof (uidx_bound N seen k A U).
  cbn [length] in R. split.
  - rewrite digits_length. lia.
  - apply IH; auto. lia.
Qed.

Lemma digits_inj N p : forall q seen, cont N p seen -> cont N q seen -> length p = length q ->
  digits p seen = digits q seen -> p = q.
Proof.
  induction p as [|k ps IH]; intros [|k' qs] seen C C' L E; try discriminate; auto.
  cbn in E, C, C'. destruct C as (A & U & C), C' as (A' & U' & C').
  inversion E. apply uidx_inj in H0; auto. subst k'. f_equal. eapply IH; eauto.
Qed.

Lemma digits_surj N L : forall seen, dvalid L -> rem N seen = length L ->
  exists p, cont N p seen /\ length p = length L /\ digits p seen = L.
Proof.
  induction L as [|d t IH]; intros seen V R.
  - exists []. cbn. auto.
  - destruct V as [A V]. cbn [length] in R.
    destruct (uidx_surj N seen d ltac:(lia)) as (k & Hk & U & E).
    pose proof (rem_cons N seen k Hk U).
    destruct (IH (k :: seen) V ltac:(lia)) as (p & C & Lp & D).
    exists (k :: p). cbn. repeat split; auto. congruence.
Qed.

(** cont N p [] with length N is the same as being a permutation *)
Lemma cont_perm N p : length p = N -> (cont N p [] <-> Permutation p (seq 0 N)).
Proof.
  intro L.
  assert (G : forall q seen, cont N q seen <->
     (forall x, In x q -> x < N /\ ~ In x seen) /\ NoDup q).
  { induction q as [|k qs IH]; intro seen; cbn [cont].
    - split; auto. intros _. split; [intros x []|constructor].
    - rewrite IH. assert (U : unseen seen k = true <-> ~ In k seen).
      { unfold unseen. rewrite negb_true_iff, <- not_true_iff_false, seen_bit_In. tauto. }
      rewrite U. split.
      + intros (A & B & C & D). split.
        * intros x [<-|Hx]; auto. destruct (C x Hx) as [C1 C2]. split; auto. intro; apply C2; right; auto.
        * constructor; auto. intro Hk. destruct (C k Hk) as [_ C2]. apply C2; left; auto.
      + intros [A ND]. inversion ND; subst. split; [apply A; left; auto|].
        split; [apply A; left; auto|]. split; auto. intros x Hx. split; [apply A; right; auto|].
        intros [<-|Hx']; [auto|]. destruct (A x (or_intror Hx)) as [_ A2]. auto. }
  rewrite G. split.
  - intros [A ND]. apply NoDup_Permutation_bis; auto.
    + rewrite seq_length. lia.
    + intros x Hx. apply in_seq. destruct (A x Hx); lia.
  - intro P. split.
    + intros x Hx. apply (Permutation_in _ P) in Hx. apply in_seq in Hx. split; [lia|auto].
    + eapply Permutation_NoDup; [symmetry; exact P|apply seq_NoDup].
Qed.

(** mixed radix *)
Fixpoint enc (L : list nat) : nat :=
  match L with [] => 0 | d :: t => d * Factorial.fact (length t) + enc t end.

Lemma enc_bound L : dvalid L -> enc L < Factorial.fact (length L).
Proof.
  induction L as [|d t IH]; intro V; [cbn; auto|]. destruct V as [A V]. specialize (IH V).
  cbn [enc length Factorial.fact].
  assert (d * Factorial.fact (length t) <= length t * Factorial.fact (length t))
    by (apply Nat.mul_le_mono_r; auto).
  change (S (length t) * Factorial.fact (length t))
    with (Factorial.fact (length t) + length t * Factorial.fact (length t)). lia.
Qed.

Lemma enc_inj L : forall L', dvalid L -> dvalid L' -> length L = length L' -> enc L = enc L' -> L = L'.
Proof.
  induction L as [|d t IH]; intros [|d' t'] V V' Ln E; try discriminate; auto.
  destruct V as [A V], V' as [A' V']. cbn [enc] in E.
  assert (Lt : length t = length t') by (simpl in Ln; lia).
  pose proof (enc_bound t V) as B. pose proof (enc_bound t' V') as B'. rewrite Lt in *.
  assert (E' : Factorial.fact (length t') * d + enc t = Factorial.fact (length t') * d' + enc t') by lia.
  destruct (Nat.div_mod_unique _ d d' (enc t) (enc t') B B' E'). f_equal; auto.
Qed.

Lemma enc_surj n : forall v, v < Factorial.fact n -> exists L, length L = n /\ dvalid L /\ enc L = v.
Proof.
  induction n as [|n IH]; intros v H.
  - exists []. cbn in *. repeat split; auto. lia.
  - pose proof (Factorial.lt_O_fact n) as Hp.
    destruct (IH (v mod Factorial.fact n)) as (t & L & V & E); [apply Nat.mod_upper_bound; lia|].
    exists (v / Factorial.fact n :: t). cbn [length dvalid enc]. rewrite L, E. repeat split; auto.
    + apply Nat.lt_succ_r. apply Nat.div_lt_upper_bound; [lia|].
      cbn [Factorial.fact] in H. lia.
    + rewrite (Nat.div_mod v (Factorial.fact n)) at 3 by lia. lia.
Qed.

Local Open Scope Z_scope.
Fixpoint zfact (n : nat) : Z := match n with O => 1 | S m => Z.of_nat (S m) * zfact m end.
Lemma zfact_fact n : Z.of_nat (Factorial.fact n) = zfact n.
Proof. induction n; [reflexivity|]. cbn [zfact Factorial.fact]. rewrite <- IHn. lia. Qed.

Lemma lehmer_loop_small rl : forall (t : list nat) a,
  (length t + length rl <= 12)%nat -> dvalid (rev rl ++ t) -> a = Z.of_nat (enc t) ->
  lehmer_int_loop rl a (Z.of_nat (Factorial.fact (length t))) (Z.of_nat (length t) + 1)
  = Z.of_nat (enc (rev rl ++ t)).
Proof.
  induction rl as [|d rl IH]; intros t a H V E; cbn [lehmer_int_loop rev app]; auto.
  cbn [rev] in V. rewrite <- !app_assoc in *. cbn [app] in *.
  assert (V2 : dvalid (d :: t)).
  { clear -V. revert V. generalize (rev rl). induction l as [|x l IHl]; intro V; auto.
    apply IHl. exact (proj2 V). }
  cbn [length] in H.
  assert (Hf : forall n, (n <= 12)%nat -> Z.of_nat (Factorial.fact n) <= 479001600).
  { intros n Hn. rewrite zfact_fact. do 13 (destruct n as [|n]; [vm_compute; discriminate|]). lia. }
  pose proof (enc_bound (d :: t) V2) as Bd. cbn [length] in Bd.
  pose proof (Hf (S (length t)) ltac:(lia)) as F1. pose proof (Hf (length t) ltac:(lia)) as F0.
  cbn [enc] in Bd.
  assert (W1 : wrap32 (Z.of_nat d * Z.of_nat (Factorial.fact (length t)))
               = Z.of_nat d * Z.of_nat (Factorial.fact (length t))).
  { unfold wrap32. apply Z.mod_small. split; [lia|]. change (2^32) with 4294967296.
    rewrite <- Nat2Z.inj_mul. lia. }
  assert (W2 : wrap32 (a + Z.of_nat d * Z.of_nat (Factorial.fact (length t))) = Z.of_nat (enc (d :: t))).
  { unfold wrap32. cbn [enc]. rewrite Z.mod_small; [subst; lia|].
    change (2^32) with 4294967296. subst. rewrite <- Nat2Z.inj_mul. lia. }
  assert (W3 : wrap32 (Z.of_nat (Factorial.fact (length t)) * (Z.of_nat (length t) + 1))
               = Z.of_nat (Factorial.fact (length (d :: t)))).
  { cbn [length Factorial.fact] in *. unfold wrap32. change (2^32) with 4294967296.
    rewrite Z.mod_small; lia. }
  assert (W4 : wrap32 (Z.of_nat (length t) + 1 + 1) = Z.of_nat (length (d :: t)) + 1).
  { cbn [length]. unfold wrap32. change (2^32) with 4294967296. rewrite Z.mod_small; lia. }
  rewrite W1, W2, W3, W4. apply IH; auto. cbn [length]. lia.
Qed.

Lemma lehmer_int_enc L : (length L <= 12)%nat -> dvalid L -> Lehmer_to_integer L = Z.of_nat (enc L).
Proof.
  intros H V. unfold Lehmer_to_integer.
  rewrite <- (rev_involutive L) at 2. rewrite <- (app_nil_r (rev (rev L))).
  change 0 with (Z.of_nat (enc [])). 
  change 1 with (Z.of_nat (Factorial.fact (length (@nil nat)))) at 1.
  change 1 with (Z.of_nat (length (@nil nat)) + 1).
  apply lehmer_loop_small; auto.
  - rewrite rev_length. cbn. auto.
  - rewrite rev_involutive, app_nil_r. auto.
Qed.
