Require Import List Arith Lia Bool Sorted Permutation.
Require Import Verif.Base Verif.CombinatoricsModel.
Import ListNotations.
Local Open Scope opt_scope.

(** ** binom *)
Lemma binom_spec n : forall k, k <= n ->
  exists b, binom n k = Some b /\ b * (Factorial.fact k * Factorial.fact (n - k)) = Factorial.fact n.
Proof.
  induction n as [|n IH]; intros k Hk.
  - assert (k = 0) by lia; subst. exists 1. split; reflexivity.
  - cbn [binom]. destruct (Nat.eqb_spec k 0) as [->|K0]; cbn [orb].
    + exists 1. split; auto. rewrite Nat.sub_0_r. simpl Factorial.fact at 1. lia.
    + destruct (Nat.eqb_spec k (S n)) as [->|K1]; cbn [orb].
      * exists 1. split; auto. rewrite Nat.sub_diag. simpl Factorial.fact at 2. lia.
      * destruct (Nat.eqb_spec k 1) as [->|K2]; cbn [orb].
        -- exists (S n). split; auto. replace (S n - 1) with n by lia. simpl. lia.
        -- destruct (Nat.eqb_spec k (S n - 1)) as [->|K3]; cbn [orb].
           ++ exists (S n). split; auto. replace (S n - 1) with n by lia.
              replace (S n - n) with 1 by lia. simpl. lia.
           ++ destruct (IH (k - 1) ltac:(lia)) as (a & Ea & Ha).
              destruct (IH k ltac:(lia)) as (b & Eb & Hb).
              rewrite Ea, Eb. cbn [bind]. exists (a + b). split; auto.
              destruct k as [|j]; [lia|]. replace (S j - 1) with j in * by lia.
              replace (n - j) with (S (n - S j)) in Ha by lia.
              replace (S n - S j) with (S (n - S j)) by lia.
              cbn [Factorial.fact] in *.
              change (S j * Factorial.fact j) with (Factorial.fact j + j * Factorial.fact j) in *.
              set (r := n - S j) in *. assert (Hn : n = r + S j) by lia.
              remember (Factorial.fact j) as fj. remember (Factorial.fact r) as fr.
              remember (Factorial.fact n) as fn.
              nia.
Qed.

Lemma binom_pascal n k : k + 1 <= n -> forall a b, binom n k = Some a -> binom n (k + 1) = Some b ->
  binom (S n) (k + 1) = Some (a + b).
Proof.
  intros H a b Ea Eb.
  destruct (binom_spec n k ltac:(lia)) as (a' & Ea' & Ha). rewrite Ea in Ea'; inversion Ea'; subst a'.
  destruct (binom_spec n (k+1) ltac:(lia)) as (b' & Eb' & Hb). rewrite Eb in Eb'; inversion Eb'; subst b'.
  destruct (binom_spec (S n) (k+1) ltac:(lia)) as (c & Ec & Hc). rewrite Ec. f_equal.
  replace (k + 1) with (S k) in * by lia.
  replace (n - k) with (S (n - S k)) in Ha by lia.
  replace (S n - S k) with (S (n - S k)) in Hc by lia.
  set (r := n - S k) in *. assert (Hn : n = r + S k) by lia.
  pose proof (Factorial.lt_O_fact k). pose proof (Factorial.lt_O_fact r).
  cbn [Factorial.fact] in *.
  change (S k * Factorial.fact k) with (Factorial.fact k + k * Factorial.fact k) in *.
  remember (Factorial.fact k) as fk. remember (Factorial.fact r) as fr.
  remember (Factorial.fact n) as fn.
  assert (c * ((fk + k * fk) * (fr + r * fr)) = (a + b) * ((fk + k * fk) * (fr + r * fr))) by nia.
  apply Nat.mul_cancel_r in H2; auto. nia.
Qed.

(** ** Generic successor enumeration *)
Section Enum.
  Context {X : Type} (valid : X -> Prop) (next : X -> option X) (val : X -> nat) (M : nat).
  Hypothesis val_inj : forall x y, valid x -> valid y -> val x = val y -> x = y.
  Hypothesis val_bound : forall x, valid x -> val x < M.
  Hypothesis next_some : forall x y, valid x -> next x = Some y ->
    valid y /\ val x < val y /\ forall z, valid z -> val z <= val x \/ val y <= val z.
  Hypothesis next_none : forall x, valid x -> next x = None -> forall z, valid z -> val z <= val x.

  Fixpoint enum (fuel : nat) (x : X) : option (list X) :=
    match fuel with
    | O => None
    | S f => match next x with
             | None => Some [x]
             | Some y => do r <- enum f y; Some (x :: r)
             end
    end.

  Lemma enum_spec fuel : forall x, valid x -> M - val x <= fuel -> 
    exists l, enum fuel x = Some l /\ StronglySorted (fun a b => val a < val b) l /\
      forall z, In z l <-> valid z /\ val x <= val z.
  Proof.
    induction fuel as [|f IH]; intros x Vx Hf.
    - pose proof (val_bound x Vx). lia.
    - cbn [enum]. destruct (next x) as [y|] eqn:E.
      + destruct (next_some x y Vx E) as (Vy & Lt & Btw).
        destruct (IH y Vy ltac:(lia)) as (l & El & Sl & Il).
        rewrite El. cbn [bind]. exists (x :: l). split; auto. split.
        * constructor; auto. apply Forall_forall. intros z Hz. apply Il in Hz. lia.
        * intro z. cbn [In]. rewrite Il. split.
          -- intros [<-|[A B]]; split; auto; lia.
          -- intros [A B]. destruct (Btw z A) as [C|C]; [left|right; auto].
             apply val_inj; auto. lia.
      + exists [x]. split; auto. split; [repeat constructor|].
        intro z. cbn [In]. split.
        * intros [<-|[]]; auto.
        * intros [A B]. left. apply val_inj; auto. pose proof (next_none x Vx E z A). lia.
  Qed.

  Lemma sorted_NoDup l : StronglySorted (fun a b => val a < val b) l -> NoDup l.
  Proof.
    induction 1; constructor; auto. intro Hin.
    rewrite Forall_forall in H0. specialize (H0 a Hin). lia.
  Qed.
End Enum.

(** ** Choose *)
Fixpoint cvalid (lo n : nat) (c : list nat) : Prop :=
  match c with [] => True | a :: t => lo <= a /\ a < n /\ cvalid (a + 1) n t end.

Fixpoint cval (n : nat) (c : list nat) : nat :=
  match c with [] => 0 | a :: t => a * n ^ length t + cval n t end.

Fixpoint nxt (n : nat) (c : list nat) : option (list nat) :=
  match c with
  | [] => None
  | a :: t => match nxt n t with
              | Some t' => Some (a :: t')
              | None => if a <? n - S (length t) then Some (seq (a + 1) (S (length t))) else None
              end
  end.

Lemma choose_scan_cons n a t : forall m, m <= length t ->
  choose_scan n (S (length t)) (S m) (a :: t) =
  match choose_scan n (length t) m t with
  | Some t' => Some (a :: t')
  | None => if a <? n - S (length t) then Some (seq (a + 1) (S (length t))) else None
  end.
Proof.
  induction m as [|m IH]; intro Hm.
  - cbn [choose_scan nth firstn app]. replace (S (length t) - 0) with (S (length t)) by lia.
    replace (S (length t) - (0 + 1)) with (length t) by lia.
    destruct (a <? _); auto. cbn [seq]. replace (a + 2) with (S (a + 1)) by lia. auto.
  - cbn [choose_scan].
    cbn [nth firstn app]. 
    replace (S (length t) - S m) with (length t - m) by lia.
    replace (S (length t) - (S m + 1)) with (length t - (m + 1)) by lia.
    destruct (nth m t 0 <? n - (length t - m)) eqn:E; auto.
    apply IH. lia.
Qed.

Lemma choose_next_nxt n c : choose_next n c = nxt n c.
Proof.
  induction c as [|a t IH]; auto. unfold choose_next. cbn [length].
  rewrite choose_scan_cons by lia. cbn [nxt].
  unfold choose_next in IH. rewrite IH. reflexivity.
Qed.

Lemma cvalid_weaken lo lo' n c : lo' <= lo -> cvalid lo n c -> cvalid lo' n c.
Proof. destruct c; simpl; intros; auto. intuition lia. Qed.

Lemma cvalid_head n : forall c lo, cvalid lo n c -> c <> [] -> lo + length c <= n.
Proof.
  induction c as [|a t IH]; intros lo V Hne; [congruence|]. cbn in V |- *. destruct V as (A & B & V).
  destruct t as [|b t]; [simpl; lia|].
  specialize (IH (a + 1) V ltac:(congruence)). cbn in *. lia.
Qed.

Lemma cvalid_seq n : forall m a, a + m <= n -> cvalid a n (seq a m).
Proof.
  induction m; intros a H; simpl; auto. repeat split; try lia.
  replace (a + 1) with (S a) by lia. apply IHm. lia.
Qed.

Lemma cval_bound n : forall c lo, cvalid lo n c -> cval n c < n ^ length c.
Proof.
  induction c as [|a t IH]; intros lo V; simpl; auto.
  destruct V as (A & B & V). specialize (IH _ V).
  assert ((a + 1) * n ^ length t <= n * n ^ length t) by (apply Nat.mul_le_mono_r; lia). nia.
Qed.

Lemma cval_inj n : forall c d lo lo', cvalid lo n c -> cvalid lo' n d -> length c = length d ->
  cval n c = cval n d -> c = d.
Proof.
  induction c as [|a t IH]; intros [|b u] lo lo' Vc Vd L E; try discriminate; auto.
  cbn in *. destruct Vc as (A1 & A2 & Vt). destruct Vd as (B1 & B2 & Vu).
  assert (L' : length t = length u) by lia. rewrite L' in E.
  pose proof (cval_bound n t _ Vt) as Bt. pose proof (cval_bound n u _ Vu) as Bu. rewrite L' in Bt.
  set (P := n ^ length u) in *.
  destruct (Nat.lt_trichotomy a b) as [K|[K|K]].
  - assert ((a + 1) * P <= b * P) by (apply Nat.mul_le_mono_r; lia). nia.
  - subst b. f_equal. eapply IH; eauto. lia.
  - assert ((b + 1) * P <= a * P) by (apply Nat.mul_le_mono_r; lia). nia.
Qed.

(** seq a m is the smallest increasing sequence starting at or after a *)
Lemma cval_seq_min n : forall z a, cvalid a n z -> cval n (seq a (length z)) <= cval n z.
Proof.
  induction z as [|b u IH]; intros a V; simpl; auto. destruct V as (A & B & V).
  rewrite seq_length.
  assert (a * n ^ length u <= b * n ^ length u) by (apply Nat.mul_le_mono_r; auto).
  enough (cval n (seq (S a) (length u)) <= cval n u) by lia.
  apply IH. eapply cvalid_weaken; [|exact V]. lia.
Qed.

Lemma nxt_none n : forall c lo, cvalid lo n c -> nxt n c = None ->
  forall z lo', cvalid lo' n z -> length z = length c -> cval n z <= cval n c.
Proof.
  induction c as [|a t IH]; intros lo V E z lo' Vz L.
  - destruct z; [auto|discriminate].
  - destruct z as [|b u]; [discriminate|]. cbn [nxt cvalid cval length] in *. destruct V as (A & B & V).
    destruct (nxt n t) eqn:Et; [discriminate|].
    destruct (Nat.ltb_spec a (n - S (length t))); [discriminate|].
    pose proof (cvalid_head n (b :: u) lo' Vz ltac:(congruence)) as Hb. cbn [nxt cvalid cval length] in Hb.
    destruct Vz as (C & D & Vu).
    assert (L' : length u = length t) by lia.
    assert (b <= a). 
    { pose proof (cvalid_head n (b :: u) b) as Q. cbn [nxt cvalid cval length] in Q. specialize (Q ltac:(auto) ltac:(congruence)). lia. }
    specialize (IH _ V eq_refl u _ Vu L').
    rewrite L'. assert (b * n ^ length t <= a * n ^ length t) by (apply Nat.mul_le_mono_r; auto). lia.
Qed.

Lemma nxt_some n : forall c lo c', cvalid lo n c -> nxt n c = Some c' ->
  cvalid lo n c' /\ length c' = length c /\ cval n c < cval n c' /\
  forall z lo', cvalid lo' n z -> length z = length c -> cval n z <= cval n c \/ cval n c' <= cval n z.
Proof.
  induction c as [|a t IH]; intros lo c' V E; [discriminate|].
  cbn [nxt cvalid cval length] in V, E. destruct V as (A & B & V).
  destruct (nxt n t) as [t'|] eqn:Et.
  - inversion E; subst; clear E.
    destruct (IH _ _ V eq_refl) as (V' & L' & Lt & Btw). cbn [nxt cvalid cval length].
    split; auto. split; [lia|]. rewrite L'. split; [lia|].
    intros [|b u] lo' Vz L; [discriminate|]. cbn [nxt cvalid cval length] in *. destruct Vz as (C & D & Vu).
    assert (Lu : length u = length t) by lia. rewrite Lu.
    pose proof (cval_bound n u _ Vu). pose proof (cval_bound n t _ V).
    pose proof (cval_bound n t' _ V'). rewrite Lu in *. rewrite L' in *. set (P := n ^ length t) in *.
    destruct (Nat.lt_trichotomy a b) as [K|[K|K]].
    + assert ((a + 1) * P <= b * P) by (apply Nat.mul_le_mono_r; lia). nia.
    + subst b. destruct (Btw u _ Vu Lu); lia.
    + assert ((b + 1) * P <= a * P) by (apply Nat.mul_le_mono_r; lia). nia.
  - destruct (Nat.ltb_spec a (n - S (length t))); [|discriminate].
    assert (Ec : c' = seq (a + 1) (S (length t))) by congruence. subst c'. clear E.
    assert (Vs : cvalid (a + 1) n (seq (a + 1) (S (length t)))) by (apply cvalid_seq; lia).
    split; [eapply cvalid_weaken; [|exact Vs]; lia|].
    split; [apply seq_length|]. split.
    + cbn [nxt cvalid cval length seq]. rewrite seq_length. pose proof (cval_bound n t _ V).
      assert ((a + 1) * n ^ length t <= (a + 1) * n ^ length t) by lia. nia.
    + intros [|b u] lo' Vz L; [discriminate|]. 
      assert (Lu : length u = length t) by (simpl in L; lia).
      destruct (le_lt_dec b a) as [K|K].
      * left. cbn [nxt cvalid cval length] in *. destruct Vz as (C & D & Vu). rewrite Lu.
        destruct (Nat.eq_dec a b) as [->|Hne].
        -- pose proof (nxt_none n t _ V Et u _ Vu Lu). lia.
        -- pose proof (cval_bound n u _ Vu). rewrite Lu in *. set (P := n ^ length t) in *.
           assert ((b + 1) * P <= a * P) by (apply Nat.mul_le_mono_r; lia). nia.
      * right. rewrite <- Lu. change (S (length u)) with (length (b :: u)).
        apply cval_seq_min. cbn [nxt cvalid cval length] in *. intuition lia.
Qed.

Definition cset (n k : nat) (c : list nat) : Prop := length c = k /\ cvalid 0 n c.

Lemma choose_all_enum n fuel c : choose_all fuel n c = enum (choose_next n) fuel c.
Proof.
  revert c; induction fuel; intro c; cbn; auto. destruct (choose_next n c); auto. rewrite IHfuel; auto.
Qed.

Lemma choose_enum_spec n k : k <= n -> forall fuel, n ^ k <= fuel ->
  exists l, choose_all fuel n (choose_begin k) = Some l /\
    StronglySorted (fun a b => cval n a < cval n b) l /\ forall z, In z l <-> cset n k z.
Proof.
  intros Hk fuel Hf.
  assert (V0 : cset n k (seq 0 k)) by (split; [apply seq_length|apply cvalid_seq; lia]).
  destruct (enum_spec (cset n k) (choose_next n) (cval n) (n ^ k)) with (fuel := fuel) (x := seq 0 k)
    as (l & E & S & I); auto.
  - intros x y [Lx Vx] [Ly Vy] H. eapply cval_inj; eauto. congruence.
  - intros x [Lx Vx]. rewrite <- Lx. eapply cval_bound; eauto.
  - intros x y [Lx Vx] H. rewrite choose_next_nxt in H.
    destruct (nxt_some n x _ y Vx H) as (V & L & Lt & B). split; [split; auto; congruence|].
    split; auto. intros z [Lz Vz]. eapply B; eauto. congruence.
  - intros x [Lx Vx] H z [Lz Vz]. rewrite choose_next_nxt in H. eapply nxt_none; eauto. congruence.
  - lia.
  - exists l. rewrite choose_all_enum. split; auto. split; auto.
    intro z. rewrite I. split; [tauto|]. intro H. split; auto.
    destruct H as [L V]. rewrite <- L. apply cval_seq_min; auto.
Qed.

(** lexicographic order and val *)
Fixpoint lex (c d : list nat) : Prop :=
  match c, d with
  | a :: t, b :: u => a < b \/ (a = b /\ lex t u)
  | _, _ => False
  end.
Lemma cval_lex n : forall c d lo lo', cvalid lo n c -> cvalid lo' n d -> length c = length d ->
  cval n c < cval n d -> lex c d.
Proof.
  induction c as [|a t IH]; intros [|b u] lo lo' Vc Vd L E; try discriminate; cbn in *; try lia.
  destruct Vc as (A1 & A2 & Vt). destruct Vd as (B1 & B2 & Vu).
  assert (L' : length t = length u) by lia. rewrite L' in E.
  pose proof (cval_bound n t _ Vt) as Bt. pose proof (cval_bound n u _ Vu) as Bu. rewrite L' in Bt.
  set (P := n ^ length u) in *.
  destruct (Nat.lt_trichotomy a b) as [K|[K|K]]; auto.
  - right. split; auto. eapply IH; eauto. subst b. lia.
  - assert ((b + 1) * P <= a * P) by (apply Nat.mul_le_mono_r; lia). nia.
Qed.

(** counting *)
Fixpoint subsets (lo m k : nat) : list (list nat) :=
  match m, k with
  | _, O => [[]]
  | O, S _ => []
  | S m', S k' => map (cons lo) (subsets (lo + 1) m' k') ++ subsets (lo + 1) m' k
  end.

Lemma subsets_0 m lo : subsets lo m 0 = [[]].
Proof. destruct m; auto. Qed.

Lemma subsets_In : forall m k lo c, In c (subsets lo m k) <-> length c = k /\ cvalid lo (lo + m) c.
Proof.
  induction m as [|m IH]; intros [|k] lo c.
  - simpl. split; [intros [<-|[]]; simpl; auto|]. intros [L _]. destruct c; [auto|discriminate].
  - simpl. split; [tauto|]. intros [L V]. destruct c as [|a t]; [discriminate|].
    simpl in V. lia.
  - simpl. split; [intros [<-|[]]; simpl; auto|]. intros [L _]. destruct c; [auto|discriminate].
  - cbn [subsets]. rewrite in_app_iff, in_map_iff. rewrite IH. split.
    + intros [(t & <- & H)|(L & V)].
      * apply IH in H. destruct H as [L V]. simpl. replace (lo + S m) with (lo + 1 + m) by lia.
        repeat split; auto; lia.
      * split; auto. replace (lo + S m) with (lo + 1 + m) by lia.
        eapply cvalid_weaken; [|exact V]. lia.
    + intros [L V]. destruct c as [|a t]; [discriminate|]. simpl in L, V.
      replace (lo + S m) with (lo + 1 + m) in V by lia.
      destruct V as (A & B & V). destruct (Nat.eq_dec a lo) as [->|Hne].
      * left. exists t. split; auto. apply IH. split; auto.
      * right. simpl. repeat split; auto; lia.
Qed.


Lemma NoDup_app_intro {A} (l m : list A) : NoDup l -> NoDup m -> (forall x, In x l -> In x m -> False) ->
  NoDup (l ++ m).
Proof.
  induction 1; simpl; intros; auto. constructor.
  - rewrite in_app_iff. intros [|]; auto. eapply H2; eauto.
  - apply IHNoDup; auto. intros. eapply H2; eauto.
Qed.

Lemma NoDup_map_inj {A B} (f : A -> B) l : (forall x y, In x l -> In y l -> f x = f y -> x = y) ->
  NoDup l -> NoDup (map f l).
Proof.
  intros I N. induction N; simpl; constructor.
  - rewrite in_map_iff. intros (y & E & Hy). apply I in E; [subst; auto|right; auto|left; auto].
  - apply IHN. intros. apply I; auto; right; auto.
Qed.

Lemma subsets_NoDup : forall m k lo, NoDup (subsets lo m k).
Proof.
  induction m as [|m IH]; intros [|k] lo; cbn; try (repeat constructor; simpl; tauto).
  apply NoDup_app_intro; auto.
  - apply NoDup_map_inj; auto. intros. congruence.
  - intros x H1 H2. apply in_map_iff in H1. destruct H1 as (t & <- & _).
    apply subsets_In in H2. destruct H2 as [_ V]. simpl in V. lia.
Qed.

Lemma subsets_length : forall m k lo, k <= m -> binom m k = Some (length (subsets lo m k)).
Proof.
  induction m as [|m IH]; intros [|k] lo H; try lia; try reflexivity.
  cbn [subsets]. rewrite app_length, map_length.
  destruct (Nat.eq_dec k m) as [->|Hne].
  - cbn [binom]. rewrite Nat.eqb_refl, orb_true_r.
    specialize (IH m (lo + 1) ltac:(lia)).
    assert (Z : binom m m = Some 1) by (destruct m; cbn [binom]; rewrite Nat.eqb_refl, ?orb_true_r; auto).
    rewrite Z in IH. inversion IH.
    assert (Z0 : length (subsets (lo + 1) m (S m)) = 0).
    { destruct (subsets (lo + 1) m (S m)) as [|c r] eqn:E; auto.
      assert (In c (subsets (lo + 1) m (S m))) by (rewrite E; left; auto).
      apply subsets_In in H0. destruct H0 as [L V].
      pose proof (cvalid_head _ c _ V). destruct c; [discriminate|]. 
      specialize (H0 ltac:(congruence)). lia. }
    rewrite Z0. reflexivity || (f_equal; lia).
  - pose proof (IH k (lo + 1) ltac:(lia)) as E1. pose proof (IH (S k) (lo + 1) ltac:(lia)) as E2.
    replace (S k) with (k + 1) in * by lia. apply binom_pascal; auto. lia.
Qed.

Lemma same_members_length {A} (l m : list A) : NoDup l -> NoDup m -> (forall x, In x l <-> In x m) ->
  length l = length m.
Proof. intros. apply Permutation_length, NoDup_Permutation; auto. Qed.

(** ** AllIntegerSums *)
Fixpoint nondec (m : list nat) : Prop :=
  match m with
  | a :: ((b :: _) as t) => a <= b /\ nondec t
  | _ => True
  end.
Definition lst (m : list nat) : nat := last m 0.
Fixpoint mval (B : nat) (m : list nat) : nat :=
  match m with [] => 0 | a :: t => a + B * mval B t end.

Lemma sums_incr_cons a b t :
  sums_incr (a :: b :: t) = if a =? b then 0 :: sums_incr (b :: t) else (a + 1) :: b :: t.
Proof.
  unfold sums_incr. cbn [sums_d]. destruct (Nat.eqb_spec a b); reflexivity.
Qed.
Lemma sums_incr_one a : sums_incr [a] = [a + 1].
Proof. reflexivity. Qed.

Lemma sums_incr_length m : m <> [] -> length (sums_incr m) = length m.
Proof.
  induction m as [|a [|b t] IH]; intro H; [congruence|reflexivity|].
  rewrite sums_incr_cons. destruct (a =? b); [|reflexivity].
  cbn [length]. rewrite IH by congruence. reflexivity.
Qed.

Lemma nondec_le_last m : nondec m -> forall x, In x m -> x <= lst m.
Proof.
  unfold lst. induction m as [|a [|b t] IH]; intros V x Hx; [destruct Hx|..].
  - destruct Hx as [<-|[]]; auto.
  - destruct V as [A V]. change (last (a :: b :: t) 0) with (last (b :: t) 0).
    destruct Hx as [<-|Hx]; [|apply IH; auto].
    specialize (IH V b (or_introl eq_refl)). lia.
Qed.

Lemma sums_incr_nondec m : m <> [] -> nondec m ->
  nondec (sums_incr m) /\ lst m <= lst (sums_incr m) <= lst m + 1.
Proof.
  induction m as [|a [|b t] IH]; intros Hne V; [congruence|simpl; unfold lst; simpl; lia|].
  destruct V as [A V]. rewrite sums_incr_cons. destruct (Nat.eqb_spec a b) as [->|Hab].
  - destruct (IH ltac:(congruence) V) as [N L].
    pose proof (sums_incr_length (b :: t) ltac:(congruence)) as Ln.
    destruct (sums_incr (b :: t)) as [|c r] eqn:E; [discriminate|].
    split; [split; [lia|auto]|]. exact L.
  - split; [split; [lia|auto]|]. unfold lst. simpl. lia.
Qed.

Lemma mval_inj B : forall m z, length m = length z -> (forall x, In x m -> x < B) ->
  (forall x, In x z -> x < B) -> mval B m = mval B z -> m = z.
Proof.
  induction m as [|a t IH]; intros [|c u] L Hm Hz E; try discriminate; auto.
  cbn [mval] in E.
  assert (a < B) by (apply Hm; left; auto). assert (c < B) by (apply Hz; left; auto).
  assert (mval B t = mval B u /\ a = c) as [E1 E2].
  { assert (E' : B * mval B t + a = B * mval B u + c) by lia.
    destruct (Nat.div_mod_unique B (mval B t) (mval B u) a c); auto. }
  f_equal; auto. apply IH; auto; intros; [apply Hm|apply Hz]; right; auto.
Qed.

Lemma mval_incr_lt B : forall m, m <> [] -> (forall x, In x m -> x < B) -> mval B m < mval B (sums_incr m).
Proof.
  induction m as [|a [|b t] IH]; intros Hne Hm; [congruence|simpl; lia|].
  rewrite sums_incr_cons. destruct (Nat.eqb_spec a b) as [->|Hab].
  - assert (b < B) by (apply Hm; left; auto).
    specialize (IH ltac:(congruence) ltac:(intros; apply Hm; right; auto)).
    cbn [mval] in *.
    assert (B * (b + B * mval B t) + B <= B * mval B (sums_incr (b :: t))) by nia. lia.
  - cbn [mval]. lia.
Qed.

Lemma mval_between B : forall m z, nondec m -> nondec z -> length z = length m -> m <> [] ->
  (forall x, In x m -> x < B) -> (forall x, In x z -> x < B) ->
  mval B z <= mval B m \/ mval B (sums_incr m) <= mval B z.
Proof.
  induction m as [|a [|b t] IH]; intros z V Vz L Hne Hm Hz; [congruence|..].
  - destruct z as [|c [|]]; try discriminate. simpl. lia.
  - destruct z as [|c [|d u]]; try discriminate.
    rewrite sums_incr_cons. destruct V as [A V]. destruct Vz as [C Vz].
    destruct (Nat.eqb_spec a b) as [->|Hab].
    + specialize (IH (d :: u) V Vz ltac:(simpl in *; lia) ltac:(congruence)
        ltac:(intros; apply Hm; right; auto) ltac:(intros; apply Hz; right; auto)).
      assert (c < B) by (apply Hz; left; auto).
      change (mval B (c :: d :: u)) with (c + B * mval B (d :: u)).
      change (mval B (b :: b :: t)) with (b + B * mval B (b :: t)).
      change (mval B (0 :: sums_incr (b :: t))) with (0 + B * mval B (sums_incr (b :: t))).
      destruct IH as [IH|IH].
      * destruct (Nat.eq_dec (mval B (d :: u)) (mval B (b :: t))) as [E|E].
        -- apply mval_inj in E; [|simpl in *; lia| |]; try (intros; apply Hz + apply Hm; right; auto; fail).
           ++ inversion E; subst. left. cbn [mval]. lia.
        -- left. assert (B * mval B (d :: u) + B <= B * mval B (b :: t)) by nia. lia.
      * right. assert (B * mval B (sums_incr (b :: t)) <= B * mval B (d :: u)) by (apply Nat.mul_le_mono_l; auto). lia.
    + cbn [mval]. lia.
Qed.

(** the end marker *)
Definition mend (D N : nat) : list nat := repeat 0 (D - 1) ++ [N + 1].

Lemma sums_incr_repeat N : forall D, 0 < D -> sums_incr (repeat N D) = mend D N.
Proof.
  induction D as [|[|D] IH]; intro H; [lia|reflexivity|].
  cbn [repeat]. rewrite sums_incr_cons, Nat.eqb_refl.
  change (N :: repeat N D) with (repeat N (S D)). rewrite IH by lia.
  unfold mend. replace (S D - 1) with D by lia. replace (S (S D) - 1) with (S D) by lia. reflexivity.
Qed.

Lemma repeat_snoc {A} (x : A) n : repeat x (S n) = repeat x n ++ [x].
Proof. induction n; auto. cbn [repeat app] in *. rewrite IHn at 1. reflexivity. Qed.

Lemma sums_end_mend D less N : 0 < D -> sums_end D less N = mend D N.
Proof.
  intro H. unfold sums_end, sums_iter. destruct less; [apply sums_incr_repeat; auto|].
  rewrite <- repeat_snoc. replace (S (D - 1)) with D by lia. apply sums_incr_repeat; auto.
Qed.

Lemma mval_mend B D N : 0 < D -> mval B (mend D N) = (N + 1) * B ^ (D - 1).
Proof.
  intro H. unfold mend. destruct D as [|D]; [lia|]. replace (S D - 1) with D by lia. clear H.
  induction D; cbn [repeat app mval]; [simpl; lia|]. rewrite IHD. cbn [Nat.pow]. lia.
Qed.

Lemma mval_lt_last B : forall m, m <> [] -> (forall x, In x m -> x < B) ->
  lst m * B ^ (length m - 1) <= mval B m < (lst m + 1) * B ^ (length m - 1).
Proof.
  unfold lst. induction m as [|a [|b t] IH]; intros Hne Hm; [congruence|simpl; lia|].
  change (last (a :: b :: t) 0) with (last (b :: t) 0).
  specialize (IH ltac:(congruence) ltac:(intros; apply Hm; right; auto)).
  assert (a < B) by (apply Hm; left; auto).
  change (mval B (a :: b :: t)) with (a + B * mval B (b :: t)).
  replace (length (a :: b :: t) - 1) with (S (length (b :: t) - 1)) by (simpl; lia).
  cbn [Nat.pow]. set (P := B ^ (length (b :: t) - 1)) in *. set (L := last (b :: t) 0) in *.
  set (v := mval B (b :: t)) in *. split; nia.
Qed.

(** markers met before the end *)
Definition mset (D N : nat) (m : list nat) : Prop := length m = D /\ nondec m /\ lst m <= N.

Definition mnext (D N : nat) (m : list nat) : option (list nat) :=
  if list_eq_dec Nat.eq_dec (sums_incr m) (mend D N) then None else Some (sums_incr m).

Lemma mset_small D N m : mset D N m -> forall x, In x m -> x < N + 2.
Proof. intros (L & V & H) x Hx. pose proof (nondec_le_last m V x Hx). lia. Qed.

Lemma nondec_mend D N : nondec (mend D N).
Proof.
  unfold mend. generalize (D - 1). clear D. induction n as [|n IH]; simpl; auto.
  destruct n; simpl in *; split; auto; lia.
Qed.
Lemma lst_mend D N : lst (mend D N) = N + 1.
Proof. apply last_last. Qed.
Lemma length_mend D N : 0 < D -> length (mend D N) = D.
Proof. intro. unfold mend. rewrite app_length, repeat_length. simpl. lia. Qed.

Lemma mset_not_end D N m : mset D N m -> m <> mend D N.
Proof. intros (_ & _ & H) ->. rewrite lst_mend in H. lia. Qed.

Lemma mend_small D N x : In x (mend D N) -> x < N + 2.
Proof.
  unfold mend. rewrite in_app_iff. intros [H|[<-|[]]]; [apply repeat_spec in H|]; lia.
Qed.

Lemma sums_enum D N : 0 < D -> forall fuel x, mset D N x ->
  (N + 2) ^ D - mval (N + 2) x <= fuel ->
  exists l, enum (mnext D N) fuel x = Some l /\
    StronglySorted (fun a b => mval (N + 2) a < mval (N + 2) b) l /\
    forall z, In z l <-> mset D N z /\ mval (N + 2) x <= mval (N + 2) z.
Proof.
  intros HD fuel x Vx Hf.
  assert (Ne : forall m : list nat, length m = D -> m <> []) by (intros [|]; simpl; intros; [lia|congruence]).
  apply (enum_spec (mset D N) (mnext D N) (mval (N + 2)) ((N + 2) ^ D)); auto.
  - intros a b Va Vb E. apply (mval_inj (N + 2)); auto.
    + destruct Va as [-> _], Vb as [-> _]; auto.
    + apply (mset_small D N); auto.
    + apply (mset_small D N); auto.
  - intros a Va. pose proof Va as (L & V & H).
    pose proof (mval_lt_last (N + 2) a (Ne a L) (mset_small D N a Va)) as [_ Q].
    rewrite L in Q. eapply Nat.lt_le_trans; [exact Q|].
    replace D with (S (D - 1)) at 2 by lia. cbn [Nat.pow]. apply Nat.mul_le_mono_r. lia.
  - intros a b Va E. unfold mnext in E.
    destruct (list_eq_dec Nat.eq_dec (sums_incr a) (mend D N)); [discriminate|]. inversion E; subst b; clear E.
    pose proof Va as (L & V & H). pose proof (Ne a L) as Na.
    destruct (sums_incr_nondec a Na V) as [Vi Li].
    pose proof (sums_incr_length a Na) as Ln.
    pose proof (mset_small D N a Va) as Sa.
    assert (Hlast : lst (sums_incr a) <= N).
    { destruct (le_lt_dec (lst (sums_incr a)) N); auto. exfalso.
      assert (lst (sums_incr a) = N + 1) by lia.
      destruct (mval_between (N + 2) a (mend D N) V (nondec_mend D N)) as [Q|Q]; auto.
      - rewrite length_mend; auto.
      - apply mend_small.
      - rewrite mval_mend in Q by auto.
        pose proof (mval_lt_last (N + 2) a Na Sa) as [_ Q2]. rewrite L in Q2.
        assert ((lst a + 1) * (N + 2) ^ (D - 1) <= (N + 1) * (N + 2) ^ (D - 1)) by (apply Nat.mul_le_mono_r; lia).
        lia.
      - assert (Si : forall x, In x (sums_incr a) -> x < N + 2).
        { intros y Hy. pose proof (nondec_le_last _ Vi y Hy). lia. }
        pose proof (mval_lt_last (N + 2) (sums_incr a) (Ne (sums_incr a) ltac:(lia)) Si) as [Q2 _].
        rewrite H0, Ln, L in Q2. rewrite mval_mend in Q by auto.
        apply n. apply (mval_inj (N + 2)); auto.
        + rewrite length_mend; lia.
        + apply mend_small.
        + rewrite mval_mend by auto. lia. }
    split; [|split].
    + split; [lia|]. auto.
    + apply mval_incr_lt; auto.
    + intros z Vz. pose proof Vz as (Lz & Vz' & Hz).
      apply mval_between; auto; [lia|apply (mset_small D N); auto].
  - intros a Va E z Vz. unfold mnext in E.
    destruct (list_eq_dec Nat.eq_dec (sums_incr a) (mend D N)) as [Ee|]; [|discriminate].
    pose proof Va as (L & V & H). pose proof Vz as (Lz & Vz' & Hz).
    destruct (mval_between (N + 2) a z V Vz') as [Q|Q]; auto.
    + lia.
    + apply (mset_small D N); auto.
    + apply (mset_small D N); auto.
    + rewrite Ee, mval_mend in Q by auto.
      pose proof (mval_lt_last (N + 2) z (Ne z Lz) (mset_small D N z Vz)) as [_ Q2]. rewrite Lz in Q2.
      assert ((lst z + 1) * (N + 2) ^ (D - 1) <= (N + 1) * (N + 2) ^ (D - 1)) by (apply Nat.mul_le_mono_r; lia).
      lia.
Qed.

Lemma sums_loop_enum D N : forall fuel x l, mset D N x -> x <> mend D N ->
  (forall y, In y l -> mset D N y) ->
  enum (mnext D N) fuel x = Some l -> sums_loop fuel x (mend D N) = Some (map sums_deref l).
Proof.
  induction fuel as [|f IH]; intros x l Vx Hx Hl E; [discriminate|].
  cbn [enum] in E. cbn [sums_loop]. destruct (list_eq_dec Nat.eq_dec x (mend D N)); [congruence|].
  unfold mnext in E at 1. destruct (list_eq_dec Nat.eq_dec (sums_incr x) (mend D N)) as [Ei|Ei].
  - inversion E; subst. rewrite Ei. destruct f; cbn [sums_loop];
    (destruct (list_eq_dec Nat.eq_dec (mend D N) (mend D N)); [reflexivity|congruence]).
  - destruct (enum (mnext D N) f (sums_incr x)) as [r|] eqn:Er; [|discriminate].
    cbn [bind] in E. inversion E; subst.
    rewrite (IH (sums_incr x) r); auto.
    + apply Hl. right. destruct f; [discriminate|]. cbn [enum] in Er.
      destruct (mnext D N (sums_incr x)).
      * destruct (enum (mnext D N) f l); [|discriminate]. cbn in Er. inversion Er. left; auto.
      * inversion Er. left; auto.
    + intros; apply Hl; right; auto.
Qed.

(** deref: bijection between markers and tuples *)

Fixpoint psums (p : nat) (x : list nat) : list nat :=
  match x with [] => [] | a :: t => (p + a) :: psums (p + a) t end.

Lemma adj_psums : forall m p, nondec (p :: m) -> psums p (adjacent_difference p m) = m.
Proof.
  induction m as [|a t IH]; intros p V; auto. destruct V as [A V]. cbn.
  replace (p + (a - p)) with a by lia. f_equal. apply IH; auto.
Qed.
Lemma psums_adj : forall x p, adjacent_difference p (psums p x) = x.
Proof.
  induction x as [|a t IH]; intro p; auto. cbn. rewrite IH. f_equal. lia.
Qed.
Lemma psums_nondec : forall x p, nondec (p :: psums p x).
Proof.
  induction x as [|a t IH]; intro p; cbn [psums]; [simpl; auto|].
  split; [lia|]. apply IH.
Qed.
Lemma psums_length x : forall p, length (psums p x) = length x.
Proof. induction x; intro; simpl; auto. Qed.
Lemma psums_last : forall x p, last (p :: psums p x) 0 = p + list_sum x.
Proof.
  induction x as [|a t IH]; intro p; cbn [psums]; [simpl; lia|].
  change (last (p :: p + a :: psums (p + a) t) 0) with (last ((p + a) :: psums (p + a) t) 0).
  rewrite IH. change (list_sum (a :: t)) with (a + list_sum t). lia.
Qed.
Lemma adj_length m : forall p, length (adjacent_difference p m) = length m.
Proof. induction m; intro; simpl; auto. Qed.

Lemma nondec_cons0 m : nondec m -> nondec (0 :: m).
Proof. destruct m; simpl; auto. intros; split; auto; lia. Qed.

Lemma list_sum_rev l : list_sum (rev l) = list_sum l.
Proof. apply list_sum_perm. symmetry. apply Permutation_rev. Qed.

Lemma deref_spec D N m : mset D N m -> length (sums_deref m) = D /\ list_sum (sums_deref m) = lst m.
Proof.
  intros (L & V & H). unfold sums_deref. rewrite rev_length, adj_length. split; auto.
  rewrite list_sum_rev. pose proof (nondec_cons0 m V) as V0.
  pose proof (psums_last (adjacent_difference 0 m) 0) as Q. rewrite adj_psums in Q by auto.
  rewrite <- (Nat.add_0_l (list_sum _)), <- Q. destruct m; auto.
Qed.
Lemma deref_inj D N m m' : mset D N m -> mset D N m' -> sums_deref m = sums_deref m' -> m = m'.
Proof.
  intros (L & V & H) (L' & V' & H') E. unfold sums_deref in E.
  apply (f_equal (@rev nat)) in E. rewrite !rev_involutive in E.
  rewrite <- (adj_psums m 0), <- (adj_psums m' 0) by (apply nondec_cons0; auto). congruence.
Qed.
Lemma deref_surj D N x : 0 < D -> length x = D -> list_sum x <= N ->
  exists m, mset D N m /\ sums_deref m = x /\ lst m = list_sum x.
Proof.
  intros HD L S. exists (psums 0 (rev x)).
  assert (Ll : lst (psums 0 (rev x)) = list_sum x).
  { pose proof (psums_last (rev x) 0) as Q. rewrite list_sum_rev in Q.
    unfold lst. destruct (psums 0 (rev x)) eqn:E; auto. }
  split; [split; [|split]|split]; auto.
  - rewrite psums_length, rev_length; auto.
  - pose proof (psums_nondec (rev x) 0) as Q. destruct (psums 0 (rev x)); simpl in *; tauto.
  - lia.
  - unfold sums_deref. rewrite psums_adj, rev_involutive; auto.
Qed.

(** counting markers: m_i + i is strictly increasing *)
Fixpoint shift (i : nat) (m : list nat) : list nat :=
  match m with [] => [] | a :: t => (a + i) :: shift (S i) t end.
Fixpoint unshift (i : nat) (m : list nat) : list nat :=
  match m with [] => [] | a :: t => (a - i) :: unshift (S i) t end.

Lemma shift_length m : forall i, length (shift i m) = length m.
Proof. induction m; intro; simpl; auto. Qed.
Lemma unshift_shift m : forall i, unshift i (shift i m) = m.
Proof. induction m; intro; simpl; auto. rewrite IHm. f_equal. lia. Qed.
Lemma shift_valid N : forall m i lo, nondec m -> lo <= hd 0 m + i -> lst m <= N ->
  cvalid lo (N + i + length m) (shift i m).
Proof.
  unfold lst. induction m as [|a [|b t] IH]; intros i lo V Hlo HN; cbn [shift].
  - simpl; auto.
  - simpl in *. lia.
  - destruct V as [A V]. cbn [hd] in Hlo.
    change (last (a :: b :: t) 0) with (last (b :: t) 0) in HN.
    pose proof (nondec_le_last (b :: t) V b (or_introl eq_refl)) as Q. unfold lst in Q.
    split; [lia|]. split; [cbn [length]; lia|].
    replace (N + i + length (a :: b :: t)) with (N + S i + length (b :: t)) by (simpl; lia).
    apply IH; auto. simpl. lia.
Qed.
Lemma unshift_valid N : forall c i lo, cvalid lo (N + i + length c) c -> i <= lo -> 
  shift i (unshift i c) = c /\ nondec (unshift i c) /\ length (unshift i c) = length c /\
  (c <> [] -> lo - i <= hd 0 (unshift i c) /\ lst (unshift i c) <= N).
Proof.
  unfold lst. induction c as [|a [|b t] IH]; intros i lo V Hi.
  - simpl; repeat split; auto; congruence.
  - simpl in *. repeat split; try lia. f_equal; lia.
  - cbn [cvalid] in V. destruct V as (A & B & V).
    replace (N + i + length (a :: b :: t)) with (N + S i + length (b :: t)) in V by (simpl; lia).
    destruct (IH (S i) (a + 1) V ltac:(lia)) as (E1 & E2 & E3 & E4).
    destruct (E4 ltac:(congruence)) as [E5 E6]. cbn [unshift hd shift] in *.
    split; [f_equal; auto; lia|]. split; [split; auto; lia|]. split; [simpl in *; lia|].
    intros _. split; [lia|]. exact E6.
Qed.

Lemma mset_count D N l : 0 < D -> NoDup l -> (forall z, In z l <-> mset D N z) ->
  binom (N + D) D = Some (length l).
Proof.
  intros HD ND I. rewrite (subsets_length (N + D) D 0) by lia. f_equal.
  rewrite <- (map_length (shift 0) l). symmetry. apply same_members_length.
  - apply NoDup_map_inj; auto. intros x y _ _ E.
    rewrite <- (unshift_shift x 0), <- (unshift_shift y 0). congruence.
  - apply subsets_NoDup.
  - intro c. rewrite subsets_In, in_map_iff. split.
    + intros (m & <- & Hm). apply I in Hm. destruct Hm as (L & V & H).
      rewrite shift_length. split; auto. rewrite <- L.
      replace (0 + (N + length m)) with (N + 0 + length m) by lia. apply shift_valid; auto. lia.
    + intros [L V]. exists (unshift 0 c). 
      replace (0 + (N + D)) with (N + 0 + length c) in V by lia.
      destruct (unshift_valid N c 0 0 V ltac:(lia)) as (E1 & E2 & E3 & E4). split; auto.
      apply I. split; [lia|]. split; auto. apply E4. destruct c; [simpl in L; lia|congruence].
Qed.
