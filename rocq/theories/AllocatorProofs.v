Require Import List ZArith Lia Bool.
Require Import Verif.Base Verif.DistributeModel Verif.AllocatorModel.
Import ListNotations.
Local Open Scope Z_scope.
Local Open Scope opt_scope.

Lemma align_up al p : 0 < al -> let a := (p + (al - 1)) / al * al in p <= a < p + al /\ a mod al = 0.
Proof.
  intros H a. subst a. split; [|apply Z.mod_mul; lia].
  pose proof (Z.div_mod (p + (al - 1)) al ltac:(lia)).
  pose proof (Z.mod_pos_bound (p + (al - 1)) al H). nia.
Qed.

Definition arena_ok (sz : Z) (s : Alloc) : Prop :=
  0 < sz /\ 0 < alignment_ s /\ 0 <= start_ s /\ end_ s < 2^64 /\
  start_ s <= current_ s <= end_ s /\ start_ s mod alignment_ s = 0.

Lemma allocate_spec sz n s p s' : arena_ok sz s -> 0 <= n * sz < 2^64 ->
  allocate sz n s = Some (p, s') ->
  current_ s <= p /\ p mod alignment_ s = 0 /\ p + n * sz <= end_ s /\ arena_ok sz s' /\
  start_ s' = start_ s /\ end_ s' = end_ s /\ alignment_ s' = alignment_ s /\ current_ s' = p + n * sz.
Proof.
  intros (Hsz & Hal & Hs & He & Hc & Hm) Hn H. unfold allocate in H.
  destruct ((0 <? alignment_ s) && _); [|discriminate].
  unfold std_align in H.
  destruct (align_up (alignment_ s) (current_ s) Hal) as [A1 A2].
  set (a := (current_ s + (alignment_ s - 1)) / alignment_ s * alignment_ s) in *.
  destruct (Z.leb_spec (a - current_ s + wrap64 (n * sz)) (wrap64 ((end_ s - current_ s) / sz * sz)))
    as [K|K]; [|discriminate].
  cbn [bind] in H. injection H as Hp Hs'. subst p s'.
  unfold wrap64 in K. rewrite (Z.mod_small (n * sz)) in K by lia.
  pose proof (Z.div_mod (end_ s - current_ s) sz ltac:(lia)) as D.
  pose proof (Z.mod_pos_bound (end_ s - current_ s) sz Hsz).
  pose proof (Z.div_pos (end_ s - current_ s) sz ltac:(lia) Hsz).
  rewrite Z.mod_small in K by nia.
  unfold arena_ok; cbn. repeat split; auto; try nia.
Qed.

Definition block_in (s : Alloc) (b : Z * Z) : Prop :=
  start_ s <= fst b /\ fst b + snd b <= current_ s /\ fst b mod alignment_ s = 0 /\ 0 <= snd b.
Definition disjoint (b c : Z * Z) : Prop := fst b + snd b <= fst c \/ fst c + snd c <= fst b.

Definition hist_ok (sz : Z) (o : op) : Prop :=
  match o with OpAlloc n => 0 <= n * sz < 2^64 | OpReset => True end.

Lemma run_inv sz ops : forall s live, Forall (hist_ok sz) ops -> arena_ok sz s ->
  Forall (block_in s) live -> ForallOrdPairs disjoint live ->
  let r := run sz ops s live in
  arena_ok sz (fst r) /\ Forall (block_in (fst r)) (snd r) /\ ForallOrdPairs disjoint (snd r) /\
  start_ (fst r) = start_ s /\ end_ (fst r) = end_ s /\ alignment_ (fst r) = alignment_ s.
Proof.
  induction ops as [|o rest IH]; intros s live HF A B D; cbn zeta; cbn [run].
  - cbn. auto 10.
  - inversion HF as [|? ? Ho Hr]; subst. destruct o as [n|].
    + destruct (allocate sz n s) as [[p s']|] eqn:E.
      * cbn in Ho. destruct (allocate_spec sz n s p s' A Ho E) as (P1 & P2 & P3 & A' & E1 & E2 & E3 & E4).
        destruct (IH s' ((p, n * sz) :: live)) as (I1 & I2 & I3 & I4 & I5 & I6); auto.
        -- constructor.
           ++ unfold block_in; cbn. rewrite E1, E3, E4. destruct A as (_ & _ & _ & _ & Hc & _).
              repeat split; try lia.
           ++ eapply Forall_impl; [|exact B]. intros b (B1 & B2 & B3 & B4).
              unfold block_in. rewrite E1, E3, E4. repeat split; auto. lia.
        -- constructor; auto. eapply Forall_impl; [|exact B]. intros b (B1 & B2 & B3 & B4).
           right. cbn. lia.
        -- cbn zeta in *. refine (conj I1 (conj I2 (conj I3 (conj _ (conj _ _))))); congruence.
      * apply IH; auto.
    + destruct (IH (reset s) []) as (I1 & I2 & I3 & I4 & I5 & I6); auto.
      * destruct A as (A1 & A2 & A3 & A4 & A5 & A6). unfold arena_ok, reset; cbn. repeat split; auto; lia.
      * constructor.
      * cbn zeta in *. exact (conj I1 (conj I2 (conj I3 (conj I4 (conj I5 I6))))).
Qed.

(** ** allocation_size *)
Definition ceil (a b : Z) : Z := (a + (b - 1)) / b.
Lemma ceil_spec a b : 0 < b -> b * ceil a b < a + b /\ a <= b * ceil a b.
Proof.
  intro H. unfold ceil. pose proof (Z.div_mod (a + (b - 1)) b ltac:(lia)).
  pose proof (Z.mod_pos_bound (a + (b - 1)) b H). lia.
Qed.
Lemma ceil_le a b k : 0 < b -> a <= b * k -> ceil a b <= k.
Proof.
  intros H K. destruct (ceil_spec a b H) as [A B]. nia.
Qed.

Definition padded (sz n al : Z) : Z := al * ceil (n * sz) al.

Lemma allocation_size_ceil sz n al : 0 < sz -> 0 < al -> 1 <= n -> n * sz + al < 2^64 ->
  allocation_size sz n al = ceil (padded sz n al) sz.
Proof.
  intros Hs Ha Hn Hb. unfold allocation_size.
  assert (Hp : 1 <= n * sz) by nia.
  unfold wrap64. rewrite (Z.mod_small (n * sz)) by lia.
  rewrite (Z.mod_small (n * sz - 1)) by lia.
  assert (C1 : 1 + (n * sz - 1) / al = ceil (n * sz) al).
  { unfold ceil. replace (n * sz + (al - 1)) with (n * sz - 1 + 1 * al) by lia.
    rewrite Z.div_add by lia. lia. }
  rewrite C1. destruct (ceil_spec (n * sz) al Ha) as [A B].
  assert (0 < ceil (n * sz) al) by nia.
  rewrite (Z.mod_small (ceil (n * sz) al)) by nia.
  rewrite (Z.mod_small (ceil (n * sz) al * al)) by nia.
  fold (padded sz n al). replace (ceil (n * sz) al * al) with (padded sz n al) by (unfold padded; lia).
  assert (Pp : 1 <= padded sz n al < 2^64) by (unfold padded; nia).
  rewrite (Z.mod_small (padded sz n al - 1)) by lia.
  assert (C2 : 1 + (padded sz n al - 1) / sz = ceil (padded sz n al) sz).
  { unfold ceil. replace (padded sz n al + (sz - 1)) with (padded sz n al - 1 + 1 * sz) by lia.
    rewrite Z.div_add by lia. lia. }
  rewrite C2. destruct (ceil_spec (padded sz n al) sz Hs). apply Z.mod_small. nia.
Qed.

(** allocations in sequence, each must succeed *)
Fixpoint alloc_all (sz : Z) (ns : list Z) (s : Alloc) : option (list Z) :=
  match ns with
  | [] => Some []
  | n :: rest => do r <- allocate sz n s; do l <- alloc_all sz rest (snd r); Some (fst r :: l)
  end.

Definition pow2 (al : Z) : Prop := exists k, 0 <= k /\ al = 2 ^ k.
Lemma pow2_land al : pow2 al -> 0 < al /\ Z.land al (al - 1) = 0.
Proof.
  intros (k & Hk & ->). split; [apply Z.pow_pos_nonneg; lia|].
  replace (2 ^ k - 1) with (Z.ones k) by (rewrite Z.ones_equiv; lia).
  rewrite Z.land_ones by auto. apply Z.mod_same. apply Z.pow_nonzero; lia.
Qed.

Definition sumZ (l : list Z) : Z := fold_right Z.add 0 l.

(** [done]: padded bytes reserved so far; current_ <= start_ + done. *)
Lemma alloc_all_ok sz al : 0 < sz -> pow2 al -> forall ns s done units,
  (forall n, In n ns -> 1 <= n /\ n * sz + al < 2^64) ->
  arena_ok sz s -> alignment_ s = al ->
  (* padded bytes so far, aligned *)
  0 <= done -> done mod al = 0 ->
  (done = 0 /\ current_ s = start_ s \/
   exists n prev, 0 <= prev /\ prev mod al = 0 /\ 1 <= n /\ current_ s = start_ s + prev + n * sz /\
     done = prev + padded sz n al /\ ceil prev sz + ceil (padded sz n al) sz <= units) ->
  ceil done sz <= units ->
  end_ s = start_ s + sz * (units + sumZ (map (fun n => allocation_size sz n al) ns)) ->
  exists l, alloc_all sz ns s = Some l.
Proof.
  intros Hsz P2. destruct (pow2_land al P2) as [Hal Hland].
  induction ns as [|n rest IH]; intros s done units Hn A Eal Hd Hdm Hcur Hun He.
  - exists []. reflexivity.
  - destruct (Hn n (or_introl eq_refl)) as [N1 N2].
    assert (Sm : forall ns, (forall n, In n ns -> 1 <= n /\ n * sz + al < 2^64) ->
                   0 <= sumZ (map (fun n => allocation_size sz n al) ns)).
    { induction ns as [|m t IHt]; intro Q; [cbn; lia|].
      change (0 <= allocation_size sz m al + sumZ (map (fun n => allocation_size sz n al) t)).
      destruct (Q m (or_introl eq_refl)) as [Q1 Q2].
      rewrite allocation_size_ceil by auto. 
      destruct (ceil_spec (m * sz) al Hal). destruct (ceil_spec (padded sz m al) sz Hsz).
      specialize (IHt (fun x Hx => Q x (or_intror Hx))).
      assert (0 <= ceil (padded sz m al) sz) by (unfold padded in *; nia). lia. }
    cbn [map sumZ fold_right] in He. fold (sumZ (map (fun n => allocation_size sz n al) rest)) in He.
    specialize (Sm rest (fun x Hx => Hn x (or_intror Hx))).
    rewrite allocation_size_ceil in He by auto.
    set (R := sumZ (map (fun n => allocation_size sz n al) rest)) in *.
    destruct (ceil_spec (n * sz) al Hal) as [C1 C2].
    destruct (ceil_spec (padded sz n al) sz Hsz) as [C3 C4].
    assert (Hpn : n <= ceil (padded sz n al) sz) by (unfold padded in *; nia).
    destruct A as (_ & _ & S0 & S1 & S2 & S3). rewrite Eal in *.
    (* aligned address *)
    assert (Al : (current_ s + (al - 1)) / al * al = start_ s + done).
    { assert (U : start_ s + done - al < current_ s <= start_ s + done).
      { destruct Hcur as [[-> ->]|(m & prev & p1 & p2 & p3 & p4 & p5 & p6)]; [lia|].
        destruct (ceil_spec (m * sz) al Hal). unfold padded in *. lia. }
      pose proof (Z.div_mod (start_ s) al ltac:(lia)) as Q1. rewrite S3 in Q1.
      pose proof (Z.div_mod done al ltac:(lia)) as Q2. rewrite Hdm in Q2.
      set (x := start_ s / al) in *. set (y := done / al) in *.
      replace (current_ s + (al - 1)) with (current_ s + (al - 1) - al * (x + y) + (x + y) * al) by lia.
      rewrite Z.div_add by lia. rewrite Z.div_small by lia. lia. }
    (* space in T units *)
    assert (Sp : start_ s + done - current_ s + n * sz <= (end_ s - current_ s) / sz * sz).
    { assert (K : exists k, start_ s + done - current_ s + n * sz <= k * sz /\ k * sz <= end_ s - current_ s).
      { destruct Hcur as [[-> ->]|(m & prev & p1 & p2 & p3 & p4 & p5 & p6)].
        - exists n. split; [lia|]. assert (0 <= ceil 0 sz) by (unfold ceil; apply Z.div_pos; lia). nia.
        - exists (ceil (padded sz m al) sz - m + n).
          destruct (ceil_spec (padded sz m al) sz Hsz) as [M1 M2].
          destruct (ceil_spec prev sz Hsz) as [M3 M4]. split; [nia|].
          rewrite He, p4. nia. }
      destruct K as (k & K1 & K2).
      assert (k <= (end_ s - current_ s) / sz) by (apply Z.div_le_lower_bound; lia). nia. }
    assert (Pdiv : (end_ s - current_ s) / sz * sz <= end_ s - current_ s).
    { pose proof (Z.div_mod (end_ s - current_ s) sz ltac:(lia)).
      pose proof (Z.mod_pos_bound (end_ s - current_ s) sz Hsz). nia. }
    assert (Q0 : 0 <= (end_ s - current_ s) / sz * sz).
    { pose proof (Z.div_pos (end_ s - current_ s) sz ltac:(lia) Hsz). nia. }
    assert (E : exists s', allocate sz n s = Some (start_ s + done, s')).
    { unfold allocate. rewrite Eal. rewrite (proj2 (Z.ltb_lt 0 al) Hal), Hland. cbn [andb Z.eqb].
      unfold std_align, wrap64. rewrite (Z.mod_small (n * sz)) by nia.
      rewrite (Z.mod_small ((end_ s - current_ s) / sz * sz)) by lia.
      rewrite Al. rewrite (proj2 (Z.leb_le _ _)) by lia. cbn [bind]. eauto. }
    destruct E as [s' E].
    assert (A : arena_ok sz s) by (unfold arena_ok; rewrite Eal; auto 10).
    destruct (allocate_spec sz n s _ s' A ltac:(nia) E) as (P1 & P3 & P4 & A' & E1 & E2 & E3 & E4).
    cbn [alloc_all]. rewrite E. cbn [bind fst snd].
    destruct (IH s' (done + padded sz n al) (units + ceil (padded sz n al) sz)) as [l El]; auto.
    + intros; apply Hn; right; auto.
    + congruence.
    + unfold padded. nia.
    + unfold padded. rewrite (Z.mul_comm al), Z.mod_add by lia. exact Hdm.
    + right. exists n, done. repeat split; auto; lia.
    + apply ceil_le; auto. destruct (ceil_spec done sz Hsz). nia.
    + rewrite E2, E1, He. unfold R. lia.
    + rewrite El. cbn [bind]. eauto.
Qed.
