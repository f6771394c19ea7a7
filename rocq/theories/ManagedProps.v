(** Theorems about tensors that own their storage. *)
Require Import ZArith Reals Lia Arith List.
Require Import Verif.Base Verif.ManagedModel Verif.ManagedSpec.
Import ListNotations.

(** C96.  The storage asked for is the smallest multiple of the alignment that holds the entries (0 if there are none), as long as that is
    a number of std::size_t. *)
Theorem storage_size : forall bytes n k, (0 < bytes)%Z -> (0 <= n)%Z -> (0 <= k < 64)%Z -> (bytes * n + 2 ^ k <= 2 ^ 64)%Z ->
  let s := storage_bytes bytes n (2 ^ k) in (2 ^ k | s)%Z /\ (bytes * n <= s < bytes * n + 2 ^ k)%Z.
Proof.
  intros bytes n k Hb Hn Hk H s. subst s. unfold storage_bytes, u64.
  set (a := (2 ^ k)%Z) in *. set (m := (2 ^ 64)%Z) in *.
  assert (Ha : (0 < a)%Z) by (apply Z.pow_pos_nonneg; lia).
  assert (Hm : (m = 2 ^ (64 - k) * a)%Z) by (unfold m, a; rewrite <- Z.pow_add_r by lia; f_equal; lia).
  set (q := (2 ^ (64 - k))%Z) in *. assert (Hq : (1 < q)%Z) by (unfold q; apply Z.pow_gt_1; lia).
  rewrite (Z.mod_small (bytes * n) m) by nia.
  destruct (Z.eq_dec (bytes * n) 0) as [E|E].
  - rewrite E. replace ((0 - 1) mod m)%Z with (m - 1)%Z by (apply Z.mod_unique with (-1)%Z; lia).
    replace ((m - 1) / a)%Z with (q - 1)%Z by (apply Z.div_unique with (a - 1)%Z; lia).
    replace (1 + (q - 1))%Z with q by lia. rewrite Z.mul_mod_idemp_l by lia. rewrite <- Hm, Z.mod_same by lia.
    split; [apply Z.divide_0_r|lia].
  - assert (P : (0 < bytes * n)%Z) by nia. rewrite (Z.mod_small (bytes * n - 1) m) by lia.
    pose proof (Z.div_mod (bytes * n - 1) a ltac:(lia)) as D. pose proof (Z.mod_pos_bound (bytes * n - 1) a Ha) as B.
    set (d := ((bytes * n - 1) / a)%Z) in *. set (r := ((bytes * n - 1) mod a)%Z) in *.
    assert (D0 : (0 <= d)%Z) by (unfold d; apply Z.div_pos; lia).
    assert (D1 : (1 + d < q)%Z \/ (1 + d = q)%Z) by nia.
    assert (D2 : ((1 + d) * a < m)%Z).
    { destruct D1 as [D1|D1]; [nia|]. exfalso. assert ((d * a = m - a)%Z) by (rewrite Hm; nia). nia. }
    rewrite Z.mul_mod_idemp_l by lia. rewrite (Z.mod_small ((1 + d) * a) m) by nia.
    split; [exists (1 + d)%Z; reflexivity|]. nia.
Qed.
Print Assumptions storage_size.

(** C96.  Without that condition it is not: 2^61 doubles ask for no bytes. *)
Theorem storage_size_refuted : forall k, (0 <= k < 64)%Z -> storage_bytes 8 (2 ^ 61) (2 ^ k) = 0%Z.
Proof.
  intros k Hk. unfold storage_bytes, u64.
  replace ((8 * 2 ^ 61) mod 2 ^ 64)%Z with 0%Z by reflexivity. replace ((0 - 1) mod 2 ^ 64)%Z with (2 ^ 64 - 1)%Z by reflexivity.
  assert (Hm : (2 ^ 64 = 2 ^ (64 - k) * 2 ^ k)%Z) by (rewrite <- Z.pow_add_r by lia; f_equal; lia).
  assert (Ha : (0 < 2 ^ k)%Z) by (apply Z.pow_pos_nonneg; lia). assert (Hq : (1 < 2 ^ (64 - k))%Z) by (apply Z.pow_gt_1; lia).
  replace ((2 ^ 64 - 1) / 2 ^ k)%Z with (2 ^ (64 - k) - 1)%Z by (apply Z.div_unique with (2 ^ k - 1)%Z; lia).
  replace (1 + (2 ^ (64 - k) - 1))%Z with (2 ^ (64 - k))%Z by lia.
  destruct (Z.eq_dec k 0) as [->|N]; [reflexivity|].
  rewrite (Z.mod_small (2 ^ (64 - k))).
  - rewrite <- Hm. reflexivity.
  - split; [lia|]. apply Z.pow_lt_mono_r; lia.
Qed.
Print Assumptions storage_size_refuted.

Lemma set_same : forall (A : Type) (m : nat -> option A) k x, set m k x k = x.
Proof. intros. unfold set. rewrite Nat.eqb_refl. reflexivity. Qed.
Lemma set_other : forall (A : Type) (m : nat -> option A) k x i, i <> k -> set m k x i = m i.
Proof. intros. unfold set. rewrite (proj2 (Nat.eqb_neq i k)) by assumption. reflexivity. Qed.

(** What the variable [v] with value [a] looks like in memory. *)
Definition holds (h : nat -> option block) (a : option (option value)) (o : option object) : Prop :=
  match a, o with
  | None, None => True
  | Some None, Some o => o_managed o = None
  | Some (Some x), Some o =>
      match o_managed o with
      | Some p => o_data o = Some p /\ exists b, h p = Some b /\ b_size b = v_size x /\ b_data b = v_data x
      | None => v_size x = 0%nat
      end
  | _, _ => False
  end.
Record inv (A : values) (s : state) : Prop := {
  inv_holds : forall v, holds (heap s) (A v) (objs s v);
  inv_unique : forall v w o o' p, objs s v = Some o -> objs s w = Some o' -> o_managed o = Some p -> o_managed o' = Some p -> v = w;
  inv_owned : forall p b, heap s p = Some b -> exists v o, objs s v = Some o /\ o_managed o = Some p;
  inv_alive : forall v o p, objs s v = Some o -> o_managed o = Some p -> heap s p <> None;
  inv_next : forall p b, heap s p = Some b -> (p < next s)%nat }.

Lemma holds_heap : forall h h' a o, holds h a o -> (forall o' p, o = Some o' -> o_managed o' = Some p -> h' p = h p) -> holds h' a o.
Proof.
  intros h h' a o H E. unfold holds in *. destruct a as [[x|]|], o as [o|]; try assumption.
  destruct (o_managed o) as [p|] eqn:EM; [|assumption]. destruct H as (D & b & K). rewrite (E o p eq_refl EM). split; [exact D|]. exists b. exact K.
Qed.

Lemma step : forall A s a A' r, inv A s -> does A a = Some (A', r) -> exists s', act s a = Some (s', r) /\ inv A' s'.
Proof.
  intros A s a A' r I H. pose proof (inv_holds _ _ I) as HH.
  assert (EMPTY : forall v, A v = None -> objs s v = None).
  { intros v E. specialize (HH v). rewrite E in HH. destruct (objs s v); [contradiction|reflexivity]. }
  assert (FRESH : forall v o p, objs s v = Some o -> o_managed o = Some p -> (p < next s)%nat).
  { intros v o p E1 E2. destruct (heap s p) as [b|] eqn:E; [apply (inv_next _ _ I p b E)|]. destruct (inv_alive _ _ I v o p E1 E2 E). }
  assert (REL : forall v o, objs s v = Some o -> exists h, release (heap s) (o_managed o) = Some h /\
    (forall p, o_managed o <> Some p -> h p = heap s p) /\ (forall p, o_managed o = Some p -> h p = None)).
  { intros v o E. unfold release. destruct (o_managed o) as [p|] eqn:EM.
    - destruct (heap s p) as [b|] eqn:EH; [|destruct (inv_alive _ _ I v o p E EM EH)].
      eexists. split; [reflexivity|]. split; intros p' Hp'.
      + apply set_other. congruence.
      + injection Hp' as <-. apply set_same.
    - eexists. split; [reflexivity|]. split; [reflexivity|discriminate]. }
  destruct a as [v|v n g|v w|v w|v i x|v i|v]; cbn [does] in H.
  - (* Default *)
    destruct (A v) as [?|] eqn:EA; [discriminate|]. injection H as <- <-. cbn [act]. rewrite (EMPTY v EA).
    eexists. split; [reflexivity|]. constructor; cbn [objs heap next].
    + intros u. destruct (Nat.eq_dec u v) as [->|N]; [rewrite !set_same; reflexivity|rewrite !set_other by exact N; apply HH].
    + intros u w o o' p. destruct (Nat.eq_dec u v) as [->|N]; destruct (Nat.eq_dec w v) as [->|N']; rewrite ?set_same, ?set_other by assumption; intros E1 E2 E3 E4; try congruence;
        try (injection E1 as <-; discriminate); try (injection E2 as <-; discriminate). apply (inv_unique _ _ I u w o o' p); assumption.
    + intros p b E. destruct (inv_owned _ _ I p b E) as (u & o & E1 & E2). exists u, o. split; [|exact E2].
      rewrite set_other; [exact E1|]. intros ->. rewrite (EMPTY v EA) in E1. discriminate.
    + intros u o p E1 E2. destruct (Nat.eq_dec u v) as [->|N]; [rewrite set_same in E1; injection E1 as <-; discriminate|].
      rewrite set_other in E1 by exact N. apply (inv_alive _ _ I u o p E1 E2).
    + apply (inv_next _ _ I).
  - (* New *)
    destruct (A v) as [?|] eqn:EA; [discriminate|]. injection H as <- <-. cbn [act]. rewrite (EMPTY v EA).
    eexists. split; [reflexivity|]. constructor; cbn [objs heap next].
    + intros u. destruct (Nat.eq_dec u v) as [->|N].
      * rewrite !set_same. cbn. split; [reflexivity|]. eexists. rewrite set_same. repeat split.
      * rewrite !set_other by exact N. apply (holds_heap (heap s)); [apply HH|]. intros o p E1 E2. apply set_other. pose proof (FRESH u o p E1 E2). lia.
    + intros u w o o' p. destruct (Nat.eq_dec u v) as [->|N]; destruct (Nat.eq_dec w v) as [->|N']; rewrite ?set_same, ?set_other by assumption; intros E1 E2 E3 E4; try congruence.
      * injection E1 as <-. cbn in E3. injection E3 as <-. pose proof (FRESH w o' _ E2 E4). lia.
      * injection E2 as <-. cbn in E4. injection E4 as <-. pose proof (FRESH u o _ E1 E3). lia.
      * apply (inv_unique _ _ I u w o o' p); assumption.
    + intros p b E. destruct (Nat.eq_dec p (next s)) as [->|N].
      * exists v. eexists. rewrite set_same. split; reflexivity.
      * rewrite set_other in E by exact N. destruct (inv_owned _ _ I p b E) as (u & o & E1 & E2). exists u, o. split; [|exact E2].
        rewrite set_other; [exact E1|]. intros ->. rewrite (EMPTY v EA) in E1. discriminate.
    + intros u o p E1 E2. destruct (Nat.eq_dec u v) as [->|N].
      * rewrite set_same in E1. injection E1 as <-. cbn in E2. injection E2 as <-. rewrite set_same. discriminate.
      * rewrite set_other in E1 by exact N. rewrite set_other by (pose proof (FRESH u o p E1 E2); lia). apply (inv_alive _ _ I u o p E1 E2).
    + intros p b E. destruct (Nat.eq_dec p (next s)) as [->|N]; [lia|]. rewrite set_other in E by exact N. pose proof (inv_next _ _ I p b E). lia.
  - (* MoveNew *)
    destruct (A v) as [?|] eqn:EA; [discriminate|]. destruct (A w) as [[x|]|] eqn:EW; try discriminate. injection H as <- <-.
    cbn [act]. rewrite (EMPTY v EA). pose proof (HH w) as HW. rewrite EW in HW. destruct (objs s w) as [o|] eqn:EO; [|contradiction].
    assert (NVW : w <> v) by (intros ->; congruence).
    eexists. split; [reflexivity|]. constructor; cbn [objs heap next].
    + intros u. destruct (Nat.eq_dec u w) as [->|N]; [rewrite !set_same; reflexivity|]. rewrite !(set_other _ _ w) by exact N.
      destruct (Nat.eq_dec u v) as [->|N']; [rewrite !set_same; exact HW|rewrite !set_other by exact N'; apply HH].
    + intros u1 u2 o1 o2 p E1 E2 E3 E4.
      assert (K : forall u o1, set (set (objs s) v (Some o)) w (Some {| o_size := o_size o; o_data := o_data o; o_managed := None |}) u = Some o1 ->
        o_managed o1 = Some p -> (u = v /\ o1 = o) \/ (u <> v /\ u <> w /\ objs s u = Some o1)).
      { intros u o3 F1 F2. destruct (Nat.eq_dec u w) as [->|N]; [rewrite set_same in F1; injection F1 as <-; discriminate|].
        rewrite set_other in F1 by exact N. destruct (Nat.eq_dec u v) as [->|N']; [rewrite set_same in F1; injection F1 as <-; left; auto|].
        rewrite set_other in F1 by exact N'. right. auto. }
      destruct (K _ _ E1 E3) as [[-> ->]|(N1 & N2 & F1)]; destruct (K _ _ E2 E4) as [[-> ->]|(M1 & M2 & F2)]; try reflexivity.
      * destruct M2. symmetry. apply (inv_unique _ _ I w u2 o o2 p); assumption.
      * destruct N2. apply (inv_unique _ _ I u1 w o1 o p); assumption.
      * apply (inv_unique _ _ I u1 u2 o1 o2 p); assumption.
    + intros p b E. destruct (inv_owned _ _ I p b E) as (u & o1 & E1 & E2). destruct (Nat.eq_dec u w) as [->|N].
      * exists v, o. rewrite set_other by congruence. rewrite set_same. split; congruence.
      * exists u, o1. rewrite set_other by exact N. rewrite set_other; [split; assumption|]. intros ->. rewrite (EMPTY v EA) in E1. discriminate.
    + intros u o1 p E1 E2. destruct (Nat.eq_dec u w) as [->|N]; [rewrite set_same in E1; injection E1 as <-; discriminate|].
      rewrite set_other in E1 by exact N. destruct (Nat.eq_dec u v) as [->|N'].
      * rewrite set_same in E1. injection E1 as <-. apply (inv_alive _ _ I w o p EO E2).
      * rewrite set_other in E1 by exact N'. apply (inv_alive _ _ I u o1 p E1 E2).
    + apply (inv_next _ _ I).
  - (* MoveAssign *)
    destruct (A v) as [y|] eqn:EA; [|discriminate]. destruct (A w) as [[x|]|] eqn:EW; try discriminate. injection H as <- <-.
    cbn [act]. pose proof (HH w) as HW. rewrite EW in HW. destruct (objs s w) as [o|] eqn:EO; [|contradiction].
    pose proof (HH v) as HV. rewrite EA in HV. destruct (objs s v) as [ov|] eqn:EV; [|destruct y; contradiction].
    destruct (Nat.eqb_spec v w) as [->|NVW].
    { eexists. split; [reflexivity|]. exact I. }
    destruct (REL v ov EV) as (h & R1 & R2 & R3). rewrite R1. eexists. split; [reflexivity|].
    assert (KEEP : forall u o1 p, u <> v -> objs s u = Some o1 -> o_managed o1 = Some p -> h p = heap s p).
    { intros u o1 p N E1 E2. apply R2. intros E3. apply N. apply (inv_unique _ _ I u v o1 ov p); assumption. }
    assert (NWV : w <> v) by congruence.
    constructor; cbn [objs heap next].
    + intros u. destruct (Nat.eq_dec u w) as [->|N]; [rewrite !set_same; reflexivity|]. rewrite !(set_other _ _ w) by exact N.
      destruct (Nat.eq_dec u v) as [->|N'].
      * rewrite !set_same. apply (holds_heap (heap s) h _ (Some o)); [exact HW|]. intros o1 p E1 E2. injection E1 as <-. apply (KEEP w o p); assumption.
      * rewrite !set_other by exact N'. apply (holds_heap (heap s)); [apply HH|]. intros o1 p E1 E2. apply (KEEP u o1 p); assumption.
    + intros u1 u2 o1 o2 p E1 E2 E3 E4.
      assert (K : forall u o1, set (set (objs s) v (Some o)) w (Some {| o_size := o_size o; o_data := o_data o; o_managed := None |}) u = Some o1 ->
        o_managed o1 = Some p -> (u = v /\ o1 = o) \/ (u <> v /\ u <> w /\ objs s u = Some o1)).
      { intros u o3 F1 F2. destruct (Nat.eq_dec u w) as [->|N]; [rewrite set_same in F1; injection F1 as <-; discriminate|].
        rewrite set_other in F1 by exact N. destruct (Nat.eq_dec u v) as [->|N']; [rewrite set_same in F1; injection F1 as <-; left; auto|].
        rewrite set_other in F1 by exact N'. right. auto. }
      destruct (K _ _ E1 E3) as [[-> ->]|(N1 & N2 & F1)]; destruct (K _ _ E2 E4) as [[-> ->]|(M1 & M2 & F2)]; try reflexivity.
      * destruct M2. symmetry. apply (inv_unique _ _ I w u2 o o2 p); assumption.
      * destruct N2. apply (inv_unique _ _ I u1 w o1 o p); assumption.
      * apply (inv_unique _ _ I u1 u2 o1 o2 p); assumption.
    + intros p b E. assert (NP : o_managed ov <> Some p) by (intros E0; rewrite (R3 p E0) in E; discriminate).
      rewrite (R2 p NP) in E. destruct (inv_owned _ _ I p b E) as (u & o1 & E1 & E2). destruct (Nat.eq_dec u w) as [->|N].
      * exists v, o. rewrite set_other by congruence. rewrite set_same. split; congruence.
      * exists u, o1. rewrite set_other by exact N. rewrite set_other; [split; assumption|]. intros ->. congruence.
    + intros u o1 p E1 E2. destruct (Nat.eq_dec u w) as [->|N]; [rewrite set_same in E1; injection E1 as <-; discriminate|].
      rewrite set_other in E1 by exact N. destruct (Nat.eq_dec u v) as [->|N'].
      * rewrite set_same in E1. injection E1 as <-. rewrite (KEEP w o p NWV EO E2). apply (inv_alive _ _ I w o p EO E2).
      * rewrite set_other in E1 by exact N'. rewrite (KEEP u o1 p N' E1 E2). apply (inv_alive _ _ I u o1 p E1 E2).
    + intros p b E. destruct (o_managed ov) as [p'|] eqn:EM.
      * destruct (Nat.eq_dec p p') as [->|N]; [rewrite (R3 p' eq_refl) in E; discriminate|]. rewrite R2 in E by congruence. apply (inv_next _ _ I p b E).
      * rewrite R2 in E by discriminate. apply (inv_next _ _ I p b E).
  - (* Write *)
    destruct (A v) as [[y|]|] eqn:EA; try discriminate. destruct (Nat.ltb_spec i (v_size y)) as [Hi|]; [|discriminate]. injection H as <- <-.
    cbn [act]. pose proof (HH v) as HV. rewrite EA in HV. destruct (objs s v) as [o|] eqn:EV; [|contradiction]. cbn [holds] in HV.
    destruct (o_managed o) as [p|] eqn:EM; [|lia]. destruct HV as (ED & b & EB & ES & EDD).
    destruct o as [sz dt mg]. cbn in ED, EM. subst dt mg. rewrite EB, ES. rewrite (proj2 (Nat.ltb_lt i _)) by exact Hi.
    eexists. split; [reflexivity|]. constructor; cbn [objs heap next].
    + intros u. destruct (Nat.eq_dec u v) as [->|N].
      * rewrite set_same, EV. cbn. split; [reflexivity|]. eexists. rewrite set_same. split; [reflexivity|]. cbn. rewrite EDD. split; reflexivity.
      * rewrite set_other by exact N. apply (holds_heap (heap s)); [apply HH|]. intros o1 p1 E1 E2. apply set_other. intros ->.
        apply N. apply (inv_unique _ _ I u v o1 _ p E1 EV E2). reflexivity.
    + apply (inv_unique _ _ I).
    + intros p1 b1 E. destruct (Nat.eq_dec p1 p) as [->|N]; [exists v; eexists; split; [exact EV|reflexivity]|].
      rewrite set_other in E by exact N. apply (inv_owned _ _ I p1 b1 E).
    + intros u o1 p1 E1 E2. destruct (Nat.eq_dec p1 p) as [->|N]; [rewrite set_same; discriminate|]. rewrite set_other by exact N.
      apply (inv_alive _ _ I u o1 p1 E1 E2).
    + intros p1 b1 E. destruct (Nat.eq_dec p1 p) as [->|N]; [apply (inv_next _ _ I p b EB)|]. rewrite set_other in E by exact N.
      apply (inv_next _ _ I p1 b1 E).
  - (* Read *)
    destruct (A v) as [[y|]|] eqn:EA; try discriminate. destruct (Nat.ltb_spec i (v_size y)) as [Hi|]; [|discriminate]. injection H as <- <-.
    cbn [act]. pose proof (HH v) as HV. rewrite EA in HV. destruct (objs s v) as [o|] eqn:EV; [|contradiction]. cbn [holds] in HV.
    destruct (o_managed o) as [p|] eqn:EM; [|lia]. destruct HV as (ED & b & EB & ES & EDD).
    destruct o as [sz dt mg]. cbn in ED, EM. subst dt mg. rewrite EB, ES. rewrite (proj2 (Nat.ltb_lt i _)) by exact Hi.
    rewrite EDD. eexists. split; [reflexivity|exact I].
  - (* Destroy *)
    destruct (A v) as [y|] eqn:EA; [|discriminate]. injection H as <- <-. cbn [act].
    pose proof (HH v) as HV. rewrite EA in HV. destruct (objs s v) as [ov|] eqn:EV; [|destruct y; contradiction].
    destruct (REL v ov EV) as (h & R1 & R2 & R3). rewrite R1. eexists. split; [reflexivity|].
    assert (KEEP : forall u o1 p, u <> v -> objs s u = Some o1 -> o_managed o1 = Some p -> h p = heap s p).
    { intros u o1 p N E1 E2. apply R2. intros E3. apply N. apply (inv_unique _ _ I u v o1 ov p); assumption. }
    constructor; cbn [objs heap next].
    + intros u. destruct (Nat.eq_dec u v) as [->|N]; [rewrite !set_same; exact Logic.I|]. rewrite !set_other by exact N.
      apply (holds_heap (heap s)); [apply HH|]. intros o1 p E1 E2. apply (KEEP u o1 p); assumption.
    + intros u1 u2 o1 o2 p E1 E2. destruct (Nat.eq_dec u1 v) as [->|N]; [rewrite set_same in E1; discriminate|].
      destruct (Nat.eq_dec u2 v) as [->|N']; [rewrite set_same in E2; discriminate|]. rewrite set_other in E1, E2 by assumption.
      apply (inv_unique _ _ I u1 u2 o1 o2 p); assumption.
    + intros p b E. assert (NP : o_managed ov <> Some p) by (intros E0; rewrite (R3 p E0) in E; discriminate).
      rewrite (R2 p NP) in E. destruct (inv_owned _ _ I p b E) as (u & o1 & E1 & E2). exists u, o1.
      rewrite set_other; [split; assumption|]. intros ->. congruence.
    + intros u o1 p E1 E2. destruct (Nat.eq_dec u v) as [->|N]; [rewrite set_same in E1; discriminate|]. rewrite set_other in E1 by exact N.
      rewrite (KEEP u o1 p N E1 E2). apply (inv_alive _ _ I u o1 p E1 E2).
    + intros p b E. destruct (o_managed ov) as [p'|] eqn:EM.
      * destruct (Nat.eq_dec p p') as [->|N]; [rewrite (R3 p' eq_refl) in E; discriminate|]. rewrite R2 in E by congruence. apply (inv_next _ _ I p b E).
      * rewrite R2 in E by discriminate. apply (inv_next _ _ I p b E).
Qed.

Lemma run_inv : forall l A s A' r, inv A s -> does_all A l = Some (A', r) -> exists s', act_all s l = Some (s', r) /\ inv A' s'.
Proof.
  induction l as [|a l IH]; intros A s A' r I H; cbn [does_all act_all] in *.
  - injection H as <- <-. exists s. split; [reflexivity|exact I].
  - destruct (does A a) as [[A1 r1]|] eqn:E1; [|discriminate]. destruct (does_all A1 l) as [[A2 r2]|] eqn:E2; [|discriminate].
    injection H as <- <-. destruct (step A s a A1 r1 I E1) as (s1 & D1 & I1). destruct (IH A1 s1 A2 r2 I1 E2) as (s2 & D2 & I2).
    exists s2. rewrite D1, D2. split; [reflexivity|exact I2].
Qed.

Lemma inv_initial : inv nothing initial.
Proof. constructor; cbn; try discriminate. intros v. exact I. Qed.

(** C96.  A program that uses tensors as values (and none whose value was moved away) reads what values would give it, never reads or frees
    memory that is not allocated, and every block belongs to exactly one tensor. *)
Theorem tensors_are_values : forall program A r, does_all nothing program = Some (A, r) ->
  exists s, act_all initial program = Some (s, r) /\ owned_once s.
Proof.
  intros program A r H. destruct (run_inv program nothing initial A r inv_initial H) as (s & D & I). exists s. split; [exact D|].
  intros p b E. destruct (inv_owned _ _ I p b E) as (v & o & E1 & E2). exists v. split; [exists o; auto|].
  intros w o' E3 E4. apply (inv_unique _ _ I w v o' o p); assumption.
Qed.
Print Assumptions tensors_are_values.

(** C96.  When all its tensors are gone, so is their memory. *)
Theorem tensors_do_not_leak : forall program A r, does_all nothing program = Some (A, r) -> (forall v, A v = None) ->
  exists s, act_all initial program = Some (s, r) /\ forall p, heap s p = None.
Proof.
  intros program A r H HA. destruct (run_inv program nothing initial A r inv_initial H) as (s & D & I). exists s. split; [exact D|].
  intros p. destruct (heap s p) as [b|] eqn:E; [|reflexivity]. destruct (inv_owned _ _ I p b E) as (v & o & E1 & _).
  pose proof (inv_holds _ _ I v) as HV. rewrite HA, E1 in HV. contradiction.
Qed.
Print Assumptions tensors_do_not_leak.

(** C96.  A tensor whose value was moved away is not empty: it still reads (and writes) the memory of the new owner, and once that is
    destroyed, memory that was freed. *)
Theorem moved_from_empty_refuted : forall n g i, (i < n)%nat ->
  (exists s, act_all initial [New 0 n g; MoveNew 1 0; Read 0 i] = Some (s, [g i])) /\
  (forall x, exists s, act_all initial [New 0 n g; MoveNew 1 0; Write 0 i x; Read 1 i] = Some (s, [x])) /\
  act_all initial [New 0 n g; MoveNew 1 0; Destroy 1; Read 0 i] = None.
Proof.
  intros n g i Hi. assert (L : (i <? n)%nat = true) by (apply Nat.ltb_lt; exact Hi).
  split; [|split; [intros x|]]; cbn -[Nat.ltb]; rewrite ?L; cbn -[Nat.ltb]; rewrite ?L, ?Nat.eqb_refl; try reflexivity; eexists; reflexivity.
Qed.
Print Assumptions moved_from_empty_refuted.
