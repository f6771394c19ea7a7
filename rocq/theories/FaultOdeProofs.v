(** Proofs about the loops over nodes and fault faces. *)
Require Import List Arith Bool Reals Lra Lia.
Require Import Verif.Base Verif.LinAlg Verif.VecModel Verif.ZeroModel Verif.FrictionModel Verif.FrictionProps Verif.FaultOdeModel Verif.FaultOdeSpec.
Import ListNotations.
Local Open Scope R_scope.

Lemma put_same : forall m i v, put m i v i = v.
Proof. intros. unfold put. rewrite Nat.eqb_refl. reflexivity. Qed.
Lemma put_other : forall m i v j, j <> i -> put m i v j = m j.
Proof. intros. unfold put. destruct (Nat.eqb_spec j i); [contradiction|reflexivity]. Qed.

Lemma entry_inj : forall n Q f1 a1 q1 f2 a2 q2, (a1 < n)%nat -> (a2 < n)%nat -> (q1 < Q)%nat -> (q2 < Q)%nat ->
  entry n Q f1 a1 q1 = entry n Q f2 a2 q2 -> f1 = f2 /\ a1 = a2 /\ q1 = q2.
Proof.
  intros n Q f1 a1 q1 f2 a2 q2 A1 A2 B1 B2 H. unfold entry in H.
  assert (K : (f1 * Q + q1 = f2 * Q + q2)%nat).
  { apply (f_equal (fun x => (x / n)%nat)) in H. rewrite !Nat.div_add_l in H by lia. rewrite !(Nat.div_small) in H by lia. lia. }
  rewrite K in H. assert (a1 = a2) by lia.
  assert (f1 = f2).
  { apply (f_equal (fun x => (x / Q)%nat)) in K. rewrite !Nat.div_add_l in K by lia. rewrite !(Nat.div_small) in K by lia. lia. }
  subst. split; [reflexivity|]. split; [reflexivity|lia].
Qed.
Lemma entry_bound : forall n Q f a q num, (a < n)%nat -> (q < Q)%nat -> (f < num)%nat -> (entry n Q f a q < num * (n * Q))%nat.
Proof.
  intros n Q f a q num A B C. unfold entry.
  assert (f * Q + q + 1 <= num * Q)%nat by nia. assert ((f * Q + q + 1) * n <= num * Q * n)%nat by (apply Nat.mul_le_mono_r; lia). nia.
Qed.
Lemma mat_entry_eq : forall S Q f a q, mat_entry S Q f a q = entry (rs_nbf S) Q f a q.
Proof. intros. unfold mat_entry, entry. nia. Qed.

(** Writing a row. *)
Lemma put_row : forall (g : nat -> nat) (v : nat -> dbl) n m,
  (forall a b, (a < n)%nat -> (b < n)%nat -> g a = g b -> a = b) ->
  let m' := fold_left (fun m t => put m (g t) (v t)) (seq 0 n) m in
  (forall t, (t < n)%nat -> m' (g t) = v t) /\ (forall i, (forall t, (t < n)%nat -> i <> g t) -> m' i = m i).
Proof.
  intros g v. induction n as [|n IH]; intros m I; cbn zeta.
  - split; [intros; lia|reflexivity].
  - rewrite seq_S, fold_left_app. cbn [fold_left Nat.add]. destruct (IH m) as [I1 I2]; [intros; apply I; lia|]. split.
    + intros t Ht. destruct (Nat.eq_dec t n) as [->|]; [apply put_same|]. rewrite put_other; [apply I1; lia|].
      intro E. apply I in E; lia.
    + intros i Hi. rewrite put_other by (apply Hi; lia). apply I2. intros. apply Hi. lia.
Qed.

Lemma std_max_lub : forall P a b, largest_or_zero P a -> (forall x, b = Some x -> 0 <= x) ->
  largest_or_zero (fun x => P x \/ b = Some x) (std_max a b).
Proof.
  intros P a [v|] (A0 & A1 & A2) Hb; cbn.
  - destruct (Rlt_dec a v) as [L|L].
    + split; [lra|]. split; [|auto]. intros x [Hx|Hx]; [apply A1 in Hx; lra|injection Hx as ->; lra].
    + split; [lra|]. split; [|tauto]. intros x [Hx|Hx]; [auto|injection Hx as ->; lra].
  - split; [lra|]. split; [|tauto]. intros x [Hx|Hx]; [auto|discriminate].
Qed.
Lemma largest_iff : forall P Q v, (forall x, P x <-> Q x) -> largest_or_zero P v -> largest_or_zero Q v.
Proof. intros P Q v H (A & B & C). split; [exact A|]. split; [intros x Hx; apply B, H, Hx|]. destruct C as [C|C]; [left; exact C|right; apply H, C]. Qed.
Lemma new_max_max : forall a b, new_max a b = Nat.max a b.
Proof. intros. unfold new_max. destruct (Nat.ltb_spec b a); lia. Qed.

Lemma slip_rate_ierr : forall eps fuel Va c p sn tau psi, (rate_ierr (slip_rate eps fuel Va c p sn tau psi) <= 2)%nat.
Proof.
  intros. unfold slip_rate, directed. cbv zeta.
  repeat (match goal with |- context [if ?b then _ else _] => destruct b | |- context [match attempt ?a ?b ?c ?d ?e with _ => _ end] => destruct (attempt a b c d e) end; cbn; try lia).
Qed.

Section Loops.
Variable S : rs_data.
Hypothesis HD : (1 <= rs_D S)%nat.
Local Notation D := (rs_D S). Local Notation nbf := (rs_nbf S).
Lemma num_quantities_D : num_quantities S = D. Proof. unfold num_quantities, tangential. lia. Qed.

(** One step of a loop over nodes: row [node] of fault [f] written, columns [lo..D), the rest kept. *)
Variable row : nat -> nat -> nat -> dbl. (* f node q *)
Variable rt : nat -> nat -> rate.
Variable lo : nat.
Variable step : nat -> option acc -> nat -> option acc.
Hypothesis Hlo : (lo <= D)%nat.
Hypothesis Step : forall f node a, (node < nbf)%nat -> step f a node = match a with
  | None => None
  | Some (m, vmax, emax) => if finished (rt f node) then
      Some (fold_left (fun m q => put m (entry nbf D f node (lo + q)) (row f node (lo + q))) (seq 0 (D - lo)) m,
            std_max vmax (rate_norm (rt f node)), new_max (rate_ierr (rt f node)) emax) else None
  end.
Definition rows_written (f k : nat) (m m' : dmem) : Prop :=
  (forall node q, (node < k)%nat -> (lo <= q < D)%nat -> m' (entry nbf D f node q) = row f node q) /\
  (forall i, (forall node q, (node < k)%nat -> (lo <= q < D)%nat -> i <> entry nbf D f node q) -> m' i = m i).
Definition norms (f k : nat) (x : R) : Prop := exists node, (node < k)%nat /\ rate_norm (rt f node) = Some x.

Lemma norm_dbl_nonneg : forall r x, rate_norm r = Some x -> 0 <= x.
Proof. intros [v e|e|] x H; try discriminate. injection H as <-. apply norm_nonneg. Qed.

Lemma block_none : forall f l, fold_left (step f) l None = None \/ exists node, In node l /\ ~ (node < nbf)%nat.
Proof.
  induction l as [|a l IH]; [left; reflexivity|]. cbn. destruct (lt_dec a nbf) as [L|L]; [|right; exists a; auto].
  rewrite Step by exact L. destruct IH as [IH|(n & I1 & I2)]; [left; exact IH|right; exists n; auto].
Qed.

Lemma block_loop : forall f m k, (k <= nbf)%nat ->
  (exists m' vmax emax, fold_left (step f) (seq 0 k) (Some (m, 0, 0%nat)) = Some (m', vmax, emax) /\
     (forall node, (node < k)%nat -> finished (rt f node) = true) /\
     rows_written f k m m' /\ largest_or_zero (norms f k) vmax /\
     (forall node, (node < k)%nat -> (rate_ierr (rt f node) <= emax)%nat) /\ (emax = 0%nat \/ exists node, (node < k)%nat /\ rate_ierr (rt f node) = emax)) \/
  (fold_left (step f) (seq 0 k) (Some (m, 0, 0%nat)) = None /\ exists node, (node < k)%nat /\ finished (rt f node) = false).
Proof.
  intros f m. induction k as [|k IH]; intro Hk.
  - left. exists m, 0, 0%nat. split; [reflexivity|]. split; [intros; lia|]. split; [split; [intros; lia|reflexivity]|].
    split; [split; [lra|]; split; [intros x (n & N & _); lia|left; reflexivity]|]. split; [intros; lia|left; reflexivity].
  - rewrite seq_S, fold_left_app. cbn [fold_left Nat.add].
    destruct IH as [(m' & v & e & E & F & (R1 & R2) & L & B1 & B2)|(E & n & N & F)]; [lia| |].
    2:{ right. rewrite E, Step by lia. split; [reflexivity|]. exists n. split; [lia|exact F]. }
    rewrite E, Step by lia. destruct (finished (rt f k)) eqn:Fk.
    2:{ right. split; [reflexivity|]. exists k. split; [lia|exact Fk]. }
    left.
    destruct (put_row (fun q => entry nbf D f k (lo + q)) (fun q => row f k (lo + q)) (D - lo) m') as [P1 P2].
    { intros a b Ha Hb Eab. apply entry_inj in Eab; lia. }
    do 3 eexists. split; [reflexivity|]. split.
    { intros n N. destruct (Nat.eq_dec n k) as [->|]; [exact Fk|apply F; lia]. }
    split; [split|].
    + intros n q N Q. destruct (Nat.eq_dec n k) as [->|NE].
      * specialize (P1 (q - lo)%nat ltac:(lia)). replace (lo + (q - lo))%nat with q in P1 by lia. exact P1.
      * rewrite P2; [apply R1; lia|]. intros t Ht Et. apply entry_inj in Et; lia.
    + intros i Hi. rewrite P2; [apply R2; intros; apply Hi; lia|]. intros t Ht. apply Hi; lia.
    + split.
      * eapply largest_iff; [|apply (std_max_lub _ _ (rate_norm (rt f k)) L); apply norm_dbl_nonneg].
        intros x. split.
        -- intros [(n & N & En)|Ek]; [exists n; split; [lia|exact En]|exists k; split; [lia|exact Ek]].
        -- intros (n & N & En). destruct (Nat.eq_dec n k) as [->|]; [right; exact En|left; exists n; split; [lia|exact En]].
      * rewrite new_max_max. split.
        -- intros n N. destruct (Nat.eq_dec n k) as [->|]; [lia|]. specialize (B1 n ltac:(lia)). lia.
        -- destruct (Nat.max_spec (rate_ierr (rt f k)) e) as [[H ->]|[H ->]].
           ++ destruct B2 as [B2|(n & N & En)]; [left; exact B2|right; exists n; split; [lia|exact En]].
           ++ right. exists k. split; [lia|reflexivity].
Qed.

(** The loop over the faults. *)
Variable block : nat -> dmem -> option acc.
Variable final : nat -> nat -> nat -> dbl.
Hypothesis Block : forall f m, match block f m with
  | None => exists node, (node < nbf)%nat /\ finished (rt f node) = false
  | Some (m', vmax, emax) =>
     (forall node, (node < nbf)%nat -> finished (rt f node) = true) /\
     (forall node q, (node < nbf)%nat -> (lo <= q < D)%nat -> m' (entry nbf D f node q) = final f node q) /\
     (forall i, (forall node q, (node < nbf)%nat -> (lo <= q < D)%nat -> i <> entry nbf D f node q) -> m' i = m i) /\
     largest_or_zero (norms f nbf) vmax /\
     (forall node, (node < nbf)%nat -> (rate_ierr (rt f node) <= emax)%nat) /\ (emax = 0%nat \/ exists node, (node < nbf)%nat /\ rate_ierr (rt f node) = emax)
  end.
Hypothesis Ierr : forall f node, (rate_ierr (rt f node) <= 2)%nat.
Lemma faults_loop : forall num m,
  match over_faults block num m with
  | None => exists f node, (f < num)%nat /\ (node < nbf)%nat /\ finished (rt f node) = false
  | Some (m', vmax, ok) =>
     (forall f node, (f < num)%nat -> (node < nbf)%nat -> finished (rt f node) = true) /\
     (forall f node q, (f < num)%nat -> (node < nbf)%nat -> (lo <= q < D)%nat -> m' (entry nbf D f node q) = final f node q) /\
     (forall i, (forall f node q, (f < num)%nat -> (node < nbf)%nat -> (lo <= q < D)%nat -> i <> entry nbf D f node q) -> m' i = m i) /\
     largest_or_zero (fun x => exists f node, (f < num)%nat /\ (node < nbf)%nat /\ rate_norm (rt f node) = Some x) vmax /\
     (ok = false <-> exists f node, (f < num)%nat /\ (node < nbf)%nat /\ rate_ierr (rt f node) = 2%nat)
  end.
Proof.
  intros num m. unfold over_faults. induction num as [|num IH].
  - cbn. split; [intros; lia|]. split; [intros; lia|]. split; [reflexivity|]. split.
    + split; [lra|]. split; [intros x (f & n & F & _); lia|left; reflexivity].
    + split; [discriminate|intros (f & n & F & _); lia].
  - rewrite seq_S, fold_left_app. cbn [fold_left Nat.add]. destruct (fold_left _ (seq 0 num) _) as [[[m1 v1] ok1]|].
    2:{ destruct IH as (f & n & F & N & E). exists f, n. repeat split; auto. }
    destruct IH as (F1 & W1 & K1 & L1 & O1). specialize (Block num m1). destruct (block num m1) as [[[m2 v2] e2]|].
    2:{ destruct Block as (n & N & E). exists num, n. repeat split; auto. }
    destruct Block as (F2 & W2 & K2 & L2 & E2 & E3). split; [|split; [|split; [|split]]].
    + intros f n F N. destruct (Nat.eq_dec f num) as [->|]; [apply F2, N|apply F1; [lia|exact N]].
    + intros f n q F N Q. destruct (Nat.eq_dec f num) as [->|NE]; [apply W2; assumption|]. rewrite K2; [apply W1; [lia|assumption|assumption]|].
      intros n' q' N' Q' E. apply entry_inj in E; lia.
    + intros i Hi. rewrite K2; [apply K1; intros; apply Hi; lia|]. intros; apply Hi; lia.
    + pose proof (std_max_lub _ _ (Some v2) L1) as L.
      assert (V2 : 0 <= v2) by exact (proj1 L2). specialize (L ltac:(intros x E; injection E as <-; exact V2)).
      destruct L as (A & B & C). split; [exact A|]. split.
      * intros x (f & n & F & N & E). destruct (Nat.eq_dec f num) as [->|].
        -- apply Rle_trans with v2; [apply (proj1 (proj2 L2)); exists n; auto|apply B; right; reflexivity].
        -- apply B. left. exists f, n. repeat split; auto. lia.
      * destruct C as [C|[(f & n & F & N & E)|C]]; [left; exact C|right; exists f, n; repeat split; auto|].
        assert (C' : std_max v1 (Some v2) = v2) by congruence. rewrite C'. destruct L2 as (_ & _ & [Z|(n & N & E)]); [left; exact Z|right; exists num, n; repeat split; auto].
    + destruct (Nat.eqb_spec e2 2) as [->|NE].
      * split; [intros _|reflexivity]. destruct E3 as [E3|(n & N & E)]; [discriminate|]. exists num, n. repeat split; auto.
      * rewrite O1. split.
        -- intros (f & n & F & N & E). exists f, n. repeat split; auto.
        -- intros (f & n & F & N & E). destruct (Nat.eq_dec f num) as [->|]; [|exists f, n; repeat split; auto; lia].
           exfalso. specialize (E2 n N). destruct E3 as [E3|(n' & N' & E')]; [lia|]. specialize (Ierr num n'). lia.
Qed.
End Loops.
