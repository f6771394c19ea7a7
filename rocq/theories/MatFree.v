(** Row of an assembled block matrix times a block vector, and its decomposition by the element's
    facets: the common part of matrix-free application for the local operators. *)
Require Import List Arith Lia Bool Reals Lra Permutation.
Require Import Verif.Base Verif.LinAlg Verif.LocalMeshModel Verif.LocalMeshProps Verif.TopoModel Verif.TopoSpec Verif.TopoProofs
  Verif.TopoProps Verif.AssembleModel.
Import ListNotations.
Local Open Scope R_scope.

(** f(a1) + f(a2) + ... over a list. *)
Fixpoint lsum {A} (f : A -> R) (l : list A) : R := match l with [] => 0 | a :: t => f a + lsum f t end.
(** Component k of block row e of (sum of the blocks in [entries]) times U; blocks are n columns wide. *)
Definition row_times (n : nat) (entries : list (nat * nat * (nat -> nat -> R))) (U : nat -> nat -> R) (e k : nat) : R :=
  lsum (fun '(i, j, B) => if i =? e then rsum n (fun l => B k l * U j l) else 0) entries.

Lemma lsum_app {A} (f : A -> R) a b : lsum f (a ++ b) = lsum f a + lsum f b.
Proof. induction a; cbn; [ring|]. rewrite IHa. ring. Qed.
Lemma lsum_flat_map {A B} (f : B -> R) (g : A -> list B) l : lsum f (flat_map g l) = lsum (fun a => lsum f (g a)) l.
Proof. induction l; cbn; auto. rewrite lsum_app, IHl. auto. Qed.
Lemma lsum_ext {A} (f g : A -> R) l : (forall a, In a l -> f a = g a) -> lsum f l = lsum g l.
Proof. induction l; cbn; intro H; auto. rewrite H, IHl; auto. Qed.
Lemma lsum_zero {A} (f : A -> R) l : (forall a, In a l -> f a = 0) -> lsum f l = 0.
Proof. induction l; cbn; intro H; auto. rewrite H, IHl by auto. ring. Qed.
Lemma lsum_perm {A} (f : A -> R) l l' : Permutation l l' -> lsum f l = lsum f l'.
Proof. induction 1; cbn; try lra. Qed.
Lemma lsum_map {A B} (f : B -> R) (g : A -> B) l : lsum f (map g l) = lsum (fun a => f (g a)) l.
Proof. induction l; cbn; congruence. Qed.
Lemma lsum_plus {A} (f g : A -> R) l : lsum (fun a => f a + g a) l = lsum f l + lsum g l.
Proof. induction l; cbn; [ring|]. rewrite IHl. ring. Qed.
Lemma lsum_scale {A} c (f : A -> R) l : lsum (fun a => c * f a) l = c * lsum f l.
Proof. induction l; cbn; [ring|]. rewrite IHl. ring. Qed.
Lemma lsum_single {A} (f : A -> R) l a : NoDup l -> In a l -> (forall b, In b l -> b <> a -> f b = 0) -> lsum f l = f a.
Proof.
  induction l as [|x l IH]; cbn; intros Nd Hin H; [destruct Hin|]. inversion Nd; subst. destruct Hin as [-> | Hin].
  - rewrite lsum_zero; [ring|]. intros b Hb. apply H; auto. intros ->. auto.
  - rewrite (H x), IH by (auto; intros ->; auto). ring.
Qed.
Lemma lsum_sub {A} (dec : forall a b : A, {a = b} + {a <> b}) (f : A -> R) l' : forall l, NoDup l -> NoDup l' -> incl l l' ->
  (forall a, In a l' -> ~ In a l -> f a = 0) -> lsum f l' = lsum f l.
Proof.
  intros l N N' I Z.
  assert (P : Permutation l' (l ++ filter (fun a => if in_dec dec a l then false else true) l')).
  { apply NoDup_Permutation; auto.
    - apply CombinatoricsProofs.NoDup_app_intro; auto using NoDup_filter.
      intros x Hx Hy. apply filter_In in Hy as [_ Hy]. destruct (in_dec dec x l); [discriminate | tauto].
    - intro x. rewrite in_app_iff, filter_In. split.
      + intro H. destruct (in_dec dec x l); auto.
      + intros [H | [H _]]; auto. }
  rewrite (lsum_perm _ _ _ P), lsum_app, (lsum_zero f (filter _ _)); [ring|].
  intros a H. apply filter_In in H as [H1 H2]. apply Z; auto. destruct (in_dec dec a l); auto. discriminate.
Qed.
Lemma lsum_nonneg {A} (f : A -> R) l : (forall a, In a l -> 0 <= f a) -> 0 <= lsum f l.
Proof. induction l as [|x l IH]; cbn; intro H; [lra|]. pose proof (H x (or_introl eq_refl)). pose proof (IH (fun a Ha => H a (or_intror Ha))). lra. Qed.
Lemma lsum_le {A} (f g : A -> R) l : (forall a, In a l -> f a <= g a) -> lsum f l <= lsum g l.
Proof. induction l as [|x l IH]; cbn; intro H; [lra|]. pose proof (H x (or_introl eq_refl)). pose proof (IH (fun a Ha => H a (or_intror Ha))). lra. Qed.
Lemma lsum_seq n (f : nat -> R) : lsum f (seq 0 n) = rsum n f.
Proof. induction n; [reflexivity|]. rewrite seq_S, lsum_app, IHn. cbn. ring. Qed.

(** How slot d of a local element and the record of its facet fit together: on the boundary, or the
    element is the first or the second of the record. *)
Inductive slot_case (e d : nat) (s : side_info) (x : facet_info) : Prop :=
| sc_bnd : fi_up0 x = e -> fi_up1 x = e -> si_lid s = e -> fi_local0 x = d -> slot_case e d s x
| sc_first : fi_up0 x = e -> fi_up1 x = si_lid s -> e <> si_lid s -> fi_local0 x = d -> fi_local1 x = si_local s ->
    si_side s = 0%nat -> slot_case e d s x
| sc_second : fi_up1 x = e -> fi_up0 x = si_lid s -> e <> si_lid s -> fi_local1 x = d -> fi_local0 x = si_local s ->
    si_side s = 1%nat -> slot_case e d s x.

Section Slots.
Variables (k : nat) (m : topo_mesh) (fi : list facet_info) (wr : list (nat * side_info)) (t : list side_info).
Hypothesis O : topo_ok k m.
Hypothesis Efi : facet_table k m = Some fi.
Hypothesis Iw : interleaving (all_side_writes k fi) wr.
Hypothesis Et : do_writes (fresh_sides k m) wr = Some t.

Lemma slots_of e : (e < tm_num_local m)%nat -> exists sl, length sl = (k + 1)%nat /\
  map_opt (fun d => nth_error t (e * (k + 1) + d)) (seq 0 (k + 1)) = Some sl /\
  NoDup (map si_fct sl) /\ (forall i, In i (map si_fct sl) <-> contains m e i) /\
  forall d s, nth_error sl d = Some s -> nth_error t (e * (k + 1) + d) = Some s /\ (si_fct s < tm_num_local_facets m)%nat /\
    exists x, nth_error fi (si_fct s) = Some x /\ si_bc s = fi_bc x /\ fi_inside0 x = true /\ slot_case e d s x /\
      (fi_up1 x = e -> fi_inside1 x = true) /\ facet_record_ok k m (si_fct s) x.
Proof.
  intro He. destruct (neighbour_table_correct k m fi wr O Efi Iw) as (t' & Et' & Lt & Slot).
  assert (t' = t) by congruence. subst t'. destruct (facet_table_correct k m O) as (fi' & Efi' & Lfi & Rec).
  assert (fi' = fi) by congruence. subst fi'.
  destruct (map_opt_spec (fun d => nth_error t (e * (k + 1) + d)) (seq 0 (k + 1))) as (sl & Esl & Lsl & Hsl).
  { intros d Hd. apply in_seq in Hd. destruct (Slot e d He ltac:(lia)) as (s & i & Es & _). eauto. }
  rewrite seq_length in Lsl. exists sl. split; auto. split; auto.
  assert (At : forall d s, nth_error sl d = Some s -> nth_error t (e * (k + 1) + d) = Some s /\ facet_at k m e d (si_fct s) /\ slot_ok k m e d (si_fct s) s).
  { intros d s Es. assert (Hd : (d < k + 1)%nat) by (rewrite <- Lsl; apply nth_error_Some; congruence).
    destruct (Hsl d d) as (s' & E1 & E2). { rewrite (nth_error_nth' _ 0%nat) by (rewrite seq_length; lia). rewrite seq_nth; auto. }
    assert (s' = s) by congruence. subst s'. split; auto.
    destruct (Slot e d He ltac:(lia)) as (s' & i & Es' & Ha & So). assert (s' = s) by congruence. subst s'.
    rewrite (sl_fct _ _ _ _ _ _ So). auto. }
  destruct (nth_error_lt (tm_elems m) e) as [plex Ep]; [pose proof (to_local_le _ _ O); lia|].
  destruct (facet_list k m O e plex Ep) as (dl & Ed & Ld & Nd & Id).
  assert (Es : map si_fct sl = dl).
  { apply nth_error_ext. intro d. rewrite nth_error_map. destruct (nth_error sl d) as [s|] eqn:E; cbn.
    - destruct (At d s E) as (_ & (p' & d' & Ep' & Ed' & El) & _). congruence.
    - apply nth_error_None in E. symmetry. apply nth_error_None. lia. }
  rewrite Es. split; auto. split; auto. intros d s E. destruct (At d s E) as (E1 & Ha & So). split; auto.
  destruct (facet_at_contains k m O e d _ Ha) as [C Hd].
  assert (Hl : (si_fct s < tm_num_local_facets m)%nat).
  { apply (to_local_facets _ _ O); [apply (contains_lt _ _ _ C)|]. exists e. auto. }
  split; auto. destruct (Rec _ Hl) as (x & Ex & Rx). exists x. split; auto.
  assert (Bc : si_bc s = fi_bc x).
  { destruct (fr_bc _ _ _ _ Rx) as (b & Eb & E2). destruct (sl_bc _ _ _ _ _ _ So) as (b' & Eb' & E2'). congruence. }
  split; auto. split; [apply (fr_first _ _ _ _ Rx)|].
  assert (Mem : forall e', (e' = fi_up0 x \/ e' = fi_up1 x) <-> (e' = e \/ e' = si_lid s)).
  { intro e'. rewrite <- (fr_up _ _ _ _ Rx e'), <- (sl_other _ _ _ _ _ _ So e'). tauto. }
  pose proof (fr_order _ _ _ _ Rx) as Ord. pose proof (sl_side _ _ _ _ _ _ So) as Sd.
  assert (Inj : forall e' l l', facet_at k m e' l (si_fct s) -> facet_at k m e' l' (si_fct s) -> l = l') by (intros; eapply facet_at_inj; eauto).
  pose proof (fr_local0 _ _ _ _ Rx) as F0. pose proof (fr_local1 _ _ _ _ Rx) as F1. pose proof (sl_local _ _ _ _ _ _ So) as Fl.
  split; [|split; [|exact Rx]].
  - destruct (Nat.eq_dec e (si_lid s)) as [Heq|Hne].
    + assert (fi_up0 x = e) by (destruct (proj1 (Mem (fi_up0 x)) (or_introl eq_refl)); congruence).
      assert (fi_up1 x = e) by (destruct (proj1 (Mem (fi_up1 x)) (or_intror eq_refl)); congruence).
      apply sc_bnd; auto. rewrite H in F0. eauto.
    + pose proof (proj1 (Mem (fi_up0 x)) (or_introl eq_refl)) as M0. pose proof (proj1 (Mem (fi_up1 x)) (or_intror eq_refl)) as M1.
      pose proof (proj2 (Mem e) (or_introl eq_refl)) as M2. pose proof (proj2 (Mem (si_lid s)) (or_intror eq_refl)) as M3.
      destruct (Nat.ltb_spec e (si_lid s)).
      * assert (U0 : fi_up0 x = e) by lia. assert (U1 : fi_up1 x = si_lid s) by lia. rewrite U0 in F0. rewrite U1 in F1.
        apply sc_first; eauto.
      * assert (U0 : fi_up1 x = e) by lia. assert (U1 : fi_up0 x = si_lid s) by lia. rewrite U1 in F0. rewrite U0 in F1.
        apply sc_second; eauto.
  - intro U. rewrite (fr_inside1 _ _ _ _ Rx), U. apply Nat.ltb_lt. auto.
Qed.

(** What the facet of a slot contributes to the row of element e. *)
Definition slot_part (n : nat) (L : mat_lop (nat -> nat -> R)) (U : nat -> nat -> R) (e k : nat) (s : side_info) : R :=
  match nth_error fi (si_fct s) with
  | None => 0
  | Some x => row_times n (assemble_facet L (si_fct s) x) U e k
  end.
Lemma row_by_slots n (L : mat_lop (nat -> nat -> R)) U e sl j :
  (e < tm_num_local m)%nat -> map_opt (fun d => nth_error t (e * (k + 1) + d)) (seq 0 (k + 1)) = Some sl ->
  row_times n (assemble m fi L) U e j =
  match a_volume L e with Some B => rsum n (fun l => B j l * U e l) | None => 0 end +
  lsum (slot_part n L U e j) sl +
  match a_post L e with Some B => rsum n (fun l => B j l * U e l) | None => 0 end.
Proof.
  intros He Esl. destruct (slots_of e He) as (sl' & _ & Esl' & Nd & Mem & Sl). assert (sl' = sl) by congruence. subst sl'.
  assert (El : forall v : nat -> option (nat -> nat -> R),
    lsum (fun '(i, j0, B) => if i =? e then rsum n (fun l => B j l * U j0 l) else 0)
      (flat_map (fun e => if_some (v e) (fun A00 => [(e, e, A00)])) (seq 0 (tm_num_local m))) =
    match v e with Some B => rsum n (fun l => B j l * U e l) | None => 0 end).
  { intro v. rewrite lsum_flat_map. rewrite (lsum_single _ _ e).
    - destruct (v e); cbn; [rewrite Nat.eqb_refl; ring | reflexivity].
    - apply seq_NoDup.
    - apply in_seq. lia.
    - intros b _ Hb. destruct (v b); cbn; [|reflexivity]. destruct (Nat.eqb_spec b e); [congruence|ring]. }
  unfold row_times, assemble. rewrite !lsum_app, !El. rewrite <- Rplus_assoc. f_equal. f_equal.
  rewrite lsum_flat_map. rewrite (lsum_sub Nat.eq_dec _ _ (map si_fct sl)); auto using seq_NoDup.
  - rewrite lsum_map. apply lsum_ext. intros s Hs. unfold slot_part. destruct (nth_error fi (si_fct s)); reflexivity.
  - intros i Hi. apply in_map_iff in Hi as (s & <- & Hs). apply In_nth_error in Hs as [d Hd].
    destruct (Sl d s Hd) as (_ & Hl & _). apply in_seq. lia.
  - intros i Hi Hn. apply in_seq in Hi. destruct (facet_table_correct k m O) as (fi' & Efi' & Lfi & Rec).
    assert (fi' = fi) by congruence. subst fi'. destruct (Rec i ltac:(lia)) as (x & Ex & Rx). rewrite Ex. cbn [if_some].
    assert (Nc : ~ (e = fi_up0 x \/ e = fi_up1 x)). { intro Hc. apply Hn. apply Mem. apply (fr_up _ _ _ _ Rx). auto. }
    apply lsum_zero. intros [[r c] B] HB. destruct (Nat.eqb_spec r e) as [->|]; auto. exfalso.
    unfold assemble_facet in HB. destruct (fi_up0 x =? fi_up1 x); cbn [negb] in HB.
    + destruct (fi_inside0 x); [|destruct HB]. destruct (a_boundary L i x); [|destruct HB]. cbn in HB. destruct HB as [HB|[]]. assert (e = fi_up0 x) by congruence. tauto.
    + destruct (a_skeleton L i x) as [[[[A00 A01] A10] A11]|]; [|destruct HB]. cbn in HB. apply in_app_or in HB.
      destruct (fi_inside0 x), (fi_inside1 x); cbn in HB;
        repeat match goal with
        | H : _ \/ _ |- _ => destruct H
        | H : False |- _ => destruct H
        end;
        apply Nc; first [left; congruence | right; congruence].
Qed.
End Slots.
