(** Multi-indices of the equidistant nodes. *)
Require Import List Arith Bool Lia Permutation.
Require Import Verif.Base Verif.EquidistantModel.
Import ListNotations.

(** ** Enumerating multi-indices by support *)

Definition entry (a : list nat) (i : nat) : nat := nth i a 0.
(** Weight [nth j b] at position [nth j F], zero elsewhere. *)
Fixpoint weight_at (F b : list nat) (i : nat) : nat :=
  match F, b with
  | f :: F', x :: b' => (if i =? f then x else 0) + weight_at F' b' i
  | _, _ => 0
  end.
Definition embed (K : nat) (F b : list nat) : list nat := map (weight_at F b) (seq 0 K).
Definition support (a : list nat) : list bool := map (fun x => 0 <? x) a.
Definition mask (K : nat) (F : list nat) : list bool := map (fun i => existsb (Nat.eqb i) F) (seq 0 K).

Lemma weight_notin : forall F b i, ~ In i F -> weight_at F b i = 0.
Proof.
  induction F as [|f F IH]; intros [|x b] i H; cbn; auto. cbn in H.
  destruct (Nat.eqb_spec i f); [subst; tauto|]. rewrite IH; tauto.
Qed.
Lemma weight_nth : forall F b j, NoDup F -> length b = length F -> j < length F ->
  weight_at F b (nth j F 0) = nth j b 0.
Proof.
  induction F as [|f F IH]; intros [|x b] j Hn Hl Hj; cbn in *; try lia. inversion Hn; subst.
  destruct j as [|j].
  - rewrite Nat.eqb_refl, weight_notin; auto.
  - destruct (Nat.eqb_spec (nth j F 0) f).
    + subst. exfalso. apply H1. apply nth_In. lia.
    + apply IH; auto; lia.
Qed.
Lemma weight_pos : forall F b i, NoDup F -> length b = length F -> Forall (fun x => 0 < x) b ->
  (0 <? weight_at F b i) = existsb (Nat.eqb i) F.
Proof.
  induction F as [|f F IH]; intros [|x b] i Hn Hl Hp; cbn [length weight_at existsb] in *; try lia; auto.
  inversion Hn; inversion Hp; subst.
  destruct (Nat.eqb_spec i f).
  - cbn [orb]. apply Nat.ltb_lt. lia.
  - cbn [orb Nat.add]. apply IH; auto.
Qed.
Lemma support_embed : forall K F b, NoDup F -> length b = length F -> Forall (fun x => 0 < x) b ->
  support (embed K F b) = mask K F.
Proof.
  intros K F b H1 H2 H3. unfold support, embed, mask. rewrite map_map. apply map_ext. intros. apply weight_pos; auto.
Qed.
Lemma embed_inj : forall K F b b', NoDup F -> (forall f, In f F -> f < K) -> length b = length F -> length b' = length F ->
  embed K F b = embed K F b' -> b = b'.
Proof.
  intros K F b b' Hn HF Hl Hl' E. apply nth_ext with (d := 0) (d' := 0); [congruence|]. intros j Hj.
  rewrite <- (weight_nth F b j), <- (weight_nth F b' j) by (auto; lia).
  assert (Hf : nth j F 0 < K) by (apply HF, nth_In; lia).
  apply (f_equal (fun l => nth (nth j F 0) l 0)) in E. unfold embed in E.
  assert (Hm : forall (g : nat -> nat) d, nth (nth j F 0) (map g (seq 0 K)) d = g (nth j F 0)).
  { intros g d. rewrite nth_indep with (d' := g 0) by (rewrite map_length, seq_length; auto).
    rewrite map_nth, seq_nth by auto. reflexivity. }
  rewrite !Hm in E. exact E.
Qed.
Lemma sum_cons : forall x l, list_sum (x :: l) = x + list_sum l.
Proof. reflexivity. Qed.
Lemma sum_map_seq_zero : forall K, list_sum (map (fun _ : nat => 0) (seq 0 K)) = 0.
Proof. intros K. generalize 0 at 2. induction K; intros; cbn; auto. Qed.
Lemma sum_map_add : forall (f g : nat -> nat) l, list_sum (map (fun i => f i + g i) l) = list_sum (map f l) + list_sum (map g l).
Proof. induction l as [|a l IH]; [reflexivity|]. cbn [map]. rewrite !sum_cons, IH. lia. Qed.
Lemma sum_delta : forall K s f x, s <= f < s + K -> list_sum (map (fun i => if i =? f then x else 0) (seq s K)) = x.
Proof.
  induction K as [|K IH]; intros s f x H; [lia|]. cbn [seq map]. rewrite sum_cons. destruct (Nat.eqb_spec s f).
  - subst. assert (E : forall n s, f < s -> list_sum (map (fun i => if i =? f then x else 0) (seq s n)) = 0).
    { induction n; intros s Hs; cbn [seq map]; auto. rewrite sum_cons. destruct (Nat.eqb_spec s f); [lia|]. apply IHn; lia. }
    rewrite E; lia.
  - rewrite IH; lia.
Qed.
Lemma sum_embed : forall K F b, (forall f, In f F -> f < K) -> length b = length F ->
  list_sum (embed K F b) = list_sum b.
Proof.
  intros K F. induction F as [|f F IH]; intros [|x b] HF Hl; cbn in *; try lia.
  - unfold embed. cbn. apply sum_map_seq_zero.
  - unfold embed. cbn [weight_at]. rewrite sum_map_add, sum_delta by (specialize (HF f); lia).
    f_equal. apply IH; auto.
Qed.
Lemma embed_complete : forall K F a, NoDup F -> (forall f, In f F -> f < K) -> length a = K ->
  support a = mask K F -> embed K F (map (entry a) F) = a /\ Forall (fun x => 0 < x) (map (entry a) F).
Proof.
  intros K F a Hn HF Ha Hs.
  assert (Hi : forall i, i < K -> (0 <? entry a i) = existsb (Nat.eqb i) F).
  { intros i Hi. apply (f_equal (fun l => nth i l false)) in Hs. unfold support, mask in Hs.
    rewrite nth_indep with (d' := (0 <? 0)) in Hs by (rewrite map_length; lia). rewrite map_nth in Hs.
    unfold entry. rewrite Hs. rewrite nth_indep with (d' := existsb (Nat.eqb 0) F) by (rewrite map_length, seq_length; auto).
    rewrite (map_nth (fun i => existsb (Nat.eqb i) F)), seq_nth by auto. reflexivity. }
  split.
  - apply nth_ext with (d := 0) (d' := 0); [unfold embed; rewrite map_length, seq_length; auto|].
    intros i Hi'. unfold embed in *. rewrite map_length, seq_length in Hi'.
    rewrite nth_indep with (d' := weight_at F (map (entry a) F) 0) by (rewrite map_length, seq_length; auto).
    rewrite map_nth, seq_nth by auto. cbn.
    destruct (in_dec Nat.eq_dec i F) as [Hin|Hout].
    + apply (In_nth _ _ 0) in Hin as (j & Hj & E). rewrite <- E. rewrite weight_nth by (auto; apply map_length).
      rewrite nth_indep with (d' := entry a 0) by (rewrite map_length; auto). rewrite map_nth. reflexivity.
    + rewrite weight_notin by auto. specialize (Hi i Hi').
      destruct (existsb (Nat.eqb i) F) eqn:E.
      * apply existsb_exists in E as (x & Hx & E). apply Nat.eqb_eq in E. subst; tauto.
      * apply Nat.ltb_ge in Hi. unfold entry in Hi. lia.
  - apply Forall_forall. intros x Hx. apply in_map_iff in Hx as (f & <- & Hf). apply Nat.ltb_lt. rewrite Hi by auto.
    apply existsb_exists. exists f. split; auto. apply Nat.eqb_refl.
Qed.

(** [I k]: the positive multi-indices of length k and sum n, each once. *)
Definition positive_indices (n k : nat) (l : list (list nat)) : Prop :=
  NoDup l /\ forall b, In b l <-> length b = k /\ list_sum b = n /\ Forall (fun x => 0 < x) b.
Definition all_indices (n k : nat) (l : list (list nat)) : Prop :=
  NoDup l /\ forall a, In a l <-> length a = k /\ list_sum a = n.

Fixpoint bools (K : nat) : list (list bool) :=
  match K with O => [[]] | S k => map (cons true) (bools k) ++ map (cons false) (bools k) end.
Lemma bools_complete : forall l, In l (bools (length l)).
Proof.
  induction l as [|b l IH]; cbn; auto. apply in_or_app. destruct b; [left|right]; apply in_map; auto.
Qed.

Lemma NoDup_flat_map : forall A B (f : A -> list B) l, NoDup l -> (forall x, In x l -> NoDup (f x)) ->
  (forall x y z, In x l -> In y l -> In z (f x) -> In z (f y) -> x = y) -> NoDup (flat_map f l).
Proof.
  induction l as [|a l IH]; intros Hn Hf Hd; cbn; [constructor|]. inversion Hn; subst.
  assert (Happ : forall l1 l2 : list B, NoDup l1 -> NoDup l2 -> (forall x, In x l1 -> ~ In x l2) -> NoDup (l1 ++ l2)).
  { clear. induction l1; intros l2 H1 H2 H3; cbn; auto. inversion H1; subst. constructor.
    - rewrite in_app_iff. intros [H|H]; [auto|]. apply (H3 a); cbn; auto.
    - apply IHl1; auto. intros; apply H3; cbn; auto. }
  apply Happ.
  - apply Hf; left; auto.
  - apply IH; auto; intros; [apply Hf; right; auto|]. eapply Hd; eauto; right; auto.
  - intros z Hz Hz'. apply in_flat_map in Hz' as (y & Hy & Hz').
    assert (a = y) by (eapply Hd; eauto; [left; auto|right; auto]). subst; auto.
Qed.

Lemma blocks_enumerate : forall K n (Fs : list (list nat)) (I : nat -> list (list nat)),
  0 < n ->
  (forall F, In F Fs -> NoDup F /\ (forall f, In f F -> f < K)) ->
  NoDup (map (mask K) Fs) ->
  (forall m, In m (bools K) -> In true m -> In m (map (mask K) Fs)) ->
  (forall F, In F Fs -> positive_indices n (length F) (I (length F))) ->
  all_indices n K (flat_map (fun F => map (embed K F) (I (length F))) Fs).
Proof.
  intros K n Fs I Hpos HF Hnd Hcov HI. split.
  - apply NoDup_flat_map.
    + eapply NoDup_map_inv; eauto.
    + intros F HFi. destruct (HI F HFi) as [H1 H2].
      assert (Hinj : forall l, NoDup l -> (forall b, In b l -> length b = length F) -> NoDup (map (embed K F) l)).
      { clear - HF HFi. induction l as [|b l IH]; intros Hn Hl; cbn; constructor; inversion Hn; subst.
        - intros Hc. apply in_map_iff in Hc as (b' & E & Hb'). apply embed_inj in E; try apply HF; auto.
          + subst; auto. + apply Hl; right; auto. + apply Hl; left; auto.
        - apply IH; auto. intros; apply Hl; right; auto. }
      apply Hinj; auto. intros b Hb. apply H2 in Hb. tauto.
    + intros F F' z HFi HFi' Hz Hz'. apply in_map_iff in Hz as (b & <- & Hb). apply in_map_iff in Hz' as (b' & E & Hb').
      apply (HI F HFi) in Hb. apply (HI F' HFi') in Hb'.
      assert (Em : mask K F = mask K F').
      { rewrite <- (support_embed K F b), <- (support_embed K F' b'); try (apply HF; auto); try tauto. congruence. }
      clear - Hnd HFi HFi' Em. induction Fs as [|G Gs IH]; [contradiction|]. cbn in Hnd. inversion Hnd; subst.
      destruct HFi as [-> |HFi], HFi' as [-> |HFi']; auto.
      * exfalso. apply H1. rewrite Em. apply in_map; auto.
      * exfalso. apply H1. rewrite <- Em. apply in_map; auto.
  - intros a. rewrite in_flat_map. split.
    + intros (F & HFi & Ha). apply in_map_iff in Ha as (b & <- & Hb). apply (HI F HFi) in Hb as (H1 & H2 & H3).
      split; [unfold embed; rewrite map_length, seq_length; auto|]. rewrite sum_embed; auto. apply HF; auto.
    + intros [Hl Hs].
      assert (Ht : In true (support a)).
      { clear - Hs Hpos. revert n Hs Hpos. induction a as [|x a IH]; intros n Hs Hpos; cbn in *; [lia|].
        destruct x; cbn; [|auto]. right. apply (IH n); auto. }
      specialize (Hcov (support a)). destruct (proj1 (in_map_iff _ _ _) (Hcov ltac:(
        replace K with (length (support a)) by (unfold support; rewrite map_length; auto); apply bools_complete) Ht)) as (F & Em & HFi).
      exists F. split; auto. destruct (HF F HFi) as [F1 F2].
      destruct (embed_complete K F a F1 F2 Hl (eq_sym Em)) as [E1 E2].
      apply in_map_iff. exists (map (entry a) F). split; auto. apply (HI F HFi). rewrite map_length. repeat split; auto.
      rewrite <- E1 in Hs. rewrite sum_embed in Hs; auto. apply map_length.
Qed.

(** ** The indices in the order of the code *)
Definition inner1 (n : nat) : list (list nat) := [[n]].
Definition inner2 (n : nat) : list (list nat) := map (fun k => [n - k; k]) (seq 1 (n - 1)).
Fixpoint tri_idx (n : nat) : list (list nat) :=
  match n with
  | O => [[0; 0; 0]]
  | S _ =>
      flat_map (fun F => map (embed 3 F) (inner1 n)) [[0]; [1]; [2]] ++
      flat_map (fun F => map (embed 3 F) (inner2 n)) [[0; 1]; [1; 2]; [2; 0]] ++
      match n with S (S (S m)) => map (map S) (tri_idx m) | _ => [] end
  end.
Definition inner3 (n : nat) : list (list nat) :=
  match n with S (S (S m)) => map (map S) (tri_idx m) | _ => [] end.
Fixpoint tet_idx (c : convention) (n : nat) : list (list nat) :=
  match n with
  | O => [[0; 0; 0; 0]]
  | S _ =>
      flat_map (fun F => map (embed 4 F) (inner1 n)) [[0]; [1]; [2]; [3]] ++
      flat_map (fun F => map (embed 4 F) (inner2 n)) (tet_edge_convention c) ++
      flat_map (fun F => map (embed 4 F) (inner3 n)) (tet_face_convention c) ++
      match n with S (S (S (S m))) => map (map S) (tet_idx c m) | _ => [] end
  end.
Definition inner4 (c : convention) (n : nat) : list (list nat) :=
  match n with S (S (S (S m))) => map (map S) (tet_idx c m) | _ => [] end.

Lemma positive1 : forall n, 0 < n -> positive_indices n 1 (inner1 n).
Proof.
  intros n Hn. split; [repeat constructor; intros []|]. intros b. unfold inner1. split.
  - intros [<- |[]]. cbn. repeat split; auto.
  - intros (H1 & H2 & H3). destruct b as [|x [|]]; try discriminate. cbn in H2. left. f_equal. lia.
Qed.
Lemma positive2 : forall n, positive_indices n 2 (inner2 n).
Proof.
  intros n. unfold inner2. split.
  - assert (H : forall l, NoDup l -> NoDup (map (fun k => [n - k; k]) l)).
    { induction l; intros H; cbn; constructor; inversion H; subst; auto.
      intros Hc. apply in_map_iff in Hc as (k & E & Hk). injection E as E1 E2. subst; auto. }
    apply H, seq_NoDup.
  - intros b. rewrite in_map_iff. split.
    + intros (k & <- & Hk). apply in_seq in Hk. cbn. repeat split; auto; [lia|repeat constructor; lia].
    + intros (H1 & H2 & H3). destruct b as [|x [|y [|]]]; try discriminate. cbn in H2.
      inversion H3 as [|? ? Hx H4]; inversion H4 as [|? ? Hy _]; subst. exists y. split; [f_equal; lia|]. apply in_seq. lia.
Qed.
Lemma positive_shift : forall n k l, all_indices n k l -> positive_indices (n + k) k (map (map S) l).
Proof.
  intros n k l [H1 H2]. split.
  - clear H2. induction l as [|a l IH]; cbn; constructor; inversion H1; subst; auto.
    intros Hc. apply in_map_iff in Hc as (b & E & Hb). assert (b = a).
    { clear - E. revert a E. induction b; intros [|y c] E; try discriminate; auto. cbn in E. injection E as E1 E2. f_equal; auto. }
    subst; auto.
  - intros b. rewrite in_map_iff.
    assert (Hs : forall a, list_sum (map S a) = list_sum a + length a) by (induction a as [|x a IH]; [reflexivity|]; cbn [map length]; rewrite !sum_cons, IH; lia).
    split.
    + intros (a & <- & Ha). apply H2 in Ha as [Hl Hsum]. rewrite map_length, Hs. split; [auto|]. split; [lia|].
      apply Forall_forall. intros x Hx. apply in_map_iff in Hx as (y & <- & _). lia.
    + intros (Hl & Hsum & Hp). exists (map pred b).
      assert (E : map S (map pred b) = b).
      { clear - Hp. rewrite map_map. induction Hp; cbn; auto. f_equal; auto. lia. }
      split; auto. apply H2. rewrite map_length. split; auto. rewrite <- E, Hs, map_length in Hsum. lia.
Qed.
Lemma positive_empty : forall n k, n < k -> positive_indices n k [].
Proof.
  intros n k H. split; [constructor|]. intros b. split; [intros []|]. intros (H1 & H2 & H3).
  assert (length b <= list_sum b) by (clear - H3; induction H3; [auto|]; rewrite sum_cons; cbn [length]; lia). lia.
Qed.

Lemma zero_indices : forall k, all_indices 0 k [repeat 0 k].
Proof.
  intros k. split; [repeat constructor; intros []|]. intros a. split.
  - intros [<- |[]]. rewrite repeat_length. split; auto. induction k; cbn; auto.
  - intros [H1 H2]. left. subst k. induction a as [|x a IH]; [reflexivity|]. rewrite sum_cons in H2. cbn [length repeat]. f_equal; [lia|]. apply IH; lia.
Qed.

Definition tri_faces : list (list nat) := [[0]; [1]; [2]; [0; 1]; [1; 2]; [2; 0]; [0; 1; 2]].
Lemma embed_id : forall K b, length b = K -> embed K (seq 0 K) b = b.
Proof.
  intros K b H. apply nth_ext with (d := 0) (d' := 0); unfold embed; rewrite map_length, seq_length; auto.
  intros i Hi. rewrite nth_indep with (d' := weight_at (seq 0 K) b 0) by (rewrite map_length, seq_length; auto).
  rewrite map_nth, seq_nth by auto. cbn [Nat.add]. replace i with (nth i (seq 0 K) 0) at 1 by (rewrite seq_nth; auto).
  rewrite weight_nth; auto; try rewrite seq_length; auto. apply seq_NoDup.
Qed.
Lemma map_embed_id : forall n K l, positive_indices n K l -> map (embed K (seq 0 K)) l = l.
Proof.
  intros n K l [_ H]. rewrite <- (map_id l) at 2. apply map_ext_in. intros b Hb. apply embed_id. apply H in Hb. tauto.
Qed.

Ltac mask_nodup := vm_compute; repeat constructor; cbn; intuition discriminate.
Ltac face_ok := intros F HF; repeat (destruct HF as [<- |HF]; [split; [repeat constructor; cbn; intuition discriminate|cbn; intuition lia]|]); destruct HF.
Ltac masks_cover := intros m Hm Ht; vm_compute in Hm |- *; repeat (destruct Hm as [<- |Hm]; [tauto || (exfalso; cbn in Ht; intuition discriminate)|]); destruct Hm.

Theorem tri_enumerates : forall n, all_indices n 3 (tri_idx n).
Proof.
  intros n. induction n as [n IH] using lt_wf_ind. destruct n as [|n']; [apply (zero_indices 3)|].
  set (n := S n') in *.
  assert (H3 : positive_indices n 3 (inner3 n)).
  { unfold inner3. subst n. destruct n' as [|[|m]]; try (apply positive_empty; lia).
    replace (S (S (S m))) with (m + 3) by lia. apply positive_shift. apply IH. lia. }
  set (I := fun k => match k with 1 => inner1 n | 2 => inner2 n | _ => inner3 n end).
  assert (E : tri_idx n = flat_map (fun F => map (embed 3 F) (I (length F))) tri_faces).
  { unfold tri_faces. rewrite (eq_refl : [[0]; [1]; [2]; [0; 1]; [1; 2]; [2; 0]; [0; 1; 2]] =
      [[0]; [1]; [2]] ++ [[0; 1]; [1; 2]; [2; 0]] ++ [[0; 1; 2]]). rewrite !flat_map_app.
    unfold n at 1. cbn [tri_idx]. fold n.
    change (match n with S (S (S m)) => map (map S) (tri_idx m) | _ => [] end) with (inner3 n).
    f_equal. f_equal. cbn [flat_map length I]. rewrite app_nil_r. symmetry. apply (map_embed_id n 3). exact H3. }
  rewrite E. apply blocks_enumerate.
  - lia.
  - face_ok.
  - mask_nodup.
  - masks_cover.
  - intros F HF. repeat (destruct HF as [<- |HF]; [cbn [length I]; first [apply positive1; lia|apply positive2|exact H3]|]). destruct HF.
Qed.

Theorem tet_enumerates : forall c n, all_indices n 4 (tet_idx c n).
Proof.
  intros c n. induction n as [n IH] using lt_wf_ind. destruct n as [|n']; [apply (zero_indices 4)|].
  set (n := S n') in *.
  assert (H3 : positive_indices n 3 (inner3 n)).
  { unfold inner3. subst n. destruct n' as [|[|m]]; try (apply positive_empty; lia).
    replace (S (S (S m))) with (m + 3) by lia. apply positive_shift. apply tri_enumerates. }
  assert (H4 : positive_indices n 4 (inner4 c n)).
  { unfold inner4. subst n. destruct n' as [|[|[|m]]]; try (apply positive_empty; lia).
    replace (S (S (S (S m)))) with (m + 4) by lia. apply positive_shift. apply IH. lia. }
  set (I := fun k => match k with 1 => inner1 n | 2 => inner2 n | 3 => inner3 n | _ => inner4 c n end).
  set (Fs := [[0]; [1]; [2]; [3]] ++ tet_edge_convention c ++ tet_face_convention c ++ [[0; 1; 2; 3]]).
  assert (E : tet_idx c n = flat_map (fun F => map (embed 4 F) (I (length F))) Fs).
  { unfold Fs. rewrite !flat_map_app. unfold n at 1. cbn [tet_idx]. fold n.
    change (match n with S (S (S (S m))) => map (map S) (tet_idx c m) | _ => [] end) with (inner4 c n).
    f_equal. f_equal; [destruct c; reflexivity|]. f_equal; [destruct c; reflexivity|].
    cbn [flat_map length I]. rewrite app_nil_r. symmetry. apply (map_embed_id n 4). exact H4. }
  rewrite E. unfold Fs. destruct c; cbn [tet_edge_convention tet_face_convention app]; (apply blocks_enumerate;
    [lia|face_ok|mask_nodup|masks_cover
    |intros F HF; repeat (destruct HF as [<- |HF]; [cbn [length I]; first [apply positive1; lia|apply positive2|exact H3|exact H4]|]); destruct HF]).
Qed.
