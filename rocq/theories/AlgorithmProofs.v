Require Import List Arith ZArith Lia Bool Permutation.
Require Import Verif.Base Verif.DistributeModel Verif.CommProofs Verif.AlgorithmModel.
Import ListNotations.
Local Open Scope opt_scope.

Definition tau (a b k : nat) : nat := if k =? a then b else if k =? b then a else k.

Lemma tau_invol a b k : tau a b (tau a b k) = k.
Proof.
  unfold tau. destruct (Nat.eqb_spec k a), (Nat.eqb_spec k b); subst; rewrite ?Nat.eqb_refl; auto.
  - destruct (Nat.eqb_spec b a); auto.
  - rewrite !(proj2 (Nat.eqb_neq _ _)) by auto. auto.
Qed.
Lemma tau_lt a b k n : a < n -> b < n -> k < n -> tau a b k < n.
Proof. unfold tau. intros. destruct (k =? a), (k =? b); auto. Qed.
Lemma tau_inj a b j k : tau a b j = tau a b k -> j = k.
Proof. intro H. rewrite <- (tau_invol a b j), H. apply tau_invol. Qed.

Lemma upd_nth (l : list nat) i x l' : upd l i x = Some l' ->
  length l' = length l /\ forall j, nth j l' 0 = if j =? i then x else nth j l 0.
Proof.
  intro H. destruct (upd_spec _ _ _ _ H) as (L & Hi & N). split; auto.
  intro j. specialize (N j). destruct (Nat.eqb_spec j i).
  - apply nth_error_nth; auto.
  - destruct (lt_dec j (length l)) as [K|K].
    + rewrite (nth_error_nth' l 0) in N by auto. apply nth_error_nth; auto.
    + rewrite !nth_overflow; auto; lia.
Qed.

(** number of positions not yet fixed *)
Definition nfix (n : nat) (idx : list nat) : nat := sumn (fun j => if nth j idx 0 =? j then 0 else 1) n.

Lemma sumn_drop f g n c : c < n -> f c < g c -> (forall j, j <> c -> f j <= g j) -> sumn f n < sumn g n.
Proof.
  intros Hc Hlt Hle.
  assert (forall m, sumn f m <= sumn g m /\ (c < m -> sumn f m < sumn g m)) as X.
  { induction m; simpl; [lia|]. destruct IHm as [A B].
    destruct (Nat.eq_dec m c) as [->|Hne].
    - split; intros; lia.
    - specialize (Hle m Hne). split; [lia|]. intro. assert (c < m) by lia. specialize (B H0). lia. }
  apply X; auto.
Qed.

Lemma nfix_le n idx : nfix n idx <= n.
Proof. unfold nfix. induction n; simpl; auto. destruct (_ =? _); lia. Qed.

Section Correct.
  Context {S K B : Type} (n : nat) (swap : nat -> nat -> S -> option S)
          (ok : S -> Prop) (get : S -> nat -> K -> B).
  Hypothesis swap_law : forall s i j, ok s -> i < n -> j < n -> i <> j ->
    exists s', swap i j s = Some s' /\ ok s' /\
      forall k x, k < n -> get s' k x = get s (tau i j k) x.

  Variables (p : nat -> nat) (s0 : S).

  Definition tracks (s : S) (sg : nat -> nat) : Prop :=
    is_perm n sg /\ forall j x, j < n -> get s (sg j) x = get s0 (p j) x.

  Definition inv_out (i : nat) (idx : list nat) (s : S) : Prop :=
    length idx = n /\ ok s /\ tracks s (fun j => nth j idx 0) /\
    (forall k, k < i -> nth k idx 0 = k).

  Definition inv_mid (i c : nat) (idx : list nat) (s : S) : Prop :=
    length idx = n /\ ok s /\ i < n /\ c < n /\ c <> i /\ nth i idx 0 = i /\
    (forall j, j < n -> nth j idx 0 < n) /\
    (forall k, k < i -> nth k idx 0 = k) /\
    (exists j, j < n /\ j <> i /\ nth j idx 0 = i) /\
    exists sg, tracks s sg /\ sg i = i /\
      forall j, j < n -> j <> i -> sg j = (if nth j idx 0 =? i then c else nth j idx 0).

  Lemma tracks_ext s f g : (forall j, j < n -> f j = g j) -> tracks s f -> tracks s g.
  Proof.
    intros E [[P1 P2] T]. split; [split|].
    - intros. rewrite <- E; auto.
    - intros i j Hi Hj. rewrite <- !E by auto. auto.
    - intros. rewrite <- E by auto. auto.
  Qed.

  Lemma tracks_swap s s' sg a b : ok s -> a < n -> b < n -> a <> b ->
    (forall k x, k < n -> get s' k x = get s (tau a b k) x) ->
    tracks s sg -> tracks s' (fun j => tau a b (sg j)).
  Proof.
    intros O Ha Hb Hab G [[P1 P2] T]. split; [split|].
    - intros. apply tau_lt; auto.
    - intros i j Hi Hj E. apply tau_inj in E. auto.
    - intros j x Hj. rewrite G by (apply tau_lt; auto). rewrite tau_invol. auto.
  Qed.

  (** leaving the inner loop *)
  Lemma mid_exit i c idx s idx' : inv_mid i c idx s -> nth c idx 0 = i -> upd idx c c = Some idx' ->
    inv_out (i + 1) idx' s.
  Proof.
    intros (L & O & Hi & Hc & Hne & Ii & Bd & Fx & _ & sg & T & Si & Hs) E U.
    destruct (upd_nth _ _ _ _ U) as (L' & N). split; [lia|]. split; auto. split.
    - assert (Sc : sg c = c) by (rewrite Hs, E, Nat.eqb_refl by auto; auto).
      eapply tracks_ext; [|exact T]. intros j Hj. rewrite N.
      destruct (Nat.eqb_spec j c) as [->|Hjc]; auto.
      destruct (Nat.eq_dec j i) as [->|Hji]; [congruence|].
      pose proof (Hs j Hj Hji) as Hsj. destruct (Nat.eqb_spec (nth j idx 0) i); auto.
      exfalso. apply Hjc. apply (proj2 (proj1 T)); auto. congruence.
    - intros k Hk. rewrite N. destruct (Nat.eqb_spec k c); auto.
      destruct (Nat.eq_dec k i) as [->|]; auto. apply Fx; lia.
  Qed.

  Lemma mid_cycle fuel : forall i c idx s, inv_mid i c idx s -> nfix n idx <= fuel ->
    exists idx' s', cycle swap fuel i c idx s = Some (idx', s') /\ inv_out (i + 1) idx' s' .
  Proof.
    induction fuel as [|f IH]; intros i c idx s Inv Hf.
    - pose proof Inv as (L & O & Hi & Hc & Hne & Ii & Bd & Fx & (j0 & J1 & J2 & J3) & sg & T & Si & Hs).
      exfalso. assert (nfix n idx > 0); [|lia].
      unfold nfix. apply Nat.le_lt_trans with (sumn (fun _ => 0) n).
      { lia. }
      apply (sumn_drop _ _ n j0); auto.
      + rewrite J3. destruct (Nat.eqb_spec i j0); [congruence|lia].
      + intros. lia.
    - pose proof Inv as (L & O & Hi & Hc & Hne & Ii & Bd & Fx & (j0 & J1 & J2 & J3) & sg & T & Si & Hs).
      cbn [cycle]. rewrite (nth_error_nth' idx 0) by lia. cbn [bind].
      destruct (Nat.eqb_spec i (nth c idx 0)) as [E|E].
      + destruct (upd_ok idx c c ltac:(lia)) as [idx' U]. rewrite U. cbn [bind].
        exists idx', s. split; auto. eapply mid_exit; eauto.
      + set (nx := nth c idx 0) in *.
        assert (Snx : sg c = nx).
        { rewrite Hs by auto. fold nx. destruct (Nat.eqb_spec nx i); auto; congruence. }
        assert (Hnc : nx <> c).
        { intro Q. assert (sg j0 = c). { rewrite Hs, J3, Nat.eqb_refl by auto; auto. }
          assert (j0 = c). { apply (proj2 (proj1 T)); auto. congruence. }
          subst j0. fold nx in J3. congruence. }
        assert (Hnx : nx < n) by (apply Bd; auto).
        destruct (swap_law s c nx O Hc Hnx ltac:(auto)) as (s1 & E1 & O1 & G1).
        rewrite E1. cbn [bind].
        destruct (upd_ok idx c c ltac:(lia)) as [idx1 U]. rewrite U. cbn [bind].
        destruct (upd_nth _ _ _ _ U) as (L1 & N1).
        apply IH.
        * split; [lia|]. split; auto. split; auto. split; auto. split; [congruence|].
          split. { rewrite N1. destruct (Nat.eqb_spec i c); auto. }
          split. { intros j Hj. rewrite N1. destruct (j =? c); auto. }
          split. { intros k Hk. rewrite N1. destruct (Nat.eqb_spec k c); auto. }
          split. { exists j0. repeat split; auto. rewrite N1.
                   destruct (Nat.eqb_spec j0 c) as [Q|]; auto. rewrite Q in J3. fold nx in J3. congruence. }
          exists (fun j => tau c nx (sg j)). split.
          { apply (tracks_swap s s1 sg); auto. }
          split. { rewrite Si. unfold tau. destruct (Nat.eqb_spec i c); [congruence|].
                   destruct (Nat.eqb_spec i nx); congruence. }
          intros j Hj Hji. rewrite N1.
          destruct (Nat.eqb_spec j c) as [->|Hjc].
          { rewrite Snx. unfold tau. rewrite (proj2 (Nat.eqb_neq _ _) Hnc), Nat.eqb_refl.
            destruct (Nat.eqb_spec c i); congruence. }
          rewrite Hs by auto.
          destruct (Nat.eqb_spec (nth j idx 0) i) as [Ej|Ej].
          { unfold tau. rewrite Nat.eqb_refl. auto. }
          (* nth j idx is neither c nor nx, by injectivity *)
          assert (nth j idx 0 <> nx).
          { intro Q. apply Hjc. apply (proj2 (proj1 T)); auto. rewrite Snx, (Hs j Hj Hji).
            destruct (Nat.eqb_spec (nth j idx 0) i); congruence. }
          assert (nth j idx 0 <> c).
          { intro Q. assert (sg j0 = c) by (rewrite Hs, J3, Nat.eqb_refl by auto; auto).
            assert (j = j0); [|congruence].
            apply (proj2 (proj1 T)); auto. rewrite H0, (Hs j Hj Hji).
            destruct (Nat.eqb_spec (nth j idx 0) i); congruence. }
          unfold tau. rewrite !(proj2 (Nat.eqb_neq _ _)) by auto. auto.
        * enough (nfix n idx1 < nfix n idx) by lia.
          apply (sumn_drop _ _ n c); auto.
          { rewrite N1, Nat.eqb_refl, Nat.eqb_refl. fold nx. rewrite (proj2 (Nat.eqb_neq _ _) Hnc). lia. }
          { intros j Hj. rewrite N1, (proj2 (Nat.eqb_neq _ _) Hj). lia. }
  Qed.

  Lemma out_cycle i idx s : inv_out i idx s -> i < n ->
    exists idx' s', cycle swap n i i idx s = Some (idx', s') /\ inv_out (i + 1) idx' s'.
  Proof.
    intros (L & O & T & Fx) Hi. set (nx := nth i idx 0).
    assert (Hn0 : exists m, n = Datatypes.S m) by (destruct n; [lia|eauto]).
    destruct Hn0 as [m Hm].
    replace (cycle swap n i i idx s) with (cycle swap (Datatypes.S m) i i idx s)
      by (rewrite <- Hm; reflexivity).
    cbn [cycle]. rewrite (nth_error_nth' idx 0) by lia. cbn [bind]. fold nx.
    destruct (upd_ok idx i i ltac:(lia)) as [idx1 U]. rewrite U.
    destruct (upd_nth _ _ _ _ U) as (L1 & N1).
    destruct (Nat.eqb_spec i nx) as [E|E].
    - cbn [bind]. exists idx1, s. split; auto. split; [lia|]. split; auto. split.
      + eapply tracks_ext; [|exact T]. intros j Hj. cbn. rewrite N1.
        destruct (Nat.eqb_spec j i) as [->|]; auto.
      + intros k Hk. rewrite N1. destruct (Nat.eqb_spec k i); auto. apply Fx; lia.
    - destruct T as [P T].
      assert (Hnx : nx < n) by (apply P; auto).
      destruct (swap_law s i nx O Hi Hnx E) as (s1 & E1 & O1 & G1).
      rewrite E1. cbn [bind].
      assert (In0 : nfix n idx1 < nfix n idx).
      { apply (sumn_drop _ _ n i); auto.
        - rewrite N1, Nat.eqb_refl, Nat.eqb_refl. fold nx. rewrite (proj2 (Nat.eqb_neq nx i)) by congruence. lia.
        - intros j Hj. rewrite N1, (proj2 (Nat.eqb_neq _ _) Hj). lia. }
      apply mid_cycle.
      + split; [lia|]. split; auto. split; auto. split; auto. split; [congruence|].
        split. { rewrite N1, Nat.eqb_refl. auto. }
        split. { intros j Hj. rewrite N1. destruct (j =? i); auto. apply P; auto. }
        split. { intros k Hk. rewrite N1. destruct (Nat.eqb_spec k i); auto. }
        split. { destruct (is_perm_surj _ _ P i Hi) as (j & Hj & Ej). exists j.
                 assert (j <> i) by (intros ->; apply E; symmetry; exact Ej).
                 repeat split; auto. rewrite N1, (proj2 (Nat.eqb_neq _ _) H). auto. }
        exists (fun j => tau i nx (nth j idx 0)). split.
        { apply (tracks_swap s s1 (fun j => nth j idx 0)); auto. split; auto. }
        split. { fold nx. unfold tau. rewrite (proj2 (Nat.eqb_neq nx i)) by congruence.
                 rewrite Nat.eqb_refl; auto. }
        intros j Hj Hji. rewrite N1, (proj2 (Nat.eqb_neq _ _) Hji).
        unfold tau. destruct (Nat.eqb_spec (nth j idx 0) i); auto.
        destruct (Nat.eqb_spec (nth j idx 0) nx); auto.
        exfalso. apply Hji. apply (proj2 P); auto.
      + pose proof (nfix_le n idx). lia.
  Qed.

  Lemma out_cycles todo : forall i idx s, inv_out i idx s -> i + todo = n ->
    exists idx' s', cycles swap todo i n idx s = Some (idx', s') /\ inv_out n idx' s'.
  Proof.
    induction todo as [|t IH]; intros i idx s Inv Hn.
    - exists idx, s. simpl. replace i with n in Inv by lia. auto.
    - cbn [cycles]. destruct (out_cycle i idx s Inv ltac:(lia)) as (idx1 & s1 & E & I1).
      rewrite E. cbn [bind fst snd]. apply IH; auto. lia.
  Qed.
End Correct.

Lemma apply_permutation_spec {S K B} n (swap : nat -> nat -> S -> option S) (ok : S -> Prop)
    (get : S -> nat -> K -> B) :
  (forall s i j, ok s -> i < n -> j < n -> i <> j ->
    exists s', swap i j s = Some s' /\ ok s' /\
      forall k x, k < n -> get s' k x = get s (tau i j k) x) ->
  forall idx s, length idx = n -> Permutation idx (seq 0 n) -> ok s ->
  exists s', apply_permutation swap idx s = Some s' /\ ok s' /\
    forall j x, j < n -> get s' j x = get s (nth j idx 0) x.
Proof.
  intros Law idx s L P O. unfold apply_permutation. rewrite L.
  assert (IP : is_perm n (fun j => nth j idx 0)).
  { rewrite <- L. apply perm_list_is_perm. red. rewrite L. auto. }
  destruct (out_cycles n swap ok get Law (fun j => nth j idx 0) s n 0 idx s) as (idx' & s' & E & I).
  { split; auto. split; auto. split; [|lia]. split; auto. }
  { lia. }
  rewrite E. cbn [bind snd]. exists s'. split; auto.
  destruct I as (L' & O' & [_ T] & Fx). split; auto.
  intros j x Hj. rewrite <- T by auto. rewrite Fx by auto. auto.
Qed.

Lemma swap_array_law {A} (a : list A) i j : i < length a -> j < length a ->
  exists a', swap_array i j a = Some a' /\ length a' = length a /\
    forall k, nth_error a' k = nth_error a (tau i j k).
Proof.
  intros Hi Hj. unfold swap_array.
  destruct (nth_error_lt a i Hi) as [x Ex]. destruct (nth_error_lt a j Hj) as [y Ey].
  rewrite Ex, Ey. cbn [bind].
  destruct (upd_ok a i y Hi) as [a1 U1]. rewrite U1. cbn [bind].
  destruct (upd_spec _ _ _ _ U1) as (L1 & _ & N1).
  destruct (upd_ok a1 j x ltac:(lia)) as [a2 U2]. exists a2. split; auto.
  destruct (upd_spec _ _ _ _ U2) as (L2 & _ & N2). split; [lia|].
  intro k. rewrite N2. unfold tau.
  destruct (Nat.eqb_spec k j); subst.
  - destruct (Nat.eqb_spec j i); subst; congruence.
  - rewrite N1. destruct (Nat.eqb_spec k i); subst; auto.
Qed.

(** find_blocks *)
Section Blocks.
Local Open Scope Z_scope.

Definition run (b : Z * Z) : list Z := map (fun k => fst b + Z.of_nat k) (seq 0 (Z.to_nat (snd b))).
Definition maximal (b c : Z * Z) : Prop := fst c <> fst b + snd b.
Definition good (b : Z * Z) : Prop := 1 <= snd b /\ 0 <= fst b /\ fst b + snd b < 2^64.

(** blocks in reverse order *)
Fixpoint chain (l : list (Z * Z)) : Prop :=
  match l with
  | c :: ((b :: _) as t) => maximal b c /\ chain t
  | _ => True
  end.

Lemma run_snoc d len : 1 <= len + 1 -> 0 <= len -> run (d, len + 1) = run (d, len) ++ [d + len].
Proof.
  intros _ H. unfold run; cbn [fst snd]. replace (Z.to_nat (len + 1)) with (S (Z.to_nat len)) by lia.
  rewrite seq_S, map_app. simpl. rewrite Z2Nat.id by lia. auto.
Qed.

Lemma blocks_loop indices : Forall (fun x => 0 <= x < 2^64 - 1) indices ->
  forall acc, Forall good acc -> chain acc ->
  let r := find_blocks_loop indices acc in
  Forall good r /\ concat (map run r) = concat (map run (rev acc)) ++ indices /\ chain (rev r).
Proof.
  induction 1 as [|x rest Hx HF IH]; intros acc G C; cbn [find_blocks_loop].
  - cbn. split; [apply Forall_rev; auto|]. rewrite app_nil_r, rev_involutive. auto.
  - destruct acc as [|[d len] acc'].
    + specialize (IH [(x, 1)]). destruct IH as (A & B & D).
      * constructor; auto. unfold good; simpl; lia.
      * simpl; auto.
      * cbn zeta in *. split; auto. rewrite B. split; auto. simpl.
        rewrite Z.add_0_r. reflexivity.
    + inversion G as [|? ? G1 G2]; subst. destruct G1 as (Hl & Hd & Hs). cbn in Hl, Hd, Hs.
      assert (W : wrap64 (x - d) = len <-> x = d + len).
      { unfold wrap64. change (2^64) with 18446744073709551616 in *.
        destruct (Z_lt_le_dec x d).
        - replace (x - d) with ((x - d + 18446744073709551616) + (-1) * 18446744073709551616) by lia.
          rewrite Z.mod_add by lia. rewrite Z.mod_small by lia. lia.
        - rewrite Z.mod_small by lia. lia. }
      destruct (Z.eqb_spec (wrap64 (x - d)) len) as [E|E].
      * apply W in E. subst x.
        assert (W2 : wrap64 (len + 1) = len + 1).
        { unfold wrap64. apply Z.mod_small. lia. }
        rewrite W2.
        destruct (IH ((d, len + 1) :: acc')) as (A & B & D).
        -- constructor; auto. unfold good; simpl. lia.
        -- destruct acc' as [|b t]; auto.
        -- cbn zeta in *. split; auto. split; auto. rewrite B. simpl.
           rewrite !map_app, !concat_app. simpl. rewrite run_snoc by lia.
           rewrite !app_nil_r, <- !app_assoc. reflexivity.
      * destruct (IH ((x, 1) :: (d, len) :: acc')) as (A & B & D).
        -- constructor; auto. unfold good; simpl. lia.
        -- split; auto. unfold maximal; cbn. intro; apply E, W; auto.
        -- cbn zeta in *. split; auto. split; auto. rewrite B. simpl.
           rewrite !map_app, !concat_app. simpl. rewrite Z.add_0_r.
           rewrite <- !app_assoc. reflexivity.
Qed.

Lemma chain_nth l : chain l -> forall i b c, nth_error l (S i) = Some b -> nth_error l i = Some c ->
  maximal b c.
Proof.
  induction l as [|a t IH]; intros C i b c Hb Hc; [destruct i; discriminate|].
  destruct t as [|a2 t]; [destruct i; discriminate|].
  destruct C as [M C]. destruct i; simpl in *.
  - congruence.
  - eapply IH; eauto.
Qed.
End Blocks.
