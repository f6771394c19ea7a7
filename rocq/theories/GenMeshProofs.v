Require Import List Arith Bool ZArith Lia Permutation Sorted.
Require Import Verif.Base Verif.CommProofs Verif.MultiIndexModel Verif.MultiIndexProofs Verif.DistributeModel Verif.DistributeProofs
  Verif.DistributeProps Verif.SimplexModel Verif.SimplexProofs Verif.CommBlocks Verif.GenMeshModel Verif.GenMeshSpec.
Import ListNotations.
Local Open Scope opt_scope.

Lemma map_opt_ok {A B} (f : A -> option B) g l : (forall a, In a l -> f a = Some (g a)) -> map_opt f l = Some (map g l).
Proof.
  induction l as [|a l IH]; intro H; auto. cbn [map_opt map]. rewrite H by (left; auto). cbn [bind].
  rewrite IH by (intros; apply H; right; auto). auto.
Qed.
Lemma map_opt_app {A B} (f : A -> option B) l m : map_opt f (l ++ m) = do a <- map_opt f l; do b <- map_opt f m; Some (a ++ b).
Proof.
  induction l as [|x l IH]; cbn [app map_opt]; [cbn [bind]; destruct (map_opt f m); auto|].
  rewrite IH. destruct (f x); auto. cbn [bind]. destruct (map_opt f l); auto. cbn [bind]. destruct (map_opt f m); auto.
Qed.
Lemma product_prodl l : product l = prodl l.
Proof.
  unfold product. enough (H : forall a, fold_left Nat.mul l a = a * prodl l) by (rewrite H; lia).
  induction l as [|x l IH]; intro a; cbn [fold_left prodl]; [lia|]. rewrite IH. lia.
Qed.

Lemma firstn_split {A} (l : list A) a b : a <= b -> firstn a l ++ firstn (b - a) (skipn a l) = firstn b l.
Proof.
  revert a b. induction l as [|x l IH]; intros a b H; [rewrite !firstn_nil, skipn_nil, firstn_nil; auto|].
  destruct a as [|a]; [cbn [firstn skipn app]; f_equal; lia|]. destruct b as [|b]; [lia|]. cbn [firstn skipn app Nat.sub]. f_equal. apply IH. lia.
Qed.
(** Blocks of the distribution. *)
Lemma dist_blocks {A} (g : list A) n size : 0 < size -> length g = n ->
  let fr r := Z.to_nat (fst (distribute 0 (Z.of_nat n) (Z.of_nat r) (Z.of_nat size))) in
  let t r := Z.to_nat (snd (distribute 0 (Z.of_nat n) (Z.of_nat r) (Z.of_nat size))) in
  (forall r, r < size -> fr r <= t r <= n) /\
  concat (map (fun r => firstn (t r - fr r) (skipn (fr r) g)) (seq 0 size)) = g.
Proof.
  intros Hs L fr t. destruct (distribute_partition 0 (Z.of_nat n) (Z.of_nat size) ltac:(lia) ltac:(lia)) as (D0 & D1 & D2 & _ & _).
  assert (B : forall r, r < size -> (0 <= fst (distribute 0 (Z.of_nat n) (Z.of_nat r) (Z.of_nat size)) <= snd (distribute 0 (Z.of_nat n) (Z.of_nat r) (Z.of_nat size)))%Z).
  { intros r Hr. pose proof (distribute_balanced 0 (Z.of_nat n) (Z.of_nat size) (Z.of_nat r) (Z.of_nat r) ltac:(lia) ltac:(lia) ltac:(lia) ltac:(lia) ltac:(lia)) as H.
    cbv zeta in H. destruct H as [[H _] _]. split; [|lia].
    induction r as [|r IH]; [change (Z.of_nat 0) with 0%Z; rewrite D0; lia|].
    assert (Hr' : r < size) by lia.
    pose proof (D2 (Z.of_nat r) ltac:(lia) ltac:(lia)) as E. replace (Z.of_nat (S r)) with (Z.of_nat r + 1)%Z by lia. rewrite E.
    pose proof (distribute_balanced 0 (Z.of_nat n) (Z.of_nat size) (Z.of_nat r) (Z.of_nat r) ltac:(lia) ltac:(lia) ltac:(lia) ltac:(lia) ltac:(lia)) as H'.
    cbv zeta in H'. destruct H' as [[H' _] _]. specialize (IH Hr' H'). lia. }
  assert (F0 : fr 0 = 0) by (unfold fr; change (Z.of_nat 0) with 0%Z; rewrite D0; auto).
  assert (FN : forall r, r + 1 < size -> fr (r + 1) = t r).
  { intros r Hr. unfold fr, t. pose proof (D2 (Z.of_nat r) ltac:(lia) ltac:(lia)) as E. replace (Z.of_nat (r + 1)) with (Z.of_nat r + 1)%Z by lia. rewrite E. auto. }
  assert (TL : t (size - 1) = n).
  { unfold t. replace (Z.of_nat (size - 1)) with (Z.of_nat size - 1)%Z by lia. rewrite D1. lia. }
  assert (LE : forall r, r < size -> fr r <= t r).
  { intros r Hr. specialize (B r Hr). unfold fr, t. lia. }
  assert (P : forall m, m < size -> concat (map (fun r => firstn (t r - fr r) (skipn (fr r) g)) (seq 0 (m + 1))) = firstn (t m) g).
  { induction m as [|m IH]; intro Hm.
    - cbn [Nat.add seq map concat]. rewrite app_nil_r, F0. cbn [skipn]. f_equal. lia.
    - replace (S m + 1) with (S (m + 1)) by lia. rewrite seq_S, map_app, concat_app, IH by lia. cbn [map concat Nat.add]. rewrite app_nil_r.
      assert (t m <= t (m + 1)) by (rewrite <- FN by lia; apply LE; lia).
      rewrite FN by lia. replace (S m) with (m + 1) by lia. apply firstn_split; auto. }
  split.
  - intros r Hr. split; auto. assert (forall m, r + m < size -> t r <= t (r + m)).
    { induction m as [|m IHm]; intro Hm; [rewrite Nat.add_0_r; auto|]. transitivity (t (r + m)); [apply IHm; lia|].
      rewrite <- FN by lia. replace (r + m + 1) with (r + S m) by lia. apply LE. lia. }
    rewrite <- TL. replace (size - 1) with (r + (size - 1 - r)) by lia. apply H. lia.
  - replace size with (size - 1 + 1) at 1 by lia. rewrite P by lia. rewrite TL, <- L. apply firstn_all.
Qed.

Lemma write_at_spec {A} items : forall (buf : list A) pos, pos + length items <= length buf ->
  exists buf', write_at buf pos items = Some buf' /\ length buf' = length buf /\
    forall j, nth_error buf' j = if (pos <=? j) && (j <? pos + length items) then nth_error items (j - pos) else nth_error buf j.
Proof.
  induction items as [|x items IH]; intros buf pos H; cbn [write_at length] in *.
  - exists buf. split; auto. split; auto. intro j. destruct (Nat.leb_spec pos j), (Nat.ltb_spec j (pos + 0)); auto; lia.
  - destruct (upd_ok buf pos x) as [b1 E]; [lia|]. rewrite E. cbn [bind]. apply upd_spec in E as (L & _ & N).
    destruct (IH b1 (pos + 1)) as (b2 & E2 & L2 & N2); [lia|]. exists b2. split; auto. split; [lia|]. intro j. rewrite N2, N.
    destruct (Nat.leb_spec (pos + 1) j), (Nat.ltb_spec j (pos + 1 + length items)), (Nat.leb_spec pos j), (Nat.ltb_spec j (pos + S (length items))), (Nat.eqb_spec j pos);
      cbn [andb]; try lia; auto.
    + replace (j - pos) with (S (j - (pos + 1))) by lia. auto.
    + subst. rewrite Nat.sub_diag. auto.
Qed.

Lemma concat_chunks {A} (ch : nat -> list A) NS n : (forall c, c < n -> length (ch c) = NS) ->
  length (concat (map ch (seq 0 n))) = n * NS /\
  forall c j, c < n -> j < NS -> nth_error (concat (map ch (seq 0 n))) (c * NS + j) = nth_error (ch c) j.
Proof.
  induction n as [|n IH]; intro H; [split; [auto|intros; lia]|].
  destruct IH as [L N]; [intros; apply H; lia|]. rewrite seq_S, map_app, concat_app. cbn [map concat Nat.add]. rewrite app_nil_r, app_length, L, H by lia.
  split; [lia|]. intros c j Hc Hj. destruct (Nat.eq_dec c n) as [E|E].
  - subst. rewrite nth_error_app2 by lia. f_equal. lia.
  - assert (c * NS + j < n * NS) by (assert (S c * NS <= n * NS) by (apply Nat.mul_le_mono_r; lia); lia).
    rewrite nth_error_app1 by lia. apply N; lia.
Qed.

Lemma NG_aux {A} (l : list A) fp n j : j < n -> nth_error l (fp + j) = nth_error (firstn n (skipn fp l)) j.
Proof.
  revert fp n j. induction l as [|x l IH]; intros fp n j H; [rewrite skipn_nil, firstn_nil; destruct (fp + j), j; auto|].
  destruct fp as [|fp]; [|apply IH; auto]. cbn [skipn Nat.add]. destruct n as [|n]; [lia|]. cbn [firstn]. destruct j as [|j]; auto.
  cbn [nth_error]. specialize (IH 0 n j ltac:(lia)). cbn [skipn Nat.add] in IH. auto.
Qed.
Lemma cube_loop_spec D N ch nc from to : num_simplices D > 0 ->
  (forall c, c < nc -> cube_simplices D N c = Some (ch c) /\ length (ch c) = num_simplices D) ->
  let NS := num_simplices D in
  let g := concat (map ch (seq 0 nc)) in
  from <= to -> to <= nc * NS -> 0 < nc ->
  let cF := from / NS in let cT := 1 + (to - 1) / NS in
  cube_loop D N from to cF cT (seq cF (cT - cF)) (repeat [] (to - from)) = Some (firstn (to - from) (skipn from g)).
Proof.
  intros HN HC NS g Hft Ht Hnc cF cT.
  destruct (concat_chunks ch NS nc) as [LG NG]; [intros; apply HC; auto|]. fold g in LG, NG.
  set (T := firstn (to - from) (skipn from g)).
  assert (LT : length T = to - from) by (unfold T; rewrite firstn_length, skipn_length; lia).
  assert (NT : forall j, j < to - from -> nth_error T j = nth_error g (from + j)).
  { intros j Hj. unfold T. rewrite <- (firstn_skipn from g) at 2. rewrite nth_error_app2 by (rewrite firstn_length; lia).
    rewrite firstn_length, Nat.min_l by lia. replace (from + j - from) with j by lia.
    rewrite <- (firstn_skipn (to - from) (skipn from g)) at 2. rewrite nth_error_app1; auto. fold T. lia. }
  assert (EF : from = NS * cF + from mod NS) by (apply Nat.div_mod; lia).
  pose proof (Nat.mod_upper_bound from NS ltac:(lia)) as MF.
  assert (ET : to - 1 = NS * (cT - 1) + (to - 1) mod NS).
  { unfold cT. replace (1 + (to - 1) / NS - 1) with ((to - 1) / NS) by lia. apply Nat.div_mod; lia. }
  pose proof (Nat.mod_upper_bound (to - 1) NS ltac:(lia)) as MT.
  assert (CT : cT <= nc).
  { unfold cT. assert ((to - 1) / NS < nc); [|lia]. apply Nat.div_lt_upper_bound; [lia|].
    assert (1 * NS <= nc * NS) by (apply Nat.mul_le_mono_r; lia). lia. }
  assert (CT1 : 1 <= cT) by (unfold cT; lia).
  assert (P : forall n c buf, c + n = cT \/ (n = 0 /\ cT <= c) -> cF <= c -> length buf = to - from ->
     (forall j, j < to - from -> from + j < c * NS -> nth_error buf j = nth_error T j) ->
     cube_loop D N from to cF cT (seq c n) buf = Some T).
  { induction n as [|n IH]; intros c buf Hc Hcf LB PB; cbn [seq cube_loop].
    - f_equal. apply nth_error_ext. intro j. destruct (lt_dec j (to - from)) as [Hj|Hj].
      + apply PB; auto. assert (CE : cT * NS = NS * (cT - 1) + NS) by (clear - CT1; replace cT with (cT - 1 + 1) at 1 by lia; rewrite Nat.mul_add_distr_r, Nat.mul_comm; lia).
        assert (cT * NS <= c * NS) by (apply Nat.mul_le_mono_r; lia). clear - H CE ET MT Hj. lia.
      + rewrite !(proj2 (nth_error_None _ _)); auto; lia.
    - destruct Hc as [Hc|Hc]; [|lia]. destruct (HC c ltac:(lia)) as [EC LC]. rewrite EC. cbn [bind]. fold NS in LC |- *.
      set (fp := if c =? cF then from - cF * NS else 0). set (lp := if c =? cT - 1 then cT * NS - to else 0).
      set (items := firstn (NS - lp - fp) (skipn fp (ch c))).
      assert (K : exists X, X = c * NS /\ fp <= NS /\ from <= X + fp /\ (X <= from \/ fp = 0) /\ lp <= NS /\
         X + NS - lp <= to /\ (lp = 0 \/ to <= X + NS - lp) /\ (X + fp <= from \/ fp = 0)).
      { exists (c * NS). split; auto.
        assert (FP : fp <= NS /\ from <= c * NS + fp /\ (c <> cF -> fp = 0) /\ (c = cF -> c * NS + fp = from)).
        { clear - Hcf EF MF fp. assert (M1 : c * NS = NS * c) by apply Nat.mul_comm. assert (M2 : cF * NS = NS * cF) by apply Nat.mul_comm.
          unfold fp. destruct (Nat.eqb_spec c cF) as [E|E]; [subst c; lia|].
          assert (NS * (cF + 1) <= NS * c) by (apply Nat.mul_le_mono_l; lia). rewrite Nat.mul_add_distr_l in H. lia. }
        assert (LP : lp <= NS /\ c * NS + NS - lp <= to /\ (lp = 0 \/ to <= c * NS + NS - lp)).
        { assert (CE : cT * NS = NS * (cT - 1) + NS) by (clear - CT1; replace cT with (cT - 1 + 1) at 1 by lia; rewrite Nat.mul_add_distr_r, Nat.mul_comm; lia).
          assert (M1 : c * NS = NS * c) by apply Nat.mul_comm.
          unfold lp. destruct (Nat.eqb_spec c (cT - 1)) as [E|E].
          - rewrite <- E in CE, ET. destruct FP as (F1 & F2 & F3 & F4). clear - CE ET MT M1 F2 F3 F4 Hft EF MF HN. 
            destruct (Nat.eq_dec to 0); [|lia]. subst to. lia.
          - assert (NS * (c + 1) <= NS * (cT - 1)) by (apply Nat.mul_le_mono_l; lia). rewrite Nat.mul_add_distr_l in H.
            clear - H ET M1. lia. }
        clear - FP LP. destruct (Nat.eq_dec c cF); lia. }
      destruct K as (X & EX & K1 & K2 & K3 & K4 & K5 & K6 & K7). rewrite <- EX.
      assert (LI : length items = NS - lp - fp).
      { unfold items. rewrite firstn_length, skipn_length, LC. clear. lia. }
      destruct (write_at_spec items buf (X + fp - from)) as (b' & EB & LB' & NB).
      { rewrite LI, LB. clear - K1 K2 K3 K4 K5 Hft K7. lia. }
      rewrite EB. cbn [bind]. replace (S c) with (c + 1) by (clear; lia). apply IH; [left; clear - Hc; lia|clear - Hcf; lia|congruence|].
      intros j Hj Hlt. rewrite NB, LI. rewrite Nat.mul_add_distr_r, Nat.mul_1_l, <- EX in Hlt.
      destruct (Nat.leb_spec (X + fp - from) j) as [A1|A1], (Nat.ltb_spec j (X + fp - from + (NS - lp - fp))) as [A2|A2]; cbn [andb].
      + rewrite NT by auto. unfold items.
        rewrite <- (NG_aux (ch c) fp (NS - lp - fp) (j - (X + fp - from))) by (clear - A1 A2; lia).
        replace (from + j) with (c * NS + (fp + (j - (X + fp - from)))) by (rewrite <- EX; clear - A1 K2; lia). symmetry. apply NG; [clear - Hc CT; lia|].
        clear - A1 A2. lia.
      + exfalso. clear - A1 A2 K1 K2 K4 K5 K6 K7 Hlt Hj. lia.
      + apply PB; auto. rewrite <- EX. clear - A1 K7 K2 Hj. lia.
      + apply PB; auto. rewrite <- EX. clear - A1 K7 K2 Hj. lia. }
  apply P; auto.
  - destruct (le_lt_dec cF cT); [left; lia|right; lia].
  - apply repeat_length.
  - intros j Hj Hlt. lia.
Qed.
