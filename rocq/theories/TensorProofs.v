Require Import List Arith Lia Bool Permutation.
Require Import Verif.Base Verif.CommProofs Verif.MultiIndexModel Verif.MultiIndexProofs
  Verif.AlgorithmModel Verif.AlgorithmProofs Verif.TensorModel.
Import ListNotations.
Local Open Scope opt_scope.

Lemma address_packed e : forall shape st, length e = length shape ->
  address (strides_from st shape) e = st * flat e shape.
Proof.
  induction e as [|i t IH]; intros [|s ss] st L; try discriminate; cbn; auto.
  rewrite IH by (simpl in L; lia). lia.
Qed.

Lemma strides_length shape : forall st, length (strides_from st shape) = length shape.
Proof. induction shape; intro; simpl; auto. Qed.

Lemma last_stride shape : forall st, shape <> [] ->
  last shape 0 * last (strides_from st shape) 0 = st * prodl shape.
Proof.
  induction shape as [|s [|s2 ss] IH]; intros st H; [congruence|cbn; lia|].
  specialize (IH (st * s) ltac:(congruence)). cbn [prodl] in *.
  transitivity (last (s2 :: ss) 0 * last (strides_from (st * s) (s2 :: ss)) 0); [reflexivity|].
  rewrite IH. lia.
Qed.

(** ** subtensor *)
Fixpoint fill (args : list arg) (se : list nat) : list nat :=
  match args with
  | [] => []
  | Idx i :: t => i :: fill t se
  | Slice :: t => match se with [] => 0 :: fill t [] | x :: xs => x :: fill t xs end
  end.

Lemma sub_address args : forall stride se, length args = length stride ->
  length se = length (filter is_slice args) ->
  address stride (map arg_index args) + address (extract args stride) se = address stride (fill args se).
Proof.
  induction args as [|a t IH]; intros [|s ss] se L1 L2; try discriminate; cbn; auto.
  simpl in L1. destruct a as [|i]; cbn in L2 |- *.
  - destruct se as [|x xs]; [discriminate|]. cbn in L2. cbn.
    specialize (IH ss xs ltac:(lia) ltac:(lia)). lia.
  - specialize (IH ss se ltac:(lia) L2). lia.
Qed.

Lemma extract_strides args : forall shape st, slices_prefix args = true -> length args = length shape ->
  extract args (strides_from st shape) = strides_from st (extract args shape).
Proof.
  induction args as [|a t IH]; intros [|s ss] st P L; try discriminate; cbn; auto.
  destruct a as [|i]; cbn in *.
  - f_equal. apply IH; auto.
  - assert (G : forall t, forallb (fun a => negb (is_slice a)) t = true -> forall l, extract t l = []).
    { induction t0 as [|b t0 IHt]; intros Q [|y l]; auto. cbn in Q. apply andb_prop in Q.
      destruct Q as [Q1 Q2]. destruct b; [discriminate|]. cbn. auto. }
    rewrite !G; auto.
Qed.

(** ** copy_values *)
Lemma copy_row_spec {A} n : forall (src : list A) s sst (tgt : list A) t tst,
  (forall i, i < n -> s + i * sst < length src) ->
  (forall i, i < n -> t + i * tst < length tgt) ->
  (forall i j, i < n -> j < n -> i * tst = j * tst -> i = j) ->
  exists tgt', copy_row n src s sst tgt t tst = Some tgt' /\ length tgt' = length tgt /\
    (forall i, i < n -> nth_error tgt' (t + i * tst) = nth_error src (s + i * sst)) /\
    (forall k, (forall i, i < n -> k <> t + i * tst) -> nth_error tgt' k = nth_error tgt k).
Proof.
  induction n as [|n IH]; intros src s sst tgt t tst Hs Ht Inj.
  - exists tgt. cbn. repeat split; auto. intros; lia.
  - cbn [copy_row]. destruct (nth_error_lt src s) as [x Ex]. { specialize (Hs 0 ltac:(lia)). lia. }
    rewrite Ex. cbn [bind].
    destruct (upd_ok tgt t x) as [t1 U]. { specialize (Ht 0 ltac:(lia)). lia. }
    rewrite U. cbn [bind]. destruct (upd_spec _ _ _ _ U) as (L1 & _ & N1).
    destruct (IH src (s + sst) sst t1 (t + tst) tst) as (t2 & E2 & L2 & A2 & B2).
    { intros i Hi. specialize (Hs (S i) ltac:(lia)). lia. }
    { intros i Hi. specialize (Ht (S i) ltac:(lia)). lia. }
    { intros i j Hi Hj E. specialize (Inj (S i) (S j) ltac:(lia) ltac:(lia) ltac:(lia)). lia. }
    exists t2. split; auto. split; [lia|]. split.
    + intros [|i] Hi.
      * rewrite !Nat.mul_0_l, !Nat.add_0_r. rewrite B2.
        -- rewrite N1, Nat.eqb_refl. auto.
        -- intros i Hi' E. specialize (Inj 0 (S i) ltac:(lia) ltac:(lia) ltac:(lia)). lia.
      * replace (t + S i * tst) with (t + tst + i * tst) by lia.
        replace (s + S i * sst) with (s + sst + i * sst) by lia. apply A2. lia.
    + intros k Hk. rewrite B2.
      * rewrite N1. destruct (Nat.eqb_spec k t); auto. exfalso. apply (Hk 0); lia.
      * intros i Hi. specialize (Hk (S i) ltac:(lia)). lia.
Qed.

Definition view_ok {A} (buf : list A) (v : view) : Prop :=
  length (v_stride v) = length (v_shape v) /\
  forall e, inrange e (v_shape v) -> v_addr v e < length buf.
Definition view_inj (v : view) : Prop :=
  forall e e', inrange e (v_shape v) -> inrange e' (v_shape v) -> v_addr v e = v_addr v e' -> e = e'.

Lemma cv_mi_incr te ts : inrange te ts -> cv_incr te ts = mi_incr te ts.
Proof.
  induction 1 as [|i s t ss H F IH]; auto. cbn. rewrite IH.
  destruct (Nat.eqb_spec (i + 1) s), (Nat.leb_spec s (i + 1)); auto; lia.
Qed.

Section Copy.
  Context {A : Type} (src : list A) (sv : view) (tgt0 : list A) (tv : view) (s0 : nat) (ts : list nat).
  Hypothesis Hshape : v_shape tv = s0 :: ts.
  Hypothesis Sshape : v_shape sv = v_shape tv.
  Hypothesis Sok : view_ok src sv.
  Hypothesis Tok : view_ok tgt0 tv.
  Hypothesis Tinj : view_inj tv.

  Lemma row_addr v i te : v_shape v = s0 :: ts -> length (v_stride v) = S (length ts) ->
    v_addr v (i :: te) = v_addr v (0 :: te) + i * hd 0 (v_stride v).
  Proof.
    intros _ L. unfold v_addr. destruct (v_stride v); [discriminate|]. cbn. lia.
  Qed.

  Definition copied (k : nat) (tgt : list A) : Prop :=
    length tgt = length tgt0 /\
    (forall i te, inrange (i :: te) (s0 :: ts) -> flat te ts < k ->
       nth_error tgt (v_addr tv (i :: te)) = nth_error src (v_addr sv (i :: te))) /\
    (forall a, (forall e, inrange e (s0 :: ts) -> a <> v_addr tv e) -> nth_error tgt a = nth_error tgt0 a).

  Lemma copy_row_step te tgt : inrange te ts -> copied (flat te ts) tgt ->
    exists tgt', copy_row s0 src (v_addr sv (0 :: te)) (hd 0 (v_stride sv))
                    tgt (v_addr tv (0 :: te)) (hd 0 (v_stride tv)) = Some tgt' /\
      copied (flat te ts + 1) tgt'.
  Proof.
    intros R (L & C & O). destruct Sok as [Sl Sb], Tok as [Tl Tb].
    rewrite Sshape in Sl, Sb. rewrite Hshape in *.
    assert (RS : forall i, v_addr sv (i :: te) = v_addr sv (0 :: te) + i * hd 0 (v_stride sv))
      by (intro; apply row_addr; auto; congruence).
    assert (RT : forall i t, v_addr tv (i :: t) = v_addr tv (0 :: t) + i * hd 0 (v_stride tv))
      by (intros; apply row_addr; auto).
    assert (Ri : forall i, i < s0 -> inrange (i :: te) (s0 :: ts)) by (intros; constructor; auto).
    destruct (copy_row_spec s0 src (v_addr sv (0 :: te)) (hd 0 (v_stride sv)) tgt (v_addr tv (0 :: te))
               (hd 0 (v_stride tv))) as (t' & E & L' & P & Q).
    - intros i Hi. rewrite <- RS. apply Sb; auto.
    - intros i Hi. rewrite <- RT, L. apply Tb; auto.
    - intros i j Hi Hj Eij. assert (i :: te = j :: te) as Q; [|congruence].
      apply Tinj; try (rewrite Hshape; apply Ri; auto). rewrite (RT i), (RT j). lia.
    - exists t'. split; auto. split; [lia|]. split.
      + intros i t Hr Hk. inversion Hr as [|? ? ? ? Hi Ht]; subst.
        destruct (Nat.eq_dec (flat t ts) (flat te ts)) as [Ef|Ef].
        * apply flat_inj in Ef; auto. subst t. rewrite RT, RS. apply P; auto.
        * rewrite Q; [apply C; auto; lia|]. intros j Hj Eq. rewrite <- RT in Eq.
          apply Tinj in Eq; try (rewrite Hshape; auto). congruence.
      + intros a Ha. rewrite Q; auto. intros i Hi. rewrite <- RT. auto.
  Qed.

  Lemma copy_loop_spec : ts <> [] -> forall fuel te tgt, inrange te ts -> copied (flat te ts) tgt ->
    prodl ts - flat te ts <= fuel ->
    exists tgt', copy_loop fuel (0 :: te) src sv tgt tv = Some tgt' /\ copied (prodl ts) tgt'.
  Proof.
    intros Hne. induction fuel as [|f IH]; intros te tgt R C Hf.
    - pose proof (flat_bound _ _ R). lia.
    - pose proof (flat_bound _ _ R) as B. pose proof (inrange_length _ _ R) as L.
      cbn [copy_loop]. rewrite Hshape.
      assert (Hte : te <> []) by (intro; subst; destruct ts; simpl in L; congruence).
      assert (La : last (0 :: te) 0 = last te 0) by (destruct te; [congruence|reflexivity]).
      assert (Ls : last (s0 :: ts) 0 = last ts 0) by (destruct ts; [congruence|reflexivity]).
      pose proof (last_not_range _ _ R Hne) as Hlast.
      rewrite La, Ls, (proj2 (Nat.eqb_neq _ _)) by lia.
      cbn [hd tl]. destruct (copy_row_step te tgt R C) as (t' & E & C'). rewrite E. cbn [bind].
      replace (length (0 :: te) =? 1) with false
        by (symmetry; apply Nat.eqb_neq; destruct te; simpl; congruence).
      rewrite cv_mi_incr by auto.
      destruct (mi_incr_spec te ts R Hne) as [M1 M2].
      destruct (Nat.eq_dec (flat te ts + 1) (prodl ts)) as [K|K].
      + rewrite (M2 K). rewrite K in C'. exists t'. split; auto.
        assert (Lm : last (0 :: mi_end ts) 0 = last ts 0).
        { transitivity (last (mi_end ts) 0); [|apply mi_end_last].
          unfold mi_end. destruct (length ts - 1); reflexivity. }
        destruct f; cbn [copy_loop]; rewrite Hshape, Ls, Lm, Nat.eqb_refl; auto.
      + destruct (M1 ltac:(lia)) as [R' F']. apply IH; auto.
        * rewrite F'. auto.
        * rewrite F'. lia.
  Qed.
End Copy.

(** ** permuting a mode of a tensor *)
Lemma address_app a b c d s x : length a = length c ->
  address (a ++ s :: b) (c ++ x :: d) = address (a ++ b) (c ++ d) + x * s.
Proof.
  revert c. induction a as [|y a IH]; intros [|z c] L; try discriminate; cbn.
  - lia.
  - rewrite IH by (simpl in L; lia). lia.
Qed.

Section Swap.
  Context {A : Type} (n off ms : nat) (rs : list nat) (R : list nat -> Prop).
  Definition cell (e : list nat) (k : nat) : nat := off + address rs e + k * ms.
  Hypothesis Inj : forall e e' k k', R e -> R e' -> k < n -> k' < n -> cell e k = cell e' k' -> e = e' /\ k = k'.

  Lemma swap_entries_spec i j : i < n -> j < n -> forall es (buf : list A),
    NoDup es -> (forall e, In e es -> R e) ->
    (forall e k, R e -> k < n -> cell e k < length buf) ->
    exists buf', swap_entries es off ms rs i j buf = Some buf' /\ length buf' = length buf /\
      (forall e k, R e -> k < n -> In e es -> nth_error buf' (cell e k) = nth_error buf (cell e (tau i j k))) /\
      (forall e k, R e -> k < n -> ~ In e es -> nth_error buf' (cell e k) = nth_error buf (cell e k)) /\
      (forall a, (forall e k, R e -> k < n -> a <> cell e k) -> nth_error buf' a = nth_error buf a).
  Proof.
    intros Hi Hj. induction es as [|e es IH]; intros buf ND HR Bd.
    - exists buf. cbn. repeat split; auto; tauto.
    - inversion ND; subst. assert (Re : R e) by (apply HR; left; auto).
      cbn [swap_entries]. fold (cell e i). fold (cell e j).
      destruct (swap_array_law buf (cell e i) (cell e j)) as (b1 & E1 & L1 & N1); auto.
      rewrite E1. cbn [bind].
      destruct (IH b1 H2 (fun x Hx => HR x (or_intror Hx))) as (b2 & E2 & L2 & P2 & Q2 & O2).
      { intros. rewrite L1. auto. }
      assert (T : forall e' k, R e' -> k < n -> tau (cell e i) (cell e j) (cell e' k)
                 = cell e' (if list_eq_dec Nat.eq_dec e' e then tau i j k else k)).
      { intros e' k He' Hk. unfold tau.
        destruct (list_eq_dec Nat.eq_dec e' e) as [->|Hne].
        - destruct (Nat.eqb_spec (cell e k) (cell e i)) as [Q|Q].
          + apply Inj in Q; auto. destruct Q as [_ ->]. rewrite Nat.eqb_refl. auto.
          + destruct (Nat.eqb_spec k i) as [->|]; [congruence|].
            destruct (Nat.eqb_spec (cell e k) (cell e j)) as [Q'|Q'].
            * apply Inj in Q'; auto. destruct Q' as [_ ->]. rewrite Nat.eqb_refl. auto.
            * destruct (Nat.eqb_spec k j) as [->|]; [congruence|auto].
        - rewrite !(proj2 (Nat.eqb_neq _ _)); auto; intro Q; apply Inj in Q; auto; destruct Q; auto. }
      exists b2. split; auto. split; [lia|]. split; [|split].
      + intros e' k He' Hk Hin.
        destruct (list_eq_dec Nat.eq_dec e' e) as [->|Hne].
        * rewrite Q2 by auto. rewrite N1, T by auto.
          destruct (list_eq_dec Nat.eq_dec e e); [auto|congruence].
        * destruct Hin as [->|Hin]; [congruence|].
          rewrite P2 by auto. rewrite N1, T by (auto; apply tau_lt; auto).
          destruct (list_eq_dec Nat.eq_dec e' e); [congruence|auto].
      + intros e' k He' Hk Hnin. rewrite Q2 by (auto; intro; apply Hnin; right; auto).
        rewrite N1, T by auto. destruct (list_eq_dec Nat.eq_dec e' e); auto.
        exfalso. apply Hnin. left. auto.
      + intros a Ha. rewrite O2 by auto. rewrite N1. unfold tau.
        rewrite !(proj2 (Nat.eqb_neq _ _)) by (apply Ha; auto). auto.
  Qed.
End Swap.

Lemma Forall2_firstn {A B} (P : A -> B -> Prop) l m : Forall2 P l m -> forall n, Forall2 P (firstn n l) (firstn n m).
Proof. induction 1; intros [|n]; simpl; constructor; auto. Qed.
Lemma Forall2_skipn {A B} (P : A -> B -> Prop) l m : Forall2 P l m -> forall n, Forall2 P (skipn n l) (skipn n m).
Proof. induction 1; intros [|n]; simpl; auto. Qed.
Lemma split_mode (l : list nat) mode : mode < length l ->
  l = firstn mode l ++ nth mode l 0 :: skipn (mode + 1) l.
Proof.
  revert l; induction mode as [|m IH]; intros [|a l] H; simpl in H; try lia; auto.
  cbn. f_equal. apply IH. lia.
Qed.

Definition insert_mode (mode k : nat) (r : list nat) : list nat := firstn mode r ++ k :: skipn mode r.

Lemma remove_insert mode k r : mode <= length r -> remove_mode (insert_mode mode k r) mode = r.
Proof.
  intro H. unfold remove_mode, insert_mode.
  rewrite firstn_app, firstn_firstn, Nat.min_id. rewrite firstn_length, Nat.min_l by auto.
  rewrite Nat.sub_diag. cbn [firstn]. rewrite app_nil_r.
  rewrite skipn_app, firstn_length, Nat.min_l by auto.
  rewrite skipn_all2 by (rewrite firstn_length; lia).
  replace (mode + 1 - mode) with 1 by lia. cbn. apply firstn_skipn.
Qed.

Lemma insert_remove mode l : mode < length l -> insert_mode mode (nth mode l 0) (remove_mode l mode) = l.
Proof.
  intro H. unfold remove_mode, insert_mode.
  rewrite firstn_app, firstn_firstn, Nat.min_id, firstn_length, Nat.min_l by lia.
  rewrite Nat.sub_diag. cbn [firstn]. rewrite app_nil_r.
  rewrite skipn_app, firstn_length, Nat.min_l by lia.
  rewrite skipn_all2 by (rewrite firstn_length; lia). rewrite Nat.sub_diag. cbn [skipn app].
  symmetry. apply split_mode; auto.
Qed.

Lemma remove_length l mode : mode < length l -> length (remove_mode l mode) = length l - 1.
Proof. intro H. unfold remove_mode. rewrite app_length, firstn_length, skipn_length. lia. Qed.

Lemma address_insert stride mode k r : mode < length stride -> length r = length stride - 1 ->
  address stride (insert_mode mode k r) = address (remove_mode stride mode) r + k * nth mode stride 0.
Proof.
  intros H L. rewrite (split_mode stride mode H) at 1. unfold insert_mode, remove_mode.
  rewrite address_app by (rewrite !firstn_length; lia). rewrite firstn_skipn. auto.
Qed.

Lemma inrange_insert shape mode k r : mode < length shape ->
  (inrange (insert_mode mode k r) shape /\ length r = length shape - 1 <->
   inrange r (remove_mode shape mode) /\ k < nth mode shape 0).
Proof.
  intro H. split.
  - intros [R L]. unfold inrange in *. split.
    + assert (E : r = remove_mode (insert_mode mode k r) mode) by (rewrite remove_insert; auto; lia).
      rewrite E. unfold remove_mode. apply Forall2_app; [apply Forall2_firstn|apply Forall2_skipn]; auto.
    + rewrite (split_mode shape mode H) in R. unfold insert_mode in R.
      apply Forall2_app_inv_l in R. destruct R as (l1 & l2 & R1 & R2 & E).
      apply inrange_length in R1. rewrite firstn_length in R1.
      inversion R2 as [|? ? ? ? Hk _]; subst.
      apply (f_equal (fun l => nth mode l 0)) in E.
      rewrite !app_nth2 in E by (rewrite ?firstn_length; lia).
      rewrite firstn_length in E. replace (mode - Nat.min mode (length shape)) with 0 in E by lia.
      replace (mode - length l1) with 0 in E by lia. cbn in E. lia.
  - intros [R Hk]. pose proof (inrange_length _ _ R) as L. rewrite remove_length in L by auto.
    split; auto. rewrite (split_mode shape mode H). unfold insert_mode, inrange.
    unfold remove_mode in R.
    apply Forall2_app_inv_r in R. destruct R as (l1 & l2 & R1 & R2 & ->).
    pose proof (inrange_length _ _ R1) as L1. rewrite firstn_length in L1.
    assert (Lm : length l1 = mode) by lia.
    rewrite <- Lm at 1 2. rewrite firstn_app, skipn_app, firstn_all, skipn_all, Nat.sub_diag. cbn.
    rewrite app_nil_r. apply Forall2_app; auto.
Qed.

Lemma prodl_fold shape : fold_right Nat.mul 1 shape = prodl shape.
Proof. induction shape; simpl; auto. Qed.

Lemma swap_tensor_law {A} (v : view) mode (buf : list A) :
  2 <= length (v_shape v) -> mode < length (v_shape v) ->
  Forall (fun s => 0 < s) (removelast (remove_mode (v_shape v) mode)) ->
  view_ok buf v -> view_inj v ->
  let n := nth mode (v_shape v) 0 in
  let get (s : list A) k (r : {r | inrange r (remove_mode (v_shape v) mode)}) :=
    nth_error s (v_addr v (insert_mode mode k (proj1_sig r))) in
  let ok (s : list A) := length s = length buf /\
    forall a, (forall e, inrange e (v_shape v) -> a <> v_addr v e) -> nth_error s a = nth_error buf a in
  forall s i j, ok s -> i < n -> j < n -> i <> j ->
    exists s', swap_tensor v mode i j s = Some s' /\ ok s' /\
      forall k x, k < n -> get s' k x = get s (tau i j k) x.
Proof.
  intros HD Hm Hp [Vl Vb] Vi n get ok s i j [Ls Os] Hi Hj Hij.
  set (rsh := remove_mode (v_shape v) mode) in *.
  set (cell := cell (v_off v) (nth mode (v_stride v) 0) (remove_mode (v_stride v) mode)).
  assert (Cell : forall r k, length r = length (v_shape v) - 1 -> cell r k = v_addr v (insert_mode mode k r)).
  { intros r k Lr. unfold cell, TensorProofs.cell, v_addr. rewrite address_insert by lia. lia. }
  assert (Rl : forall r, inrange r rsh -> length r = length (v_shape v) - 1).
  { intros r Rr. apply inrange_length in Rr. unfold rsh in Rr. rewrite remove_length in Rr; auto. }
  assert (Ins : forall r k, inrange r rsh -> k < n -> inrange (insert_mode mode k r) (v_shape v)).
  { intros r k Rr Hk. apply (inrange_insert (v_shape v) mode k r Hm). auto. }
  unfold swap_tensor. fold rsh. rewrite prodl_fold.
  destruct (mi_loop_full rsh) as (es & Ees & Ies & Nes & _); auto.
  { intro E. assert (length rsh = length (v_shape v) - 1) by (apply remove_length; auto).
    rewrite E in H. simpl in H. lia. }
  rewrite Ees. cbn [bind].
  destruct (swap_entries_spec (A := A) n (v_off v) (nth mode (v_stride v) 0) (remove_mode (v_stride v) mode)
     (fun r => inrange r rsh)) with (i := i) (j := j) (es := es) (buf := s)
     as (s' & E' & L' & P' & _ & O'); auto.
  - fold cell. intros e e' k k' He He' Hk Hk' E. rewrite !Cell in E by auto.
    apply Vi in E; auto. split.
    + rewrite <- (remove_insert mode k e), <- (remove_insert mode k' e').
      * congruence.
      * rewrite Rl by auto. lia.
      * rewrite Rl by auto. lia.
    + apply (f_equal (fun l => nth mode l 0)) in E. unfold insert_mode in E.
      rewrite !app_nth2 in E by (rewrite firstn_length; lia).
      rewrite !firstn_length in E. rewrite (Rl e He), (Rl e' He') in E.
      replace (mode - Nat.min mode (length (v_shape v) - 1)) with 0 in E by lia. cbn in E. exact E.
  - intros e He. apply Ies; auto.
  - fold cell. intros e k He Hk. rewrite Cell, Ls by auto. apply Vb. auto.
  - exists s'. split; auto. split; [split; [lia|]|].
    + intros a Ha. rewrite O'; auto. fold cell. intros e k He Hk. rewrite Cell by auto. apply Ha. auto.
    + intros k [r Rr] Hk. unfold get. cbn [proj1_sig].
      rewrite <- !Cell by auto. apply P'; auto. apply Ies; auto.
Qed.
