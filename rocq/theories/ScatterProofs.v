(** Invariant of the asynchronous exchange. *)
Require Import List Arith Lia Bool.
Require Import Verif.Base Verif.CommModel Verif.CommProofs Verif.ScatterModel.
Import ListNotations.
Local Open Scope opt_scope.

Definition keys (m : umap) : list nat := map fst m.
(** Offset of the block of key k in make_blocks. *)
Fixpoint offset_of (m : umap) (k : nat) : nat :=
  match m with [] => 0 | (k', v) :: t => if k' =? k then 0 else length v + offset_of t k end.

Lemma make_blocks_find off m k : find_block k (make_blocks off m) =
  if existsb (Nat.eqb k) (keys m) then Some (off + offset_of m k, length (umap_get m k), k) else None.
Proof.
  revert off; induction m as [|[k' v] t IH]; intro off; cbn [make_blocks find_block find keys map existsb fst umap_get offset_of]; auto.
  unfold find_block in *. cbn [find]. unfold block_key at 1. cbn [snd].
  rewrite (Nat.eqb_sym k k'). destruct (Nat.eqb_spec k' k) as [->|N]; cbn [orb]; [rewrite Nat.add_0_r; auto|].
  fold (find_block k). rewrite IH. fold (keys t). destruct (existsb _ _); auto. f_equal. f_equal. f_equal. lia.
Qed.
Lemma existsb_keys k l : existsb (Nat.eqb k) l = true <-> In k l.
Proof.
  rewrite existsb_exists. split.
  - intros (x & H & E). apply Nat.eqb_eq in E. subst. auto.
  - intro H. exists k. rewrite Nat.eqb_refl. auto.
Qed.
Lemma make_blocks_find_in m k : In k (keys m) ->
  find_block k (make_blocks 0 m) = Some (offset_of m k, length (umap_get m k), k).
Proof. intro H. rewrite make_blocks_find, (proj2 (existsb_keys _ _)); auto. Qed.
Lemma make_blocks_key off m b : In b (make_blocks off m) -> In (block_key b) (keys m).
Proof.
  revert off; induction m as [|[k v] t IH]; intros off; cbn; [tauto|]. intros [<-|H]; [left; auto|right; eauto].
Qed.

Lemma find_key k bs b : find_block k bs = Some b -> block_key b = k /\ In b bs.
Proof.
  intro H. apply find_some in H as [H1 H2]. apply Nat.eqb_eq in H2. auto.
Qed.
Lemma find_none_key k bs : find_block k bs = None -> forall b, In b bs -> block_key b <> k.
Proof. intros H b Hb E. apply (find_none _ _ H) in Hb. apply Nat.eqb_neq in Hb. auto. Qed.
Lemma find_remove_same k bs : find_block k (remove_block k bs) = None.
Proof.
  destruct (find_block k (remove_block k bs)) eqn:E; auto. apply find_key in E as [E H].
  apply filter_In in H as [_ H]. rewrite E, Nat.eqb_refl in H. discriminate.
Qed.
Lemma find_remove_other k k' bs : k <> k' -> find_block k (remove_block k' bs) = find_block k bs.
Proof.
  intro N. induction bs as [|b t IH]; auto. unfold remove_block, find_block in *. cbn [filter find].
  destruct (Nat.eqb_spec (block_key b) k') as [E|E]; cbn [negb]; cbn [find].
  - rewrite IH. destruct (Nat.eqb_spec (block_key b) k); [congruence|auto].
  - rewrite IH. auto.
Qed.
Lemma find_remove_sub k k' bs b : find_block k (remove_block k' bs) = Some b -> find_block k bs = Some b.
Proof.
  destruct (Nat.eq_dec k k') as [->|N]; [rewrite find_remove_same; discriminate|]. rewrite find_remove_other; auto.
Qed.

Lemma pack_length {A} (x : list A) idx b : pack x idx = Some b -> length b = length idx.
Proof.
  revert b; induction idx as [|i t IH]; intros b H; cbn [pack] in H.
  - inversion H. auto.
  - destruct (nth_error x i); [|discriminate]. cbn [bind] in H. destruct (pack x t) eqn:E; [|discriminate].
    cbn [bind] in H. inversion H. cbn. f_equal. auto.
Qed.
Lemma pack_nth {A} (x : list A) idx b : pack x idx = Some b ->
  forall j i, nth_error idx j = Some i -> nth_error b j = nth_error x i /\ nth_error x i <> None.
Proof.
  revert b; induction idx as [|i t IH]; intros b H j k; cbn [pack] in H.
  - destruct j; discriminate.
  - destruct (nth_error x i) eqn:Ex; [|discriminate]. cbn [bind] in H. destruct (pack x t) eqn:E; [|discriminate].
    cbn [bind] in H. inversion H; subst. destruct j; cbn; [intros [= <-]; split; congruence|]. eauto.
Qed.
Lemma pack_app {A} (x : list A) a b : pack x (a ++ b) = do u <- pack x a; do v <- pack x b; Some (u ++ v).
Proof.
  induction a as [|i t IH]; cbn [pack app].
  - cbn [bind]. destruct (pack x b); auto.
  - destruct (nth_error x i); cbn [bind]; auto. rewrite IH. destruct (pack x t); cbn [bind]; auto.
    destruct (pack x b); cbn [bind]; auto.
Qed.
Lemma pack_ok {A} (x : list A) idx : (forall i, In i idx -> i < length x) -> exists b, pack x idx = Some b.
Proof.
  induction idx as [|i t IH]; intro H; cbn [pack]; eauto.
  destruct (nth_error_lt x i) as [v ->]; [apply H; left; auto|]. cbn [bind].
  destruct IH as [b ->]; [intros; apply H; right; auto|]. cbn [bind]. eauto.
Qed.

Definition slice {A} (y : list A) (off cnt : nat) : list A := firstn cnt (skipn off y).

Lemma offset_bound m k : In k (keys m) -> offset_of m k + length (umap_get m k) <= length (make_indices m).
Proof.
  unfold make_indices. induction m as [|[k' v] t IH]; cbn; [tauto|].
  destruct (Nat.eqb_spec k' k) as [->|N]; rewrite app_length.
  - lia.
  - intros [E|H]; [congruence|]. specialize (IH H). unfold make_indices in IH. lia.
Qed.
Lemma slice_indices m k : In k (keys m) -> slice (make_indices m) (offset_of m k) (length (umap_get m k)) = umap_get m k.
Proof.
  unfold slice, make_indices. induction m as [|[k' v] t IH]; cbn; [tauto|].
  destruct (Nat.eqb_spec k' k) as [->|N].
  - intros _. cbn. rewrite firstn_app, Nat.sub_diag, firstn_all. cbn. apply app_nil_r.
  - intros [E|H]; [congruence|]. rewrite skipn_app. rewrite skipn_all2 by lia.
    cbn. replace (length v + offset_of t k - length v) with (offset_of t k) by lia. auto.
Qed.
(** Blocks of different keys do not overlap. *)
Lemma offset_disjoint m k k' : In k (keys m) -> In k' (keys m) -> k <> k' ->
  offset_of m k + length (umap_get m k) <= offset_of m k' \/ offset_of m k' + length (umap_get m k') <= offset_of m k.
Proof.
  induction m as [|[c v] t IH]; cbn; [tauto|]. intros H H' N.
  destruct (Nat.eqb_spec c k) as [->|Nk]; destruct (Nat.eqb_spec k k') as [->|Nk']; try congruence.
  - left. destruct (Nat.eqb_spec k k'); [congruence|]. lia.
  - destruct (Nat.eqb_spec c k') as [->|]; [right; lia|].
    destruct IH; [tauto|tauto|auto|left; lia|right; lia].
Qed.

Lemma slice_nth {A} (y : list A) off cnt j : j < cnt -> nth_error (slice y off cnt) j = nth_error y (off + j).
Proof. intro H. unfold slice. rewrite nth_error_firstn_lt by auto. apply nth_error_skipn'. Qed.
Lemma slice_length {A} (y : list A) off cnt : off + cnt <= length y -> length (slice y off cnt) = cnt.
Proof. intro H. unfold slice. rewrite firstn_length, skipn_length. lia. Qed.
Lemma pack_slice {A} (x : list A) idx b off cnt : pack x idx = Some b -> off + cnt <= length idx ->
  pack x (slice idx off cnt) = Some (slice b off cnt).
Proof.
  intros H L. pose proof (pack_length _ _ _ H) as Lb.
  assert (E : idx = firstn off idx ++ slice idx off cnt ++ skipn cnt (skipn off idx)).
  { unfold slice. rewrite (firstn_skipn cnt). rewrite firstn_skipn. auto. }
  rewrite E in H. rewrite !pack_app in H.
  destruct (pack x (firstn off idx)) as [u|] eqn:E1; [|discriminate]. cbn [bind] in H.
  destruct (pack x (slice idx off cnt)) as [w|] eqn:E2; [|discriminate]. cbn [bind] in H.
  destruct (pack x (skipn cnt (skipn off idx))) as [z|] eqn:E3; [|discriminate]. cbn [bind] in H.
  inversion H; subst b. f_equal. apply pack_length in E1. apply pack_length in E2.
  rewrite firstn_length in E1. rewrite slice_length in E2 by lia.
  unfold slice. rewrite skipn_app, skipn_all2 by lia. cbn. replace (off - length u) with 0 by lia. cbn.
  rewrite firstn_app, firstn_all2 by lia. replace (cnt - length w) with 0 by lia. cbn. rewrite app_nil_r. auto.
Qed.
Lemma write_slice_same {A} (y d : list A) off y' : write_block y off d = Some y' -> slice y' off (length d) = d.
Proof.
  intro H. unfold write_block in H. destruct (Nat.leb_spec (off + length d) (length y)) as [L|]; [|discriminate].
  inversion H; subst. unfold slice. rewrite skipn_app, skipn_all2 by (rewrite firstn_length; lia). cbn.
  rewrite firstn_length, Nat.min_l by lia. rewrite Nat.sub_diag. cbn. rewrite firstn_app, firstn_all, Nat.sub_diag. cbn.
  apply app_nil_r.
Qed.
Lemma write_slice_other {A} (y d : list A) off y' off' cnt : write_block y off d = Some y' ->
  off' + cnt <= off \/ off + length d <= off' -> slice y' off' cnt = slice y off' cnt.
Proof.
  intros H O. unfold write_block in H. destruct (Nat.leb_spec (off + length d) (length y)) as [L|]; [|discriminate].
  assert (L' : length (firstn off y) = off) by (rewrite firstn_length; lia).
  assert (W : write_block y off d = Some y') by (unfold write_block; rewrite (proj2 (Nat.leb_le _ _) L); auto).
  destruct (write_block_spec y d off L) as (y2 & W2 & Ly & N). rewrite W in W2. inversion W2; subst y2. clear W2 H.
  apply nth_error_ext. intro j. destruct (Nat.lt_ge_cases j cnt) as [Hj|Hj].
  - rewrite !slice_nth by auto. rewrite N. destruct (Nat.leb_spec off (off' + j)); cbn [andb]; auto.
    destruct (Nat.ltb_spec (off' + j) (off + length d)); auto. lia.
  - rewrite !(proj2 (nth_error_None _ _)); auto; unfold slice; rewrite firstn_length; lia.
Qed.
Lemma write_length {A} (y d : list A) off y' : write_block y off d = Some y' -> length y' = length y.
Proof.
  intro W. unfold write_block in W. destruct (Nat.leb_spec (off + length d) (length y)) as [L|]; [|discriminate].
  destruct (write_block_spec y d off L) as (y2 & W2 & Ly & _).
  assert (write_block y off d = Some y') by (unfold write_block; rewrite (proj2 (Nat.leb_le _ _) L); auto). congruence.
Qed.

Section Inv.
  Context {A : Type} (procs : nat) (sm rm : nat -> umap).
  Let pl p := setup (sm p) (rm p).
  Hypothesis nds : forall p, p < procs -> NoDup (keys (sm p)).
  Hypothesis match_keys : forall p q, p < procs -> q < procs -> (In q (keys (sm p)) <-> In p (keys (rm q))).
  Hypothesis match_len : forall p q, p < procs -> q < procs ->
    length (umap_get (sm p) q) = length (umap_get (rm q) p).

  Definition pend_send (s : state A) p q : nat := match find_block q (p_send (procs_of s p)) with Some _ => 1 | None => 0 end.
  Definition pend_recv (s : state A) p q : nat := match find_block p (p_recv (procs_of s q)) with Some _ => 1 | None => 0 end.
  Definition inj (s : state A) (h : nat -> list (list A)) p q : nat := length (h p) - pend_send s p q.
  Definition mat (s : state A) (h : nat -> list (list A)) p q : nat := length (h q) - pend_recv s p q.
  Definition pay p q (x d : list A) : Prop := pack x (umap_get (sm p) q) = Some d.

  Record rank_inv (s : state A) (h : nat -> list (list A)) (p : nat) : Prop := {
    ri_y : h p <> [] -> length (p_y (procs_of s p)) = length (make_indices (rm p));
    ri_buf : h p <> [] -> length (p_buf (procs_of s p)) = length (make_indices (sm p));
    ri_new : h p = [] -> p_send (procs_of s p) = [] /\ p_recv (procs_of s p) = [];
    ri_send : forall b, In b (p_send (procs_of s p)) -> In b (make_blocks 0 (sm p));
    ri_send' : forall k b, find_block k (p_send (procs_of s p)) = Some b -> find_block k (make_blocks 0 (sm p)) = Some b;
    ri_recv : forall b, In b (p_recv (procs_of s p)) -> In b (make_blocks 0 (rm p));
    ri_recv' : forall k b, find_block k (p_recv (procs_of s p)) = Some b -> find_block k (make_blocks 0 (rm p)) = Some b }.

  Record pair_inv (s : state A) (h : nat -> list (list A)) (p q : nat) : Prop := {
    pi_ord : mat s h p q <= inj s h p q;
    pi_len : length (chan s p q) = inj s h p q - mat s h p q;
    pi_chan : forall i d, nth_error (chan s p q) i = Some d ->
      exists x, nth_error (h p) (mat s h p q + i) = Some x /\ pay p q x d;
    pi_buf : pend_send s p q = 1 -> exists x, nth_error (h p) (length (h p) - 1) = Some x /\
      pay p q x (slice (p_buf (procs_of s p)) (offset_of (sm p) q) (length (umap_get (sm p) q)));
    pi_y : pend_recv s p q = 0 -> h q <> [] -> exists x, nth_error (h p) (length (h q) - 1) = Some x /\
      pay p q x (slice (p_y (procs_of s q)) (offset_of (rm q) p) (length (umap_get (rm q) p))) }.

  Definition inv (s : state A) (h : nat -> list (list A)) : Prop :=
    (forall p, p < procs -> rank_inv s h p) /\
    (forall p q, p < procs -> q < procs -> In q (keys (sm p)) -> pair_inv s h p q).

  Lemma inv_start x0 : inv (start x0) (fun _ => []).
  Proof.
    split.
    - intros p Hp. split; cbn; try congruence; try tauto.
    - intros p q Hp Hq HK. split; unfold inj, mat, pend_send, pend_recv; cbn; auto; try congruence.
      intros [|i] d H; discriminate.
  Qed.

  (** History after one event. *)
  Definition hist_step (e : event A) (s : state A) (h : nat -> list (list A)) : nat -> list (list A) :=
    fun p => h p ++ match e with EBegin p' _ => if p' =? p then [p_x (procs_of s p)] else [] | _ => [] end.

  Lemma nil_len {B} (l : list B) : l <> [] <-> 0 < length l.
  Proof. destruct l; cbn; split; intro; try lia; try congruence. Qed.
  Lemma hist_same (h : nat -> list (list A)) p : h p ++ [] = h p.
  Proof. apply app_nil_r. Qed.

  Lemma rank_inv_ext s s' h h' p :
    h' p = h p ->
    p_y (procs_of s' p) = p_y (procs_of s p) -> p_buf (procs_of s' p) = p_buf (procs_of s p) ->
    p_send (procs_of s' p) = p_send (procs_of s p) -> p_recv (procs_of s' p) = p_recv (procs_of s p) ->
    rank_inv s h p -> rank_inv s' h' p.
  Proof. intros E0 E1 E2 E3 E4 [X1 X2 X3 X4 X5 X6 X7]. split; rewrite ?E0, ?E1, ?E2, ?E3, ?E4; auto. Qed.

  Lemma pend_recv_le s p q : pend_recv s p q <= 1.
  Proof. unfold pend_recv. destruct (find_block _ _); lia. Qed.
  Lemma pend_send_le s p q : pend_send s p q <= 1.
  Proof. unfold pend_send. destruct (find_block _ _); lia. Qed.
  Lemma pend_recv_hist s h p q : rank_inv s h q -> pend_recv s p q <= length (h q).
  Proof.
    intros [_ _ R _ _ _ _]. destruct (h q) as [|a l]; [|pose proof (pend_recv_le s p q); cbn; lia].
    unfold pend_recv. rewrite (proj2 (R eq_refl)). cbn. lia.
  Qed.
  Lemma pend_send_hist s h p q : rank_inv s h p -> pend_send s p q <= length (h p).
  Proof.
    intros [_ _ R _ _ _ _]. destruct (h p) as [|a l]; [|pose proof (pend_send_le s p q); cbn; lia].
    unfold pend_send. rewrite (proj1 (R eq_refl)). cbn. lia.
  Qed.

  Lemma idle_spec (c : proc A) : idle c = true <-> p_recv c = [] /\ p_send c = [].
  Proof. unfold idle. destruct (p_recv c), (p_send c); split; try discriminate; auto; intros [? ?]; discriminate. Qed.

  Lemma step_inv e s s' h : inv s h -> step pl e s = Some s' -> inv s' (hist_step e s h).
  Proof.
    intros [RI PI] Hs. destruct e as [r x'|r y0|r r'|r r']; unfold hist_step; cbn [step] in Hs.
    - (* EWrite *)
      destruct (length x' =? length (p_x (procs_of s r))); [|discriminate]. inversion Hs; subst s'; clear Hs.
      split.
      + intros p Hp. apply (rank_inv_ext s _ h); try (cbn; unfold set_fun; destruct (Nat.eqb_spec p r); subst; auto); auto.
        rewrite app_nil_r. auto. rewrite app_nil_r. auto.
      + intros p q Hp Hq HK. destruct (PI p q Hp Hq HK) as [X1 X2 X3 X4 X5].
        assert (P1 : forall p', p_send (set_fun (procs_of s) r {| p_x := x'; p_y := p_y (procs_of s r); p_buf := p_buf (procs_of s r); p_recv := p_recv (procs_of s r); p_send := p_send (procs_of s r) |} p') = p_send (procs_of s p')).
        { intro. unfold set_fun. destruct (Nat.eqb_spec p' r); subst; auto. }
        assert (P2 : forall p', p_recv (set_fun (procs_of s) r {| p_x := x'; p_y := p_y (procs_of s r); p_buf := p_buf (procs_of s r); p_recv := p_recv (procs_of s r); p_send := p_send (procs_of s r) |} p') = p_recv (procs_of s p')).
        { intro. unfold set_fun. destruct (Nat.eqb_spec p' r); subst; auto. }
        assert (P3 : forall p', p_y (set_fun (procs_of s) r {| p_x := x'; p_y := p_y (procs_of s r); p_buf := p_buf (procs_of s r); p_recv := p_recv (procs_of s r); p_send := p_send (procs_of s r) |} p') = p_y (procs_of s p')).
        { intro. unfold set_fun. destruct (Nat.eqb_spec p' r); subst; auto. }
        assert (P4 : forall p', p_buf (set_fun (procs_of s) r {| p_x := x'; p_y := p_y (procs_of s r); p_buf := p_buf (procs_of s r); p_recv := p_recv (procs_of s r); p_send := p_send (procs_of s r) |} p') = p_buf (procs_of s p')).
        { intro. unfold set_fun. destruct (Nat.eqb_spec p' r); subst; auto. }
        split; unfold inj, mat, pend_send, pend_recv in *; cbn [procs_of chan]; rewrite ?P1, ?P2, ?P3, ?P4, ?app_nil_r; auto.
    - (* EBegin *)
      destruct (idle (procs_of s r)) eqn:Id; [|discriminate]. apply idle_spec in Id as [Ir Is].
      destruct (Nat.eqb_spec (length y0) (length (recv_indices (pl r)))) as [Ly|]; [|discriminate]. cbn [andb] in Hs.
      destruct (pack (p_x (procs_of s r)) (send_indices (pl r))) as [b|] eqn:Pk; [|discriminate]. cbn [bind] in Hs.
      inversion Hs; subst s'; clear Hs. cbn [pl setup send_indices recv_indices send_blocks recv_blocks] in *.
      split.
      + intros p Hp. destruct (Nat.eqb_spec r p) as [->|N].
        * split; cbn [procs_of]; unfold set_fun; rewrite Nat.eqb_refl; cbn; auto.
          -- intros _. apply pack_length in Pk. auto.
          -- intro E. destruct (h p); discriminate.
        * apply (rank_inv_ext s _ h); auto; try (cbn; unfold set_fun; destruct (Nat.eqb_spec p r); congruence).
          destruct (Nat.eqb_spec r p); [congruence|]. apply app_nil_r.
      + intros p q Hp Hq HK. destruct (PI p q Hp Hq HK) as [X1 X2 X3 X4 X5].
        pose proof (pend_send_hist s h p q (RI p Hp)) as BS. pose proof (pend_recv_hist s h p q (RI q Hq)) as BR.
        set (s' := {| procs_of := _; chan := chan s |}). set (h' := fun p0 => h p0 ++ _).
        assert (HI : inj s' h' p q = inj s h p q).
        { unfold inj, pend_send, h', s'. cbn [procs_of]. unfold set_fun. rewrite (Nat.eqb_sym p r).
          destruct (Nat.eqb_spec r p) as [->|N]; [|rewrite app_nil_r; auto]. cbn [p_send].
          rewrite make_blocks_find_in by auto. rewrite Is. cbn. rewrite app_length. cbn. lia. }
        assert (HM : mat s' h' p q = mat s h p q).
        { unfold mat, pend_recv, h', s'. cbn [procs_of]. unfold set_fun. rewrite (Nat.eqb_sym q r).
          destruct (Nat.eqb_spec r q) as [->|N]; [|rewrite app_nil_r; auto]. cbn [p_recv].
          rewrite make_blocks_find_in by (apply match_keys; auto). rewrite Ir. cbn. rewrite app_length. cbn. lia. }
        assert (HN : forall i x, nth_error (h p) i = Some x -> nth_error (h' p) i = Some x).
        { intros i x E. unfold h'. rewrite nth_error_app1; auto. apply nth_error_Some. congruence. }
        split.
        * rewrite HI, HM. auto.
        * rewrite HI, HM. auto.
        * intros i d E. destruct (X3 i d E) as (x & Ex & Px). exists x. rewrite HM. auto.
        * unfold pend_send, s', h'. cbn [procs_of]. unfold set_fun. rewrite (Nat.eqb_sym p r).
          destruct (Nat.eqb_spec r p) as [->|N]; cbn [p_send p_buf].
          -- intros _. exists (p_x (procs_of s p)). split.
             ++ rewrite app_length. cbn. rewrite nth_error_app2 by lia. replace (_ - _) with 0 by lia. auto.
             ++ unfold pay. rewrite <- (slice_indices (sm p) q HK) at 1. apply pack_slice; auto. apply offset_bound; auto.
          -- rewrite app_nil_r. auto.
        * unfold pend_recv, s'. cbn [procs_of]. unfold set_fun. rewrite (Nat.eqb_sym q r).
          destruct (Nat.eqb_spec r q) as [->|N]; cbn [p_recv p_y].
          -- rewrite make_blocks_find_in by (apply match_keys; auto). discriminate.
          -- intros E Hn. assert (E2 : h' q = h q). { unfold h'. destruct (Nat.eqb_spec r q); [congruence|]. apply app_nil_r. }
             rewrite E2 in *. destruct (X5 E Hn) as (x & Ex & Px). exists x. auto.
    - (* EInject *)
      destruct (find_block r' (p_send (procs_of s r))) as [b|] eqn:Fb; [|discriminate]. cbn [bind] in Hs.
      destruct (read_block (p_buf (procs_of s r)) (block_off b) (block_cnt b)) as [d|] eqn:Rd; [|discriminate]. cbn [bind] in Hs.
      inversion Hs; subst s'; clear Hs. split.
      + intros p Hp. destruct (Nat.eqb_spec p r) as [->|N].
        * destruct (RI r Hp) as [X1 X2 X3 X4 X5 X6 X7].
          split; cbn [procs_of]; unfold set_fun; rewrite ?app_nil_r, Nat.eqb_refl; cbn; auto.
          -- intro E. destruct (X3 E) as [E1 E2]. rewrite E1. auto.
          -- intros b' Hb. apply filter_In in Hb as [Hb _]. auto.
          -- intros k b' Hb. apply find_remove_sub in Hb. auto.
        * apply (rank_inv_ext s _ h); auto; try (cbn; unfold set_fun; destruct (Nat.eqb_spec p r); congruence).
          rewrite app_nil_r. auto.
      + intros p q Hp Hq HK. destruct (PI p q Hp Hq HK) as [X1 X2 X3 X4 X5].
        pose proof (pend_send_hist s h p q (RI p Hp)) as BS.
        assert (PR : forall c k, p_recv (set_fun (procs_of s) r {| p_x := p_x (procs_of s r); p_y := p_y (procs_of s r); p_buf := p_buf (procs_of s r); p_recv := p_recv (procs_of s r); p_send := c |} k) = p_recv (procs_of s k)).
        { intros. unfold set_fun. destruct (Nat.eqb_spec k r); subst; auto. }
        assert (PY : forall c k, p_y (set_fun (procs_of s) r {| p_x := p_x (procs_of s r); p_y := p_y (procs_of s r); p_buf := p_buf (procs_of s r); p_recv := p_recv (procs_of s r); p_send := c |} k) = p_y (procs_of s k)).
        { intros. unfold set_fun. destruct (Nat.eqb_spec k r); subst; auto. }
        assert (PB : forall c k, p_buf (set_fun (procs_of s) r {| p_x := p_x (procs_of s r); p_y := p_y (procs_of s r); p_buf := p_buf (procs_of s r); p_recv := p_recv (procs_of s r); p_send := c |} k) = p_buf (procs_of s k)).
        { intros. unfold set_fun. destruct (Nat.eqb_spec k r); subst; auto. }
        destruct (Nat.eq_dec p r) as [Ep|Np]; [destruct (Nat.eq_dec q r') as [Eq|Nq]|].
        * subst p q. assert (PS : pend_send s r r' = 1) by (unfold pend_send; rewrite Fb; auto).
          destruct (X4 PS) as (x & Ex & Px).
          apply (ri_send' s h r (RI r Hp)) in Fb. rewrite make_blocks_find_in in Fb by auto. inversion Fb; subst b; clear Fb.
          unfold block_off, block_cnt in Rd. cbn [fst snd] in Rd.
          assert (Ed : d = slice (p_buf (procs_of s r)) (offset_of (sm r) r') (length (umap_get (sm r) r'))).
          { unfold read_block in Rd. destruct (_ <=? _) in Rd; [|discriminate]. inversion Rd. auto. }
          rewrite <- Ed in Px. unfold inj in *. rewrite PS in *.
          split; unfold inj, mat, pend_send, pend_recv in *; cbn [procs_of chan]; rewrite ?PR, ?PY, ?PB, ?app_nil_r;
            unfold set_fun; rewrite ?Nat.eqb_refl; cbn [p_send]; rewrite ?find_remove_same; try lia; try discriminate; auto.
          -- rewrite app_length. cbn. lia.
          -- intros i dd E. destruct (Nat.lt_ge_cases i (length (chan s r r'))) as [Hi|Hi].
             ++ rewrite nth_error_app1 in E by auto. destruct (X3 i dd E) as (x2 & E2 & P2). eauto.
             ++ rewrite nth_error_app2 in E by auto. assert (Hz : i - length (chan s r r') = 0).
                { destruct (i - length (chan s r r')) as [|[|]]; auto; discriminate. }
                rewrite Hz in E. cbn in E. inversion E; subst dd. exists x. split; auto.
                rewrite <- Ex. f_equal. lia.
        * assert (PS : forall c', p_send (set_fun (procs_of s) r {| p_x := p_x (procs_of s r); p_y := p_y (procs_of s r); p_buf := p_buf (procs_of s r); p_recv := p_recv (procs_of s r); p_send := c' |} p) = c').
          { intro. unfold set_fun. subst p. rewrite Nat.eqb_refl. auto. }
          assert (HC : set_fun (chan s) r (set_fun (chan s r) r' (chan s r r' ++ [d])) p q = chan s p q).
          { unfold set_fun. destruct (Nat.eqb_spec p r); auto. destruct (Nat.eqb_spec q r'); [congruence|]. subst; auto. }
          split; unfold inj, mat, pend_send, pend_recv in *; cbn [procs_of chan]; rewrite ?PR, ?PY, ?PB, ?PS, ?HC, ?app_nil_r;
            rewrite ?find_remove_other by auto; subst p; auto.
        * assert (PS : forall c', p_send (set_fun (procs_of s) r {| p_x := p_x (procs_of s r); p_y := p_y (procs_of s r); p_buf := p_buf (procs_of s r); p_recv := p_recv (procs_of s r); p_send := c' |} p) = p_send (procs_of s p)).
          { intro. unfold set_fun. destruct (Nat.eqb_spec p r); [congruence|auto]. }
          assert (HC : set_fun (chan s) r (set_fun (chan s r) r' (chan s r r' ++ [d])) p q = chan s p q).
          { unfold set_fun. destruct (Nat.eqb_spec p r); congruence. }
          split; unfold inj, mat, pend_send, pend_recv in *; cbn [procs_of chan]; rewrite ?PR, ?PY, ?PB, ?PS, ?HC, ?app_nil_r; auto.
    - (* EMatch: r sends, r' receives *)
      destruct (find_block r (p_recv (procs_of s r'))) as [b|] eqn:Fb; [|discriminate]. cbn [bind] in Hs.
      destruct (chan s r r') as [|d rest] eqn:Ch; [discriminate|].
      destruct (Nat.eqb_spec (length d) (block_cnt b)) as [Ld|]; [|discriminate].
      destruct (write_block (p_y (procs_of s r')) (block_off b) d) as [y'|] eqn:Wr; [|discriminate]. cbn [bind] in Hs.
      inversion Hs; subst s'; clear Hs. split.
      + intros p Hp. destruct (Nat.eqb_spec p r') as [->|N].
        * destruct (RI r' Hp) as [X1 X2 X3 X4 X5 X6 X7].
          split; cbn [procs_of]; unfold set_fun; rewrite ?app_nil_r, Nat.eqb_refl; cbn; auto.
          -- intro E. rewrite (write_length _ _ _ _ Wr). auto.
          -- intro E. destruct (X3 E) as [E1 E2]. rewrite E2. auto.
          -- intros b' Hb. apply filter_In in Hb as [Hb _]. auto.
          -- intros k b' Hb. apply find_remove_sub in Hb. auto.
        * apply (rank_inv_ext s _ h); auto; try (cbn; unfold set_fun; destruct (Nat.eqb_spec p r'); congruence).
          rewrite app_nil_r. auto.
      + intros p q Hp Hq HK. destruct (PI p q Hp Hq HK) as [X1 X2 X3 X4 X5].
        pose proof (pend_recv_hist s h p q (RI q Hq)) as BR.
        set (c := {| p_x := p_x (procs_of s r'); p_y := y'; p_buf := p_buf (procs_of s r'); p_recv := remove_block r (p_recv (procs_of s r')); p_send := p_send (procs_of s r') |}).
        assert (PS : forall k, p_send (set_fun (procs_of s) r' c k) = p_send (procs_of s k)).
        { intros. unfold set_fun. destruct (Nat.eqb_spec k r'); subst; auto. }
        assert (PB : forall k, p_buf (set_fun (procs_of s) r' c k) = p_buf (procs_of s k)).
        { intros. unfold set_fun. destruct (Nat.eqb_spec k r'); subst; auto. }
        destruct (Nat.eq_dec q r') as [Eq|Nq]; [destruct (Nat.eq_dec p r) as [Ep|Np]|].
        * subst p q. assert (PRc : pend_recv s r r' = 1) by (unfold pend_recv; rewrite Fb; auto).
          apply (ri_recv' s h r' (RI r' Hq)) in Fb. rewrite make_blocks_find_in in Fb by (apply match_keys; auto).
          inversion Fb; subst b; clear Fb. unfold block_off, block_cnt in *. cbn [fst snd] in *.
          assert (Lc := X2). rewrite Ch in Lc. cbn [length] in Lc.
          destruct (X3 0 d) as (x & Ex & Px); [rewrite Ch; auto|]. unfold mat in *. rewrite PRc in *.
          assert (PR2 : p_recv (set_fun (procs_of s) r' c r') = remove_block r (p_recv (procs_of s r'))) by (unfold set_fun; rewrite Nat.eqb_refl; auto).
          assert (PY2 : p_y (set_fun (procs_of s) r' c r') = y') by (unfold set_fun; rewrite Nat.eqb_refl; auto).
          assert (HC : set_fun (chan s) r (set_fun (chan s r) r' rest) r r' = rest) by (unfold set_fun; rewrite !Nat.eqb_refl; auto).
          split; unfold inj, mat, pend_send, pend_recv in *; cbn [procs_of chan]; rewrite ?PR2, ?PY2, ?PB, ?PS, ?HC, ?app_nil_r, ?find_remove_same; try lia; auto.
          -- intros i dd E. destruct (X3 (Datatypes.S i) dd) as (x2 & E2 & P2); [rewrite Ch; auto|].
             exists x2. split; auto. rewrite <- E2. f_equal. lia.
          -- intros _ Hn. exists x. split; [rewrite <- Ex; f_equal; lia|].
             rewrite <- Ld. rewrite (write_slice_same _ _ _ _ Wr). auto.
        * subst q. assert (PR2 : p_recv (set_fun (procs_of s) r' c r') = remove_block r (p_recv (procs_of s r'))) by (unfold set_fun; rewrite Nat.eqb_refl; auto).
          assert (PY2 : p_y (set_fun (procs_of s) r' c r') = y') by (unfold set_fun; rewrite Nat.eqb_refl; auto).
          assert (HC : set_fun (chan s) r (set_fun (chan s r) r' rest) p r' = chan s p r').
          { unfold set_fun. destruct (Nat.eqb_spec p r); congruence. }
          apply (ri_recv' s h r' (RI r' Hq)) in Fb. assert (Hr : In r (keys (rm r'))).
          { apply find_key in Fb as [Fb1 Fb2]. apply make_blocks_key in Fb2. rewrite Fb1 in Fb2. auto. }
          rewrite make_blocks_find_in in Fb by auto. inversion Fb; subst b; clear Fb. unfold block_off, block_cnt in *. cbn [fst snd] in *.
          split; unfold inj, mat, pend_send, pend_recv in *; cbn [procs_of chan]; rewrite ?PR2, ?PY2, ?PB, ?PS, ?HC, ?app_nil_r;
            rewrite ?find_remove_other by auto; auto.
          rewrite (write_slice_other _ _ _ _ _ _ Wr); auto. rewrite Ld.
          destruct (offset_disjoint (rm r') p r); auto. apply match_keys; auto.
        * assert (PR2 : p_recv (set_fun (procs_of s) r' c q) = p_recv (procs_of s q)) by (unfold set_fun; destruct (Nat.eqb_spec q r'); congruence).
          assert (PY2 : p_y (set_fun (procs_of s) r' c q) = p_y (procs_of s q)) by (unfold set_fun; destruct (Nat.eqb_spec q r'); congruence).
          assert (HC : set_fun (chan s) r (set_fun (chan s r) r' rest) p q = chan s p q).
          { unfold set_fun. destruct (Nat.eqb_spec p r); auto. destruct (Nat.eqb_spec q r'); congruence. }
          split; unfold inj, mat, pend_send, pend_recv in *; cbn [procs_of chan]; rewrite ?PR2, ?PY2, ?PB, ?PS, ?HC, ?app_nil_r; auto.
  Qed.
End Inv.
