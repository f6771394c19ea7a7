(** Block view of the all-to-all exchange: buffers as concatenations of one block per rank. *)
Require Import List Arith Lia Permutation.
Require Import Verif.Base Verif.CommModel Verif.CommProofs.
Import ListNotations.
Local Open Scope opt_scope.

(** Buffer with one block per rank, in the order [perm]. *)
Definition layout {A} (perm : list nat) (blk : nat -> list A) : list A := concat (map blk perm).

Definition displs_of (counts : list nat) (perm : list nat) (ds : list nat) : Prop :=
  length ds = length counts /\
  forall i, i < length counts -> nth (nth i perm 0) ds 0 = psum counts (fun j => nth j perm 0) i.

Definition pat_blocks (procs : nat) (cnt : nat -> nat -> nat) (permq : nat -> list nat)
    (pat : nat -> AllToAllV) : Prop :=
  forall q, q < procs ->
    Permutation (permq q) (seq 0 procs) /\
    sendcounts (pat q) = map (cnt q) (seq 0 procs) /\
    recvcounts (pat q) = map (fun p => cnt p q) (seq 0 procs) /\
    displs_of (sendcounts (pat q)) (permq q) (sdispls (pat q)) /\
    displs_of (recvcounts (pat q)) (permq q) (rdispls (pat q)).

Lemma perm_seq_len procs (perm : list nat) : Permutation perm (seq 0 procs) -> length perm = procs.
Proof. intro P. rewrite (Permutation_length P), seq_length. auto. Qed.

Lemma perm_seq_is_perm procs perm : Permutation perm (seq 0 procs) -> is_perm procs (fun j => nth j perm 0).
Proof.
  intro P. pose proof (perm_seq_len _ _ P) as L. rewrite <- L. apply perm_list_is_perm.
  red. rewrite L. auto.
Qed.

Lemma displs_of_exists procs counts perm :
  0 < procs -> length counts = procs -> Permutation perm (seq 0 procs) ->
  exists ds, make_displs counts (fun p => nth p perm 0) = Some ds /\ displs_of counts perm ds.
Proof.
  intros H0 L P. destruct (make_displs_spec counts (fun p => nth p perm 0)) as (ds & E & Ld & H).
  - destruct counts; simpl in *; [lia|congruence].
  - rewrite L. apply perm_seq_is_perm; auto.
  - exists ds. repeat split; auto.
Qed.

Lemma psum_ext counts p p' n : (forall i, i < n -> p i = p' i) -> psum counts p n = psum counts p' n.
Proof. intro H. unfold psum. apply sumn_ext. intros. rewrite H; auto. Qed.

Lemma displs_of_id procs counts :
  0 < procs -> length counts = procs ->
  exists ds, make_displs counts (fun p => p) = Some ds /\ displs_of counts (seq 0 procs) ds.
Proof.
  intros H0 L. destruct (make_displs_spec counts (fun p => p)) as (ds & E & Ld & H).
  - destruct counts; simpl in *; [lia|congruence].
  - apply is_perm_id.
  - exists ds. repeat split; auto. intros i Hi. rewrite seq_nth by lia. simpl.
    rewrite H by auto. apply psum_ext. intros j Hj. rewrite seq_nth by lia. auto.
Qed.

(** The constructor yields the pattern in rank order. *)
Lemma mk_pat_blocks procs cnt :
  0 < procs -> exists pat,
    (forall q, q < procs -> mk_alltoallv procs (fun p => map (cnt p) (seq 0 procs)) q = Some (pat q)) /\
    pat_blocks procs cnt (fun _ => seq 0 procs) pat.
Proof.
  intros H0.
  assert (Lm : forall f : nat -> nat, length (map f (seq 0 procs)) = procs)
    by (intro; rewrite map_length, seq_length; auto).
  set (get l := match make_displs l (fun p => p) with Some d => d | None => [] end).
  assert (G : forall l, length l = procs -> make_displs l (fun p => p) = Some (get l) /\
     displs_of l (seq 0 procs) (get l)).
  { intros l Hl. destruct (displs_of_id procs l H0 Hl) as (ds & E & D). unfold get. rewrite E. auto. }
  exists (fun q => {| sendcounts := map (cnt q) (seq 0 procs);
                      recvcounts := map (fun p => cnt p q) (seq 0 procs);
                      sdispls := get (map (cnt q) (seq 0 procs));
                      rdispls := get (map (fun p => cnt p q) (seq 0 procs)) |}).
  assert (R : forall q, q < procs -> map (fun p => nth q (map (cnt p) (seq 0 procs)) 0) (seq 0 procs)
     = map (fun p => cnt p q) (seq 0 procs)).
  { intros q Hq. apply map_ext. intro p. apply (nth_map_seq (cnt p)); auto. }
  split.
  - intros q Hq. unfold mk_alltoallv. rewrite (R q Hq).
    rewrite (proj1 (G _ (Lm (cnt q)))). cbn [bind].
    rewrite (proj1 (G _ (Lm (fun p => cnt p q)))). reflexivity.
  - intros q Hq. cbn. split; [apply Permutation_refl|]. split; [reflexivity|]. split; [reflexivity|].
    split; apply G; auto.
Qed.

Lemma pat_blocks_swap procs cnt permq pat :
  pat_blocks procs cnt permq pat ->
  pat_blocks procs (fun p q => cnt q p) permq (fun q => swap_pattern (pat q)).
Proof.
  intros H q Hq. destruct (H q Hq) as (P & S & R & DS & DR). cbn. auto.
Qed.

Lemma pat_blocks_setperm procs cnt perm0 permq pat :
  0 < procs -> pat_blocks procs cnt perm0 pat ->
  (forall q, q < procs -> Permutation (permq q) (seq 0 procs)) ->
  exists pat', (forall q, q < procs -> setRankPermutation (pat q) (permq q) = Some (pat' q)) /\
    pat_blocks procs cnt permq pat'.
Proof.
  intros H0 H HP.
  set (get l pm := match make_displs l (fun p => nth p pm 0) with Some d => d | None => [] end).
  exists (fun q => {| sendcounts := sendcounts (pat q); recvcounts := recvcounts (pat q);
     sdispls := get (sendcounts (pat q)) (permq q); rdispls := get (recvcounts (pat q)) (permq q) |}).
  assert (G : forall q l, q < procs -> length l = procs ->
     make_displs l (fun p => nth p (permq q) 0) = Some (get l (permq q)) /\
     displs_of l (permq q) (get l (permq q))).
  { intros q l Hq Hl. destruct (displs_of_exists procs l (permq q) H0 Hl (HP q Hq)) as (ds & E & D).
    unfold get. rewrite E. auto. }
  assert (L : forall q, q < procs -> length (sendcounts (pat q)) = procs /\ length (recvcounts (pat q)) = procs).
  { intros q Hq. destruct (H q Hq) as (_ & S & R & _). rewrite S, R, !map_length, seq_length. auto. }
  split.
  - intros q Hq. unfold setRankPermutation. destruct (L q Hq) as [L1 L2].
    rewrite (proj1 (G q _ Hq L1)). cbn [bind]. rewrite (proj1 (G q _ Hq L2)). reflexivity.
  - intros q Hq. destruct (H q Hq) as (P & S & R & DS & DR). destruct (L q Hq) as [L1 L2]. cbn.
    split; [auto|]. split; [auto|]. split; [auto|]. split; apply G; auto.
Qed.

Lemma pat_blocks_wf procs cnt permq pat :
  0 < procs -> pat_blocks procs cnt permq pat -> wf_pattern procs pat.
Proof.
  intros H0 H. split; auto. intros q Hq. destruct (H q Hq) as (P & S & R & DS & DR).
  assert (Ls : length (sendcounts (pat q)) = procs) by (rewrite S, map_length, seq_length; auto).
  assert (Lr : length (recvcounts (pat q)) = procs) by (rewrite R, map_length, seq_length; auto).
  split; [auto|]. split; [auto|].
  pose proof (perm_seq_is_perm _ _ P) as IP.
  split; [|split].
  - destruct DS as [D1 D2]. apply (make_displs_offs _ (fun j => nth j (permq q) 0)); auto.
    rewrite Ls; auto.
  - destruct DR as [D1 D2]. apply (make_displs_offs _ (fun j => nth j (permq q) 0)); auto.
    rewrite Lr; auto.
  - intros p Hp. destruct (H p Hp) as (_ & Sp & _). rewrite Sp, R.
    rewrite (nth_map_seq (cnt p)) by auto. rewrite (nth_map_seq (fun p => cnt p q)) by auto. auto.
Qed.

Lemma layout_nth {A} (blk : nat -> list A) perm i k :
  i < length perm -> k < length (blk (nth i perm 0)) ->
  nth_error (layout perm blk) (sumn (fun j => length (blk (nth j perm 0))) i + k)
  = nth_error (blk (nth i perm 0)) k.
Proof.
  unfold layout. revert i. induction perm as [|a perm IH]; intros i Hi Hk; [simpl in Hi; lia|].
  assert (SS : forall f n, sumn f (S n) = f 0 + sumn (fun j => f (S j)) n).
  { intros f n. induction n; [simpl; lia|]. change (sumn f (S (S n))) with (sumn f (S n) + f (S n)).
    rewrite IHn. simpl. lia. }
  destruct i as [|i].
  - simpl. rewrite nth_error_app1 by exact Hk. auto.
  - rewrite SS. cbn [nth map concat]. rewrite nth_error_app2 by lia.
    cbn [nth] in Hk. rewrite <- (IH i) by (auto; simpl in Hi; lia). f_equal. lia.
Qed.

Lemma layout_length {A} (blk : nat -> list A) perm :
  length (layout perm blk) = list_sum (map (fun p => length (blk p)) perm).
Proof. unfold layout. induction perm; simpl; auto. rewrite app_length, IHperm. auto. Qed.

(** What an exchange does to blocks. *)
Lemma exchange_blocks {A} (dflt : A) procs cnt permq pat (B : nat -> nat -> list A) send order q :
  0 < procs -> pat_blocks procs cnt permq pat ->
  (forall p q, p < procs -> q < procs -> length (B p q) = cnt p q) ->
  (forall p, p < procs -> send p = layout (permq p) (B p)) ->
  Permutation order (seq 0 procs) -> q < procs ->
  exchange dflt pat send order q = Some (layout (permq q) (fun p => B p q)).
Proof.
  intros H0 H HB HS HO Hq.
  pose proof (pat_blocks_wf _ _ _ _ H0 H) as W.
  assert (Lsum : forall perm (f : nat -> nat), Permutation perm (seq 0 procs) ->
     list_sum (map f perm) = list_sum (map f (seq 0 procs))).
  { intros perm f P. apply list_sum_perm. apply Permutation_map; auto. }
  assert (LS : forall p, p < procs -> length (send p) = list_sum (sendcounts (pat p))).
  { intros p Hp. rewrite HS by auto. destruct (H p Hp) as (P & S & _). rewrite layout_length, S.
    rewrite <- (Lsum (permq p)) by auto. f_equal. apply map_ext_in. intros r Hr. apply HB; auto.
    apply (Permutation_in _ P) in Hr. apply in_seq in Hr. lia. }
  destruct (exchange_spec dflt procs pat send order q W Hq LS HO) as (r & E & L & N).
  rewrite E. f_equal.
  destruct (H q Hq) as (P & S & R & DS & DR).
  assert (Lr : length (recvcounts (pat q)) = procs) by (rewrite R, map_length, seq_length; auto).
  assert (LL : length (layout (permq q) (fun p => B p q)) = list_sum (recvcounts (pat q))).
  { rewrite layout_length, R. rewrite <- (Lsum (permq q)) by auto. f_equal. apply map_ext_in.
    intros p Hp. apply HB; auto. apply (Permutation_in _ P) in Hp. apply in_seq in Hp. lia. }
  apply nth_error_ext. intro k.
  destruct (lt_dec k (list_sum (recvcounts (pat q)))) as [K|K].
  2:{ rewrite !(proj2 (nth_error_None _ _)); auto; lia. }
  destruct W as [_ W]. destruct (W q Hq) as (_ & _ & _ & (O1 & O2 & O3 & O4) & Hc).
  destruct (O4 k K) as (p & Hp & Hk). rewrite Lr in Hp.
  replace k with (nth p (rdispls (pat q)) 0 + (k - nth p (rdispls (pat q)) 0)) at 1 by lia.
  set (j := k - nth p (rdispls (pat q)) 0) in *.
  assert (Hj : j < cnt p q).
  { rewrite R in Hk. rewrite (nth_map_seq (fun p => cnt p q)) in Hk by auto. unfold j. lia. }
  rewrite N; auto. 2:{ rewrite R, (nth_map_seq (fun p => cnt p q)) by auto. auto. }
  (* position of block q in p's send buffer *)
  assert (POS : forall q perm counts ds (blk : nat -> list A), q < procs ->
     Permutation perm (seq 0 procs) -> length counts = procs ->
     (forall r, r < procs -> nth r counts 0 = length (blk r)) ->
     displs_of counts perm ds -> forall j, j < length (blk q) ->
     nth_error (layout perm blk) (nth q ds 0 + j) = nth_error (blk q) j).
  { clear. intros q perm counts ds blk Hq P Lc Hb [D1 D2] j Hj.
    pose proof (perm_seq_is_perm _ _ P) as IP.
    destruct (is_perm_surj _ _ IP q Hq) as (i & Hi & Ei).
    rewrite <- Ei in *. rewrite D2 by lia.
    unfold psum. rewrite (sumn_ext _ (fun j => length (blk (nth j perm 0)))).
    2:{ intros a Ha. apply Hb. apply IP. lia. }
    apply layout_nth; auto. rewrite (perm_seq_len _ _ P); auto. }
  destruct (H p Hp) as (Pp & Sp & Rp & DSp & DRp).
  rewrite HS by auto.
  rewrite (POS q (permq p) (sendcounts (pat p)) (sdispls (pat p)) (B p)); auto.
  - replace k with (nth p (rdispls (pat q)) 0 + j) by (unfold j; lia).
    rewrite (POS p (permq q) (recvcounts (pat q)) (rdispls (pat q)) (fun p => B p q)); auto.
    + intros r0 Hr. rewrite R, (nth_map_seq (fun p => cnt p q)) by auto. symmetry. apply HB; auto.
    + rewrite HB; auto.
  - rewrite Sp, map_length, seq_length; auto.
  - intros r0 Hr. rewrite Sp, (nth_map_seq (cnt p)) by auto. symmetry. apply HB; auto.
  - rewrite HB; auto.
Qed.
