Require Import List Arith Lia Bool Permutation.
Require Import Verif.Base Verif.CommModel.
Import ListNotations.
Local Open Scope opt_scope.

Lemma nth_map_seq {A} (f : nat -> A) n i d : i < n -> nth i (map f (seq 0 n)) d = f i.
Proof.
  intro H. apply nth_error_nth. rewrite nth_error_map.
  rewrite (nth_error_nth' (seq 0 n) 0) by (rewrite seq_length; lia).
  rewrite seq_nth by lia. reflexivity.
Qed.

(** partial sum of counts in the order given by perm *)
Definition psum (counts : list nat) (perm : nat -> nat) (i : nat) : nat :=
  sumn (fun j => nth (perm j) counts 0) i.

Lemma nth_of_nth_error {A} (l : list A) i d x : nth_error l i = Some x -> nth i l d = x.
Proof. intro H. apply nth_error_nth; auto. Qed.

Lemma displs_loop_spec counts perm n :
  is_perm n perm -> length counts = n ->
  forall todo p displs, length displs = n -> p + todo = n - 1 -> 0 < n ->
  (forall i, i <= p -> nth_error displs (perm i) = Some (psum counts perm i)) ->
  exists ds, displs_loop todo p counts perm displs = Some ds /\ length ds = n /\
    (forall i, i < n -> nth_error ds (perm i) = Some (psum counts perm i)).
Proof.
  intros [B I] Hn. induction todo as [|t IH]; intros p displs Hl Hp Hpos Hinv.
  - simpl. exists displs. repeat split; auto. intros i Hi. apply Hinv. lia.
  - cbn [displs_loop]. rewrite Hinv by lia. cbn [bind].
    assert (Hpp : perm p < n) by (apply B; lia).
    destruct (nth_error_lt counts (perm p)) as [c Hc]; [lia|]. rewrite Hc. cbn [bind].
    assert (Hp1 : perm (p + 1) < n) by (apply B; lia).
    destruct (upd_ok displs (perm (p+1)) (psum counts perm p + c)) as [d' Hd']; [lia|].
    rewrite Hd'. cbn [bind].
    destruct (upd_spec _ _ _ _ Hd') as (L & _ & N).
    apply IH; try lia.
    intros i Hi. rewrite N.
    destruct (Nat.eqb_spec (perm i) (perm (p+1))) as [E|E].
    + apply I in E; try lia. subst i. f_equal. unfold psum.
      replace (p + 1) with (S p) by lia. simpl. f_equal.
      symmetry; apply nth_of_nth_error; auto.
    + apply Hinv. destruct (Nat.eq_dec i (p+1)); [subst; congruence|lia].
Qed.

Lemma make_displs_spec counts perm :
  counts <> [] -> is_perm (length counts) perm ->
  exists ds, make_displs counts perm = Some ds /\ length ds = length counts /\
    (forall i, i < length counts -> nth (perm i) ds 0 = psum counts perm i).
Proof.
  intros Hne P. unfold make_displs.
  assert (Hpos : 0 < length counts) by (destruct counts; [congruence|simpl; lia]).
  destruct (upd_ok (repeat 0 (length counts)) (perm 0) 0) as [d0 Hd0].
  { rewrite repeat_length. apply P; auto. }
  rewrite Hd0. cbn [bind].
  destruct (upd_spec _ _ _ _ Hd0) as (L & _ & N). rewrite repeat_length in L.
  destruct (displs_loop_spec counts perm (length counts) P eq_refl
              (length counts - 1) 0 d0 L ltac:(lia) Hpos) as (ds & E & Ll & H).
  { intros i Hi. assert (i = 0) by lia; subst. rewrite N, Nat.eqb_refl. reflexivity. }
  exists ds. repeat split; auto. intros i Hi. apply nth_of_nth_error; auto.
Qed.

Definition offs_ok (counts ds : list nat) : Prop :=
  length ds = length counts /\
  (forall i, i < length counts -> nth i ds 0 + nth i counts 0 <= list_sum counts) /\
  (forall i j k, i < length counts -> j < length counts ->
     nth i ds 0 <= k < nth i ds 0 + nth i counts 0 ->
     nth j ds 0 <= k < nth j ds 0 + nth j counts 0 -> i = j) /\
  (forall k, k < list_sum counts ->
     exists i, i < length counts /\ nth i ds 0 <= k < nth i ds 0 + nth i counts 0).

Lemma list_sum_nth l : list_sum l = sumn (fun i => nth i l 0) (length l).
Proof.
  rewrite sumn_list. f_equal. symmetry.
  apply nth_error_ext. intro i.
  destruct (lt_dec i (length l)) as [H|H].
  - rewrite nth_error_map. rewrite (nth_error_nth' (seq 0 (length l)) 0) by (rewrite seq_length; lia).
    rewrite seq_nth by lia. simpl. symmetry; apply nth_error_nth'; auto.
  - rewrite !(proj2 (nth_error_None _ _)); auto; [lia|].
    rewrite map_length, seq_length; lia.
Qed.

Lemma make_displs_offs counts perm ds :
  is_perm (length counts) perm ->
  length ds = length counts ->
  (forall i, i < length counts -> nth (perm i) ds 0 = psum counts perm i) ->
  offs_ok counts ds.
Proof.
  intros P L H. set (n := length counts) in *.
  assert (Tot : psum counts perm n = list_sum counts).
  { unfold psum. rewrite (sumn_perm (fun j => nth j counts 0) perm n P).
    symmetry; apply list_sum_nth. }
  assert (Mono : forall i j, i <= j -> psum counts perm i <= psum counts perm j)
    by (intros; apply sumn_le; auto).
  assert (St : forall i, psum counts perm (S i) = psum counts perm i + nth (perm i) counts 0)
    by reflexivity.
  split; [exact L|]. split; [|split].
  - intros i Hi. destruct (is_perm_surj _ _ P i Hi) as (a & Ha & <-).
    rewrite H by auto. rewrite <- Tot, <- St. apply Mono; lia.
  - intros i j k Hi Hj A B.
    destruct (is_perm_surj _ _ P i Hi) as (a & Ha & <-).
    destruct (is_perm_surj _ _ P j Hj) as (b & Hb & <-).
    rewrite H in A, B by auto.
    destruct (Nat.lt_trichotomy a b) as [K|[K|K]]; [|congruence|].
    + pose proof (Mono (S a) b K). rewrite St in H0. lia.
    + pose proof (Mono (S b) a K). rewrite St in H0. lia.
  - intros k Hk. rewrite <- Tot in Hk.
    assert (X : forall m, m <= n -> k < psum counts perm m ->
       exists i, i < n /\ nth i ds 0 <= k < nth i ds 0 + nth i counts 0).
    { induction m as [|m IH]; intros Hm Hlt; [unfold psum in Hlt; simpl in Hlt; lia|].
      destruct (lt_dec k (psum counts perm m)) as [K|K]; [apply IH; auto; lia|].
      exists (perm m). split; [apply P; lia|]. rewrite H by lia. rewrite <- St. lia. }
    apply (X n); auto.
Qed.

Lemma displs_offs counts perm :
  counts <> [] -> is_perm (length counts) perm ->
  exists ds, make_displs counts perm = Some ds /\ offs_ok counts ds.
Proof.
  intros Hne P. destruct (make_displs_spec counts perm Hne P) as (ds & E & L & H).
  exists ds; split; auto. eapply make_displs_offs; eauto.
Qed.

Lemma is_perm_id n : is_perm n (fun p => p).
Proof. split; auto. Qed.

(** Blocks *)

Lemma nth_error_firstn_lt {A} (l : list A) n k : k < n -> nth_error (firstn n l) k = nth_error l k.
Proof.
  revert n k; induction l; intros [|n] [|k] H; simpl; auto; try lia. apply IHl; lia.
Qed.
Lemma nth_error_skipn' {A} (l : list A) n k : nth_error (skipn n l) k = nth_error l (n + k).
Proof. revert n; induction l; intros [|n]; simpl; auto. destruct k; auto. Qed.

Lemma read_block_spec {A} (buf : list A) off n b :
  read_block buf off n = Some b ->
  length b = n /\ off + n <= length buf /\
  (forall k, k < n -> nth_error b k = nth_error buf (off + k)).
Proof.
  unfold read_block. destruct (Nat.leb_spec (off + n) (length buf)); [|discriminate].
  intro E; inversion E; subst. split; [|split; auto].
  - rewrite firstn_length, skipn_length. lia.
  - intros k Hk. rewrite nth_error_firstn_lt by auto. apply nth_error_skipn'.
Qed.

Lemma write_block_spec {A} (buf data : list A) off :
  off + length data <= length buf ->
  exists buf', write_block buf off data = Some buf' /\ length buf' = length buf /\
   (forall k, nth_error buf' k =
      if (off <=? k) && (k <? off + length data) then nth_error data (k - off)
      else nth_error buf k).
Proof.
  intro H. unfold write_block. rewrite (proj2 (Nat.leb_le _ _) H).
  eexists; split; [reflexivity|]. split.
  - rewrite !app_length, firstn_length, skipn_length. lia.
  - intro k.
    destruct (Nat.leb_spec off k); simpl.
    + rewrite nth_error_app2 by (rewrite firstn_length; lia).
      rewrite firstn_length. rewrite Nat.min_l by lia.
      destruct (Nat.ltb_spec k (off + length data)).
      * rewrite nth_error_app1 by lia. reflexivity.
      * rewrite nth_error_app2 by lia. rewrite nth_error_skipn'. f_equal. lia.
    + rewrite nth_error_app1 by (rewrite firstn_length; lia). apply nth_error_firstn_lt; lia.
Qed.

(** A communicator: every rank's pattern is consistent. *)
Definition wf_pattern (procs : nat) (pat : nat -> AllToAllV) : Prop :=
  0 < procs /\
  forall q, q < procs ->
    length (sendcounts (pat q)) = procs /\ length (recvcounts (pat q)) = procs /\
    offs_ok (sendcounts (pat q)) (sdispls (pat q)) /\
    offs_ok (recvcounts (pat q)) (rdispls (pat q)) /\
    (forall p, p < procs -> nth q (sendcounts (pat p)) 0 = nth p (recvcounts (pat q)) 0).

Lemma deliver_spec {A} procs pat (send : nat -> list A) q :
  wf_pattern procs pat -> q < procs ->
  (forall p, p < procs -> length (send p) = list_sum (sendcounts (pat p))) ->
  forall order, NoDup order -> (forall p, In p order -> p < procs) ->
  forall buf, length buf = list_sum (recvcounts (pat q)) ->
  exists buf', deliver pat send q order buf = Some buf' /\ length buf' = length buf /\
    (forall p k, In p order -> k < nth p (recvcounts (pat q)) 0 ->
       nth_error buf' (nth p (rdispls (pat q)) 0 + k)
       = nth_error (send p) (nth q (sdispls (pat p)) 0 + k)) /\
    (forall p k, p < procs -> ~ In p order -> k < nth p (recvcounts (pat q)) 0 ->
       nth_error buf' (nth p (rdispls (pat q)) 0 + k)
       = nth_error buf (nth p (rdispls (pat q)) 0 + k)).
Proof.
  intros [Hp0 W] Hq Hsend order. induction order as [|p rest IH]; intros ND Hin buf Hbuf.
  - exists buf. simpl. repeat split; auto. intros; contradiction.
  - inversion ND; subst.
    assert (Hp : p < procs) by (apply Hin; left; auto).
    destruct (W q Hq) as (Ls & Lr & Os & (Or1 & Or2 & Or3 & Or4) & Hc).
    destruct (W p Hp) as (Lsp & _ & (Op1 & Op2 & Op3 & Op4) & _ & _).
    cbn [deliver]. rewrite (Hc p Hp), Nat.eqb_refl.
    assert (RB : exists blk, read_block (send p) (nth q (sdispls (pat p)) 0)
                  (nth p (recvcounts (pat q)) 0) = Some blk).
    { unfold read_block. rewrite (proj2 (Nat.leb_le _ _)); eauto.
      rewrite Hsend by auto. rewrite <- (Hc p Hp). apply Op2. lia. }
    destruct RB as [blk Eb]. rewrite Eb. cbn [bind].
    destruct (read_block_spec _ _ _ _ Eb) as (Lb & _ & Nb).
    destruct (write_block_spec buf blk (nth p (rdispls (pat q)) 0)) as (b1 & E1 & L1 & N1).
    { rewrite Lb, Hbuf. apply Or2. lia. }
    rewrite E1. cbn [bind].
    destruct (IH H2 (fun x Hx => Hin x (or_intror Hx)) b1 ltac:(lia)) as (b2 & E2 & L2 & A2 & B2).
    exists b2. split; auto. split; [lia|]. split.
    + intros p' k [<-|Hin'] Hk; [|apply A2; auto].
      rewrite B2 by auto. rewrite N1.
      rewrite (proj2 (Nat.leb_le _ _)) by lia. rewrite (proj2 (Nat.ltb_lt _ _)) by lia.
      simpl. replace (_ + k - _) with k by lia. apply Nb. lia.
    + intros p' k Hp' Hnin Hk.
      rewrite B2 by (auto; intro; apply Hnin; right; auto).
      rewrite N1.
      destruct (Nat.leb_spec (nth p (rdispls (pat q)) 0) (nth p' (rdispls (pat q)) 0 + k)); auto.
      destruct (Nat.ltb_spec (nth p' (rdispls (pat q)) 0 + k)
                 (nth p (rdispls (pat q)) 0 + length blk)); auto.
      exfalso. apply Hnin. left.
      apply (Or3 p p' (nth p' (rdispls (pat q)) 0 + k)); lia.
Qed.

(** The pattern built by the constructor. *)
Lemma mk_wf procs all :
  0 < procs -> (forall p, p < procs -> length (all p) = procs) ->
  exists pat, (forall q, q < procs -> mk_alltoallv procs all q = Some (pat q)) /\
    wf_pattern procs pat /\
    (forall q, q < procs -> sendcounts (pat q) = all q).
Proof.
  intros Hp Hl.
  set (rc q := map (fun p => nth q (all p) 0) (seq 0 procs)).
  assert (Lrc : forall q, length (rc q) = procs) by (intro; unfold rc; rewrite map_length, seq_length; auto).
  assert (Ne : forall l : list nat, length l = procs -> l <> []) by (intros [|]; simpl; intros; [lia|congruence]).
  set (get x := match make_displs x (fun p => p) with Some d => d | None => [] end).
  exists (fun q => {| sendcounts := all q; recvcounts := rc q; sdispls := get (all q); rdispls := get (rc q) |}).
  assert (G : forall l, length l = procs -> make_displs l (fun p => p) = Some (get l) /\ offs_ok l (get l)).
  { intros l Hlen. destruct (displs_offs l (fun p => p) (Ne l Hlen) (is_perm_id _)) as (ds & E & O).
    unfold get. rewrite E. auto. }
  split; [|split; [split|]]; auto.
  - intros q Hq. unfold mk_alltoallv. fold (rc q).
    rewrite (proj1 (G (all q) (Hl q Hq))). cbn [bind].
    rewrite (proj1 (G (rc q) (Lrc q))). reflexivity.
  - intros q Hq. cbn. repeat split; auto; try (apply G; auto).
    intros p Hpp. unfold rc.
    rewrite (nth_map_seq (fun p => nth q (all p) 0)); auto.
Qed.

Lemma wf_swap procs pat : wf_pattern procs pat -> wf_pattern procs (fun q => swap_pattern (pat q)).
Proof.
  intros [H0 W]. split; auto. intros q Hq.
  destruct (W q Hq) as (A & B & C & D & E). cbn. repeat split; auto; try apply C; try apply D.
  intros p Hp. symmetry. destruct (W p Hp) as (_ & _ & _ & _ & E'). auto.
Qed.

Lemma perm_list_is_perm perm : perm_list perm -> is_perm (length perm) (fun p => nth p perm 0).
Proof.
  intros P. split.
  - intros i Hi. assert (In (nth i perm 0) (seq 0 (length perm))).
    { eapply Permutation_in; [exact P|]. apply nth_In; auto. }
    apply in_seq in H; lia.
  - intros i j Hi Hj E.
    assert (ND : NoDup perm) by (eapply Permutation_NoDup; [symmetry; exact P|apply seq_NoDup]).
    eapply (proj1 (NoDup_nth perm 0)); eauto.
Qed.

Lemma wf_setperm procs pat permq :
  wf_pattern procs pat ->
  (forall q, q < procs -> length (permq q) = procs /\ perm_list (permq q)) ->
  exists pat', (forall q, q < procs -> setRankPermutation (pat q) (permq q) = Some (pat' q)) /\
    wf_pattern procs pat' /\
    (forall q, q < procs -> sendcounts (pat' q) = sendcounts (pat q) /\
                            recvcounts (pat' q) = recvcounts (pat q)).
Proof.
  intros [Hp0 W] HP.
  set (get l pm := match make_displs l pm with Some d => d | None => [] end).
  exists (fun q => {| sendcounts := sendcounts (pat q); recvcounts := recvcounts (pat q);
     sdispls := get (sendcounts (pat q)) (fun p => nth p (permq q) 0);
     rdispls := get (recvcounts (pat q)) (fun p => nth p (permq q) 0) |}).
  assert (G : forall q l, q < procs -> length l = procs ->
     make_displs l (fun p => nth p (permq q) 0) = Some (get l (fun p => nth p (permq q) 0)) /\
     offs_ok l (get l (fun p => nth p (permq q) 0))).
  { intros q l Hq Hlen. destruct (HP q Hq) as [Lq Pq].
    destruct (displs_offs l (fun p => nth p (permq q) 0)) as (ds & E & O).
    - destruct l; simpl in *; [lia|congruence].
    - rewrite Hlen, <- Lq. apply perm_list_is_perm; auto.
    - unfold get. rewrite E. auto. }
  split; [|split; [split|]]; auto.
  - intros q Hq. destruct (W q Hq) as (A & B & C & D & E). unfold setRankPermutation.
    rewrite (proj1 (G q _ Hq A)). cbn [bind]. rewrite (proj1 (G q _ Hq B)). reflexivity.
  - intros q Hq. destruct (W q Hq) as (A & B & C & D & E). cbn.
    repeat split; auto; try (apply G; auto).
Qed.

Lemma exchange_spec {A} (dflt : A) procs pat send order q :
  wf_pattern procs pat -> q < procs ->
  (forall p, p < procs -> length (send p) = list_sum (sendcounts (pat p))) ->
  Permutation order (seq 0 procs) ->
  exists r, exchange dflt pat send order q = Some r /\ length r = list_sum (recvcounts (pat q)) /\
    forall p k, p < procs -> k < nth p (recvcounts (pat q)) 0 ->
      nth_error r (nth p (rdispls (pat q)) 0 + k) = nth_error (send p) (nth q (sdispls (pat p)) 0 + k).
Proof.
  intros W Hq Hs P. unfold exchange.
  assert (ND : NoDup order) by (eapply Permutation_NoDup; [symmetry; exact P|apply seq_NoDup]).
  assert (In' : forall p, In p order <-> p < procs).
  { intro p. split; intro H.
    - apply (Permutation_in _ P) in H. apply in_seq in H; lia.
    - apply (Permutation_in _ (Permutation_sym P)). apply in_seq; lia. }
  destruct (deliver_spec procs pat send q W Hq Hs order ND (fun p => proj1 (In' p))
             (repeat dflt (list_sum (recvcounts (pat q)))) (repeat_length _ _))
    as (b & E & L & Aa & _).
  exists b. rewrite repeat_length in L. repeat split; auto.
  intros p k Hp Hk. apply Aa; auto. apply In'; auto.
Qed.

Lemma exchange_roundtrip {A} (dflt : A) procs pat send order order2 :
  wf_pattern procs pat ->
  (forall p, p < procs -> length (send p) = list_sum (sendcounts (pat p))) ->
  Permutation order (seq 0 procs) -> Permutation order2 (seq 0 procs) ->
  exists recv, (forall q, q < procs -> exchange dflt pat send order q = Some (recv q)) /\
    forall q, q < procs ->
      exchange dflt (fun q => swap_pattern (pat q)) recv order2 q = Some (send q).
Proof.
  intros W Hs P P2.
  set (recv q := match exchange dflt pat send order q with Some r => r | None => [] end).
  assert (R : forall q, q < procs -> exchange dflt pat send order q = Some (recv q) /\
     length (recv q) = list_sum (recvcounts (pat q)) /\
     forall p k, p < procs -> k < nth p (recvcounts (pat q)) 0 ->
      nth_error (recv q) (nth p (rdispls (pat q)) 0 + k)
      = nth_error (send p) (nth q (sdispls (pat p)) 0 + k)).
  { intros q Hq. destruct (exchange_spec dflt procs pat send order q W Hq Hs P) as (r & E & L & N).
    unfold recv. rewrite E. auto. }
  exists recv. split; [intros q Hq; apply R; auto|].
  intros q Hq.
  destruct (exchange_spec dflt procs (fun q => swap_pattern (pat q)) recv order2 q (wf_swap _ _ W) Hq)
    as (r & E & L & N); auto.
  { intros p Hp. cbn. apply R; auto. }
  rewrite E. f_equal. apply nth_error_ext. intro i. cbn [swap_pattern sendcounts recvcounts sdispls rdispls] in *.
  destruct W as [Hp0 W]. destruct (W q Hq) as (Ls & Lr & (O1 & O2 & O3 & O4) & Or & Hc).
  destruct (lt_dec i (list_sum (sendcounts (pat q)))) as [Hi|Hi].
  - destruct (O4 i Hi) as (p & Hp & Hk). rewrite Ls in Hp.
    replace i with (nth p (sdispls (pat q)) 0 + (i - nth p (sdispls (pat q)) 0)) by lia.
    rewrite N by (auto; lia).
    destruct (W p Hp) as (_ & _ & _ & _ & Hc').
    apply (proj2 (proj2 (R p Hp))); auto. rewrite <- Hc' by auto. lia.
  - rewrite (proj2 (nth_error_None r i)) by lia.
    rewrite (proj2 (nth_error_None (send q) i)); auto. rewrite Hs by auto. lia.
Qed.

Lemma gather_deliver_spec {A} procs (cnt : nat -> nat) displs (send : nat -> list A) :
  offs_ok (map cnt (seq 0 procs)) displs ->
  (forall p, p < procs -> length (send p) = cnt p) ->
  forall order, NoDup order -> (forall p, In p order -> p < procs) ->
  forall buf, length buf = list_sum (map cnt (seq 0 procs)) ->
  exists buf', gather_deliver displs cnt send order buf = Some buf' /\ length buf' = length buf /\
    (forall p k, In p order -> k < cnt p ->
       nth_error buf' (nth p displs 0 + k) = nth_error (send p) k) /\
    (forall p k, p < procs -> ~ In p order -> k < cnt p ->
       nth_error buf' (nth p displs 0 + k) = nth_error buf (nth p displs 0 + k)).
Proof.
  intros (O1 & O2 & O3 & O4) Hs order.
  assert (Lm : length (map cnt (seq 0 procs)) = procs) by (rewrite map_length, seq_length; auto).
  assert (Nm : forall p, p < procs -> nth p (map cnt (seq 0 procs)) 0 = cnt p).
  { intros p Hp. apply nth_map_seq; auto. }
  induction order as [|p rest IH]; intros ND Hin buf Hbuf.
  - exists buf. simpl. repeat split; auto. intros; contradiction.
  - inversion ND; subst. assert (Hp : p < procs) by (apply Hin; left; auto).
    cbn [gather_deliver].
    assert (RB : exists blk, read_block (send p) 0 (cnt p) = Some blk).
    { unfold read_block. rewrite (proj2 (Nat.leb_le _ _)); eauto. rewrite Hs; auto. }
    destruct RB as [blk Eb]. rewrite Eb. cbn [bind].
    destruct (read_block_spec _ _ _ _ Eb) as (Lb & _ & Nb).
    destruct (write_block_spec buf blk (nth p displs 0)) as (b1 & E1 & L1 & N1).
    { rewrite Lb, Hbuf. specialize (O2 p ltac:(lia)). rewrite Nm in O2 by auto. lia. }
    rewrite E1. cbn [bind].
    destruct (IH H2 (fun x Hx => Hin x (or_intror Hx)) b1 ltac:(lia)) as (b2 & E2 & L2 & A2 & B2).
    exists b2. split; auto. split; [lia|]. split.
    + intros p' k [<-|Hin'] Hk; [|apply A2; auto].
      rewrite B2 by auto. rewrite N1.
      rewrite (proj2 (Nat.leb_le _ _)) by lia. rewrite (proj2 (Nat.ltb_lt _ _)) by lia.
      simpl. replace (_ + k - _) with k by lia. apply (Nb k). lia.
    + intros p' k Hp' Hnin Hk.
      rewrite B2 by (auto; intro; apply Hnin; right; auto).
      rewrite N1.
      destruct (Nat.leb_spec (nth p displs 0) (nth p' displs 0 + k)); auto.
      destruct (Nat.ltb_spec (nth p' displs 0 + k) (nth p displs 0 + length blk)); auto.
      exfalso. apply Hnin. left. apply (O3 p p' (nth p' displs 0 + k)); rewrite ?Nm by auto; lia.
Qed.
