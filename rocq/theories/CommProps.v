(** Property theorems: all-to-all exchange and gather (C03). *)
Require Import List Arith Lia Permutation.
Require Import Verif.Base Verif.CommModel Verif.CommProofs.
Import ListNotations.
Local Open Scope opt_scope.

(** Slice [lo,hi) of a buffer: the vocabulary of the specification. *)
Definition slice {A} (l : list A) (r : nat * nat) : list A := firstn (snd r - fst r) (skipn (fst r) l).

Lemma slice_ext {A} (l m : list A) a b n :
  a + n <= length l -> b + n <= length m ->
  (forall k, k < n -> nth_error l (a + k) = nth_error m (b + k)) ->
  slice l (a, a + n) = slice m (b, b + n).
Proof.
  intros H1 H2 H. unfold slice; cbn [fst snd].
  replace (a + n - a) with n by lia. replace (b + n - b) with n by lia.
  apply nth_error_ext. intro k.
  destruct (lt_dec k n) as [K|K].
  - rewrite !nth_error_firstn_lt, !nth_error_skipn' by auto. auto.
  - rewrite !(proj2 (nth_error_None _ _)); auto; rewrite firstn_length; lia.
Qed.

(** How a pattern can be obtained through the public interface: the collective constructor on
    every rank, then any number of collective setRankPermutation and swap calls. *)
Inductive reachable (procs : nat) : (nat -> AllToAllV) -> Prop :=
| reach_ctor all pat :
    (forall p, p < procs -> length (all p) = procs) ->
    (forall q, q < procs -> mk_alltoallv procs all q = Some (pat q)) -> reachable procs pat
| reach_swap pat : reachable procs pat -> reachable procs (fun q => swap_pattern (pat q))
| reach_perm pat permq pat' :
    reachable procs pat ->
    (forall q, q < procs -> Permutation (permq q) (seq 0 procs)) ->
    (forall q, q < procs -> setRankPermutation (pat q) (permq q) = Some (pat' q)) ->
    reachable procs pat'.

Lemma wf_ext procs pat pat' :
  (forall q, q < procs -> pat q = pat' q) -> wf_pattern procs pat -> wf_pattern procs pat'.
Proof.
  intros E [H0 W]. split; auto. intros q Hq. rewrite <- (E q Hq).
  destruct (W q Hq) as (A & B & C & D & F). repeat split; auto; try apply C; try apply D.
  intros p Hp. rewrite <- (E p Hp). auto.
Qed.

Lemma reachable_wf procs pat : 0 < procs -> reachable procs pat -> wf_pattern procs pat.
Proof.
  intros H0 R. induction R as [all pat Hl E|pat R IH|pat permq pat' R IH HP E].
  - destruct (mk_wf procs all H0 Hl) as (p' & E' & W & _).
    eapply wf_ext; [|exact W]. intros q Hq.
    specialize (E q Hq). rewrite (E' q Hq) in E. congruence.
  - apply wf_swap; auto.
  - destruct (wf_setperm procs pat permq IH) as (p' & E' & W & _).
    { intros q Hq. pose proof (HP q Hq) as P. pose proof (Permutation_length P) as L.
      rewrite seq_length in L. split; auto. red. rewrite L. auto. }
    eapply wf_ext; [|exact W]. intros q Hq. specialize (E q Hq). rewrite (E' q Hq) in E. congruence.
Qed.

(** C03, part 1: the constructor and setRankPermutation never go out of bounds. *)
Theorem alltoallv_constructible : forall procs (all : nat -> list nat),
  0 < procs -> (forall p, p < procs -> length (all p) = procs) ->
  forall q, q < procs -> exists x, mk_alltoallv procs all q = Some x /\ sendcounts x = all q /\
    forall p, p < procs -> nth p (recvcounts x) 0 = nth q (all p) 0.
Proof.
  intros procs all H0 Hl q Hq. destruct (mk_wf procs all H0 Hl) as (pat & E & [_ W] & S).
  exists (pat q). repeat split; auto. intros p Hp.
  destruct (W q Hq) as (_ & _ & _ & _ & Hc). rewrite <- Hc by auto. rewrite S; auto.
Qed.
Print Assumptions alltoallv_constructible.

(** C03, part 2: in every reachable pattern, the block that rank q receives from rank p
    (its recvRange(p)) is the block that rank p addressed to q (its sendRange(q)), whatever
    the order in which messages arrive; receive ranges tile the receive buffer. *)
Theorem alltoallv_delivers : forall {A} (dflt : A) procs pat (send : nat -> list A) order,
  0 < procs -> reachable procs pat ->
  (forall p, p < procs -> length (send p) = list_sum (sendcounts (pat p))) ->
  Permutation order (seq 0 procs) ->
  forall q, q < procs -> exists r, exchange dflt pat send order q = Some r /\
    length r = list_sum (recvcounts (pat q)) /\
    (forall p, p < procs -> slice r (recvRange (pat q) p) = slice (send p) (sendRange (pat p) q)) /\
    (forall k, k < length r -> exists p, p < procs /\
        fst (recvRange (pat q) p) <= k < snd (recvRange (pat q) p) /\
        forall p', p' < procs -> fst (recvRange (pat q) p') <= k < snd (recvRange (pat q) p') -> p' = p).
Proof.
  intros A dflt procs pat send order H0 R Hs P q Hq.
  pose proof (reachable_wf procs pat H0 R) as W.
  destruct (exchange_spec dflt procs pat send order q W Hq Hs P) as (r & E & L & N).
  destruct W as [_ W]. destruct (W q Hq) as (Ls & Lr & Os & (O1 & O2 & O3 & O4) & Hc).
  exists r. repeat split; auto.
  - intros p Hp. unfold recvRange, sendRange.
    destruct (W p Hp) as (Lsp & _ & (P1 & P2 & _) & _ & _).
    rewrite (Hc p Hp). apply slice_ext.
    + rewrite L. apply O2; lia.
    + rewrite Hs by auto. rewrite <- (Hc p Hp). apply P2; lia.
    + intros; apply N; auto.
  - intros k Hk. rewrite L in Hk. destruct (O4 k Hk) as (p & Hp & B). rewrite Lr in Hp.
    exists p. split; auto. unfold recvRange; cbn [fst snd]. split; auto.
    intros p' Hp' B'. eapply O3; eauto; lia.
Qed.
Print Assumptions alltoallv_delivers.

(** C03, part 3: exchanging, swapping the pattern and exchanging back restores the data. *)
Theorem alltoallv_swap_roundtrip : forall {A} (dflt : A) procs pat (send : nat -> list A) o1 o2,
  0 < procs -> reachable procs pat ->
  (forall p, p < procs -> length (send p) = list_sum (sendcounts (pat p))) ->
  Permutation o1 (seq 0 procs) -> Permutation o2 (seq 0 procs) ->
  exists recv, (forall q, q < procs -> exchange dflt pat send o1 q = Some (recv q)) /\
    forall q, q < procs -> exchange dflt (fun q => swap_pattern (pat q)) recv o2 q = Some (send q).
Proof.
  intros. apply exchange_roundtrip; auto. apply reachable_wf; auto.
Qed.
Print Assumptions alltoallv_swap_roundtrip.

(** C03, part 4: a gather yields the ranks' data concatenated in rank order. *)
Theorem gatherv_concat : forall {A} (dflt : A) procs (send : nat -> list A) order,
  0 < procs -> Permutation order (seq 0 procs) ->
  gatherv dflt procs (fun p => length (send p)) send order = Some (concat (map send (seq 0 procs))).
Proof.
  intros A dflt procs send order H0 P. unfold gatherv.
  set (cnt := fun p => length (send p)).
  assert (Lm : length (map cnt (seq 0 procs)) = procs) by (rewrite map_length, seq_length; auto).
  destruct (make_displs_spec (map cnt (seq 0 procs)) (fun p => p)) as (ds & E & L & H).
  { intro K. rewrite K in Lm. simpl in Lm. lia. } { apply is_perm_id. }
  rewrite E. cbn [bind].
  pose proof (make_displs_offs _ _ ds (is_perm_id _) L H) as O.
  assert (ND : NoDup order) by (eapply Permutation_NoDup; [symmetry; exact P|apply seq_NoDup]).
  assert (In' : forall p, In p order <-> p < procs).
  { intro p. split; intro K.
    - apply (Permutation_in _ P) in K. apply in_seq in K; lia.
    - apply (Permutation_in _ (Permutation_sym P)). apply in_seq; lia. }
  destruct (gather_deliver_spec procs cnt ds send O (fun p _ => eq_refl) order ND
             (fun p => proj1 (In' p)) (repeat dflt (list_sum (map cnt (seq 0 procs))))
             (repeat_length _ _)) as (b & Eb & Lb & Nb & _).
  rewrite Eb. f_equal. rewrite repeat_length in Lb.
  destruct O as (O1 & O2 & O3 & O4).
  apply nth_error_ext. intro k.
  assert (Lc : forall n, length (concat (map send (seq 0 n))) = sumn cnt n).
  { induction n; auto. rewrite seq_S, map_app, concat_app, app_length, IHn. simpl.
    rewrite app_nil_r. reflexivity. }
  assert (Nc : forall n p j, p < n -> j < cnt p ->
     nth_error (concat (map send (seq 0 n))) (sumn cnt p + j) = nth_error (send p) j).
  { induction n; intros p j Hp Hj; [lia|].
    rewrite seq_S, map_app, concat_app. simpl. rewrite app_nil_r.
    destruct (Nat.eq_dec p n) as [->|Hne].
    - rewrite nth_error_app2 by (rewrite Lc; lia). rewrite Lc. f_equal. lia.
    - rewrite nth_error_app1; [apply IHn; lia|]. rewrite Lc.
      pose proof (sumn_le cnt (S p) n ltac:(lia)). simpl in H1. lia. }
  destruct (lt_dec k (list_sum (map cnt (seq 0 procs)))) as [K|K].
  - destruct (O4 k K) as (p & Hp & B). rewrite Lm in Hp.
    rewrite (nth_map_seq cnt) in B by auto.
    assert (D : nth p ds 0 = sumn cnt p).
    { rewrite (H p) by lia. unfold psum. apply sumn_ext. intros. apply nth_map_seq. lia. }
    replace k with (nth p ds 0 + (k - nth p ds 0)) by lia.
    rewrite Nb by (try apply In'; auto; lia).
    rewrite D. symmetry. apply Nc; auto. lia.
  - rewrite !(proj2 (nth_error_None _ _)); auto; [|lia].
    rewrite Lc, <- sumn_list in *. lia.
Qed.
Print Assumptions gatherv_concat.

(** An empty count vector is undefined behaviour. *)
Theorem alltoallv_empty_refuted : exists perm, make_displs [] perm = None.
Proof. exists (fun p => p). reflexivity. Qed.

(** Two ranks, a swapped rank permutation and unequal counts satisfy the hypotheses. *)
Definition ex_all (p : nat) : list nat := if p =? 0 then [1; 2] else [0; 3].
Definition ex_dummy := {| sendcounts := []; recvcounts := []; sdispls := []; rdispls := [] |}.
Definition ex_pat0 (q : nat) := match mk_alltoallv 2 ex_all q with Some x => x | None => ex_dummy end.
Definition ex_pat (q : nat) :=
  match setRankPermutation (ex_pat0 q) [1; 0] with Some x => x | None => ex_dummy end.
Example ex_pat_reachable : reachable 2 ex_pat.
Proof.
  apply (reach_perm 2 ex_pat0 (fun _ => [1; 0])).
  - apply (reach_ctor 2 ex_all); intros [|[|q]] H; try lia; reflexivity.
  - intros. apply perm_swap.
  - intros [|[|q]] H; try lia; reflexivity.
Qed.
Example ex_exchange :
  exchange 0 ex_pat (fun p => if p =? 0 then [10; 11; 12] else [20; 21; 22]) [1; 0] 1
  = Some [20; 21; 22; 10; 11] /\
  recvRange (ex_pat 1) 0 = (3, 5).
Proof. split; reflexivity. Qed.
