(** Property theorems: mesh graph handed to the partitioner and redistribution (C47, C18). *)
Require Import List Arith Bool Lia Permutation Sorted.
Require Import Verif.Base Verif.CommModel Verif.CommProofs Verif.CommBlocks Verif.PartitionModel Verif.PartitionProofs.
Import ListNotations.
Local Open Scope opt_scope.

(** C47: row pointers 0, D+1, 2(D+1), ..., n(D+1), columns the vertices of the elements in order;
    no out-of-bounds write. *)
Theorem distributed_csr_correct : forall D elems, (forall e, In e elems -> length e = D + 1) ->
  exists row col, distributedCSR D elems = Some (row, col) /\
    col = concat elems /\ length row = length elems + 1 /\
    (forall i, i <= length elems -> nth i row 0 = i * (D + 1)) /\
    (forall i e, nth_error elems i = Some e ->
       firstn (nth (i + 1) row 0 - nth i row 0) (skipn (nth i row 0) col) = e).
Proof.
  intros D elems HD. unfold distributedCSR.
  pose proof (csr_elems_spec D elems HD [] [0] []) as E. simpl app in E. cbn [length] in E.
  rewrite repeat_app. cbn [repeat]. rewrite E. cbn [bind].
  rewrite app_length, map_length, seq_length. cbn [length].
  assert (U : forall pre : list nat, length pre = length elems -> forall x y,
     upd (pre ++ [x]) (length elems + 1 - 1) y = Some (pre ++ [y])).
  { intros pre Lp x y. replace (length elems + 1 - 1) with (length pre) by lia. apply upd_app. }
  rewrite U by (rewrite map_length, seq_length; auto). cbn [bind].
  set (row := map _ _ ++ _).
  assert (R : forall i, i <= length elems -> nth i row 0 = i * (D + 1)).
  { intros i Hi. unfold row. destruct (Nat.eq_dec i (length elems)) as [->|Hne].
    - rewrite app_nth2 by (rewrite map_length, seq_length; lia).
      rewrite map_length, seq_length, Nat.sub_diag. simpl. lia.
    - rewrite app_nth1 by (rewrite map_length, seq_length; lia).
      rewrite (nth_map_seq (fun i => 0 + i * (D + 1))) by lia. lia. }
  exists row, (concat elems). split; [auto|]. split; [auto|].
  split. { unfold row. rewrite app_length, map_length, seq_length. auto. }
  split; [auto|].
  intros i e He. assert (Hi : i < length elems) by (apply nth_error_Some; congruence).
  rewrite !R by lia. replace ((i + 1) * (D + 1) - i * (D + 1)) with (D + 1) by lia.
  clear -HD He. revert i He. induction elems as [|e0 t IH]; intros i He; [destruct i; discriminate|].
  pose proof (HD e0 (or_introl eq_refl)) as L0. destruct i as [|i].
  - simpl in *. inversion He; subst. rewrite <- L0. rewrite firstn_app, Nat.sub_diag, firstn_all. simpl.
    apply app_nil_r.
  - simpl in He. cbn [concat]. rewrite skipn_app, skipn_all2 by (rewrite L0; lia).
    rewrite L0. replace (S i * (D + 1) - (D + 1)) with (i * (D + 1)) by lia. simpl app.
    apply IH; auto. intros; apply HD; right; auto.
Qed.
Print Assumptions distributed_csr_correct.

Example distributed_csr_example :
  distributedCSR 2 [[0; 1; 2]; [1; 2; 3]] = Some ([0; 3; 6], [0; 1; 2; 1; 2; 3]).
Proof. reflexivity. Qed.

(** What doPartition may assume about std::sort: the enumeration it leaves is a permutation of
    0..n-1 along which the partition numbers do not decrease. *)
Definition sort_outcome (part enum : list nat) : Prop :=
  Permutation enum (seq 0 (length part)) /\
  StronglySorted (fun a b => nth a part 0 <= nth b part 0) enum.

(** The pairs (element, data) that rank p has and that its partition vector assigns to q. *)
Definition assigned_to {A} (q : nat) (part : list nat) (elems : list simplex) (data : list A)
  : list (simplex * A) :=
  map snd (filter (fun x => fst x =? q) (combine part (combine elems data))).

Lemma combine_map_nth {A B} (l : list A) (m : list B) d1 d2 idx :
  (forall i, In i idx -> i < length l) -> length l = length m ->
  combine (map (fun i => nth i l d1) idx) (map (fun i => nth i m d2) idx)
  = map (fun i => nth i (combine l m) (d1, d2)) idx.
Proof.
  intros H L. induction idx as [|i t IH]; auto. simpl. f_equal.
  - rewrite combine_nth by auto. auto.
  - apply IH. intros; apply H; right; auto.
Qed.

Lemma combine_concat {A B} (f : nat -> list A) (g : nat -> list B) l :
  (forall p, In p l -> length (f p) = length (g p)) ->
  combine (concat (map f l)) (concat (map g l)) = concat (map (fun p => combine (f p) (g p)) l).
Proof.
  induction l as [|p l IH]; intro H; auto. simpl. rewrite <- IH by (intros; apply H; right; auto).
  assert (L := H p (or_introl eq_refl)). clear -L. revert L. generalize (g p). induction (f p); intros [|b l1] L; simpl in *; try lia; auto.
  f_equal. apply IHl0. lia.
Qed.

Lemma bucket_perm {A} part (l : list A) d q : length l = length part ->
  forall enum, Permutation enum (seq 0 (length part)) ->
  Permutation (map (fun i => nth i l d) (bucket part enum q))
              (map snd (filter (fun x => fst x =? q) (combine part l))).
Proof.
  intros L enum P.
  transitivity (map (fun i => nth i l d) (bucket part (seq 0 (length part)) q)).
  { apply Permutation_map. unfold bucket. clear -P. induction P; simpl; auto.
    - destruct (_ =? q); auto.
    - destruct (nth y part 0 =? q), (nth x part 0 =? q); auto. apply perm_swap.
    - eapply perm_trans; eauto. }
  clear P enum. unfold bucket.
  assert (E : forall a pre, length pre = a ->
     map (fun i => nth i (pre ++ l) d) (filter (fun i => nth i (repeat 0 a ++ part) 0 =? q) (seq a (length part)))
     = map snd (filter (fun x => fst x =? q) (combine part l))).
  { revert l L. induction part as [|x part IH]; intros l L a pre La; auto.
    destruct l as [|y l]; [discriminate|]. cbn [length seq filter combine fst].
    assert (N1 : nth a (repeat 0 a ++ x :: part) 0 = x).
    { rewrite app_nth2; rewrite repeat_length; [|lia]. rewrite Nat.sub_diag. auto. }
    assert (N2 : nth a (pre ++ y :: l) d = y).
    { rewrite app_nth2 by lia. rewrite La, Nat.sub_diag. auto. }
    assert (R : map (fun i => nth i (pre ++ y :: l) d)
       (filter (fun i => nth i (repeat 0 a ++ x :: part) 0 =? q) (seq (S a) (length part)))
       = map snd (filter (fun x => fst x =? q) (combine part l))).
    { rewrite <- (IH l ltac:(simpl in L; lia) (S a) (pre ++ [y])) by (rewrite app_length; simpl; lia).
      rewrite <- app_assoc. simpl app. f_equal. apply filter_ext_in. intros i Hi. apply in_seq in Hi.
      f_equal. rewrite (app_nth2 (repeat 0 a)) by (rewrite repeat_length; lia).
      change (0 :: repeat 0 a ++ part) with (repeat 0 (S a) ++ part).
      rewrite (app_nth2 (repeat 0 (S a))) by (rewrite repeat_length; lia).
      rewrite !repeat_length. replace (i - a) with (S (i - S a)) by lia. auto. }
    rewrite N1. destruct (x =? q); [|exact R]. cbn [map snd]. rewrite N2. f_equal. exact R. }
  specialize (E 0 [] eq_refl). simpl in E. rewrite E. apply Permutation_refl.
Qed.

(** C18, part 1: whatever the partition vectors, the outcome of the (unstable) sort and the order
    of message arrival, rank q ends up with exactly the (element, data) pairs assigned to it, those
    of rank 0 first, then those of rank 1 and so on. *)
Theorem redistribution_correct : forall {A} dE (dA : A) procs part enum elems data o1 o2,
  0 < procs ->
  (forall p, p < procs -> length (elems p) = length (part p) /\ length (data p) = length (part p) /\
     sort_outcome (part p) (enum p) /\ (forall x, In x (part p) -> x < procs)) ->
  Permutation o1 (seq 0 procs) -> Permutation o2 (seq 0 procs) ->
  forall q, q < procs -> exists es ds blocks,
    doPartition dE dA procs part enum elems data o1 o2 q = Some (es, ds) /\
    length es = length ds /\
    combine es ds = concat (map blocks (seq 0 procs)) /\
    forall p, p < procs -> Permutation (blocks p) (assigned_to q (part p) (elems p) (data p)).
Proof.
  intros A dE dA procs part enum elems data o1 o2 H0 H P1 P2 q Hq.
  set (bk p := bucket (part p) (enum p) q).
  assert (Hb : forall p i, p < procs -> In i (bk p) -> i < length (part p)).
  { intros p i Hp Hi. apply filter_In in Hi. destruct Hi as [Hi _]. destruct (H p Hp) as (_ & _ & [Pe _] & _).
    apply (Permutation_in _ Pe) in Hi. apply in_seq in Hi. lia. }
  exists (concat (map (fun p => map (fun i => nth i (elems p) dE) (bk p)) (seq 0 procs))),
         (concat (map (fun p => map (fun i => nth i (data p) dA) (bk p)) (seq 0 procs))),
         (fun p => map (fun i => nth i (combine (elems p) (data p)) (dE, dA)) (bk p)).
  split; [apply doPartition_spec; auto|].
  split.
  { clear. induction (seq 0 procs); auto. simpl. rewrite !app_length, !map_length. lia. }
  split.
  - rewrite combine_concat by (intros; rewrite !map_length; auto).
    f_equal. apply map_ext_in. intros p Hp. apply in_seq in Hp. destruct (H p ltac:(lia)) as (L1 & L2 & _).
    apply combine_map_nth; [|congruence]. intros i Hi. rewrite L1. apply Hb; auto; lia.
  - intros p Hp. destruct (H p Hp) as (L1 & L2 & [Pe _] & _). apply bucket_perm; auto.
    rewrite combine_length. lia.
Qed.
Print Assumptions redistribution_correct.

(** C18, part 2: no pair is lost or duplicated globally. *)
Theorem redistribution_conserves : forall {A} dE (dA : A) procs part enum elems data o1 o2 es ds,
  0 < procs ->
  (forall p, p < procs -> length (elems p) = length (part p) /\ length (data p) = length (part p) /\
     sort_outcome (part p) (enum p) /\ (forall x, In x (part p) -> x < procs)) ->
  Permutation o1 (seq 0 procs) -> Permutation o2 (seq 0 procs) ->
  (forall q, q < procs -> doPartition dE dA procs part enum elems data o1 o2 q = Some (es q, ds q)) ->
  Permutation (concat (map (fun q => combine (es q) (ds q)) (seq 0 procs)))
              (concat (map (fun p => combine (elems p) (data p)) (seq 0 procs))).
Proof.
  intros A dE dA procs part enum elems data o1 o2 es ds H0 H P1 P2 HE.
  set (src := concat (map (fun p => combine (part p) (combine (elems p) (data p))) (seq 0 procs))).
  assert (Q : forall q, q < procs -> Permutation (combine (es q) (ds q))
     (map snd (filter (fun x => fst x =? q) src))).
  { intros q Hq. destruct (redistribution_correct dE dA procs part enum elems data o1 o2 H0 H P1 P2 q Hq)
      as (e & d & bl & E & _ & C & Pb). rewrite HE in E by auto. inversion E; subst. rewrite C.
    unfold src. clear -Pb. 
    assert (G : forall l, (forall p, In p l -> p < procs) ->
      Permutation (concat (map bl l)) (map snd (filter (fun x => fst x =? q)
        (concat (map (fun p => combine (part p) (combine (elems p) (data p))) l))))).
    { induction l as [|p l IH]; intro Hl; auto. simpl. rewrite filter_app, map_app.
      apply Permutation_app; [apply Pb, Hl; left; auto|apply IH; intros; apply Hl; right; auto]. }
    apply G. intros p Hp. apply in_seq in Hp. lia. }
  assert (F : forall x, In x src -> fst x < procs).
  { intros x Hx. apply in_concat in Hx. destruct Hx as (l & Hl & Hx). apply in_map_iff in Hl.
    destruct Hl as (p & <- & Hp). apply in_seq in Hp. destruct (H p ltac:(lia)) as (_ & _ & _ & B).
    destruct x as [a b]. apply in_combine_l in Hx. apply B; auto. }
  transitivity (concat (map (fun q => map snd (filter (fun x => fst x =? q) src)) (seq 0 procs))).
  { assert (G : forall l, (forall q, In q l -> q < procs) ->
      Permutation (concat (map (fun q => combine (es q) (ds q)) l))
        (concat (map (fun q => map snd (filter (fun x => fst x =? q) src)) l))).
    { induction l as [|q l IH]; intro Hl; auto. simpl.
      apply Permutation_app; [apply Q, Hl; left; auto|apply IH; intros; apply Hl; right; auto]. }
    apply G. intros p Hp. apply in_seq in Hp. lia. }
  transitivity (map snd src).
  { clear -F. induction src as [|x s IH].
    - simpl. induction (seq 0 procs); auto.
    - assert (Fx := F x (or_introl eq_refl)). specialize (IH (fun y Hy => F y (or_intror Hy))).
      cbn [map]. eapply perm_trans; [|apply perm_skip; exact IH].
      destruct x as [k v]. cbn [fst snd] in *.
      assert (G : forall a n, a <= k < a + n ->
        Permutation (concat (map (fun q => map snd (filter (fun x => fst x =? q) ((k, v) :: s))) (seq a n)))
          (v :: concat (map (fun q => map snd (filter (fun x => fst x =? q) s)) (seq a n)))).
      { clear. intros a n. revert a. induction n as [|n IHn]; intros a Hk; [lia|].
        cbn [seq map concat filter fst]. destruct (Nat.eqb_spec k a) as [->|Hne].
        - cbn [map app]. apply perm_skip. apply Permutation_app_head.
          replace (map (fun q => map snd (if a =? q then (a, v) :: filter (fun x => fst x =? q) s else filter (fun x => fst x =? q) s)) (seq (S a) n))
            with (map (fun q => map snd (filter (fun x => fst x =? q) s)) (seq (S a) n)); auto.
          apply map_ext_in. intros q Hq. apply in_seq in Hq. destruct (Nat.eqb_spec a q); auto. lia.
        - specialize (IHn (S a) ltac:(lia)).
          eapply perm_trans; [apply Permutation_app_head; exact IHn|].
          apply Permutation_sym, Permutation_middle. }
      apply (G 0 procs). lia. }
  unfold src. rewrite concat_map, map_map.
  assert (G : forall l, (forall q, In q l -> q < procs) ->
    concat (map (fun p => map snd (combine (part p) (combine (elems p) (data p)))) l)
    = concat (map (fun p => combine (elems p) (data p)) l)).
  { induction l as [|p l IH]; intro Hl; auto. simpl. f_equal; [|apply IH; intros; apply Hl; right; auto].
    destruct (H p (Hl p (or_introl eq_refl))) as (L1 & L2 & _).
    assert (L : length (part p) = length (combine (elems p) (data p))) by (rewrite combine_length; lia).
    clear -L. revert L. generalize (combine (elems p) (data p)). induction (part p); intros [|y l0] L; simpl in *; try lia; auto.
    f_equal. apply IHl. lia. }
  rewrite G; auto. intros p Hp. apply in_seq in Hp. lia.
Qed.
Print Assumptions redistribution_conserves.

Example redistribution_example :
  let elems p := nth p [[[0; 1]; [1; 2]; [2; 3]]; [[3; 4]; [4; 5]]] [] in
  let data p := nth p [[10; 11; 12]; [20; 21]] [] in
  let part p := nth p [[1; 0; 1]; [0; 1]] [] in
  let enum p := nth p [[1; 2; 0]; [0; 1]] [] in
  (sort_outcome (part 0) (enum 0) /\ sort_outcome (part 1) (enum 1)) /\
  doPartition [] 0 2 part enum elems data [1; 0] [0; 1] 0 = Some ([[1; 2]; [3; 4]], [11; 20]) /\
  doPartition [] 0 2 part enum elems data [1; 0] [0; 1] 1 = Some ([[2; 3]; [0; 1]; [4; 5]], [12; 10; 21]).
Proof.
  cbn zeta. split; [|split; vm_compute; reflexivity].
  split; split.
  - simpl. apply perm_trans with [1; 0; 2]; [apply perm_skip, perm_swap|apply perm_swap].
  - simpl. repeat constructor; simpl; lia.
  - apply Permutation_refl.
  - simpl. repeat constructor; simpl; lia.
Qed.

(** C18, part 3: through any sequence of repartition and repartitionByHash calls, the flag of the
    global mesh is only set when every element sits on the rank its hash selects (the face owner
    looks boundary data up on that rank), and the collection of elements never changes. *)
Inductive gm_run (dE : simplex) (procs : nat) (plex2rank : simplex -> nat) : gmesh -> gmesh -> Prop :=
| gm_refl m : gm_run dE procs plex2rank m m
| gm_next m c enum o m1 m2 :
    Permutation o (seq 0 procs) ->
    (forall p, p < procs ->
       let part := match c with Repartition part => part p
                   | RepartitionByHash => map plex2rank (gm_elems m p) end in
       length (gm_elems m p) = length part /\ (forall x, In x part -> x < procs) /\
       sort_outcome part (enum p)) ->
    gm_step dE procs plex2rank c enum o m = Some m1 ->
    gm_run dE procs plex2rank m1 m2 -> gm_run dE procs plex2rank m m2.

Definition by_hash_ok (procs : nat) (plex2rank : simplex -> nat) (m : gmesh) : Prop :=
  gm_by_hash m = true -> forall q e, q < procs -> In e (gm_elems m q) -> plex2rank e = q.

Theorem partition_flag_truthful : forall dE procs plex2rank m m',
  0 < procs -> gm_by_hash m = false -> gm_run dE procs plex2rank m m' ->
  by_hash_ok procs plex2rank m' /\
  Permutation (concat (map (gm_elems m') (seq 0 procs))) (concat (map (gm_elems m) (seq 0 procs))).
Proof.
  intros dE procs plex2rank m m' H0 Hf R.
  assert (I : by_hash_ok procs plex2rank m) by (intro; congruence). clear Hf.
  induction R as [m|m c enum o m1 m2 Po Hp Hs R IH]; [split; auto|].
  assert (Step : forall part flag,
    (forall p, p < procs -> length (gm_elems m p) = length (part p) /\
       (forall x, In x (part p) -> x < procs) /\ sort_outcome (part p) (enum p)) ->
    (let r q := doPartition dE dE procs part enum (gm_elems m) (gm_elems m) o o q in
     if all_ranks procs r
     then Some {| gm_elems := fun q => fst (get ([], []) (r q)); gm_by_hash := flag |} else None) = Some m1 ->
    Permutation (concat (map (gm_elems m1) (seq 0 procs))) (concat (map (gm_elems m) (seq 0 procs))) /\
    gm_by_hash m1 = flag /\
    forall q e, q < procs -> In e (gm_elems m1 q) ->
      exists p i, p < procs /\ nth_error (gm_elems m p) i = Some e /\ nth_error (part p) i = Some q).
  { intros part flag HP. cbv zeta.
    assert (HP' : forall p, p < procs -> length (gm_elems m p) = length (part p) /\
      length (gm_elems m p) = length (part p) /\ sort_outcome (part p) (enum p) /\
      (forall x, In x (part p) -> x < procs)).
    { intros p Hp'. destruct (HP p Hp') as (? & ? & ?). auto. }
    set (es q := concat (map (fun p => map (fun i => nth i (gm_elems m p) dE) (bucket (part p) (enum p) q)) (seq 0 procs))).
    assert (ES : forall q, q < procs -> doPartition dE dE procs part enum (gm_elems m) (gm_elems m) o o q = Some (es q, es q)).
    { intros q Hq. apply (doPartition_spec dE dE procs part enum (gm_elems m) (gm_elems m) o o H0 HP' Po Po q Hq). }
    rewrite (all_ranks_ok procs (fun q => doPartition dE dE procs part enum (gm_elems m) (gm_elems m) o o q) (fun q => (es q, es q)) ES).
    intro E. inversion E; subst m1. cbn [gm_elems gm_by_hash].
    assert (EE : forall q, In q (seq 0 procs) -> fst (get ([], []) (doPartition dE dE procs part enum (gm_elems m) (gm_elems m) o o q)) = es q).
    { intros q Hq. apply in_seq in Hq. rewrite ES by lia. auto. }
    split; [|split; auto].
    - rewrite (map_ext_in _ _ _ EE).
      pose proof (redistribution_conserves dE dE procs part enum _ _ o o es es H0 HP' Po Po ES) as C.
      apply (Permutation_map fst) in C. rewrite !concat_map, !map_map in C.
      assert (F : forall l : list simplex, map fst (combine l l) = l).
      { induction l; simpl; congruence. }
      rewrite !(map_ext _ _ (fun q => F _)) in C. exact C.
    - intros q e Hq He. rewrite (EE q) in He by (apply in_seq; lia). unfold es in He.
      apply in_concat in He. destruct He as (l & Hl & He). apply in_map_iff in Hl.
      destruct Hl as (p & <- & Hpp). apply in_seq in Hpp. apply in_map_iff in He.
      destruct He as (i & <- & Hi). apply filter_In in Hi. destruct Hi as [Hi Hv].
      destruct (HP p ltac:(lia)) as (L & _ & [Pe _]).
      apply (Permutation_in _ Pe) in Hi. apply in_seq in Hi. apply Nat.eqb_eq in Hv.
      exists p, i. split; [lia|]. split.
      + apply nth_error_nth'. lia.
      + rewrite <- Hv. apply nth_error_nth'. lia. }
  destruct c as [part|]; cbn [gm_step] in Hs.
  - destruct (Step part false Hp Hs) as (P & F & _).
    destruct IH as [A B]. { intro; congruence. }
    split; auto. eapply perm_trans; eauto.
  - destruct (gm_by_hash m) eqn:Fm.
    + inversion Hs; subst m1. auto.
    + destruct (Step _ true Hp Hs) as (P & F & Loc).
      destruct IH as [A B].
      { intros _ q e Hq He. destruct (Loc q e Hq He) as (p & i & Hpp & Ne & Np).
        rewrite nth_error_map, Ne in Np. simpl in Np. congruence. }
      split; auto. eapply perm_trans; eauto.
Qed.
Print Assumptions partition_flag_truthful.

Example partition_flag_example :
  let m := {| gm_elems := fun p => nth p [[[0; 1]; [1; 2]]; [[2; 3]]] []; gm_by_hash := false |} in
  match gm_step [] 2 (fun e => nth 0 e 0 mod 2) RepartitionByHash (fun p => nth p [[0; 1]; [0]] []) [0; 1] m with
  | Some m1 => gm_elems m1 0 = [[0; 1]; [2; 3]] /\ gm_elems m1 1 = [[1; 2]] /\ gm_by_hash m1 = true
  | None => False
  end.
Proof. vm_compute. auto. Qed.
