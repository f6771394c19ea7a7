(* C33: records written through the HDF5 writer. *)
Require Import Arith Lia Bool String List Permutation.
Require Import Verif.Base Verif.Hdf5Model.
Import ListNotations.
Local Open Scope nat_scope.
Local Open Scope list_scope.
Local Open Scope opt_scope.

(* ---- specification ---- *)
Section Spec.
Variable A : Type.
Definition rec_step (rc : record A) : nat := fst (fst rc).
Definition rec_time (rc : record A) : A := snd (fst rc).
Definition rec_data (rc : record A) : nat -> list A := snd rc.

(* Every record either opens the next row or replaces row 0. *)
Fixpoint in_sequence (rows : nat) (recs : list (record A)) : Prop :=
  match recs with
  | [] => True
  | rc :: recs => (rec_step rc = 0 \/ rec_step rc = rows) /\ in_sequence (Nat.max rows (rec_step rc + 1)) recs
  end.
Definition rows_of (recs : list (record A)) : nat :=
  fold_left (fun rows rc => Nat.max rows (rec_step rc + 1)) recs 0.
(* the record a reader expects in row k: the last one written with this step *)
Definition last_record (k : nat) (recs : list (record A)) : option (record A) :=
  find (fun rc => rec_step rc =? k) (rev recs).
End Spec.
Arguments rec_step {A}. Arguments rec_time {A}. Arguments rec_data {A}.
Arguments in_sequence {A}. Arguments rows_of {A}. Arguments last_record {A}.

Section Proofs.
Variable A : Type.
Variable fill : A.
Notation dset := (dset A).
Notation file := (file A).

Lemma write_ranks_some : forall slabs data order (d : dset),
  (forall r, In r order -> fits (fst (slabs r)) (snd (slabs r)) (extents A d) = true /\
                           volume (snd (slabs r)) <= List.length (data r)) ->
  exists d', write_ranks A fill d slabs data order = Some d' /\ extents A d' = extents A d.
Proof.
  intros slabs data order; induction order as [|r order IH]; intros d H; cbn [write_ranks].
  - exists d; auto.
  - destruct (H r (or_introl eq_refl)) as [H1 H2]. unfold write_slab. rewrite H1.
    apply Nat.leb_le in H2. rewrite H2. cbn [bind].
    match goal with |- context [write_ranks _ _ ?x] => destruct (IH x) as [d' [E1 E2]] end.
    + intros q Hq. cbn [extents]. apply H; right; auto.
    + exists d'; split; auto.
Qed.

Lemma write_ranks_cell : forall slabs data order (d d' : dset) idx v,
  write_ranks A fill d slabs data order = Some d' ->
  (forall r, In r order -> in_slab (fst (slabs r)) (snd (slabs r)) idx = true ->
     nth (row_major (snd (slabs r)) (sub_idx idx (fst (slabs r))) 0) (data r) fill = v) ->
  (cell A d idx = v \/ exists r, In r order /\ in_slab (fst (slabs r)) (snd (slabs r)) idx = true) ->
  cell A d' idx = v.
Proof.
  intros slabs data order; induction order as [|r order IH]; intros d d' idx v H Hv Hc; cbn [write_ranks] in H.
  - injection H as <-. destruct Hc as [Hc|[r [[] _]]]; auto.
  - destruct (write_slab A fill d (fst (slabs r)) (snd (slabs r)) (data r)) as [d1|] eqn:E; [|discriminate].
    cbn [bind] in H. apply (IH d1); auto.
    + intros q Hq; apply Hv; right; auto.
    + unfold write_slab in E. destruct fits; [|discriminate]. destruct (_ <=? _); [|discriminate].
      injection E as <-. cbn [cell].
      destruct (in_slab (fst (slabs r)) (snd (slabs r)) idx) eqn:Es.
      * left. apply Hv; auto. left; auto.
      * destruct Hc as [Hc|[q [[->|Hq] Hs]]]; auto; [congruence|]. right; exists q; auto.
Qed.

Lemma write_ranks_outside : forall slabs data order (d d' : dset) idx,
  write_ranks A fill d slabs data order = Some d' ->
  (forall r, In r order -> in_slab (fst (slabs r)) (snd (slabs r)) idx = false) ->
  cell A d' idx = cell A d idx.
Proof.
  intros. eapply write_ranks_cell; eauto. intros r Hr Hs. rewrite H0 in Hs; auto. discriminate.
Qed.

Lemma in_slab3 : forall s1 s2 s3 c1 c2 c3 i j q,
  in_slab [s1; s2; s3] [c1; c2; c3] [i; j; q] = true <->
  (s1 <= i < s1 + c1 /\ s2 <= j < s2 + c2 /\ s3 <= q < s3 + c3).
Proof.
  intros. cbn [in_slab]. rewrite !andb_true_iff, !Nat.leb_le, !Nat.ltb_lt. lia.
Qed.
Lemma in_slab1 : forall s c i, in_slab [s] [c] [i] = true <-> s <= i < s + c.
Proof. intros. cbn [in_slab]. rewrite !andb_true_iff, !Nat.leb_le, !Nat.ltb_lt. lia. Qed.

(* one collective write of a block of three indices *)
Lemma write3 : forall procs order n Q k rows (d : dset) (data : nat -> list A),
  Permutation order (seq 0 procs) -> 0 < procs ->
  extents A d = [sumn n procs; Nat.max 1 rows; Q] ->
  (k = 0 \/ k = rows) ->
  (forall r, r < procs -> List.length (data r) = n r * Q) ->
  exists d', write_dataset A fill d k data (fun r => [n r; k + 1; Q]) 0 1 true order = Some d' /\
    extents A d' = [sumn n procs; Nat.max 1 (Nat.max rows (k + 1)); Q] /\
    (forall r e q, r < procs -> e < n r -> q < Q ->
       cell A d' [sumn n r + e; k; q] = nth (e * Q + q) (data r) fill) /\
    (forall i j q, j <> k -> cell A d' [i; j; q] = cell A d [i; j; q]).
Proof.
  intros procs order n Q k rows d data Hp Hpos Hext Hk Hlen.
  assert (Hin : forall r, In r order <-> r < procs).
  { intros r. split; intros Hr. apply (Permutation_in _ Hp) in Hr. apply in_seq in Hr; lia.
    apply (Permutation_in _ (Permutation_sym Hp)), in_seq; lia. }
  assert (Hslab : forall r, slab_of (extents A d) k (fun r => [n r; k + 1; Q]) 0 1 true r
                  = ([sumn n r; k; 0], [n r; 1; Q])).
  { intros r. unfold slab_of. rewrite Hext. cbn [nth List.length repeat set_nth].
    replace (offset_of (fun q => nth 0 [n q; k + 1; Q] 0) r) with (sumn n r) by reflexivity.
    destruct (Nat.leb_spec (Nat.max 1 rows) k).
    - reflexivity.
    - assert (k = 0) by lia. subst k. reflexivity. }
  assert (Hex : extended (extents A d) k 1 = [sumn n procs; Nat.max 1 (Nat.max rows (k + 1)); Q]).
  { unfold extended. rewrite Hext. cbn [nth].
    destruct (Nat.leb_spec (Nat.max 1 rows) k); cbn [set_nth]; do 2 f_equal; lia. }
  unfold write_dataset. rewrite Hex.
  set (d0 := {| extents := [sumn n procs; Nat.max 1 (Nat.max rows (k + 1)); Q]; cell := cell A d |}).
  set (sl := slab_of (extents A d) k (fun r => [n r; k + 1; Q]) 0 1 true) in *.
  destruct (write_ranks_some sl data order d0) as [d' [E1 E2]].
  { intros r Hr. apply Hin in Hr. rewrite Hslab. cbn [fst snd]. split.
    - unfold d0. cbn [extents fits].
      assert (sumn n r + n r <= sumn n procs).
      { change (sumn n r + n r) with (sumn n (S r)). apply sumn_le; lia. }
      rewrite !andb_true_iff, !Nat.leb_le. repeat split; lia.
    - rewrite Hlen by auto. cbn [volume fold_right]. lia. }
  exists d'. split; [exact E1|]. split; [rewrite E2; reflexivity|]. split.
  - intros r e q Hr He Hq.
    apply (write_ranks_cell _ _ _ _ _ [sumn n r + e; k; q] (nth (e * Q + q) (data r) fill) E1).
    + intros r' Hr' Hs. rewrite Hslab in *. cbn [fst snd] in *. apply in_slab3 in Hs.
      assert (r' = r).
      { destruct (Nat.lt_trichotomy r r') as [Hlt|[Heq|Hlt]]; auto; exfalso.
        - assert (sumn n (S r) <= sumn n r') by (apply sumn_le; lia). cbn [sumn] in *. lia.
        - assert (sumn n (S r') <= sumn n r) by (apply sumn_le; lia). cbn [sumn] in *. lia. }
      subst r'. cbn [sub_idx row_major]. f_equal. rewrite !Nat.sub_diag.
      replace (sumn n r + e - sumn n r) with e by lia. lia.
    + right. exists r. split; [apply Hin; auto|]. rewrite Hslab. cbn [fst snd]. apply in_slab3. lia.
  - intros i j q Hj. rewrite (write_ranks_outside _ _ _ _ _ [i; j; q] E1); auto.
    intros r Hr. rewrite Hslab. cbn [fst snd]. destruct (in_slab _ _ _) eqn:E; auto.
    apply in_slab3 in E. lia.
Qed.

Lemma write1 : forall procs order k rows (d : dset) (t : A),
  Permutation order (seq 0 procs) -> 0 < procs ->
  extents A d = [Nat.max 1 rows] -> (k = 0 \/ k = rows) ->
  exists d', write_dataset A fill d k (fun _ => [t]) (fun _ => [k + 1]) 0 0 false order = Some d' /\
    extents A d' = [Nat.max 1 (Nat.max rows (k + 1))] /\
    cell A d' [k] = t /\ (forall j, j <> k -> cell A d' [j] = cell A d [j]).
Proof.
  intros procs order k rows d t Hp Hpos Hext Hk.
  assert (Hslab : forall r, slab_of (extents A d) k (fun _ => [k + 1]) 0 0 false r = ([k], [1])).
  { intros r. unfold slab_of. rewrite Hext. cbn [nth List.length repeat set_nth].
    destruct (Nat.leb_spec (Nat.max 1 rows) k); [reflexivity|].
    assert (k = 0) by lia. subst k. reflexivity. }
  assert (Hex : extended (extents A d) k 0 = [Nat.max 1 (Nat.max rows (k + 1))]).
  { unfold extended. rewrite Hext. cbn [nth].
    destruct (Nat.leb_spec (Nat.max 1 rows) k); cbn [set_nth]; f_equal; lia. }
  unfold write_dataset. rewrite Hex.
  set (d0 := {| extents := [Nat.max 1 (Nat.max rows (k + 1))]; cell := cell A d |}).
  set (sl := slab_of (extents A d) k (fun _ => [k + 1]) 0 0 false) in *.
  destruct (write_ranks_some sl (fun _ => [t]) order d0) as [d' [E1 E2]].
  { intros r Hr. rewrite Hslab. cbn [fst snd]. split; [|cbn; lia].
    unfold d0. cbn [extents fits]. rewrite andb_true_iff, Nat.leb_le. split; auto; lia. }
  exists d'. split; [exact E1|]. split; [rewrite E2; reflexivity|]. split.
  - apply (write_ranks_cell _ _ _ _ _ [k] t E1).
    + intros r Hr Hs. rewrite Hslab. cbn [fst snd sub_idx row_major]. rewrite Nat.sub_diag. reflexivity.
    + right. exists 0. split.
      * apply (Permutation_in _ (Permutation_sym Hp)), in_seq; lia.
      * rewrite Hslab. cbn [fst snd]. apply in_slab1; lia.
  - intros j Hj. rewrite (write_ranks_outside _ _ _ _ _ [j] E1); auto.
    intros r Hr. rewrite Hslab. cbn [fst snd]. destruct (in_slab _ _ _) eqn:E; auto.
    apply in_slab1 in E. lia.
Qed.

(* what the file holds after some records *)
Definition holds (f0 : file) (procs : nat) (name : string) (n : nat -> nat) (Q : nat) (recs : list (record A))
    (f : file) : Prop :=
  (exists d, f name = Some d /\ extents A d = [sumn n procs; Nat.max 1 (rows_of recs); Q] /\
     forall k rc, last_record k recs = Some rc ->
       forall r e q, r < procs -> e < n r -> q < Q ->
         cell A d [sumn n r + e; k; q] = nth (e * Q + q) (rec_data rc r) fill) /\
  (exists d, f "time"%string = Some d /\ extents A d = [Nat.max 1 (rows_of recs)] /\
     forall k rc, last_record k recs = Some rc -> cell A d [k] = rec_time rc) /\
  (forall s, s <> name -> s <> "time"%string -> f s = f0 s).

Lemma last_record_app : forall k recs (rc : record A),
  last_record k (recs ++ [rc]) = if rec_step rc =? k then Some rc else last_record k recs.
Proof. intros. unfold last_record. rewrite rev_app_distr. cbn. reflexivity. Qed.
Lemma rows_of_app : forall recs (rc : record A),
  rows_of (recs ++ [rc]) = Nat.max (rows_of recs) (rec_step rc + 1).
Proof. intros. unfold rows_of. rewrite fold_left_app. reflexivity. Qed.
Lemma upd_file_same : forall f name (d : dset), upd_file A f name d name = Some d.
Proof. intros; unfold upd_file; rewrite String.eqb_refl; auto. Qed.
Lemma upd_file_other : forall f name (d : dset) s, s <> name -> upd_file A f name d s = f s.
Proof. intros; unfold upd_file. destruct (String.eqb_spec s name); congruence. Qed.

(* both datasets exist (possibly just created) and hold the records so far *)
Lemma record_body : forall f0 f procs order name n Q recs (rc : record A),
  0 < procs -> Permutation order (seq 0 procs) -> name <> "time"%string ->
  (rec_step rc = 0 \/ rec_step rc = rows_of recs) ->
  (forall r, r < procs -> List.length (rec_data rc r) = n r * Q) ->
  holds f0 procs name n Q recs f ->
  exists f1 f2, write_named A fill f name (rec_step rc) (rec_data rc) (fun r => [n r; rec_step rc + 1; Q]) 0 1 true order
      = Some f1 /\ f1 "time"%string = f "time"%string /\
    write_named A fill f1 "time" (rec_step rc) (fun _ => [rec_time rc]) (fun _ => [rec_step rc + 1]) 0 0 false order = Some f2 /\
    holds f0 procs name n Q (recs ++ [rc]) f2.
Proof.
  intros f0 f procs order name n Q recs rc Hp Ho Hn Hs Hlen [[d [Hd [Hde Hdc]]] [[t [Ht [Hte Htc]]] Hoth]].
  destruct (write3 procs order n Q (rec_step rc) (rows_of recs) d (rec_data rc) Ho Hp Hde Hs Hlen)
    as [d' [E [Ee [Ec Eo]]]].
  destruct (write1 procs order (rec_step rc) (rows_of recs) t (rec_time rc) Ho Hp Hte Hs)
    as [t' [F [Fe [Fc Fo]]]].
  exists (upd_file A f name d'), (upd_file A (upd_file A f name d') "time" t').
  unfold write_named. rewrite Hd. cbn [bind]. rewrite E. cbn [bind].
  rewrite (upd_file_other f name d' "time") by auto. rewrite Ht. cbn [bind]. rewrite F. cbn [bind].
  split; [reflexivity|]. split; [reflexivity|]. split; [reflexivity|].
  split; [|split].
  - exists d'. split; [rewrite upd_file_other by auto; apply upd_file_same|].
    split; [rewrite rows_of_app; exact Ee|].
    intros k rc' Hl. rewrite last_record_app in Hl.
    destruct (Nat.eqb_spec (rec_step rc) k) as [Hk|Hk].
    + injection Hl as <-. subst k. apply Ec.
    + intros r e q Hr He Hq. rewrite Eo by auto. apply Hdc with (k := k); auto.
  - exists t'. split; [apply upd_file_same|]. split; [rewrite rows_of_app; exact Fe|].
    intros k rc' Hl. rewrite last_record_app in Hl.
    destruct (Nat.eqb_spec (rec_step rc) k) as [Hk|Hk].
    + injection Hl as <-. subst k. apply Fc.
    + rewrite Fo by auto. apply Htc; auto.
  - intros s H1 H2. rewrite !upd_file_other by auto. auto.
Qed.

Lemma in_sequence_app : forall recs recs' rows,
  @in_sequence A rows (recs ++ recs') <->
  in_sequence rows recs /\ in_sequence (fold_left (fun rows rc => Nat.max rows (rec_step rc + 1)) recs rows) recs'.
Proof.
  induction recs as [|rc recs IH]; intros recs' rows; cbn [app in_sequence fold_left].
  - tauto.
  - rewrite IH. tauto.
Qed.

Lemma record_run_app : forall procs order name n Q recs recs' w,
  record_run A fill procs order name n Q w (recs ++ recs') =
  (do w <- record_run A fill procs order name n Q w recs; record_run A fill procs order name n Q w recs').
Proof.
  induction recs as [|rc recs IH]; intros recs' w; cbn [app record_run]; [reflexivity|].
  destruct (record_write _ _ _ _ _ _ _ _ _ _ _); cbn [bind]; auto.
Qed.

Theorem hdf5_records : forall procs (order : record A -> list nat) name n Q (f0 : file) recs,
  0 < procs -> (forall rc, Permutation (order rc) (seq 0 procs)) ->
  name <> "time"%string -> f0 name = None -> f0 "time"%string = None ->
  recs <> [] -> in_sequence 0 recs ->
  (forall rc r, In rc recs -> r < procs -> List.length (rec_data rc r) = n r * Q) ->
  exists w, record_run A fill procs order name n Q {| h_file := f0; h_opened := false |} recs = Some w /\
    (exists d, h_file A w name = Some d /\ extents A d = [sumn n procs; rows_of recs; Q] /\
       forall k rc, last_record k recs = Some rc ->
         forall r e q, r < procs -> e < n r -> q < Q ->
           cell A d [sumn n r + e; k; q] = nth (e * Q + q) (rec_data rc r) fill) /\
    (exists d, h_file A w "time"%string = Some d /\ extents A d = [rows_of recs] /\
       forall k rc, last_record k recs = Some rc -> cell A d [k] = rec_time rc) /\
    (forall s, s <> name -> s <> "time"%string -> h_file A w s = f0 s).
Proof.
  intros procs order name n Q f0 recs Hp Ho Hn H0 H1 Hne Hseq Hlen.
  assert (Hmain : exists w, record_run A fill procs order name n Q {| h_file := f0; h_opened := false |} recs = Some w /\
            h_opened A w = true /\ holds f0 procs name n Q recs (h_file A w)).
  { induction recs as [|rc recs IH] using rev_ind; [congruence|]. clear Hne.
    apply in_sequence_app in Hseq. destruct Hseq as [Hs1 [Hs2 _]].
    fold (rows_of recs) in Hs2.
    assert (Hl : forall r, r < procs -> List.length (rec_data rc r) = n r * Q).
    { intros r Hr. apply Hlen; auto. apply in_or_app; right; left; auto. }
    rewrite record_run_app. destruct recs as [|rc0 recs0].
    - cbn [record_run bind]. unfold record_write. cbn [h_opened h_file].
      unfold create at 1. rewrite H0. cbn [bind set_nth nth].
      unfold total_of. cbn [nth].
      (* writing the first dataset, then creating and writing the second; compare with both created first *)
      set (d0 := {| extents := [sumn n procs; 1; Q]; cell := fun _ => fill |}).
      change (fun s : string => if (s =? name)%string then Some d0 else f0 s) with (upd_file A f0 name d0).
      set (t0 := {| extents := [1]; cell := fun _ : list nat => fill |}).
      set (f := upd_file A (upd_file A f0 name d0) "time" t0).
      destruct (record_body f0 f procs (order rc) name n Q [] rc Hp (Ho rc) Hn Hs2 Hl)
        as [f1 [f2 [E1 [E2 [E3 E4]]]]].
      { split; [|split].
        - exists d0. split; [unfold f; rewrite upd_file_other by auto; apply upd_file_same|].
          split; [reflexivity|]. intros k rc' Hl'; discriminate.
        - exists t0. split; [apply upd_file_same|]. split; [reflexivity|]. intros k rc' Hl'; discriminate.
        - intros s Hs3 Hs4. unfold f. rewrite !upd_file_other by auto. reflexivity. }
      unfold write_named in E1, E3 |- *.
      unfold f in E1. rewrite upd_file_other, upd_file_same in E1 by auto.
      rewrite upd_file_same. cbn [bind] in *. unfold rec_step, rec_data, rec_time in *.
      destruct (write_dataset A fill d0 _ _ _ 0 1 true _) as [d1|] eqn:Ed; [|discriminate].
      cbn [bind] in *. injection E1 as <-.
      unfold create. rewrite upd_file_other by auto. rewrite upd_file_other by auto. rewrite H1. cbn [bind].
      change (("time" =? "time")%string) with true. cbv iota. cbn [bind].
      rewrite upd_file_other in E3 by auto. fold f in E3. unfold f in E3. rewrite upd_file_same in E3. cbn [bind] in E3.
      destruct (write_dataset A fill t0 _ _ _ 0 0 false _) as [t1|] eqn:Et; [|discriminate].
      cbn [bind] in *. injection E3 as <-.
      change {| extents := [1]; cell := fun _ : list nat => fill |} with t0. rewrite Et. cbn [bind].
      eexists; split; [reflexivity|]. split; [reflexivity|].
      cbn [h_file].
      destruct E4 as [[dd [G1 [G2 G3]]] [[tt [G4 [G5 G6]]] G7]].
      split; [|split].
      + exists dd. split; [|split; auto]. rewrite <- G1.
        repeat first [rewrite upd_file_same | rewrite upd_file_other by auto].
        destruct (String.eqb_spec name "time"); [congruence|].
        repeat first [rewrite upd_file_same | rewrite upd_file_other by auto]. reflexivity.
      + exists tt. split; [|split; auto]. rewrite <- G4. rewrite !upd_file_same. reflexivity.
      + intros s Hs3 Hs4. rewrite <- (G7 s) by auto. unfold f. rewrite !upd_file_other by auto.
        destruct (String.eqb_spec s "time"); [congruence|]. reflexivity.
    - destruct IH as [w [Ew [Eo Eh]]]; auto; [congruence|intros; apply Hlen; auto; apply in_or_app; auto|].
      rewrite Ew. cbn [bind record_run]. unfold record_write. rewrite Eo. cbn [bind].
      destruct (record_body f0 (h_file A w) procs (order rc) name n Q (rc0 :: recs0) rc Hp (Ho rc) Hn Hs2 Hl Eh)
        as [f1 [f2 [E1 [E2 [E3 E4]]]]].
      unfold rec_step, rec_data, rec_time in *. rewrite E1. cbn [bind]. rewrite E3. cbn [bind].
      eexists; split; [reflexivity|]. split; [reflexivity|exact E4]. }
  assert (Hrows : Nat.max 1 (rows_of recs) = rows_of recs).
  { destruct recs as [|rc recs] using rev_ind; [congruence|]. rewrite rows_of_app. lia. }
  destruct Hmain as [w [E [_ [Ha [Hb Hc]]]]]. rewrite Hrows in Ha, Hb. exists w; auto.
Qed.

(* Records 0, 1, ..., m-1, each once: the file has exactly m rows and row k is record k. *)
Lemma numbered_in_sequence : forall recs a,
  (forall i (rc : record A), nth_error recs i = Some rc -> rec_step rc = a + i) -> in_sequence a recs.
Proof.
  induction recs as [|rc recs IH]; intros a H; cbn [in_sequence]; auto.
  assert (rec_step rc = a) by (specialize (H 0 rc eq_refl); lia).
  split; [lia|]. replace (Nat.max a (rec_step rc + 1)) with (S a) by lia. apply IH.
  intros i rc' Hi. specialize (H (S i) rc' Hi). lia.
Qed.

Theorem hdf5_rows : forall procs (order : record A -> list nat) name n Q (f0 : file) recs,
  0 < procs -> (forall rc, Permutation (order rc) (seq 0 procs)) ->
  name <> "time"%string -> f0 name = None -> f0 "time"%string = None -> recs <> [] ->
  (forall k rc, nth_error recs k = Some rc -> rec_step rc = k) ->
  (forall rc r, In rc recs -> r < procs -> List.length (rec_data rc r) = n r * Q) ->
  exists w d t, record_run A fill procs order name n Q {| h_file := f0; h_opened := false |} recs = Some w /\
    h_file A w name = Some d /\ extents A d = [sumn n procs; List.length recs; Q] /\
    h_file A w "time"%string = Some t /\ extents A t = [List.length recs] /\
    forall k rc, nth_error recs k = Some rc ->
      cell A t [k] = rec_time rc /\
      forall r e q, r < procs -> e < n r -> q < Q ->
        cell A d [sumn n r + e; k; q] = nth (e * Q + q) (rec_data rc r) fill.
Proof.
  intros procs order name n Q f0 recs Hp Ho Hn H0 H1 Hne Hnum Hlen.
  assert (Hseq : in_sequence 0 recs) by (apply numbered_in_sequence; intros i rc Hi; rewrite (Hnum i rc Hi); reflexivity).
  destruct (hdf5_records procs order name n Q f0 recs Hp Ho Hn H0 H1 Hne Hseq Hlen)
    as [w [E [[d [D1 [D2 D3]]] [[t [T1 [T2 T3]]] _]]]].
  assert (Hrows : rows_of recs = List.length recs).
  { clear - Hnum. induction recs as [|rc recs IH] using rev_ind; [reflexivity|].
    rewrite rows_of_app, app_length. cbn [List.length].
    rewrite IH.
    - rewrite (Hnum (List.length recs) rc).
      + lia.
      + rewrite nth_error_app2, Nat.sub_diag by lia. reflexivity.
    - intros k rc' Hk. apply Hnum. rewrite nth_error_app1; auto. apply nth_error_Some; congruence. }
  rewrite Hrows in *.
  assert (Hlast : forall k rc, nth_error recs k = Some rc -> last_record k recs = Some rc).
  { clear - Hnum. induction recs as [|rc0 recs IH] using rev_ind; intros k rc Hk.
    - destruct k; discriminate.
    - rewrite last_record_app.
      assert (H0 : rec_step rc0 = List.length recs).
      { apply Hnum. rewrite nth_error_app2, Nat.sub_diag by lia. reflexivity. }
      destruct (Nat.eqb_spec (rec_step rc0) k) as [E|E].
      + subst k. rewrite H0, nth_error_app2, Nat.sub_diag in Hk by lia. exact Hk.
      + assert (k < List.length recs).
        { assert (k < List.length (recs ++ [rc0])) by (apply nth_error_Some; congruence).
          rewrite app_length in H; cbn in H; lia. }
        rewrite nth_error_app1 in Hk by auto. apply IH; auto.
        intros j rc' Hj. apply Hnum. rewrite nth_error_app1; auto. apply nth_error_Some; congruence. }
  exists w, d, t. repeat (split; [assumption|]). intros k rc Hk. apply Hlast in Hk. split; auto.
Qed.

(* The step that a moment-rate writer starts with: zero unless it continues a file, and then the number of
   records of the earlier run. *)
Theorem hdf5_resume_step : forall procs (order : record A -> list nat) name n Q recs,
  0 < procs -> (forall rc, Permutation (order rc) (seq 0 procs)) -> name <> "time"%string ->
  (forall k rc, nth_error recs k = Some rc -> rec_step rc = k) ->
  (forall rc r, In rc recs -> r < procs -> List.length (rec_data rc r) = n r * Q) ->
  (forall disk, resume_step A (open_file A false disk) = 0) /\
  resume_step A (open_file A true None) = 0 /\
  exists w, record_run A fill procs order name n Q {| h_file := open_file A true None; h_opened := false |} recs = Some w /\
    resume_step A (open_file A true (Some (h_file A w))) = List.length recs.
Proof.
  intros procs order name n Q recs Hp Ho Hn Hnum Hlen. split; [intros [?|]; reflexivity|]. split; [reflexivity|].
  destruct recs as [|rc recs].
  - eexists. split; reflexivity.
  - destruct (hdf5_rows procs order name n Q (open_file A true None) (rc :: recs) Hp Ho Hn eq_refl eq_refl ltac:(discriminate) Hnum Hlen)
      as (w & d & t & E & _ & _ & Et & Xt & _).
    exists w. split; [exact E|]. unfold open_file, resume_step. rewrite Et, Xt. reflexivity.
Qed.

(* A run that is resumed: the writer opens the existing file and takes its step from it, but its first
   write creates the datasets again and fails, whatever the file holds. *)
Theorem hdf5_restart_refuted : forall procs order name n Q (f : file) d step time data,
  f name = Some d ->
  record_write A fill procs order name n Q {| h_file := open_file A true (Some f); h_opened := false |} step time data = None.
Proof.
  intros. unfold record_write, open_file. cbn [h_opened h_file]. unfold create at 1. rewrite H. reflexivity.
Qed.

(* Writing again a row other than row 0 does not replace that row: with an array that holds one record
   (and some rank with data) the call reads past its end. *)
Theorem hdf5_rewrite_refuted : forall procs order n Q (d : dset) data k rows r,
  extents A d = [sumn n procs; rows; Q] -> 0 < k < rows ->
  In r order -> 0 < n r * Q -> (forall r, List.length (data r) = n r * Q) ->
  write_dataset A fill d k data (fun r => [n r; k + 1; Q]) 0 1 true order = None.
Proof.
  intros procs order n Q d data k rows r Hext Hk Hr Hn Hlen.
  unfold write_dataset.
  assert (Hslab : forall r, slab_of (extents A d) k (fun r => [n r; k + 1; Q]) 0 1 true r
                  = ([sumn n r; 0; 0], [n r; k + 1; Q])).
  { intros q. unfold slab_of. rewrite Hext. cbn [nth List.length repeat set_nth].
    destruct (Nat.leb_spec rows k); [lia|]. reflexivity. }
  generalize {| extents := extended (extents A d) k 1; cell := cell A d |}.
  induction order as [|q order IH]; intros d0; [destruct Hr|].
  cbn [write_ranks]. rewrite Hslab. cbn [fst snd].
  destruct Hr as [-> | Hr].
  - unfold write_slab. destruct fits; [|reflexivity].
    assert (Hv : volume [n r; k + 1; Q] > List.length (data r)).
    { rewrite Hlen. cbn [volume fold_right]. nia. }
    apply Nat.leb_gt in Hv. rewrite Hv. reflexivity.
  - destruct (write_slab _ _ _ _ _ _); cbn [bind]; auto.
Qed.
End Proofs.
Print Assumptions hdf5_records.
Print Assumptions hdf5_rows.
Print Assumptions hdf5_resume_step.
Print Assumptions hdf5_restart_refuted.
Print Assumptions hdf5_rewrite_refuted.

(* Two ranks with one and two elements, two quantities; step 0 is written twice, then steps 1 and 2. *)
Example hdf5_instance :
  let data := fun base r => if r =? 0 then [base; base + 1] else [base + 2; base + 3; base + 4; base + 5] in
  let recs := [(0, 7, data 10); (0, 8, data 20); (1, 9, data 30); (2, 11, data 40)] in
  in_sequence 0 recs /\ rows_of recs = 3 /\
  match record_run nat 0 2 (fun _ => [1; 0]) "momentRate" (fun r => S r) 2
          {| h_file := fun _ => None; h_opened := false |} recs with
  | Some w =>
      match h_file nat w "momentRate"%string, h_file nat w "time"%string with
      | Some d, Some t =>
          Some (extents nat d, extents nat t, map (cell nat t) [[0]; [1]; [2]],
            map (cell nat d) [[0;0;0]; [0;0;1]; [1;0;0]; [2;0;1]; [0;1;0]; [2;1;1]; [1;2;0]])
      | _, _ => None
      end
  | None => None
  end = Some ([3; 3; 2], [3], [8; 9; 11], [20; 21; 22; 25; 30; 35; 42]).
Proof.
  cbn zeta. split; [cbn; auto 10|]. split; [reflexivity|]. vm_compute. reflexivity.
Qed.
