Require Import List Arith Bool Lia Permutation Sorted.
Require Import Verif.Base Verif.CommModel Verif.CommProofs Verif.CommBlocks Verif.PartitionModel.
Import ListNotations.
Local Open Scope opt_scope.

(** * CSR *)
Lemma upd_app {A} (pre post : list A) x y : upd (pre ++ x :: post) (length pre) y = Some (pre ++ y :: post).
Proof. induction pre; simpl; auto. rewrite IHpre. auto. Qed.

Lemma csr_verts_spec e : forall pre post,
  csr_verts e (pre ++ repeat 0 (length e) ++ post) (length pre)
  = Some (pre ++ e ++ post, length pre + length e).
Proof.
  induction e as [|p t IH]; intros pre post.
  - simpl. rewrite Nat.add_0_r. auto.
  - cbn [csr_verts length repeat app]. rewrite upd_app. cbn [bind].
    specialize (IH (pre ++ [p]) post). rewrite app_length in IH. simpl length in IH.
    rewrite <- !app_assoc in IH. simpl in IH. rewrite IH.
    f_equal. f_equal. lia.
Qed.

Lemma csr_elems_spec D es : (forall e, In e es -> length e = D + 1) ->
  forall rpre rpost cpre,
  csr_elems es (rpre ++ repeat 0 (length es) ++ rpost) (cpre ++ repeat 0 (length es * (D + 1)))
    (length rpre) (length cpre)
  = Some (rpre ++ map (fun i => length cpre + i * (D + 1)) (seq 0 (length es)) ++ rpost,
          cpre ++ concat es, length cpre + length es * (D + 1)).
Proof.
  induction es as [|e t IH]; intros HD rpre rpost cpre.
  - simpl. rewrite app_nil_r, Nat.add_0_r. auto.
  - cbn [csr_elems length repeat app]. rewrite upd_app. cbn [bind].
    cbn [Nat.mul]. rewrite repeat_app.
    pose proof (csr_verts_spec e cpre (repeat 0 (length t * (D + 1)))) as V.
    rewrite (HD e (or_introl eq_refl)) in V. rewrite V. cbn [bind fst snd].
    specialize (IH (fun x Hx => HD x (or_intror Hx)) (rpre ++ [length cpre]) rpost (cpre ++ e)).
    rewrite !app_length in IH. rewrite (HD e (or_introl eq_refl)) in IH.
    cbn [length] in IH. rewrite <- !app_assoc in IH. simpl app in IH. rewrite IH.
    f_equal. f_equal; [f_equal|lia].
    + f_equal. cbn [seq map app]. f_equal; [lia|]. f_equal. rewrite <- seq_shift, map_map.
      apply map_ext. intro. lia.
Qed.

(** * Redistribution *)
Definition lookup {A} (l : list A) (idx : list nat) : option (list A) := gather_lids l idx.

Lemma gather_app {A} (l : list A) a b :
  gather_lids l (a ++ b) = do x <- gather_lids l a; do y <- gather_lids l b; Some (x ++ y).
Proof.
  induction a as [|i t IH]; simpl.
  - destruct (gather_lids l b); auto.
  - destruct (nth_error l i); simpl; auto. rewrite IH.
    destruct (gather_lids l t); simpl; auto. destruct (gather_lids l b); auto.
Qed.

Lemma gather_nth {A} (l : list A) d idx : (forall i, In i idx -> i < length l) ->
  gather_lids l idx = Some (map (fun i => nth i l d) idx).
Proof.
  induction idx as [|i t IH]; intro H; auto. simpl.
  rewrite (nth_error_nth' l d) by (apply H; left; auto). cbn [bind].
  rewrite IH by (intros; apply H; right; auto). auto.
Qed.

Definition sorted_by (part : list nat) (enum : list nat) : Prop :=
  StronglySorted (fun a b => nth a part 0 <= nth b part 0) enum.

Lemma take_upto_spec {A} part (elems : list A) d p :
  forall enum, sorted_by part enum ->
  (forall i, In i enum -> i < length part) -> length elems = length part ->
  take_upto part elems p enum =
   Some (length (filter (fun i => nth i part 0 <=? p) enum),
         map (fun i => nth i elems d) (filter (fun i => nth i part 0 <=? p) enum),
         filter (fun i => negb (nth i part 0 <=? p)) enum).
Proof.
  induction enum as [|i t IH]; intros S B L; auto.
  cbn [take_upto filter]. rewrite (nth_error_nth' part 0) by (apply B; left; auto). cbn [bind].
  inversion S as [|? ? S' F]; subst.
  destruct (Nat.leb_spec (nth i part 0) p) as [K|K].
  - rewrite (nth_error_nth' elems d) by (rewrite L; apply B; left; auto). cbn [bind].
    rewrite IH by (auto; intros; apply B; right; auto). cbn [bind negb]. auto.
  - cbn [negb].
    assert (N : forall j, In j t -> (nth j part 0 <=? p) = false).
    { intros j Hj. apply Nat.leb_gt. rewrite Forall_forall in F. specialize (F j Hj). lia. }
    assert (E : filter (fun i => nth i part 0 <=? p) t = []).
    { clear -N. induction t; auto. simpl. rewrite N by (left; auto). apply IHt.
      intros; apply N; right; auto. }
    assert (E' : filter (fun i => negb (nth i part 0 <=? p)) t = t).
    { clear -N. induction t; auto. simpl. rewrite N by (left; auto). simpl. f_equal. apply IHt.
      intros; apply N; right; auto. }
    rewrite E, E'. reflexivity.
Qed.

Lemma sorted_filter part f enum : sorted_by part enum -> sorted_by part (filter f enum).
Proof.
  induction enum as [|i t IH]; intro S; [constructor|]. inversion S as [|? ? S' F]; subst. simpl.
  destruct (f i); auto. constructor; [apply IH; auto|].
  rewrite Forall_forall in *. intros j Hj. apply filter_In in Hj. apply F. tauto.
Qed.

Lemma filter_filter {A} (f g : A -> bool) l : filter f (filter g l) = filter (fun x => g x && f x) l.
Proof. induction l as [|a l IH]; auto. simpl. destruct (g a); simpl; auto. rewrite IH. auto. Qed.

Definition bucket (part : list nat) (enum : list nat) (q : nat) : list nat :=
  filter (fun i => nth i part 0 =? q) enum.

Lemma pack_loop_spec {A} part (elems : list A) d : length elems = length part ->
  forall n p enum, sorted_by part enum ->
  (forall i, In i enum -> i < length part /\ p <= nth i part 0) ->
  pack_loop part elems (seq p n) enum =
   Some (map (fun q => length (bucket part enum q)) (seq p n),
         concat (map (fun q => map (fun i => nth i elems d) (bucket part enum q)) (seq p n))).
Proof.
  intros L. induction n as [|n IH]; intros p enum SS B; auto.
  cbn [seq pack_loop]. rewrite (take_upto_spec part elems d p enum SS (fun i Hi => proj1 (B i Hi)) L).
  cbn [bind].
  rewrite (IH (S p)); [|apply sorted_filter; auto|].
  2:{ intros i Hi. apply filter_In in Hi. destruct Hi as [Hi Hn]. split; [apply B; auto|].
      apply negb_true_iff, Nat.leb_gt in Hn. lia. }
  cbn [bind fst snd map concat].
  assert (E0 : filter (fun i => nth i part 0 <=? p) enum = bucket part enum p).
  { apply filter_ext_in. intros i Hi. destruct (B i Hi).
    destruct (Nat.leb_spec (nth i part 0) p), (Nat.eqb_spec (nth i part 0) p); auto; lia. }
  assert (E1 : forall q, In q (seq (S p) n) ->
     bucket part (filter (fun i => negb (nth i part 0 <=? p)) enum) q = bucket part enum q).
  { intros q Hq. apply in_seq in Hq. unfold bucket. rewrite filter_filter. apply filter_ext_in.
    intros i Hi. destruct (Nat.leb_spec (nth i part 0) p), (Nat.eqb_spec (nth i part 0) q); auto; lia. }
  rewrite E0. f_equal. f_equal.
  - f_equal. apply map_ext_in. intros q Hq. rewrite E1; auto.
  - f_equal. f_equal. apply map_ext_in. intros q Hq. rewrite E1; auto.
Qed.


Lemma buckets_concat part n : forall p enum, sorted_by part enum ->
  (forall i, In i enum -> p <= nth i part 0 < p + n) ->
  concat (map (bucket part enum) (seq p n)) = enum.
Proof.
  intros p enum. induction enum as [|i t IH]; intros SS B.
  - unfold bucket. simpl. induction (seq p n); auto.
  - inversion SS as [|? ? S' F]; subst. rewrite Forall_forall in F.
    assert (Hi := B i (or_introl eq_refl)).
    specialize (IH S' (fun j Hj => B j (or_intror Hj))).
    set (v := nth i part 0) in *.
    assert (Sp : seq p n = seq p (v - p) ++ v :: seq (S v) (p + n - S v)).
    { replace n with ((v - p) + S (p + n - S v)) at 1 by lia. rewrite seq_app. f_equal.
      replace (p + (v - p)) with v by lia. reflexivity. }
    rewrite Sp in *. rewrite !map_app, !concat_app in *. cbn [map concat] in *.
    assert (Z : forall enum', (forall j, In j enum' -> v <= nth j part 0) ->
                concat (map (bucket part enum') (seq p (v - p))) = []).
    { intros enum' He. apply concat_nil_Forall. apply Forall_forall. intros l Hl.
      apply in_map_iff in Hl. destruct Hl as (q & <- & Hq). apply in_seq in Hq.
      unfold bucket. clear -He Hq. induction enum' as [|a e IHe]; auto. simpl.
      assert (v <= nth a part 0) by (apply He; left; auto).
      destruct (Nat.eqb_spec (nth a part 0) q); [lia|]. apply IHe. intros; apply He; right; auto. }
    rewrite Z in IH by (intros; apply F; auto).
    rewrite Z by (intros j [<-|Hj]; [lia|apply F; auto]).
    simpl app in *. unfold bucket at 1. simpl filter. fold v. rewrite Nat.eqb_refl.
    cbn [app]. f_equal. transitivity (bucket part t v ++ concat (map (bucket part t) (seq (S v) (p + n - S v)))); [|exact IH].
    f_equal. f_equal. apply map_ext_in. intros q Hq. apply in_seq in Hq. unfold bucket. simpl. fold v.
    destruct (Nat.eqb_spec v q); [lia|auto].
Qed.

Lemma all_ranks_spec {A} procs (f : nat -> option A) :
  all_ranks procs f = true <-> forall q, q < procs -> exists x, f q = Some x.
Proof.
  unfold all_ranks. rewrite forallb_forall. split; intros H q Hq.
  - specialize (H q). rewrite in_seq in H. specialize (H ltac:(lia)). destruct (f q); eauto. discriminate.
  - apply in_seq in Hq. destruct (H q ltac:(lia)) as [x ->]. auto.
Qed.

Lemma all_ranks_ok {A} procs (f : nat -> option A) g :
  (forall q, q < procs -> f q = Some (g q)) -> all_ranks procs f = true.
Proof. intro H. apply all_ranks_spec. intros q Hq. rewrite H by auto. eauto. Qed.

Lemma mk_all_ext procs all all' q : (forall p, p < procs -> all p = all' p) -> q < procs ->
  mk_alltoallv procs all q = mk_alltoallv procs all' q.
Proof.
  intros H Hq. unfold mk_alltoallv. rewrite (H q Hq).
  replace (map (fun p => nth q (all p) 0) (seq 0 procs)) with (map (fun p => nth q (all' p) 0) (seq 0 procs)); auto.
  apply map_ext_in. intros p Hp. apply in_seq in Hp. rewrite H by lia. auto.
Qed.

Lemma pat_blocks_ext procs cnt permq pat pat' :
  (forall q, q < procs -> pat q = pat' q) -> pat_blocks procs cnt permq pat -> pat_blocks procs cnt permq pat'.
Proof. intros E H q Hq. rewrite <- E by auto. apply H; auto. Qed.

Definition valid_enum (part : list nat) (enum : list nat) : Prop :=
  Permutation enum (seq 0 (length part)) /\ sorted_by part enum.

Lemma doPartition_spec {A} dE (dA : A) procs part enum elems (data : nat -> list A) o1 o2 :
  0 < procs ->
  (forall p, p < procs -> length (elems p) = length (part p) /\ length (data p) = length (part p) /\
     valid_enum (part p) (enum p) /\ (forall x, In x (part p) -> x < procs)) ->
  Permutation o1 (seq 0 procs) -> Permutation o2 (seq 0 procs) ->
  forall q, q < procs ->
  doPartition dE dA procs part enum elems data o1 o2 q =
    Some (concat (map (fun p => map (fun i => nth i (elems p) dE) (bucket (part p) (enum p) q)) (seq 0 procs)),
          concat (map (fun p => map (fun i => nth i (data p) dA) (bucket (part p) (enum p) q)) (seq 0 procs))).
Proof.
  intros H0 H P1 P2 q Hq.
  assert (B : forall p i, p < procs -> In i (enum p) -> i < length (part p) /\ nth i (part p) 0 < procs).
  { intros p i Hp Hi. destruct (H p Hp) as (_ & _ & [Pe _] & Hx).
    apply (Permutation_in _ Pe) in Hi. apply in_seq in Hi. split; [lia|]. apply Hx. apply nth_In. lia. }
  assert (Pk : forall p, p < procs -> pack_loop (part p) (elems p) (seq 0 procs) (enum p) =
     Some (map (fun q => length (bucket (part p) (enum p) q)) (seq 0 procs),
           concat (map (fun q => map (fun i => nth i (elems p) dE) (bucket (part p) (enum p) q)) (seq 0 procs)))).
  { intros p Hp. destruct (H p Hp) as (L1 & L2 & [Pe Se] & Hx). apply pack_loop_spec; auto.
    intros i Hi. split; [apply B; auto|lia]. }
  assert (Ga : forall p, p < procs -> gather_lids (data p) (enum p) = Some (map (fun i => nth i (data p) dA) (enum p))).
  { intros p Hp. destruct (H p Hp) as (L1 & L2 & _). apply gather_nth. intros i Hi. rewrite L2. apply B; auto. }
  destruct (mk_pat_blocks procs (fun p q => length (bucket (part p) (enum p) q)) H0) as (pat & Ep & Pb).
  unfold doPartition.
  rewrite (all_ranks_ok _ _ _ Pk), (all_ranks_ok _ _ _ Ga). cbn [andb].
  set (counts := fun p => fst (get ([], []) (pack_loop (part p) (elems p) (seq 0 procs) (enum p)))).
  assert (Ec : forall p, p < procs -> counts p = map (fun q => length (bucket (part p) (enum p) q)) (seq 0 procs)).
  { intros p Hp. unfold counts. rewrite Pk by auto. auto. }
  assert (Em : forall p, p < procs -> mk_alltoallv procs counts p = Some (pat p)).
  { intros p Hp. rewrite <- Ep by auto. apply mk_all_ext; auto. }
  rewrite (all_ranks_ok procs (fun p => mk_alltoallv procs counts p) pat Em).
  set (pat' := fun p => get {| sendcounts := []; recvcounts := []; sdispls := []; rdispls := [] |} (mk_alltoallv procs counts p)).
  assert (Pb' : pat_blocks procs (fun p q => length (bucket (part p) (enum p) q)) (fun _ => seq 0 procs) pat').
  { eapply pat_blocks_ext; [|exact Pb]. intros p Hp. unfold pat'. rewrite Em; auto. }
  rewrite (exchange_blocks dE procs _ _ pat' (fun p q => map (fun i => nth i (elems p) dE) (bucket (part p) (enum p) q)) _ o1 q H0 Pb'); auto.
  2:{ intros. apply map_length. }
  2:{ intros p Hp. rewrite Pk by auto. reflexivity. }
  cbn [bind].
  rewrite (exchange_blocks dA procs _ _ pat' (fun p q => map (fun i => nth i (data p) dA) (bucket (part p) (enum p) q)) _ o2 q H0 Pb'); auto.
  { intros. apply map_length. }
  intros p Hp. rewrite Ga by auto. cbn [get]. unfold layout.
  destruct (H p Hp) as (L1 & L2 & [Pe Se] & Hx).
  rewrite <- (buckets_concat (part p) procs 0 (enum p) Se) at 1.
  2:{ intros i Hi. destruct (B p i Hp Hi). lia. }
  rewrite concat_map, map_map. auto.
Qed.
