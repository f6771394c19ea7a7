(** Property C32: VTU appended data offsets, point layout and file list. *)
Require Import List ZArith Bool Arith Lia.
Require Import Verif.Base Verif.VtuModel.
Import ListNotations.

(** ** Specification: how a reader interprets the appended section *)

Fixpoint le_value (b : bytes) : Z :=
  match b with [] => 0 | x :: r => x + 256 * le_value r end%Z.
Definition u64_value (big_endian : bool) (b : bytes) : Z :=
  le_value (if big_endian then rev b else b).

Definition slice (o n : nat) (s : bytes) : bytes := firstn n (skipn o s).

(** Uncompressed: a 64 bit length, then the data. *)
Definition read_plain (be : bool) (s : bytes) (offset : nat) : bytes :=
  let n := Z.to_nat (u64_value be (slice offset 8 s)) in slice (offset + 8) n s.

(** Compressed with one block: number of blocks, block size, size of the last block if it is only
    partially filled (0 if it is full), compressed size, then the compressed block.  The result is the
    size of the data according to the header and the decompressed data; None if there is more than
    one block. *)
Definition read_zlib (be : bool) (decompress : bytes -> bytes) (s : bytes) (offset : nat)
    : option (Z * bytes) :=
  if (u64_value be (slice offset 8 s) =? 1)%Z then
    let block := u64_value be (slice (offset + 8) 8 s) in
    let partial := u64_value be (slice (offset + 16) 8 s) in
    let size := if (partial =? 0)%Z then block else partial in
    let n := Z.to_nat (u64_value be (slice (offset + 24) 8 s)) in
    Some (size, decompress (slice (offset + 32) n s))
  else None.

(** All arrays in document order. *)
Definition piece_arrays (p : piece) : list data_array :=
  [pc_points p; pc_conn p; pc_offsets p; pc_types p] ++ pc_cell p ++ pc_point p.
Definition writer_arrays (ps : list piece) (field : list data_array) : list data_array :=
  flat_map piece_arrays ps ++ field.

(** ** Proofs: offsets *)

Lemma arrays_xml_spec : forall l o,
  snd (arrays_xml l o) = o + length (flat_map da_app l) /\
  length (fst (arrays_xml l o)) = length l /\
  forall i a, nth_error l i = Some a ->
    nth_error (fst (arrays_xml l o)) i = Some (da_name a, o + length (flat_map da_app (firstn i l))).
Proof.
  induction l as [|a r IH]; intro o.
  - cbn. split; [lia|]. split; [reflexivity|]. intros [|i] a H; discriminate.
  - cbn [arrays_xml array_xml]. specialize (IH (o + length (da_app a))).
    destruct (arrays_xml r (o + length (da_app a))) as [y o'] eqn:E.
    cbn [fst snd] in IH |- *. destruct IH as (I1 & I2 & I3).
    cbn [flat_map app length]. rewrite app_length. split; [lia|]. split; [lia|].
    intros [|i] b H; cbn in H.
    + injection H as <-. cbn. f_equal. f_equal. lia.
    + cbn [nth_error]. rewrite (I3 i b H). cbn [firstn flat_map]. rewrite app_length.
      f_equal. f_equal. lia.
Qed.

Lemma arrays_xml_app : forall l m o,
  arrays_xml (l ++ m) o =
  (fst (arrays_xml l o) ++ fst (arrays_xml m (snd (arrays_xml l o))),
   snd (arrays_xml m (snd (arrays_xml l o)))).
Proof.
  induction l as [|a r IH]; intros m o.
  - cbn. destruct (arrays_xml m o); reflexivity.
  - cbn [app arrays_xml array_xml]. rewrite IH.
    destruct (arrays_xml r (o + length (da_app a))) as [y o'] eqn:E. cbn [fst snd app]. reflexivity.
Qed.

Lemma piece_xml_arrays : forall p o, piece_xml p o = arrays_xml (piece_arrays p) o.
Proof.
  intros p o. unfold piece_xml, piece_arrays. cbn [app arrays_xml array_xml].
  rewrite arrays_xml_app.
  set (o4 := o + _ + _ + _ + _). destruct (arrays_xml (pc_cell p) o4) as [x5 o5] eqn:E5. cbn [fst snd].
  destruct (arrays_xml (pc_point p) o5) as [x6 o6]. reflexivity.
Qed.

Lemma pieces_xml_arrays : forall ps o, pieces_xml ps o = arrays_xml (flat_map piece_arrays ps) o.
Proof.
  induction ps as [|p ps IH]; intro o; [reflexivity|].
  cbn [pieces_xml flat_map]. rewrite piece_xml_arrays, arrays_xml_app.
  destruct (arrays_xml (piece_arrays p) o) as [x o1]. rewrite IH. cbn [fst snd].
  destruct (arrays_xml (flat_map piece_arrays ps) o1). reflexivity.
Qed.

Lemma writer_xml_arrays : forall ps f, writer_xml ps f = fst (arrays_xml (writer_arrays ps f) 0).
Proof.
  intros ps f. unfold writer_xml, writer_arrays. rewrite pieces_xml_arrays, arrays_xml_app.
  destruct (arrays_xml (flat_map piece_arrays ps) 0) as [x o]. cbn [fst snd].
  destruct (arrays_xml f o). reflexivity.
Qed.

Lemma writer_appended_arrays : forall ps f,
  writer_appended ps f = flat_map da_app (writer_arrays ps f).
Proof.
  intros ps f. unfold writer_appended, writer_arrays. rewrite flat_map_app. f_equal.
  induction ps as [|p ps IH]; [reflexivity|]. cbn [flat_map]. rewrite flat_map_app, IH. f_equal.
  unfold piece_appended, piece_arrays. rewrite !flat_map_app. cbn [flat_map].
  rewrite app_nil_r, <- !app_assoc. reflexivity.
Qed.

(** The recorded entries are the arrays in order, the blocks follow each other without gap, and the
    bytes at the recorded offset are the array's block. *)
Theorem vtu_offsets : forall ps field,
  length (writer_xml ps field) = length (writer_arrays ps field) /\
  (forall i a, nth_error (writer_arrays ps field) i = Some a ->
     exists o, nth_error (writer_xml ps field) i = Some (da_name a, o) /\
               slice o (length (da_app a)) (writer_appended ps field) = da_app a) /\
  (forall i a n o n' o', nth_error (writer_arrays ps field) i = Some a ->
     nth_error (writer_xml ps field) i = Some (n, o) ->
     nth_error (writer_xml ps field) (S i) = Some (n', o') -> o' = o + length (da_app a)) /\
  (forall n o, nth_error (writer_xml ps field) 0 = Some (n, o) -> o = 0) /\
  length (writer_appended ps field) = list_sum (map (fun a => length (da_app a)) (writer_arrays ps field)).
Proof.
  intros ps field. rewrite writer_xml_arrays, writer_appended_arrays.
  set (l := writer_arrays ps field). destruct (arrays_xml_spec l 0) as (_ & Hlen & Hnth).
  split; [exact Hlen|]. split; [|split; [|split]].
  - intros i a Ha. exists (0 + length (flat_map da_app (firstn i l))). split; [apply Hnth; exact Ha|].
    rewrite Nat.add_0_l. unfold slice.
    apply nth_error_split in Ha. destruct Ha as (l1 & l2 & El & Hl1).
    rewrite El. rewrite firstn_app, <- Hl1, firstn_all, Nat.sub_diag. cbn [firstn]. rewrite app_nil_r.
    rewrite flat_map_app. cbn [flat_map].
    rewrite skipn_app, skipn_all, Nat.sub_diag. cbn [skipn app].
    rewrite firstn_app, firstn_all, Nat.sub_diag. cbn [firstn]. apply app_nil_r.
  - intros i a n o n' o' Ha Ho Ho'. rewrite (Hnth i a Ha) in Ho. injection Ho as _ <-.
    destruct (nth_error l (S i)) as [b|] eqn:Hb.
    + rewrite (Hnth (S i) b Hb) in Ho'. injection Ho' as _ <-.
      assert (E : firstn (S i) l = firstn i l ++ [a]).
      { clearbody l. clear - Ha. revert l Ha. induction i; intros [|x l] Ha; try discriminate.
        - cbn in Ha. injection Ha as ->. reflexivity.
        - cbn in Ha. change (firstn (S (S i)) (x :: l)) with (x :: firstn (S i) l).
          rewrite (IHi l Ha). reflexivity. }
      change (match l with [] => [] | a0 :: l0 => a0 :: firstn i l0 end) with (firstn (S i) l).
      rewrite E, flat_map_app, app_length. cbn [flat_map]. rewrite app_nil_r. lia.
    + apply nth_error_None in Hb. exfalso.
      assert (nth_error (fst (arrays_xml l 0)) (S i) <> None) as H by congruence.
      apply nth_error_Some in H. rewrite Hlen in H. lia.
  - intros n o Ho. destruct l as [|a l']; [discriminate|].
    rewrite (Hnth 0 a eq_refl) in Ho. injection Ho as _ <-. reflexivity.
  - clear. induction l as [|a l IH]; [reflexivity|]. cbn [flat_map map list_sum fold_right].
    rewrite app_length, IH. reflexivity.
Qed.

(** ** Reading back *)

Lemma le_bytes_length : forall k n, length (le_bytes k n) = k.
Proof. induction k; intro n; cbn; [reflexivity|]. rewrite IHk. reflexivity. Qed.

Lemma le_value_bytes : forall k n, (0 <= n < 256 ^ Z.of_nat k)%Z -> le_value (le_bytes k n) = n.
Proof.
  induction k as [|k IH]; intros n H.
  - cbn in *. lia.
  - cbn [le_bytes le_value]. rewrite IH.
    + rewrite Z.add_comm. rewrite <- Z.div_mod by lia. reflexivity.
    + rewrite Nat2Z.inj_succ, Z.pow_succ_r in H by lia.
      split; [apply Z.div_pos; lia|]. apply Z.div_lt_upper_bound; lia.
Qed.

Lemma u64_length : forall be n, length (u64 be n) = 8.
Proof. intros [] n; unfold u64; rewrite ?rev_length; apply le_bytes_length. Qed.

Lemma u64_value_u64 : forall be n, (0 <= n < 2 ^ 64)%Z -> u64_value be (u64 be n) = n.
Proof.
  intros be n H. assert (E : le_value (le_bytes 8 n) = n).
  { apply le_value_bytes. change (256 ^ Z.of_nat 8)%Z with (2 ^ 64)%Z. exact H. }
  unfold u64_value, u64. destruct be; rewrite ?rev_involutive; exact E.
Qed.

Lemma skipn_skipn' : forall (A : Type) a b (l : list A), skipn a (skipn b l) = skipn (a + b) l.
Proof.
  induction b as [|b IH]; intro l; [rewrite Nat.add_0_r; reflexivity|].
  destruct l as [|x l]; [rewrite !skipn_nil; reflexivity|].
  rewrite Nat.add_succ_r. cbn [skipn]. apply IH.
Qed.

Lemma slice_slice : forall o n a b s, a + b <= n -> slice (o + a) b s = slice a b (slice o n s).
Proof.
  intros o n a b s H. unfold slice. rewrite skipn_firstn_comm, firstn_firstn.
  rewrite Nat.min_l by lia. rewrite Nat.add_comm, <- skipn_skipn'. reflexivity.
Qed.

Lemma slice_prefix : forall a b, slice 0 (length a) (a ++ b) = a.
Proof. intros a b. unfold slice. cbn. rewrite firstn_app, firstn_all, Nat.sub_diag. cbn. apply app_nil_r. Qed.

Lemma slice_app : forall a b n m, n = length a -> slice n m (a ++ b) = slice 0 m b.
Proof.
  intros a b n m ->. unfold slice. rewrite skipn_app, skipn_all, Nat.sub_diag. reflexivity.
Qed.

(** Reading the appended section at the recorded offset gives the data handed to the writer:
    uncompressed, ... *)
Theorem vtu_read_back : forall be ps field i name data,
  nth_error (writer_arrays ps field) i = Some (make_array be None name data) ->
  (Z.of_nat (length data) < 2 ^ 64)%Z ->
  exists o, nth_error (writer_xml ps field) i = Some (name, o) /\
            read_plain be (writer_appended ps field) o = data.
Proof.
  intros be ps field i name data Hi Hsize.
  destruct (vtu_offsets ps field) as (_ & H & _). destruct (H i _ Hi) as (o & Ho & Hs).
  exists o. split; [exact Ho|]. cbn [make_array da_app] in Hs. rewrite app_length, u64_length in Hs.
  set (s := writer_appended ps field) in *. clearbody s.
  unfold read_plain.
  assert (E8 : slice o 8 s = u64 be (Z.of_nat (length data))).
  { rewrite <- (Nat.add_0_r o). rewrite (slice_slice o (8 + length data)) by lia. rewrite Hs.
    rewrite <- (u64_length be (Z.of_nat (length data))) at 1. apply slice_prefix. }
  rewrite E8, u64_value_u64 by lia. rewrite Nat2Z.id.
  rewrite (slice_slice o (8 + length data)) by lia. rewrite Hs.
  rewrite slice_app by (rewrite u64_length; reflexivity).
  unfold slice. cbn [skipn]. apply firstn_all.
Qed.

(** ... and compressed, for any compression that can be undone. *)
Theorem vtu_read_back_zlib : forall be compress decompress ps field i name data,
  decompress (compress data) = data ->
  nth_error (writer_arrays ps field) i = Some (make_array be (Some compress) name data) ->
  (Z.of_nat (length data) < 2 ^ 64)%Z -> (Z.of_nat (length (compress data)) < 2 ^ 64)%Z ->
  exists o, nth_error (writer_xml ps field) i = Some (name, o) /\
            read_zlib be decompress (writer_appended ps field) o = Some (Z.of_nat (length data), data).
Proof.
  intros be compress decompress ps field i name data Hd Hi Hsize Hcsize.
  destruct (vtu_offsets ps field) as (_ & H & _). destruct (H i _ Hi) as (o & Ho & Hs).
  exists o. split; [exact Ho|]. cbn [make_array da_app] in Hs. cbv zeta in Hs.
  rewrite !app_length, !u64_length in Hs.
  set (s := writer_appended ps field) in *. clearbody s. set (c := compress data) in *.
  set (n := Z.of_nat (length data)) in *. set (N := 8 + (8 + (8 + (8 + length c)))) in *.
  unfold read_zlib.
  assert (E1 : slice o 8 s = u64 be 1).
  { rewrite <- (Nat.add_0_r o). rewrite (slice_slice o N) by lia. rewrite Hs.
    rewrite <- (u64_length be 1) at 1. apply slice_prefix. }
  assert (E2 : slice (o + 8) 8 s = u64 be n).
  { rewrite (slice_slice o N) by lia. rewrite Hs. rewrite slice_app by (rewrite u64_length; reflexivity).
    rewrite <- (u64_length be n) at 1. apply slice_prefix. }
  assert (E3 : slice (o + 16) 8 s = u64 be n).
  { rewrite (slice_slice o N) by lia. rewrite Hs.
    rewrite (app_assoc (u64 be 1)).
    rewrite slice_app by (rewrite !app_length, !u64_length; reflexivity).
    rewrite <- (u64_length be n) at 1. apply slice_prefix. }
  assert (E4 : slice (o + 24) 8 s = u64 be (Z.of_nat (length c))).
  { rewrite (slice_slice o N) by lia. rewrite Hs.
    rewrite !app_assoc. rewrite <- (app_assoc _ (u64 be (Z.of_nat (length c)))).
    rewrite slice_app by (rewrite !app_length, !u64_length; reflexivity).
    rewrite <- (u64_length be (Z.of_nat (length c))) at 1. apply slice_prefix. }
  assert (E5 : slice (o + 32) (length c) s = c).
  { rewrite (slice_slice o N) by lia. rewrite Hs. rewrite !app_assoc.
    rewrite slice_app by (rewrite !app_length, !u64_length; reflexivity).
    unfold slice. cbn [skipn]. apply firstn_all. }
  rewrite E1, E2, E3, E4, !u64_value_u64 by lia. rewrite Nat2Z.id, E5, Hd.
  cbv zeta. cbn [Z.eqb Pos.eqb]. destruct (n =? 0)%Z; reflexivity.
Qed.

(** ** Points *)

Section ExpandProofs.
  Variable A : Type.
  Variable zero : A.
  Variable pd : nat.
  Hypothesis Hpd : pd <= 3.

  Lemma zero_loop_spec : forall k i buf n, k = 3 - pd \/ k < 3 - pd -> i < n -> length buf = n * 3 ->
    exists b, zero_loop A zero pd i k buf = Some b /\ length b = n * 3 /\
      forall j, nth_error b j =
        if (pd + i * 3 <=? j) && (j <? pd + k + i * 3) then Some zero else nth_error buf j.
  Proof.
    induction k as [|k IH]; intros i buf n Hk Hi Hl; cbn [zero_loop].
    - exists buf. split; [reflexivity|]. split; [exact Hl|]. intro j.
      destruct (pd + i * 3 <=? j) eqn:E1; [|reflexivity]. apply Nat.leb_le in E1.
      destruct (j <? pd + 0 + i * 3) eqn:E2; [|reflexivity]. apply Nat.ltb_lt in E2. lia.
    - destruct (upd_ok buf (pd + k + i * 3) zero) as [b1 Hb1]; [lia|]. rewrite Hb1. cbn [bind].
      apply upd_spec in Hb1. destruct Hb1 as (L1 & _ & N1).
      destruct (IH i b1 n) as (b & Hb & Lb & Nb); [lia|exact Hi|lia|].
      exists b. split; [exact Hb|]. split; [exact Lb|]. intro j. rewrite Nb, N1.
      destruct (Nat.leb_spec (pd + i * 3) j); destruct (Nat.ltb_spec j (pd + k + i * 3));
        destruct (Nat.ltb_spec j (pd + S k + i * 3)); destruct (Nat.eqb_spec j (pd + k + i * 3));
        cbn; try reflexivity; lia.
  Qed.

  Lemma copy_loop_spec : forall k i buf n, k <= pd -> i < n -> length buf = n * 3 ->
    exists b, copy_loop A pd i k buf = Some b /\ length b = n * 3 /\
      (forall d, d < k -> nth_error b (d + i * 3) = nth_error buf (d + i * pd)) /\
      (forall j, j < i * 3 \/ k + i * 3 <= j -> nth_error b j = nth_error buf j).
  Proof.
    induction k as [|d IH]; intros i buf n Hk Hi Hl; cbn [copy_loop].
    - exists buf. split; [reflexivity|]. split; [exact Hl|]. split; [intros; lia|reflexivity].
    - assert (Hr : d + i * pd < length buf) by nia.
      destruct (nth_error buf (d + i * pd)) as [v|] eqn:Ev; [|apply nth_error_None in Ev; lia].
      cbn [bind]. destruct (upd_ok buf (d + i * 3) v) as [b1 Hb1]; [lia|]. rewrite Hb1. cbn [bind].
      apply upd_spec in Hb1. destruct Hb1 as (L1 & _ & N1).
      destruct (IH i b1 n) as (b & Hb & Lb & Cb & Ob); [lia|exact Hi|lia|].
      exists b. split; [exact Hb|]. split; [exact Lb|]. split.
      + intros d' Hd'. destruct (Nat.eq_dec d' d) as [->|Hne].
        * rewrite Ob by lia. rewrite N1, Nat.eqb_refl, Ev. reflexivity.
        * rewrite Cb by lia. rewrite N1. destruct (d' + i * pd =? d + i * 3) eqn:E; [|reflexivity].
          apply Nat.eqb_eq in E. nia.
      + intros j Hj. rewrite Ob by lia. rewrite N1. destruct (j =? d + i * 3) eqn:E; [|reflexivity].
        apply Nat.eqb_eq in E. lia.
  Qed.

  Lemma expand_loop_spec : forall n m buf, n <= m -> length buf = m * 3 ->
    exists b, expand_loop A zero pd n buf = Some b /\ length b = m * 3 /\
      (forall i d, i < n -> d < 3 ->
         nth_error b (d + i * 3) = if d <? pd then nth_error buf (d + i * pd) else Some zero) /\
      (forall j, n * 3 <= j -> nth_error b j = nth_error buf j).
  Proof.
    induction n as [|i IH]; intros m buf Hn Hl; cbn [expand_loop].
    - exists buf. split; [reflexivity|]. split; [exact Hl|]. split; [intros; lia|reflexivity].
    - destruct (zero_loop_spec (3 - pd) i buf m) as (b1 & H1 & L1 & N1); [lia|lia|exact Hl|].
      rewrite H1. cbn [bind].
      destruct (copy_loop_spec pd i b1 m) as (b2 & H2 & L2 & C2 & O2); [lia|lia|exact L1|].
      rewrite H2. cbn [bind].
      destruct (IH m b2) as (b & Hb & Lb & Pb & Ob); [lia|exact L2|].
      assert (N1' : forall j, j < pd + i * 3 -> nth_error b1 j = nth_error buf j).
      { intros j Hj. rewrite N1. destruct (pd + i * 3 <=? j) eqn:E; [apply Nat.leb_le in E; lia|reflexivity]. }
      exists b. split; [exact Hb|]. split; [exact Lb|]. split.
      + intros i' d Hi' Hd. destruct (Nat.eq_dec i' i) as [->|Hne].
        * rewrite Ob by lia. destruct (d <? pd) eqn:Ed.
          -- apply Nat.ltb_lt in Ed. rewrite C2 by exact Ed. apply N1'. nia.
          -- apply Nat.ltb_ge in Ed. rewrite O2 by lia. rewrite N1.
             destruct (pd + i * 3 <=? d + i * 3) eqn:E1; [|apply Nat.leb_gt in E1; lia].
             destruct (d + i * 3 <? pd + (3 - pd) + i * 3) eqn:E2; [reflexivity|apply Nat.ltb_ge in E2; lia].
        * rewrite Pb by lia. destruct (d <? pd) eqn:Ed; [|reflexivity]. apply Nat.ltb_lt in Ed.
          assert (d + i' * pd < i * pd) by nia.
          assert (i * pd <= i * 3) by nia.
          rewrite O2 by lia. apply N1'. lia.
      + intros j Hj. rewrite Ob by lia. rewrite O2 by lia. rewrite N1.
        destruct (j <? pd + (3 - pd) + i * 3) eqn:E; [apply Nat.ltb_lt in E; lia|].
        rewrite andb_false_r. reflexivity.
  Qed.
End ExpandProofs.

(** Points of dimension up to three are stored with three coordinates: the given ones in order,
    then zeros.  No access is out of bounds. *)
Theorem points_expanded : forall (A : Type) (zero : A) pd n pts,
  pd <= 3 -> length pts = n * pd ->
  exists b, element_points A zero pd n pts = Some b /\ length b = n * 3 /\
    forall i d, i < n -> d < 3 ->
      nth (d + i * 3) b zero = if d <? pd then nth (d + i * pd) pts zero else zero.
Proof.
  intros A zero pd n pts Hpd Hl. unfold element_points.
  assert (Hlb : length (pts ++ repeat zero (n * 3 - length pts)) = n * 3).
  { rewrite app_length, repeat_length. nia. }
  assert (Hpt : forall i d, i < n -> d < pd ->
    nth_error (pts ++ repeat zero (n * 3 - length pts)) (d + i * pd) = nth_error pts (d + i * pd)).
  { intros i d Hi Hd. apply nth_error_app1. nia. }
  destruct (pd <? 3) eqn:E3.
  - destruct (expand_loop_spec A zero pd Hpd n n _ (le_n n) Hlb) as (b & Hb & Lb & Pb & _).
    exists b. split; [exact Hb|]. split; [exact Lb|]. intros i d Hi Hd. specialize (Pb i d Hi Hd).
    destruct (d <? pd) eqn:Ed.
    + apply Nat.ltb_lt in Ed. rewrite Hpt in Pb by assumption.
      destruct (nth_error pts (d + i * pd)) as [v|] eqn:Ev; [|apply nth_error_None in Ev; nia].
      apply nth_error_nth with (d := zero) in Pb. apply nth_error_nth with (d := zero) in Ev. congruence.
    + apply nth_error_nth with (d := zero) in Pb. exact Pb.
  - apply Nat.ltb_ge in E3. assert (pd = 3) by lia. subst pd.
    exists (pts ++ repeat zero (n * 3 - length pts)). split; [reflexivity|]. split; [exact Hlb|].
    intros i d Hi Hd. destruct (d <? 3) eqn:Ed; [|apply Nat.ltb_ge in Ed; lia].
    apply app_nth1. nia.
Qed.

(** The whole mesh of a group: cell e refers through connectivity and offsets to points whose
    coordinates are those of element e in the order of ranks and elements, with zeros appended. *)
Theorem vtu_cells : forall (A : Type) (zero : A) pd ppe (ranks : list (list (list A))),
  pd <= 3 -> (forall els e, In els ranks -> In e els -> length e = ppe * pd) ->
  (Z.of_nat (length (concat ranks) * ppe) <= int32_max)%Z ->
  exists parts conn offs,
    map (all_points A zero pd ppe) ranks = map Some parts /\
    connectivity ppe (length (concat ranks)) = Some conn /\
    cell_offsets ppe (length (concat ranks)) = Some offs /\
    length (gather parts) = length (concat ranks) * ppe * 3 /\
    length offs = length (concat ranks) /\
    forall e k d, e < length (concat ranks) -> k < ppe -> d < 3 ->
      let first := match e with O => 0%Z | S e' => nth e' offs 0%Z end in
      (nth e offs 0 - first)%Z = Z.of_nat ppe /\
      let pt := Z.to_nat (nth (Z.to_nat first + k) conn 0%Z) in
      nth (d + pt * 3) (gather parts) zero =
        if d <? pd then nth (d + k * pd) (nth e (concat ranks) []) zero else zero.
Proof.
  intros A zero pd ppe ranks Hpd Hlen Hmax.
  assert (HA : forall els, (forall e, In e els -> length e = ppe * pd) ->
    exists b, all_points A zero pd ppe els = Some b /\ length b = length els * ppe * 3 /\
      forall e k d, e < length els -> k < ppe -> d < 3 ->
        nth (d + (e * ppe + k) * 3) b zero =
          if d <? pd then nth (d + k * pd) (nth e els []) zero else zero).
  { induction els as [|x els IH]; intros H.
    - exists []. split; [reflexivity|]. split; [reflexivity|]. intros e k d He. cbn in He. lia.
    - destruct (points_expanded A zero pd ppe x Hpd) as (b1 & E1 & L1 & P1); [apply H; left; reflexivity|].
      destruct IH as (b2 & E2 & L2 & P2); [intros; apply H; right; assumption|].
      exists (b1 ++ b2). cbn [all_points]. rewrite E1. cbn [bind]. rewrite E2. cbn [bind].
      split; [reflexivity|]. split; [rewrite app_length; cbn [length]; lia|].
      intros e k d He Hk Hd. destruct e as [|e].
      + rewrite app_nth1 by nia. cbn [Nat.mul Nat.add nth]. apply P1; assumption.
      + rewrite app_nth2 by nia. cbn [nth length] in *.
        rewrite <- (P2 e k d) by lia. f_equal. nia. }
  assert (HB : exists parts, map (all_points A zero pd ppe) ranks = map Some parts /\
    length (gather parts) = length (concat ranks) * ppe * 3 /\
    forall e k d, e < length (concat ranks) -> k < ppe -> d < 3 ->
      nth (d + (e * ppe + k) * 3) (gather parts) zero =
        if d <? pd then nth (d + k * pd) (nth e (concat ranks) []) zero else zero).
  { clear Hmax. induction ranks as [|els ranks IH].
    - exists []. split; [reflexivity|]. split; [reflexivity|]. intros e k d He. cbn in He. lia.
    - destruct (HA els) as (b & E & L & P); [intros e He; apply (Hlen els e); [left; reflexivity|exact He]|].
      destruct IH as (parts & E2 & L2 & P2); [intros els' e H1 H2; apply (Hlen els' e); [right; exact H1|exact H2]|].
      exists (b :: parts). cbn [map]. rewrite E, E2. split; [reflexivity|].
      unfold gather in *. cbn [concat]. rewrite !app_length. split; [lia|].
      intros e k d He Hk Hd. destruct (Nat.lt_ge_cases e (length els)) as [Hlt|Hge].
      + rewrite app_nth1 by nia. rewrite P by assumption.
        rewrite (app_nth1 els) by exact Hlt. reflexivity.
      + rewrite app_nth2 by nia. rewrite (app_nth2 els) by exact Hge.
        rewrite <- (P2 (e - length els) k d) by lia. f_equal. rewrite L.
        assert (Hex : exists e', e = length els + e') by (exists (e - length els); lia).
        destruct Hex as (e' & ->). replace (length els + e' - length els) with e' by lia. nia. }
  destruct HB as (parts & E & L & P).
  set (num := length (concat ranks)) in *.
  exists parts, (map Z.of_nat (seq 0 (num * ppe))), (map (fun n => Z.of_nat (ppe * n)) (seq 1 num)).
  split; [exact E|].
  unfold connectivity, cell_offsets. rewrite (proj2 (Z.leb_le _ _) Hmax).
  split; [reflexivity|]. split; [reflexivity|]. split; [exact L|].
  split; [rewrite map_length, seq_length; reflexivity|].
  intros e k d He Hk Hd.
  assert (Hn : forall e', e' < num ->
    nth e' (map (fun n => Z.of_nat (ppe * n)) (seq 1 num)) 0%Z = Z.of_nat (ppe * S e')).
  { intros e' He'. rewrite (nth_indep _ 0%Z (Z.of_nat (ppe * 0))) by (rewrite map_length, seq_length; exact He').
    rewrite map_nth with (f := fun n => Z.of_nat (ppe * n)), seq_nth by exact He'. reflexivity. }
  assert (Hf : match e with O => 0%Z | S e' => nth e' (map (fun n => Z.of_nat (ppe * n)) (seq 1 num)) 0%Z end
               = Z.of_nat (ppe * e)).
  { destruct e as [|e']; [rewrite Nat.mul_0_r; reflexivity|]. apply Hn. lia. }
  cbv zeta. rewrite Hf. rewrite (Hn e He). split; [lia|].
  assert (Hc : ppe * e + k < num * ppe) by nia.
  rewrite Nat2Z.id.
  rewrite (nth_indep _ 0%Z (Z.of_nat 0)) by (rewrite map_length, seq_length; exact Hc).
  rewrite (map_nth Z.of_nat), seq_nth by exact Hc. rewrite Nat2Z.id, Nat.add_0_l.
  rewrite <- (P e k d He Hk Hd). f_equal. lia.
Qed.

(** ** Files: each writer has its own file and the .pvtu lists exactly the files written. *)
Theorem pvtu_lists_written : forall writers, written writers = listed writers.
Proof.
  intro writers. unfold written, listed, num_writers.
  enough (G : forall w pre, map (fun r => length (filter (fun b => b) (firstn (S r) (pre ++ w))) - 1)
      (filter (fun r => nth r (pre ++ w) false) (seq (length pre) (length w))) =
      seq (length (filter (fun b => b) pre)) (length (filter (fun b => b) w))).
  { apply (G writers []). }
  induction w as [|b w IH]; intro pre; [reflexivity|].
  cbn [length seq filter].
  specialize (IH (pre ++ [b])). rewrite app_length in IH. cbn [length] in IH.
  rewrite Nat.add_1_r in IH. rewrite <- app_assoc in IH. cbn [app] in IH.
  rewrite app_nth2, Nat.sub_diag by lia. cbn [nth].
  rewrite filter_app in IH. cbn [filter] in IH. destruct b.
  - cbn [map seq length] in *. rewrite app_length in IH. cbn [length] in IH. rewrite Nat.add_1_r in IH.
    rewrite IH. f_equal.
    replace (firstn (S (length pre)) (pre ++ true :: w)) with (pre ++ [true]).
    + rewrite filter_app, app_length. cbn. lia.
    + rewrite firstn_app, firstn_all2 by lia. replace (S (length pre) - length pre) with 1 by lia. reflexivity.
  - rewrite app_nil_r in IH. exact IH.
Qed.

(** ** Examples *)

Definition ex_piece : piece :=
  {| pc_points := make_array false None 0 [1; 2; 3]%Z; pc_conn := make_array false None 1 [4]%Z;
     pc_offsets := make_array false None 2 []; pc_types := make_array false None 3 [5]%Z;
     pc_cell := [make_array false None 4 [6; 7]%Z]; pc_point := [make_array false None 5 [8]%Z] |}.

Example vtu_offsets_example :
  writer_xml [ex_piece; ex_piece] [make_array false None 6 [9]%Z] =
  [(0, 0); (1, 11); (2, 20); (3, 28); (4, 37); (5, 47);
   (0, 56); (1, 67); (2, 76); (3, 84); (4, 93); (5, 103); (6, 112)] /\
  read_plain false (writer_appended [ex_piece; ex_piece] [make_array false None 6 [9]%Z]) 93 = [6; 7]%Z.
Proof. split; reflexivity. Qed.

Example zlib_example :
  let a := make_array true (Some (fun d => d ++ d)) 0 [1; 2]%Z in
  read_zlib true (fun d => firstn (Nat.div2 (length d)) d) (writer_appended [] [a; a]) 36 =
  Some (2, [1; 2])%Z.
Proof. reflexivity. Qed.

Example points_example :
  element_points nat 0 2 3 [1; 2; 3; 4; 5; 6] = Some [1; 2; 0; 3; 4; 0; 5; 6; 0].
Proof. reflexivity. Qed.

Example cells_example :
  map (all_points nat 0 2 2) [[[1; 2; 3; 4]]; [[5; 6; 7; 8]]] =
    map Some [[1; 2; 0; 3; 4; 0]; [5; 6; 0; 7; 8; 0]] /\
  connectivity 2 2 = Some [0; 1; 2; 3]%Z /\ cell_offsets 2 2 = Some [2; 4]%Z.
Proof. split; [|split]; reflexivity. Qed.

Example files_example : written [true; false; true; true] = [0; 1; 2].
Proof. reflexivity. Qed.

Print Assumptions vtu_offsets.
Print Assumptions vtu_read_back.
Print Assumptions vtu_read_back_zlib.
Print Assumptions points_expanded.
Print Assumptions vtu_cells.
Print Assumptions pvtu_lists_written.
