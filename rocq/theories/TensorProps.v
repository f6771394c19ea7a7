(** Property theorems: tensors, subtensors, copies and permuting a mode (C12, C04). *)
Require Import List Arith Lia Bool Permutation.
Require Import Verif.Base Verif.CommProofs Verif.MultiIndexModel Verif.MultiIndexProofs
  Verif.MultiIndexProps Verif.AlgorithmModel Verif.AlgorithmProofs Verif.TensorModel Verif.TensorProofs.
Import ListNotations.
Local Open Scope opt_scope.

(** C12a: the elements of a packed tensor are in bijection with the cells off, ..., off+size-1,
    numbered with the first index running fastest, and size() is the product of the extents. *)
Theorem packed_tensor_layout : forall off shape,
  (shape <> [] -> v_size (packed off shape) = extent shape) /\
  (forall e, in_shape e shape -> v_addr (packed off shape) e = off + flatten e shape) /\
  (forall e, in_shape e shape -> off <= v_addr (packed off shape) e < off + extent shape) /\
  (forall e e', in_shape e shape -> in_shape e' shape ->
     v_addr (packed off shape) e = v_addr (packed off shape) e' -> e = e') /\
  (forall a, off <= a < off + extent shape ->
     exists e, in_shape e shape /\ v_addr (packed off shape) e = a).
Proof.
  intros off shape.
  assert (Ad : forall e, in_shape e shape -> v_addr (packed off shape) e = off + flat e shape).
  { intros e R. unfold v_addr, packed. cbn [v_off v_stride]. unfold computeStride.
    rewrite address_packed by (apply inrange_length; auto). lia. }
  split; [|split; [|split; [|split]]].
  - intro H. unfold v_size, packed, computeStride. cbn [v_shape v_stride].
    rewrite (last_stride shape 1 H), (extent_prodl shape). lia.
  - intros e R. rewrite Ad by auto. rewrite flatten_flat; auto. apply inrange_length; auto.
  - intros e R. rewrite Ad by auto. rewrite extent_prodl. pose proof (flat_bound _ _ R). lia.
  - intros e e' R R' E. rewrite !Ad in E by auto. eapply flat_inj; eauto. lia.
  - intros a H. destruct (unflatten_flatten shape (a - off)) as (e & _ & R & F); [lia|].
    exists e. split; auto. rewrite Ad by auto. rewrite flatten_flat in F by (apply inrange_length; auto). lia.
Qed.
Print Assumptions packed_tensor_layout.
Example packed_tensor_layout_ex : v_addr (packed 7 [2;3;4]) [1;2;3] = 7 + 1 + 2*2 + 6*3
  /\ v_size (packed 7 [2;3;4]) = 24.
Proof. split; reflexivity. Qed.

(** The entry of the parent a subtensor entry stands for: [merged args se e] when e has the fixed
    indices at the Idx positions and the entries of se, in order, at the Slice positions. *)
Inductive merged : list arg -> list nat -> list nat -> Prop :=
| merged_nil : merged [] [] []
| merged_idx i args se e : merged args se e -> merged (Idx i :: args) se (i :: e)
| merged_slice x args se e : merged args se e -> merged (Slice :: args) (x :: se) (x :: e).

Lemma merged_fill args se e : merged args se e -> e = fill args se /\ length se = length (filter is_slice args).
Proof. induction 1 as [|i a s e H [-> L]|x a s e H [-> L]]; cbn; auto. Qed.

Lemma merged_shape args se e : merged args se e -> forall shape, length args = length shape ->
  (forall i a s, nth_error args i = Some (Idx a) -> nth_error shape i = Some s -> a < s) ->
  (in_shape e shape <-> in_shape se (extract args shape)).
Proof.
  induction 1 as [|i a s e H IH|x a s e H IH]; intros [|n ns] L F; try discriminate; cbn.
  - tauto.
  - rewrite <- IH; [|simpl in L; lia|intros k b c E1 E2; apply (F (S k) b c); auto].
    split; intro Q; [inversion Q; auto|constructor; auto].
    apply (F 0 i n); reflexivity.
  - split; intro Q; inversion Q; subst; constructor; auto; apply (IH ns); auto;
      intros k b c E1 E2; apply (F (S k) b c); auto.
Qed.

(** A view built from a packed tensor by taking subtensors any number of times. *)
Inductive view_of : view -> Prop :=
| view_of_packed off shape : view_of (packed off shape)
| view_of_sub v args : view_of v -> length args = length (v_shape v) -> view_of (subtensor v args).

Lemma view_of_wf v : view_of v -> length (v_stride v) = length (v_shape v) /\
  (v_packed v = true -> v_stride v = computeStride (v_shape v)).
Proof.
  induction 1 as [off shape|v args H [L P] La].
  - cbn. split; auto. apply strides_length.
  - unfold subtensor. destruct (v_packed v && slices_prefix args) eqn:B; cbn.
    + split; auto. apply strides_length.
    + split; [|discriminate]. clear B P. revert La L. generalize (v_shape v) (v_stride v). clear.
      induction args as [|a t IH]; intros [|x xs] [|y ys] L1 L2; try discriminate; auto.
      cbn in *. destruct (is_slice a); cbn; rewrite (IH xs ys); auto.
Qed.

(** C12b: element [se] of a subtensor is the element of the parent with the fixed indices filled
    in, whether or not the result is packed. *)
Theorem subtensor_refers_to_parent : forall v args se e,
  view_of v -> length args = length (v_shape v) -> merged args se e ->
  v_addr (subtensor v args) se = v_addr v e /\
  v_shape (subtensor v args) = extract args (v_shape v).
Proof.
  intros v args se e V L M. destruct (view_of_wf v V) as [Ls P].
  destruct (merged_fill _ _ _ M) as [-> Lf].
  assert (E : address (v_stride v) (map arg_index args) + address (extract args (v_stride v)) se
              = address (v_stride v) (fill args se)) by (apply sub_address; auto; lia).
  unfold subtensor. destruct (v_packed v && slices_prefix args) eqn:B.
  - apply andb_prop in B. destruct B as [Bp Bs]. split; auto.
    unfold v_addr. cbn [packed v_off v_stride]. rewrite <- E, (P Bp). unfold computeStride.
    rewrite (extract_strides args) by auto. lia.
  - split; auto. unfold v_addr. cbn [v_off v_stride]. lia.
Qed.
Print Assumptions subtensor_refers_to_parent.
Example subtensor_ex : merged [Slice; Idx 2; Slice] [1;3] [1;2;3]
  /\ v_addr (subtensor (packed 0 [2;3;4]) [Slice; Idx 2; Slice]) [1;3] = v_addr (packed 0 [2;3;4]) [1;2;3]
  /\ v_shape (subtensor (packed 0 [2;3;4]) [Slice; Idx 2; Slice]) = [2;4].
Proof. split; [repeat constructor|split; reflexivity]. Qed.

(** In-range subtensor entries correspond to in-range parent entries. *)
Theorem subtensor_in_range : forall v args se e,
  length args = length (v_shape v) -> merged args se e ->
  (forall i a s, nth_error args i = Some (Idx a) -> nth_error (v_shape v) i = Some s -> a < s) ->
  (in_shape se (v_shape (subtensor v args)) <-> in_shape e (v_shape v)).
Proof.
  intros v args se e L M F. rewrite (merged_shape args se e M (v_shape v) L F).
  unfold subtensor. destruct (_ && _); cbn; tauto.
Qed.
Print Assumptions subtensor_in_range.

(** C12c: reshaping a packed tensor keeps the linear order of the elements. *)
Theorem reshape_keeps_order : forall v shape e e', view_of v -> v_packed v = true ->
  in_shape e (v_shape v) -> in_shape e' shape -> extent shape = extent (v_shape v) ->
  (v_addr (reshape v shape) e' = v_addr v e <-> flatten e' shape = flatten e (v_shape v)).
Proof.
  intros v shape e e' V P R R' _. destruct (view_of_wf v V) as [_ S]. specialize (S P).
  destruct (packed_tensor_layout (v_off v) shape) as (_ & A1 & _).
  destruct (packed_tensor_layout (v_off v) (v_shape v)) as (_ & A2 & _).
  unfold reshape. rewrite A1 by auto.
  replace (v_addr v e) with (v_addr (packed (v_off v) (v_shape v)) e)
    by (unfold v_addr; cbn; rewrite S; auto).
  rewrite A2 by auto. lia.
Qed.
Print Assumptions reshape_keeps_order.
Example reshape_ex : v_addr (reshape (packed 5 [2;6]) [4;3]) [3;1] = v_addr (packed 5 [2;6]) [1;3].
Proof. reflexivity. Qed.

(** The cells of the entries of a view lie in the buffer, and different entries have different
    cells. *)
Definition view_fits {A} (buf : list A) (v : view) : Prop :=
  length (v_stride v) = length (v_shape v) /\
  forall e, in_shape e (v_shape v) -> v_addr v e < length buf.
Definition view_distinct (v : view) : Prop :=
  forall e e', in_shape e (v_shape v) -> in_shape e' (v_shape v) -> v_addr v e = v_addr v e' -> e = e'.

(** C12d: copy_values copies every element and changes nothing else.  The extents of the modes
    strictly between the first and the last must be positive. *)
Theorem copy_values_copies : forall A (src tgt : list A) (sv tv : view),
  v_shape tv <> [] -> v_shape sv = v_shape tv ->
  Forall (fun s => 0 < s) (removelast (tl (v_shape tv))) ->
  view_fits src sv -> view_fits tgt tv -> view_distinct tv ->
  exists fuel tgt', copy_values fuel src sv tgt tv = Some tgt' /\ length tgt' = length tgt /\
    (forall e, in_shape e (v_shape tv) -> v_get tgt' tv e = v_get src sv e) /\
    (forall a, (forall e, in_shape e (v_shape tv) -> a <> v_addr tv e) ->
       nth_error tgt' a = nth_error tgt a).
Proof.
  intros A src tgt sv tv Hne Sh Pos Sok Tok Tinj.
  destruct (v_shape tv) as [|s0 ts] eqn:Ht; [congruence|]. cbn [tl] in Pos.
  assert (Sok' : view_ok src sv) by exact Sok. assert (Tok' : view_ok tgt tv) by exact Tok.
  unfold copy_values. rewrite Ht. cbn [length repeat].
  assert (Z : repeat 0 (length ts) = mi_begin ts).
  { unfold mi_begin. reflexivity || (induction ts; cbn; congruence). }
  destruct (list_eq_dec Nat.eq_dec ts []) as [->|Hts].
  - (* one-dimensional *)
    exists 1. cbn [length repeat copy_loop]. rewrite Ht. cbn [last Nat.eqb].
    destruct (Nat.eqb_spec 0 s0) as [<-|Hs].
    + exists tgt. split; auto. split; auto. split; auto. intros e H. inversion H; lia.
    + destruct (copy_row_step src sv tgt tv s0 [] Ht ltac:(congruence) Sok' Tok' Tinj [] tgt)
        as (t' & E & C).
      { constructor. }
      { split; auto. split; auto. cbn. intros; lia. }
      cbn [hd tl length Nat.eqb]. rewrite E. cbn [bind]. exists t'. split; [destruct s0; [lia|auto]|].
      destruct C as (L & C & O). split; auto. split; auto.
      intros e H. inversion H as [|i ? te ? Hi Hte]; subst. unfold v_get. apply C; auto. inversion Hte; cbn; lia.
  - destruct (Nat.eq_dec (last ts 0) 0) as [L0|L0].
    + exists 0, tgt. cbn [copy_loop]. rewrite Ht.
      replace (last (s0 :: ts) 0) with (last ts 0) by (destruct ts; [congruence|reflexivity]).
      assert (Lr : last (0 :: repeat 0 (length ts)) 0 = 0).
      { clear. induction ts; auto. }
      rewrite Lr, L0. cbn. split; auto. split; auto. split; auto.
      intros e H. inversion H as [|i ? te ? Hi Hte]; subst.
      pose proof (last_not_range te ts Hte Hts). lia.
    + assert (Pts : Forall (fun s => 0 < s) ts).
      { rewrite (app_removelast_last 0 Hts). apply Forall_app. split; auto. constructor; auto. lia. }
      destruct (copy_loop_spec src sv tgt tv s0 ts Ht ltac:(congruence) Sok' Tok' Tinj Hts
                  (prodl ts) (mi_begin ts) tgt) as (t' & E & C).
      { apply inrange_zero; auto. }
      { split; auto. split; auto. rewrite flat_zero. intros; lia. }
      { lia. }
      exists (prodl ts), t'. rewrite Z. split; auto. destruct C as (L & C & O). split; auto. split; auto.
      intros e H. inversion H as [|i ? te ? Hi Hte]; subst. unfold v_get. apply C; auto.
      apply flat_bound; auto.
Qed.
Print Assumptions copy_values_copies.
(** A non-trivial case: a strided 2x3 source copied into a packed target at offset 1. *)
Example copy_values_ex :
  let sv := subtensor (packed 0 [2;2;3]) [Slice; Idx 1; Slice] in
  copy_values 3 (seq 0 12) sv (repeat 99 8) (packed 1 [2;3]) = Some [99; 2; 3; 6; 7; 10; 11; 99].
Proof. reflexivity. Qed.

(** If an inner extent is zero the loop never ends: it writes nothing but never reaches its exit
    condition (with unsigned 64-bit indices it would only after 2^64 iterations). *)
Theorem copy_values_zero_extent_refuted : exists (sv tv : view) (src tgt : list nat),
  v_shape sv = v_shape tv /\ view_fits src sv /\ view_fits tgt tv /\ view_distinct tv /\
  forall fuel, copy_values fuel src sv tgt tv = None.
Proof.
  exists (packed 0 [0;0;2]), (packed 0 [0;0;2]), [], [].
  assert (F : forall e, in_shape e [0;0;2] -> False) by (intros e H; inversion H; lia).
  split; auto. split; [|split; [|split]].
  - split; auto. intros e H. destruct (F e H).
  - split; auto. intros e H. destruct (F e H).
  - intros e e' H. destruct (F e H).
  - assert (G : forall fuel k, copy_loop fuel [0; k; 0] [] (packed 0 [0;0;2]) (@nil nat) (packed 0 [0;0;2]) = None).
    { induction fuel as [|f IH]; intro k; auto. cbn. replace (k + 1) with (S k) by lia. apply IH. }
    intro fuel. apply G.
Qed.

(** C04 (tensors): permuting a mode with apply_permutation moves, for every choice of the other
    indices, entry p[i] of the mode to entry i, and touches nothing else. *)
Theorem apply_permutation_tensor_correct : forall A (v : view) (p : list nat) mode (buf : list A),
  2 <= length (v_shape v) -> mode < length (v_shape v) ->
  Permutation p (seq 0 (nth mode (v_shape v) 0)) ->
  Forall (fun s => 0 < s) (removelast (remove_mode (v_shape v) mode)) ->
  view_fits buf v -> view_distinct v ->
  exists buf', apply_permutation_tensor v p mode buf = Some buf' /\ length buf' = length buf /\
    (forall before i after, length before = mode -> in_shape (before ++ i :: after) (v_shape v) ->
       v_get buf' v (before ++ i :: after) = v_get buf v (before ++ nth i p 0 :: after)) /\
    (forall a, (forall e, in_shape e (v_shape v) -> a <> v_addr v e) ->
       nth_error buf' a = nth_error buf a).
Proof.
  intros A v p mode buf HD Hm Pm Pos Vf Vd.
  pose proof (swap_tensor_law v mode buf HD Hm Pos Vf Vd) as Law. cbv zeta in Law.
  pose proof (Permutation_length Pm) as Lp. rewrite seq_length in Lp.
  destruct (apply_permutation_spec _ _ _ _ Law p buf Lp Pm) as (b' & E & [L O] & G).
  { split; auto. }
  exists b'. split; auto. split; auto. split; auto.
  intros before i after Lb R.
  assert (Ie : forall k, before ++ k :: after = insert_mode mode k (before ++ after)).
  { intro k. unfold insert_mode. rewrite <- Lb. rewrite firstn_app, skipn_app, firstn_all, skipn_all, Nat.sub_diag.
    cbn. rewrite app_nil_r. auto. }
  rewrite Ie in R.
  assert (Q : inrange (before ++ after) (remove_mode (v_shape v) mode) /\ i < nth mode (v_shape v) 0).
  { apply inrange_insert; auto. split; auto. apply inrange_length in R.
    unfold insert_mode in R. rewrite app_length in R. cbn in R.
    rewrite firstn_length, skipn_length in R. rewrite app_length in *. lia. }
  destruct Q as [Q1 Q2]. rewrite !Ie.
  exact (G i (exist (fun r => inrange r (remove_mode (v_shape v) mode)) _ Q1) Q2).
Qed.
Print Assumptions apply_permutation_tensor_correct.
Example apply_permutation_tensor_ex :
  apply_permutation_tensor (packed 0 [2;3]) [2;0;1] 1 [0;1; 10;11; 20;21] = Some [20;21; 0;1; 10;11].
Proof. reflexivity. Qed.
