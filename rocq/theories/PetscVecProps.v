(** Theorems about block vectors over processes. *)
Require Import Reals Lra Lia Arith List Permutation.
Require Import Verif.Base Verif.PetscVecModel Verif.PetscVecSpec.
Import ListNotations.
Local Open Scope nat_scope.

Lemma offset_psum : forall n r, offset n r = psum n r.
Proof. intros. unfold offset. cbn. lia. Qed.
Lemma psum_mono : forall n r r', r <= r' -> psum n r <= psum n r'.
Proof. induction 1; cbn; lia. Qed.
Lemma first_row_offset : forall n bs r, first_row n bs r = bs * offset n r.
Proof. intros. rewrite offset_psum. unfold first_row. induction r; cbn; [lia|]. rewrite IHr. lia. Qed.

(** C97.  The numbers given to the elements of all processes are exactly 0, ..., total - 1, each once, and in the order of the processes. *)
Theorem block_numbers : forall n procs,
  (forall r e, r < procs -> e < n r -> l2g n r e < psum n procs) /\
  (forall r e r' e', e < n r -> e' < n r' -> l2g n r e = l2g n r' e' -> r = r' /\ e = e') /\
  (forall g, g < psum n procs -> exists r e, r < procs /\ e < n r /\ l2g n r e = g).
Proof.
  intros n procs. unfold l2g. split; [|split].
  - intros r e Hr He. rewrite offset_psum. pose proof (psum_mono n (S r) procs Hr) as M. cbn in M. lia.
  - intros r e r' e' He He' E. rewrite !offset_psum in E. destruct (Nat.lt_trichotomy r r') as [L|[->|L]].
    + pose proof (psum_mono n (S r) r' L) as M. cbn in M. lia.
    + split; [reflexivity|lia].
    + pose proof (psum_mono n (S r') r L) as M. cbn in M. lia.
  - induction procs as [|p IH]; intros g Hg; [cbn in Hg; lia|]. cbn in Hg. destruct (Nat.lt_ge_cases g (psum n p)) as [H|H].
    + destruct (IH g H) as (r & e & A & B & C). exists r, e. repeat split; [lia|exact B|exact C].
    + exists p, (g - psum n p). rewrite offset_psum. repeat split; lia.
Qed.
Print Assumptions block_numbers.

(** The entry of process r', block i', position k lies in the block of l2g r' i'. *)
Lemma entry_block : forall n bs r i k, k < bs ->
  (first_row n bs r + (k + bs * i)) / bs = l2g n r i /\ (first_row n bs r + (k + bs * i)) mod bs = k.
Proof.
  intros n bs r i k Hk. rewrite first_row_offset. unfold l2g.
  replace (bs * offset n r + (k + bs * i)) with (k + (offset n r + i) * bs) by lia.
  rewrite Nat.div_add, Nat.mod_add by lia. rewrite Nat.div_small, Nat.mod_small by lia. split; lia.
Qed.

(** C97.  A process that inserts or adds a block finds it in the column of that number when it accesses its entries; no other column of
    any process changes.  The matrix has one column per local element. *)
Theorem block_access : forall n bs m r ib values x, 0 < bs -> ib < n r ->
  access_columns n bs r = n r /\
  exists x', set_block n bs m r ib values x = Some x' /\
    (forall k, k < bs -> begin_access n bs r x' k ib =
       match m with INSERT_VALUES => values k | ADD_VALUES => (begin_access n bs r x k ib + values k)%R end) /\
    (forall r' i' k, i' < n r' -> k < bs -> (r' <> r \/ i' <> ib) -> begin_access n bs r' x' k i' = begin_access n bs r' x k i').
Proof.
  intros n bs m r ib values x Hbs Hi. split; [unfold access_columns; apply Nat.div_mul; lia|].
  unfold set_block. rewrite (proj2 (Nat.ltb_lt _ _) Hi). eexists. split; [reflexivity|]. unfold begin_access. split.
  - intros k Hk. destruct (entry_block n bs r ib k Hk) as [A B]. rewrite A, B, Nat.eqb_refl. destruct m; reflexivity.
  - intros r' i' k Hi' Hk N. destruct (entry_block n bs r' i' k Hk) as [A B]. rewrite A.
    destruct (Nat.eqb_spec (l2g n r' i') (l2g n r ib)) as [E|]; [|reflexivity].
    destruct (proj1 (proj2 (block_numbers n 0)) r' i' r ib Hi' Hi E) as [-> ->]. destruct N; congruence.
Qed.
Print Assumptions block_access.

(** C97.  Blocks added by all processes: every entry gets the sum of what was added to it. *)
Theorem blocks_added : forall n bs l x, 0 < bs -> Forall (fun c => snd (fst c) < n (fst (fst c))) l ->
  exists x', add_blocks n bs l x = Some x' /\
    forall r i k, i < n r -> k < bs -> begin_access n bs r x' k i = (begin_access n bs r x k i + added r i k l)%R.
Proof.
  intros n bs l. induction l as [|[[r0 i0] v] l IH]; intros x Hbs HF.
  - exists x. split; [reflexivity|]. intros. cbn. lra.
  - apply Forall_cons_iff in HF. destruct HF as [H0 HF]. cbn in H0. cbn [add_blocks].
    destruct (block_access n bs ADD_VALUES r0 i0 v x Hbs H0) as (_ & x1 & E & A & B). rewrite E.
    destruct (IH x1 Hbs HF) as (x' & E' & K). exists x'. split; [exact E'|]. intros r i k Hi Hk. rewrite (K r i k Hi Hk). cbn [added].
    destruct (Nat.eqb_spec r0 r) as [->|N]; destruct (Nat.eqb_spec i0 i) as [->|N']; cbn [andb].
    + rewrite (A k Hk). lra.
    + rewrite (B r i k Hi Hk) by (right; congruence). lra.
    + rewrite (B r i k Hi Hk) by (left; congruence). lra.
    + rewrite (B r i k Hi Hk) by (left; congruence). lra.
Qed.
Print Assumptions blocks_added.

(** C97.  The order in which the processes add does not matter. *)
Theorem blocks_added_any_order : forall n bs l l' x, 0 < bs -> Forall (fun c => snd (fst c) < n (fst (fst c))) l -> Permutation l l' ->
  exists x1 x2, add_blocks n bs l x = Some x1 /\ add_blocks n bs l' x = Some x2 /\
    forall r i k, i < n r -> k < bs -> begin_access n bs r x1 k i = begin_access n bs r x2 k i.
Proof.
  intros n bs l l' x Hbs HF P. destruct (blocks_added n bs l x Hbs HF) as (x1 & E1 & K1).
  assert (HF' : Forall (fun c : nat * nat * (nat -> R) => snd (fst c) < n (fst (fst c))) l') by (rewrite <- P; exact HF).
  destruct (blocks_added n bs l' x Hbs HF') as (x2 & E2 & K2). exists x1, x2. split; [exact E1|]. split; [exact E2|].
  intros r i k Hi Hk. rewrite K1, K2 by assumption. f_equal. clear - P. induction P as [|[[? ?] ?] ? ? _ IH|[[? ?] ?] [[? ?] ?] ?|? ? ? _ IH1 _ IH2]; cbn [added]; lra.
Qed.
Print Assumptions blocks_added_any_order.

Lemma read_map : forall l rest, read_entries (length l) (map Entry l ++ rest) = Some (l, rest).
Proof. induction l as [|x l IH]; intros rest; cbn; [destruct rest; reflexivity|]. rewrite IH. reflexivity. Qed.

Lemma distribute_spec : forall sizes l, list_sum sizes = length l -> concat (distribute sizes l) = l /\ sizes_of (distribute sizes l) = sizes.
Proof.
  induction sizes as [|s sizes IH]; intros l H.
  - destruct l; [auto|discriminate].
  - change (s + list_sum sizes = length l) in H. unfold sizes_of in *. cbn [distribute concat]. destruct (IH (skipn s l)) as [A B]; [rewrite skipn_length; lia|]. cbn [map]. rewrite A, B, firstn_skipn, firstn_length.
    split; [reflexivity|]. f_equal. lia.
Qed.
Lemma distribute_same : forall v, distribute (sizes_of v) (concat v) = v.
Proof.
  induction v as [|a v IH]; [reflexivity|]. cbn. rewrite firstn_app, firstn_all, Nat.sub_diag, skipn_app, skipn_all, Nat.sub_diag. cbn.
  rewrite app_nil_r. fold (sizes_of v). rewrite IH. reflexivity.
Qed.

Lemma load_view : forall v sizes rest, VecLoad sizes ((Size (length (concat v)) :: map Entry (concat v)) ++ rest) =
  if length (concat v) =? list_sum sizes then Some (distribute sizes (concat v), rest) else None.
Proof.
  intros v sizes rest. cbn [VecLoad app]. destruct (length (concat v) =? list_sum sizes); [|reflexivity]. rewrite read_map. reflexivity.
Qed.

Lemma view_app : forall x file, VecView_Nest Binary x file = file ++ VecView_Nest Binary x [].
Proof.
  cbn [VecView_Nest]. induction x as [|v x IH]; intros file; cbn [fold_left]; [symmetry; apply app_nil_r|].
  rewrite IH. rewrite (IH (VecView v [])). unfold VecView. cbn [app]. rewrite <- app_assoc. reflexivity.
Qed.

Lemma view_cons : forall v x, VecView_Nest Binary (v :: x) [] = (Size (length (concat v)) :: map Entry (concat v)) ++ VecView_Nest Binary x [].
Proof. intros. change (VecView_Nest Binary (v :: x) []) with (VecView_Nest Binary x (VecView v [])). rewrite view_app. reflexivity. Qed.

(** C97.  A nested vector saved after anything else in a binary file is loaded unchanged by processes that share its parts alike, and the
    rest of the file is left to be read. *)
Theorem nested_vector_round_trip : forall x before after,
  exists file, VecView_Nest Binary x before = before ++ file /\
    VecLoad_Nest Binary (map sizes_of x) (file ++ after) = Some (x, after).
Proof.
  intros x before after. exists (VecView_Nest Binary x []). split; [apply view_app|]. cbn [VecLoad_Nest].
  induction x as [|v x IH]; [reflexivity|]. rewrite view_cons, <- app_assoc. cbn [map load_parts]. rewrite load_view.
  assert (E : length (concat v) = list_sum (sizes_of v)).
  { unfold sizes_of. clear. induction v as [|a v IH]; [reflexivity|]. cbn. rewrite app_length, IH. reflexivity. }
  rewrite (proj2 (Nat.eqb_eq _ _) E), IH, distribute_same. reflexivity.
Qed.
Print Assumptions nested_vector_round_trip.

(** C97.  Other processes load the same entries in the same order if the sizes of the parts agree, and otherwise get an error. *)
Theorem nested_vector_other_processes : forall x parts after, length parts = length x ->
  match VecLoad_Nest Binary parts (VecView_Nest Binary x [] ++ after) with
  | Some (y, rest) => rest = after /\ map (@concat R) y = map (@concat R) x /\ map sizes_of y = parts
  | None => map list_sum parts <> map (fun v => length (concat v)) x
  end.
Proof.
  cbn [VecLoad_Nest]. induction x as [|v x IH]; intros [|s parts] after HL; try discriminate.
  - cbn. auto.
  - injection HL as HL. rewrite view_cons, <- app_assoc. cbn [load_parts]. rewrite load_view. destruct (Nat.eqb_spec (length (concat v)) (list_sum s)) as [E|N].
    + specialize (IH parts after HL). destruct (load_parts parts (VecView_Nest Binary x [] ++ after)) as [[y rest]|].
      * destruct IH as (A & B & C). destruct (distribute_spec s (concat v) (eq_sym E)) as [D1 D2]. split; [exact A|]. cbn [map].
        rewrite D1, D2, B, C. auto.
      * cbn [map]. intros H. apply IH. injection H. auto.
    + cbn [map]. intros H. injection H. intros. apply N. auto.
Qed.
Print Assumptions nested_vector_other_processes.

(** C97.  With a viewer that is neither ASCII nor binary, saving succeeds without writing anything. *)
Theorem nested_vector_other_viewer_refuted : forall x file, VecView_Nest Other x file = file.
Proof. reflexivity. Qed.
Print Assumptions nested_vector_other_viewer_refuted.
