(** Property theorems: multi-index flattening and iteration (C07). *)
Require Import List Arith Lia Permutation.
Require Import Verif.Base Verif.CommProofs Verif.MultiIndexModel Verif.MultiIndexProofs.
Import ListNotations.
Local Open Scope opt_scope.

(** In-range multi-indices and the number of them. *)
Definition in_shape (idx shape : list nat) : Prop := Forall2 (fun i s => i < s) idx shape.
Definition extent (shape : list nat) : nat := fold_right Nat.mul 1 shape.

Lemma extent_prodl shape : extent shape = prodl shape.
Proof. induction shape; simpl; auto. Qed.

(** C07a: flatten maps in-range indices into [0, extent) and unflatten is its inverse. *)
Theorem flatten_unflatten : forall shape idx, in_shape idx shape ->
  flatten idx shape < extent shape /\ unflatten (flatten idx shape) shape = Some idx.
Proof.
  intros shape idx R. rewrite flatten_flat by (apply inrange_length; auto). rewrite extent_prodl.
  pose proof (flat_bound _ _ R) as B. split; auto.
  destruct (unflatten_spec shape _ B) as (j & E & Rj & F). rewrite E. f_equal.
  eapply flat_inj; eauto.
Qed.
Print Assumptions flatten_unflatten.

(** C07b: every number below the extent is the flattening of the in-range index unflatten gives. *)
Theorem unflatten_flatten : forall shape n, n < extent shape ->
  exists idx, unflatten n shape = Some idx /\ in_shape idx shape /\ flatten idx shape = n.
Proof.
  intros shape n H. rewrite extent_prodl in H.
  destruct (unflatten_spec shape n H) as (j & E & R & F). exists j. repeat split; auto.
  rewrite flatten_flat; auto. apply inrange_length; auto.
Qed.
Print Assumptions unflatten_flatten.

(** C07c: iterating over product(shape) visits every in-range index exactly once and the k-th
    index visited has flat number k (all extents but the last must be positive). *)
Theorem product_iterates : forall shape, shape <> [] ->
  Forall (fun s => 0 < s) (removelast shape) ->
  exists fuel l, mi_loop fuel (mi_begin shape) (mi_end shape) shape = Some l /\
    (forall idx, In idx l <-> in_shape idx shape) /\ NoDup l /\
    map (fun idx => flatten idx shape) l = seq 0 (extent shape).
Proof.
  intros shape Hne P. exists (prodl shape).
  destruct (mi_loop_full shape Hne P) as (l & E & I & N & M). exists l. repeat split; auto; try apply I.
  rewrite extent_prodl, <- M. apply map_ext_in. intros i Hi. apply flatten_flat.
  apply inrange_length, I; auto.
Qed.
Print Assumptions product_iterates.

(** With a zero extent in another position the loop visits indices that are out of range. *)
Theorem product_zero_extent_refuted : exists shape fuel l idx,
  shape <> [] /\ mi_loop fuel (mi_begin shape) (mi_end shape) shape = Some l /\
  In idx l /\ ~ in_shape idx shape.
Proof.
  exists [0; 2], 9, [[0;0];[0;1]], [0; 0]. split; [congruence|]. split; [reflexivity|].
  split; [simpl; auto|]. intro H; inversion H; lia.
Qed.

(** C07d: permuting an index with a permutation and then with the inverse permutation gives the
    index back. *)
Theorem permute_inverse : forall {U} (p q : list nat) (x : list U),
  Permutation p (seq 0 (length x)) -> Permutation q (seq 0 (length x)) ->
  (forall d, d < length x -> nth (nth d q 0) p 0 = d) ->
  exists y, permute p x = Some y /\ length y = length x /\ permute q y = Some x.
Proof.
  intros U p q x Pp Pq Inv.
  assert (Lp : length p = length x) by (apply Permutation_length in Pp; rewrite seq_length in Pp; auto).
  assert (Lq : length q = length x) by (apply Permutation_length in Pq; rewrite seq_length in Pq; auto).
  destruct (permute_spec x p) as (y & Ey & Ly & Ny).
  { intros k Hk. apply (Permutation_in _ Pp) in Hk. apply in_seq in Hk; lia. }
  destruct (permute_spec y q) as (z & Ez & Lz & Nz).
  { intros k Hk. apply (Permutation_in _ Pq) in Hk. apply in_seq in Hk; lia. }
  exists y. split; auto. split; [lia|]. rewrite Ez. f_equal. apply nth_error_ext. intro d.
  destruct (lt_dec d (length x)) as [H|H].
  - rewrite (Nz d (nth d q 0)) by (apply nth_error_nth'; lia).
    rewrite (Ny (nth d q 0) d); auto. 
    rewrite <- (Inv d H) at 2. apply nth_error_nth'.
    assert (In (nth d q 0) q) by (apply nth_In; lia).
    apply (Permutation_in _ Pq) in H0. apply in_seq in H0. lia.
  - rewrite !(proj2 (nth_error_None _ _)); auto; lia.
Qed.
Print Assumptions permute_inverse.

Example product_ex : mi_loop 99 (mi_begin [2;3]) (mi_end [2;3]) [2;3]
  = Some [[0;0];[1;0];[0;1];[1;1];[0;2];[1;2]] /\ flatten [1;2] [2;3] = 5 /\
  permute [2;0;1] [10;20;30] = Some [30;10;20] /\ permute [1;2;0] [30;10;20] = Some [10;20;30].
Proof. repeat split; reflexivity. Qed.
