(** Shared vocabulary: arrays as lists with explicit out-of-bounds outcome,
    permutations of {0..n-1}, sums over ranges.  Nothing here models code. *)
Require Import List Arith Lia ZArith Permutation FinFun Bool.
Import ListNotations.

Definition bind {A B} (x : option A) (f : A -> option B) : option B :=
  match x with Some a => f a | None => None end.
Declare Scope opt_scope.
Notation "'do' x <- e ; f" := (bind e (fun x => f))
  (at level 200, x pattern, e at level 100, f at level 200) : opt_scope.

(** Array store; [None] is an out-of-bounds access (undefined behaviour). *)
Fixpoint upd {A} (l : list A) (i : nat) (x : A) : option (list A) :=
  match l, i with
  | [], _ => None
  | _ :: t, O => Some (x :: t)
  | h :: t, S i' => match upd t i' x with Some t' => Some (h :: t') | None => None end
  end.

Lemma upd_spec {A} (l : list A) i x l' :
  upd l i x = Some l' ->
  length l' = length l /\ i < length l /\
  (forall j, nth_error l' j = if j =? i then Some x else nth_error l j).
Proof.
  revert i l'; induction l as [|h t IH]; intros [|i] l' H; simpl in H; try discriminate.
  - inversion H; subst; simpl; repeat split; try lia. intros [|j]; reflexivity.
  - destruct (upd t i x) as [t'|] eqn:E; [|discriminate]. inversion H; subst.
    destruct (IH _ _ E) as (L & Lt & N). simpl; repeat split; try lia.
    intros [|j]; simpl; [reflexivity|]. apply N.
Qed.

Lemma upd_ok {A} (l : list A) i x : i < length l -> exists l', upd l i x = Some l'.
Proof.
  revert i; induction l as [|h t IH]; intros [|i] H; simpl in *; try lia.
  - eauto.
  - destruct (IH i ltac:(lia)) as [l' ->]. eauto.
Qed.

Lemma nth_error_ext {A} (l l' : list A) :
  (forall i, nth_error l i = nth_error l' i) -> l = l'.
Proof.
  revert l'; induction l as [|a l IH]; intros [|b l'] H; auto.
  - specialize (H 0); discriminate.
  - specialize (H 0); discriminate.
  - pose proof (H 0) as H0; simpl in H0; inversion H0; subst. f_equal. apply IH.
    intro i; apply (H (S i)).
Qed.

Lemma nth_error_lt {A} (l : list A) i : i < length l -> exists x, nth_error l i = Some x.
Proof.
  intro H. destruct (nth_error l i) eqn:E; eauto.
  apply nth_error_None in E; lia.
Qed.

(** [f] restricted to {0..n-1} is a permutation. *)
Definition is_perm (n : nat) (f : nat -> nat) : Prop :=
  (forall i, i < n -> f i < n) /\ (forall i j, i < n -> j < n -> f i = f j -> i = j).

Lemma is_perm_surj n f : is_perm n f -> forall k, k < n -> exists i, i < n /\ f i = k.
Proof.
  intros [B I] k Hk.
  assert (bFun n f) by (intros x Hx; auto).
  assert (bSurjective n f) as S.
  { apply bInjective_bSurjective; auto. }
  destruct (S k Hk) as (i & Hi & E). eauto.
Qed.

(** A list of indices that is a permutation of {0..n-1}. *)
Definition perm_list (p : list nat) : Prop := Permutation p (seq 0 (length p)).

Fixpoint sumn (f : nat -> nat) (n : nat) : nat :=
  match n with O => 0 | S m => sumn f m + f m end.

Lemma sumn_ext f g n : (forall i, i < n -> f i = g i) -> sumn f n = sumn g n.
Proof. induction n; simpl; auto. intros. rewrite IHn, H; auto. Qed.

Lemma sumn_add f g n : sumn (fun i => f i + g i) n = sumn f n + sumn g n.
Proof. induction n; simpl; lia. Qed.

Lemma sumn_le f n m : n <= m -> sumn f n <= sumn f m.
Proof. induction 1; simpl; lia. Qed.

Lemma sumn_list f n : sumn f n = list_sum (map f (seq 0 n)).
Proof.
  induction n; [reflexivity|].
  rewrite seq_S, map_app, list_sum_app. simpl. rewrite IHn. lia.
Qed.

Lemma list_sum_perm l l' : Permutation l l' -> list_sum l = list_sum l'.
Proof. induction 1; simpl; lia. Qed.

Lemma is_perm_Permutation n f : is_perm n f -> Permutation (map f (seq 0 n)) (seq 0 n).
Proof.
  intros [B I]. apply NoDup_Permutation_bis.
  - assert (HI : forall l, (forall x, In x l -> x < n) -> NoDup l -> NoDup (map f l)).
    { induction l as [|a l IH]; simpl; intros Hl ND; constructor; inversion ND; subst.
      - intro Hin. apply in_map_iff in Hin. destruct Hin as (b & E & Hb).
        apply I in E; auto. subst; auto.
      - apply IH; auto. }
    apply HI; [|apply seq_NoDup]. intros x Hx; apply in_seq in Hx; lia.
  - rewrite map_length; lia.
  - intros x Hx. apply in_map_iff in Hx. destruct Hx as (y & <- & Hy).
    apply in_seq in Hy. apply in_seq. specialize (B y); lia.
Qed.

Lemma sumn_perm f p n : is_perm n p -> sumn (fun i => f (p i)) n = sumn f n.
Proof.
  intros H. rewrite !sumn_list.
  replace (map (fun i => f (p i)) (seq 0 n)) with (map f (map p (seq 0 n)))
    by (rewrite map_map; reflexivity).
  apply list_sum_perm, Permutation_map, is_perm_Permutation; auto.
Qed.

Definition fact := Factorial.fact.

Lemma nth_map_lt {A B} (f : A -> B) l i d d' : i < length l -> nth i (map f l) d = f (nth i l d').
Proof.
  revert i; induction l as [|a t IH]; intros [|i] H; cbn in *; try lia; auto. apply IH. lia.
Qed.
