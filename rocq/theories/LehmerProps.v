(** Property theorems: numbering of permutations (C08). *)
Require Import List Arith ZArith Lia Permutation.
Require Import Verif.Base Verif.LehmerModel Verif.LehmerProofs.
Import ListNotations.
Local Open Scope Z_scope.

Definition perm_of (N : nat) (p : list nat) : Prop := Permutation p (seq 0 N).
Definition number (p : list nat) : Z := Lehmer_to_integer (permutation_to_Lehmer p).

Lemma number_enc N p : (N <= 12)%nat -> perm_of N p ->
  cont N p [] /\ length p = N /\ dvalid (digits p []) /\ number p = Z.of_nat (enc (digits p [])).
Proof.
  intros HN P. pose proof (Permutation_length P) as L. rewrite seq_length in L.
  assert (C : cont N p []) by (apply cont_perm; auto).
  assert (V : dvalid (digits p [])) by (eapply digits_valid; [exact C|rewrite rem_nil; auto]).
  repeat split; auto. unfold number, permutation_to_Lehmer. rewrite lehmer_digits.
  apply lehmer_int_enc; auto. rewrite digits_length. lia.
Qed.

(** C08: for up to 12 items (so that N! fits in unsigned) the numbering is a bijection between
    the permutations of {0..N-1} and {0..N!-1}. *)
Theorem permutation_numbering_bijective : forall N, (N <= 12)%nat ->
  (forall p, perm_of N p -> 0 <= number p < Z.of_nat (Factorial.fact N)) /\
  (forall p q, perm_of N p -> perm_of N q -> number p = number q -> p = q) /\
  (forall v, 0 <= v < Z.of_nat (Factorial.fact N) -> exists p, perm_of N p /\ number p = v).
Proof.
  intros N HN. split; [|split].
  - intros p P. destruct (number_enc N p HN P) as (C & L & V & E). rewrite E.
    pose proof (enc_bound _ V) as B. rewrite digits_length, L in B. lia.
  - intros p q P Q E. destruct (number_enc N p HN P) as (C & L & V & Ep).
    destruct (number_enc N q HN Q) as (C' & L' & V' & Eq).
    rewrite Ep, Eq in E. apply Nat2Z.inj in E.
    apply enc_inj in E; auto; [|rewrite !digits_length; congruence].
    eapply digits_inj; eauto. congruence.
  - intros v Hv. destruct (enc_surj N (Z.to_nat v)) as (D & LD & VD & ED); [lia|].
    destruct (digits_surj N D [] VD) as (p & C & Lp & Dp); [rewrite rem_nil; auto|].
    assert (P : perm_of N p) by (apply cont_perm; auto; congruence).
    exists p. split; auto. destruct (number_enc N p HN P) as (_ & _ & _ & E).
    rewrite E, Dp, ED. lia.
Qed.
Print Assumptions permutation_numbering_bijective.

(** From 13 items on the unsigned arithmetic wraps and two permutations share a number. *)
Theorem permutation_numbering_13_refuted : exists p q,
  perm_of 13 p /\ perm_of 13 q /\ p <> q /\ number p = number q.
Proof.
  exists (seq 0 13), [8; 12; 6; 5; 10; 0; 1; 4; 2; 9; 11; 3; 7]%nat.
  split; [apply Permutation_refl|]. split; [|split; [discriminate|vm_compute; reflexivity]].
  apply NoDup_Permutation_bis; [repeat constructor; simpl; lia|simpl; lia|].
  intros x H; simpl in *; lia.
Qed.

Example number_ex : map number [[0;1;2];[0;2;1];[1;0;2];[1;2;0];[2;0;1];[2;1;0]]%nat = [0;1;2;3;4;5].
Proof. reflexivity. Qed.
