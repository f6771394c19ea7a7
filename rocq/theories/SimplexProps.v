(** Property theorems: simplices and their faces (C13). *)
Require Import List Arith Lia Sorted Permutation.
Require Import Verif.Base Verif.CombinatoricsModel Verif.SimplexModel Verif.SimplexProofs.
Import ListNotations.

(** C13a: two simplices are equal iff they were made from the same vertices in any order; the
    stored vertices are those given, sorted. *)
Theorem simplex_equal_iff_same_vertices : forall a b,
  (mk_simplex a = mk_simplex b <-> Permutation a b) /\
  Permutation a (mk_simplex a) /\ StronglySorted le (mk_simplex a).
Proof.
  intros a b. unfold mk_simplex. split; [split|split].
  - intro E. rewrite (sort_perm a), E. symmetry. apply sort_perm.
  - intro P. apply sorted_unique; try apply sort_sorted. rewrite <- !sort_perm. auto.
  - apply sort_perm.
  - apply sort_sorted.
Qed.
Print Assumptions simplex_equal_iff_same_vertices.
Example simplex_equal_ex : mk_simplex [7; 3; 5; 0] = mk_simplex [5; 7; 0; 3] /\ mk_simplex [7;3] = [3;7].
Proof. split; reflexivity. Qed.

(** C13b: downward<k-1> of a simplex with distinct vertices lists every sorted k-subset of its
    vertices exactly once, binom(D+1,k) in total. *)
Theorem downward_lists_faces : forall vs k, NoDup vs -> k <= length vs ->
  exists l, downward k (mk_simplex vs) = Some l /\ NoDup l /\
    binom (length vs) k = Some (length l) /\
    forall f, In f l <-> (length f = k /\ NoDup f /\ StronglySorted le f /\ incl f vs).
Proof.
  intros vs k N Hk. unfold mk_simplex.
  assert (S : StronglySorted lt (sort_nat vs)).
  { apply sorted_le_NoDup_lt; [apply sort_sorted|]. eapply Permutation_NoDup; [apply sort_perm|auto]. }
  assert (L : length (sort_nat vs) = length vs) by (symmetry; apply Permutation_length, sort_perm).
  destruct (downward_spec k (sort_nat vs) ltac:(lia) S) as (l & E & I & ND & B).
  rewrite L in B. exists l. split; auto. split; auto. split; auto.
  assert (In_iff : forall x, In x (sort_nat vs) <-> In x vs).
  { intro x. split; apply Permutation_in; [symmetry|]; apply sort_perm. }
  intro f. rewrite I. unfold incl. split.
  - intros (A & C & D). repeat split; auto using sorted_lt_NoDup, sorted_lt_le.
    intros x Hx. apply In_iff; auto.
  - intros (A & C & D & F). repeat split; auto using sorted_le_NoDup_lt.
    intros x Hx. apply In_iff; auto.
Qed.
Print Assumptions downward_lists_faces.
Example downward_ex : downward 2 (mk_simplex [9; 4; 6]) = Some [[4;6];[4;9];[6;9]].
Proof. reflexivity. Qed.

(** C13c: facet number i of a D-simplex (i = 0, ..., D) consists of all its vertices but the
    (D-i)-th in sorted order. *)
Theorem facet_numbering : forall vs, vs <> [] ->
  let s := mk_simplex vs in let D := length vs - 1 in
  downward D s = Some (map (fun i => firstn (D - i) s ++ skipn (D - i + 1) s) (seq 0 (D + 1))).
Proof.
  intros vs H s D. assert (L : length s = length vs) by (symmetry; apply Permutation_length, sort_perm).
  assert (Hs : s <> []) by (intro E; rewrite E in L; destruct vs; simpl in L; congruence).
  assert (length vs <> 0) by (destruct vs; simpl; congruence).
  unfold D. rewrite <- L. rewrite facets_spec by auto. rewrite L.
  replace (length vs - 1 + 1) with (length vs) by lia. f_equal. apply map_ext_in.
  intros i Hi. apply in_seq in Hi. f_equal. f_equal. lia.
Qed.
Print Assumptions facet_numbering.
Example facet_numbering_ex : downward 3 (mk_simplex [8; 2; 6; 4]) = Some [[2;4;6];[2;4;8];[2;6;8];[4;6;8]].
Proof. reflexivity. Qed.

(** C13d: the specialisation for vertices agrees with the general downward. *)
Theorem downward0_agrees : forall vs, NoDup vs -> vs <> [] ->
  exists l, downward 1 (mk_simplex vs) = Some l /\ forall f, In f l <-> In f (downward0 (mk_simplex vs)).
Proof.
  intros vs N H. assert (L : 1 <= length vs) by (destruct vs; simpl; [congruence|lia]).
  destruct (downward_lists_faces vs 1 N L) as (l & E & _ & _ & I). exists l. split; auto.
  intro f. rewrite I. unfold downward0. rewrite in_map_iff. split.
  - intros (Lf & _ & _ & Inc). destruct f as [|v [|]]; simpl in Lf; try lia. exists v. split; auto.
    eapply Permutation_in; [apply sort_perm|]. apply Inc. left; auto.
  - intros (v & <- & Hv). assert (In v vs) by (eapply Permutation_in; [symmetry; apply sort_perm|auto]).
    repeat split; auto.
    + repeat constructor. intros [].
    + repeat constructor.
    + intros x [<-|[]]; auto.
Qed.
Print Assumptions downward0_agrees.
