(** C17: positions of the vertices of generated meshes, with real numbers in place of doubles. *)
Require Import List Arith Bool Lia Sorted Reals Lra.
Require Import Verif.Base Verif.CommProofs Verif.GenMeshModel Verif.GenMeshSpec Verif.GenMeshBoundary.
Import ListNotations.
Local Open Scope opt_scope.
Local Open Scope R_scope.

(** src/mesh/GenMesh.cpp:70-80 [vertex_pos], one coordinate; [None]: out of bounds or the assertion of findRegion. *)
Definition vertex_pos (points : list R) (regions : list nat) (v : nat) : option R :=
  do region <- findRegion regions v;
  do p0 <- nth_error points region;
  do p1 <- nth_error points (region + 1);
  do r0 <- nth_error regions region;
  do r1 <- nth_error regions (region + 1);
  let h := (p1 - p0) / (INR r1 - INR r0) in
  Some (p0 + INR (v - r0) * h).

Definition planes_ok (points : list R) (regions : list nat) : Prop :=
  StronglySorted lt regions /\ nth_error regions 0 = Some 0%nat /\ length points = length regions /\ (2 <= length regions)%nat /\
  forall i, (i + 1 < length points)%nat -> nth i points 0 < nth (i + 1) points 0.

Lemma last_nth (l : list nat) : last l 0%nat = nth (length l - 1) l 0%nat.
Proof.
  induction l as [|x [|y l] IH]; auto. change (last (x :: y :: l) 0%nat) with (last (y :: l) 0%nat). rewrite IH. cbn [length].
  rewrite !Nat.sub_succ, !Nat.sub_0_r. auto.
Qed.

Lemma vertex_pos_val points regions v : planes_ok points regions -> (v <= last regions 0)%nat ->
  exists r, (r + 1 < length regions)%nat /\ (nth r regions 0 <= v <= nth (r + 1) regions 0)%nat /\ (r = 0 \/ nth r regions 0 < v)%nat /\
    vertex_pos points regions v = Some (nth r points 0 + (INR v - INR (nth r regions 0%nat)) *
      ((nth (r + 1) points 0 - nth r points 0) / (INR (nth (r + 1) regions 0%nat) - INR (nth r regions 0%nat)))).
Proof.
  intros (SS & R0 & LP & L2 & HP) Hv.
  assert (PL : (0 < last regions 0)%nat).
  { rewrite last_nth. pose proof (sorted_nth_lt regions SS 0 (length regions - 1) ltac:(lia) ltac:(lia)). lia. }
  destruct (findRegion_spec regions v SS R0 PL Hv) as (r & A & B & C & D). exists r. split; auto. split; auto. split; auto.
  unfold vertex_pos. rewrite A. cbn [bind]. rewrite (nth_error_nth' points 0) by lia. rewrite (nth_error_nth' points 0) by lia.
  rewrite (nth_error_nth' regions 0%nat) by lia. rewrite (nth_error_nth' regions 0%nat) by lia. cbn [bind]. rewrite minus_INR by lia. auto.
Qed.

(** C17: the grid plane with number p is at the p-th corner point. *)
Theorem vertex_pos_hits_points : forall points regions p x, planes_ok points regions -> nth_error points p = Some x ->
  exists v, nth_error regions p = Some v /\ vertex_pos points regions v = Some x.
Proof.
  intros points regions p x OK Hp. pose proof OK as (SS & R0 & LP & L2 & HP).
  assert (Lp : (p < length regions)%nat) by (rewrite <- LP; apply nth_error_Some; congruence).
  exists (nth p regions 0%nat). split; [apply nth_error_nth'; auto|].
  assert (LE : forall i j, (i <= j < length regions)%nat -> (nth i regions 0 <= nth j regions 0)%nat).
  { intros i j H. destruct (Nat.eq_dec i j) as [->|Ne]; auto. pose proof (sorted_nth_lt regions SS i j ltac:(lia) ltac:(lia)). lia. }
  destruct (vertex_pos_val points regions (nth p regions 0%nat) OK) as (r & A & B & C & ->); [rewrite last_nth; apply LE; lia|].
  f_equal. pose proof (sorted_nth_lt regions SS r (r + 1) ltac:(lia) ltac:(lia)) as Q. apply lt_INR in Q.
  assert (PN : x = nth p points 0) by (symmetry; apply nth_of_nth_error; auto).
  assert (RP : p = r \/ p = (r + 1)%nat).
  { destruct (lt_dec p r) as [H|H]; [pose proof (sorted_nth_lt regions SS p r ltac:(lia) ltac:(lia)); lia|].
    destruct (lt_dec (r + 1) p) as [H'|H']; [pose proof (sorted_nth_lt regions SS (r + 1) p ltac:(lia) ltac:(lia)); lia|]. lia. }
  destruct RP as [-> | ->]; rewrite PN; field; lra.
Qed.
Print Assumptions vertex_pos_hits_points.

(** C17: coordinates grow with the grid index, so no element of the generated mesh is inverted or degenerate. *)
Theorem vertex_pos_increasing : forall points regions v w, planes_ok points regions -> (v < w)%nat -> (w <= last regions 0)%nat ->
  exists x y, vertex_pos points regions v = Some x /\ vertex_pos points regions w = Some y /\ x < y.
Proof.
  intros points regions v w OK Hvw Hw. pose proof OK as (SS & R0 & LP & L2 & HP).
  destruct (vertex_pos_val points regions v OK ltac:(lia)) as (r & A & B & C & Ev).
  destruct (vertex_pos_val points regions w OK Hw) as (s & A' & B' & C' & Ew).
  eexists. eexists. split; [exact Ev|]. split; [exact Ew|].
  assert (SR : forall i, (i + 1 < length regions)%nat -> INR (nth i regions 0%nat) < INR (nth (i + 1) regions 0%nat)).
  { intros i Hi. apply lt_INR. apply sorted_nth_lt; auto; lia. }
  assert (RS : (r <= s)%nat).
  { destruct (le_lt_dec r s); auto. exfalso.
    assert (nth (s + 1) regions 0 <= nth r regions 0)%nat.
    { destruct (Nat.eq_dec (s + 1) r) as [<-|Ne]; auto. pose proof (sorted_nth_lt regions SS (s + 1) r ltac:(lia) ltac:(lia)). lia. }
    lia. }
  assert (PM : forall i j, (i <= j < length points)%nat -> nth i points 0 <= nth j points 0).
  { intros i j [H H2]. induction j as [|j IH]; [replace i with 0%nat by lia; lra|]. destruct (Nat.eq_dec i (S j)) as [->|Ne]; [lra|].
    pose proof (HP j ltac:(lia)). replace (j + 1)%nat with (S j) in H0 by lia. specialize (IH ltac:(lia) ltac:(lia)). lra. }
  pose proof (SR r A) as S1. pose proof (SR s A') as S2. pose proof (HP r ltac:(lia)) as P1. pose proof (HP s ltac:(lia)) as P2.
  assert (HH : 0 < (nth (r + 1) points 0 - nth r points 0) / (INR (nth (r + 1) regions 0%nat) - INR (nth r regions 0%nat))) by (apply Rdiv_lt_0_compat; lra).
  assert (HH' : 0 < (nth (s + 1) points 0 - nth s points 0) / (INR (nth (s + 1) regions 0%nat) - INR (nth s regions 0%nat))) by (apply Rdiv_lt_0_compat; lra).
  assert (VW : INR v < INR w) by (apply lt_INR; auto).
  destruct (Nat.eq_dec r s) as [<-|Ne].
  - apply Rplus_lt_compat_l. apply Rmult_lt_compat_r; lra.
  - assert (B1 : INR v <= INR (nth (r + 1) regions 0%nat)) by (apply le_INR; lia).
    assert (B2 : INR (nth s regions 0%nat) < INR w) by (apply lt_INR; destruct C'; lia).
    apply Rle_lt_trans with (nth (r + 1) points 0).
    + replace (nth (r + 1) points 0) with (nth r points 0 + (INR (nth (r + 1) regions 0%nat) - INR (nth r regions 0%nat)) *
        ((nth (r + 1) points 0 - nth r points 0) / (INR (nth (r + 1) regions 0%nat) - INR (nth r regions 0%nat)))) at 2 by (field; lra).
      apply Rplus_le_compat_l. apply Rmult_le_compat_r; lra.
    + apply Rle_lt_trans with (nth s points 0); [apply PM; lia|].
      assert (0 < (INR w - INR (nth s regions 0%nat)) * ((nth (s + 1) points 0 - nth s points 0) / (INR (nth (s + 1) regions 0%nat) - INR (nth s regions 0%nat)))) by (apply Rmult_lt_0_compat; lra).
      lra.
Qed.
Print Assumptions vertex_pos_increasing.

Example planes_ex : planes_ok [0; 1; 10] [0; 2; 5]%nat.
Proof. repeat split; cbn; auto; [repeat constructor|]. intros [|[|[|]]] H; cbn in *; try lia; lra. Qed.

(** Found: the documented guarantee that the grid spacing is at most the resolution (GenMesh.h:128-134) does not
    hold, since the cell count (GenMesh.h:150) is rounded to nearest, not up. *)
Theorem resolution_guarantee_refuted : exists p0 p1 h n,
  p0 < p1 /\ 0 < h /\ Rabs (INR n - (p1 - p0) / h) < 1 / 2 /\
  exists x0 x1, vertex_pos [p0; p1] (init_regions 0 [n]) 0 = Some x0 /\ vertex_pos [p0; p1] (init_regions 0 [n]) 1 = Some x1 /\ h < x1 - x0.
Proof.
  exists 0, (14 / 10), 1, 1%nat. split; [lra|]. split; [lra|]. split; [cbn; rewrite Rabs_left; lra|].
  eexists. eexists. split; [reflexivity|]. split; [reflexivity|]. cbn. lra.
Qed.
