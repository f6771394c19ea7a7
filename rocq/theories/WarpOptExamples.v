(** Cases for C94. *)
Require Import List Arith Lia Reals Lra.
Require Import Verif.Base Verif.LinAlg Verif.CombinatoricsModel Verif.CombinatoricsProps Verif.EquidistantModel Verif.EquidistantProps Verif.BasisModel Verif.BasisSpec Verif.IntegralSpec Verif.SpanProofs
  Verif.RefElementSpec Verif.RefElementModel Verif.RefElementProofs Verif.RefElementProps Verif.RefElementExamples Verif.UnisolventProps Verif.WarpOptModel Verif.WarpOptSpec Verif.WarpOptProps.
Import ListNotations.
Local Open Scope R_scope.

(** Case for [golden_section_search]: a parabola, with the interval and the tolerance of the program; the
    interval is longer than the tolerance, so the loop is entered. *)
Example parabola_minimum : let f x := (x - 13 / 10) * (x - 13 / 10) in
  exists n r calls, GoldenSectionSearch n f 0 2 (1 / 100000) = Some (r, calls) /\ (0 < n)%nat /\ length calls = (n + 2)%nat /\ Rabs (r - 13 / 10) <= 1 / 200000.
Proof.
  intro f. destruct (golden_section_search f 0 2 (1 / 100000) ltac:(lra) ltac:(lra)) as (n & r & calls & E & _ & _ & L & B & _ & _ & U).
  exists n, r, calls. split; [apply E; lia|]. split; [|split; [exact L|]].
  - destruct n; [|lia]. cbn in B. lra.
  - eapply Rle_trans; [apply U|lra]. split; [lra|]. unfold f. split; intros x y H1 H2 H3; nra.
Qed.
(** Cases for [sample_triangle] and [sample_tetrahedron]. *)
Example sample_cases : sample2 (3 / 4, 1 / 2) = (1 / 2, 1 / 4) /\ sample3 (1 / 2, 1 / 4, 7 / 8) = (1 / 2, 1 / 8, 1 / 4) /\
  sample3 (7 / 8, 3 / 4, 1 / 2) = (1 / 8, 1 / 4, 1 / 2) /\ sample3 (7 / 8, 3 / 4, 3 / 4) = (0, 1 / 4, 1 / 8).
Proof.
  unfold sample2, sample3. repeat split; repeat match goal with |- context [Rlt_dec ?a ?b] => destruct (Rlt_dec a b); try (exfalso; lra) end; repeat match goal with |- (_, _) = (_, _) => f_equal end; lra.
Qed.
(** Case for [lebesgue_function_correct]: linear functions on the triangle.  Inside they are bounded by
    their values at the vertices, at (1, 1) by three times as much. *)
Lemma lambda1 x y : LebesgueFunction ginv 2 mi1 nodes1 (pt x y 0) = Rabs (1 - x - y) + Rabs x + Rabs y.
Proof.
  pose proof (lebesgue_entries ginv 2 1 mi1 nodes1 ltac:(lia) mi1_runs eq_refl gauss_inverse_exact hat hat_nodal
    (fun f Pf => nodal_reproduces 2 1 nodes1 hat f nodes1_unisolvent hat_nodal Pf)) as LE.
  unfold LebesgueFunction. change (length nodes1) with 3%nat in *. cbn [rsum].
  pose proof (LE 0%nat (pt x y 0) ltac:(lia)) as L0. pose proof (LE 1%nat (pt x y 0) ltac:(lia)) as L1. pose proof (LE 2%nat (pt x y 0) ltac:(lia)) as L2. cbn [rsum] in L0, L1, L2.
  rewrite L0, L1, L2. cbn. ring.
Qed.
Example linear_lebesgue : LebesgueFunction ginv 2 mi1 nodes1 (pt (1 / 3) (1 / 3) 0) = 1 /\ LebesgueFunction ginv 2 mi1 nodes1 (pt 1 1 0) = 3 /\
  lebesgue_value 2 1 nodes1 (pt 1 1 0) 3.
Proof.
  assert (E : LebesgueFunction ginv 2 mi1 nodes1 (pt 1 1 0) = 3) by (rewrite lambda1, (Rabs_left (1 - 1 - 1)), Rabs_R1 by lra; lra).
  split; [rewrite lambda1, !Rabs_pos_eq by lra; lra|]. split; [exact E|]. rewrite <- E.
  apply (lebesgue_function_correct ginv 2 1 mi1 nodes1 ltac:(lia) mi1_runs eq_refl nodes1_unisolvent gauss_inverse_exact).
Qed.
(** Case for [lebesgue_estimate_correct]: three points on two threads, equidistant nodes of any degree. *)
Example estimate_every_degree : forall D N, (1 <= D <= 3)%nat -> (1 <= N)%nat -> exists mi nodes, runs_through D N mi /\ nodes = map of_list (equidistant_nodes D VTK N) /\
  let ps := [[pt (1 / 5) (1 / 7) 0; pt (1 / 3) (1 / 3) 0]; []; [pt (1 / 8) (1 / 2) (1 / 16)]] in
  1 <= estimateLebesgueConstant (-1000) (LebesgueFunction ginv D mi nodes) ps /\ LebesgueFunction ginv D mi nodes (pt (1 / 3) (1 / 3) 0) <= estimateLebesgueConstant (-1000) (LebesgueFunction ginv D mi nodes) ps.
Proof.
  intros D N HD HN. destruct (integer_sums_enumerate D N true ltac:(lia)) as (fuel & mi & E & _). assert (RT : runs_through D N mi) by (now exists fuel).
  destruct (equidistant_unisolvent D VTK N mi HD HN RT) as [L U]. exists mi, (map of_list (equidistant_nodes D VTK N)). split; [exact RT|]. split; [reflexivity|]. intro ps.
  destruct (lebesgue_estimate_correct ginv D N mi _ (-1000) ps ltac:(lia) RT L U gauss_inverse_exact ltac:(lra) ltac:(discriminate)) as (v & -> & H1 & H2 & _).
  split; [exact H1|]. apply H2. cbn. auto.
Qed.
