(** Data that meet the hypotheses for every degree, and a curved element (C88). *)
Require Import List Arith Lia Bool Reals Lra Permutation.
Require Import Verif.Base Verif.LinAlg Verif.SimplexModel Verif.LocalMeshModel Verif.LocalMeshProps Verif.TopoModel Verif.TopoSpec Verif.TopoProps
  Verif.AssembleModel Verif.AssembleSpec Verif.AssembleProps Verif.MatFree Verif.PoissonModel Verif.PenaltyModel Verif.SipSpec Verif.SipExamples
  Verif.GeometryModel Verif.GeometryProofs Verif.GeometrySpec Verif.GeometryProps Verif.GeometryStraight Verif.MeshSpec Verif.MeshPoissonProps Verif.MeshExamples
  Verif.QuadratureModel Verif.RefElementModel Verif.RefElementProps Verif.OperatorRefModel Verif.OperatorRefProps Verif.OperatorRefExamples
  Verif.RefElementExamples Verif.Br2Spec Verif.Br2Proofs Verif.Br2Positive Verif.Br2Props.
Import ListNotations.
Local Open Scope R_scope.

Lemma rank_of_br2 G R_ degree m fi P : poisson_rank G R_ degree m fi P -> p_MinvRef P = p_MinvRef R_ -> br2_rank G R_ m fi (with_method BR2 fi degree P).
Proof.
  intros [SR RG HK _ HT _] Mi. constructor; auto.
  - destruct SR. constructor; auto.
  - destruct RG. constructor; auto.
Qed.
(** The strip of three triangles on two ranks: the matrix of every degree. *)
Example strip_br2_every_degree : forall N m0 B, (1 <= N)%nat -> (forall g l, p_K B g l = INR g) ->
  exists root mi R_, Poisson_constructor root [] [] [] ginv m0 2 N 0 mi (equi 2 N) B = Some R_ /\
  let P p := with_method BR2 (ex_part_fi p) N (mesh_rank (strip_at root N) R_ N (ex_part p) (ex_part_fi p)) in
  let Q := mesh_problem (strip_at root N) ex_elems R_ N in
  exists A, (forall p, (p < 2)%nat -> map_opt (to_global (ex_part p)) (assemble (ex_part p) (ex_part_fi p) (poisson_mat (P p))) = Some (A p)) /\
  (forall U, exists r, lifts_jump Q ex_elems ex_facets U r /\
     forall V, pairing (length mi) (flat_map A (seq 0 2)) V U = br2_form Q ex_elems ex_facets ex_bc r U V) /\
  (forall U V, pairing (length mi) (flat_map A (seq 0 2)) V U = pairing (length mi) (flat_map A (seq 0 2)) U V) /\
  (forall U, 0 <= pairing (length mi) (flat_map A (seq 0 2)) U U).
Proof.
  intros N m0 B HN HK. destruct (constructor_data_every_degree 2 N ltac:(auto) HN) as (root & mi & CD & _).
  destruct (poisson_reference_of_degree root [] [] [] ginv m0 2 N 0 mi (equi 2 N) B CD) as (R1 & E1 & _).
  destruct (br2_operator_positive root [] [] [] ginv m0 2 N 0 mi (equi 2 N) B strip_X 2 ex_elems ex_facets ex_bc ex_part ex_part_fi
    (fun p => with_method BR2 (ex_part_fi p) N (mesh_rank (strip_at root N) R1 N (ex_part p) (ex_part_fi p))) INR CD HN ex_parts (strip_valid _ _)) as (R_ & E & H).
  - intros. apply HK.
  - intros. apply pos_INR.
  - assert (R_ = R1) by congruence. subst R1. exists root, mi, R_. split; [exact E|]. intros P Q.
    destruct H as (A & HA & H1 & H2 & H3 & H4).
    + intros p Hp. destruct (strip_table p Hp). apply rank_of_br2; [apply mesh_rank_ok; auto|reflexivity].
    + exists A. split; [exact HA|]. split; [|split; [exact H3|exact H4]]. intro U. destruct (H1 U) as (r & Hr). exists r. split; [exact Hr|]. intro V. apply (H2 U V r Hr).
Qed.

(** A constant Jacobian determinant is needed: the code inverts the mass matrix of an element with
    its weight-adjusted approximation, Minv M(1/J) Minv.  With one basis function and two points at which the
    determinant is 1 and 3 the mass matrix is 2 and what the code uses for its inverse is 2/3. *)
Definition curved_data : pdata := let z2 := fun _ _ : nat => 0 in let z3 := fun _ _ _ : nat => 0 in let z4 := fun _ _ _ _ : nat => 0 in {|
  p_dim := 2; p_N := 1; p_Nq := 2; p_nq := 1; p_method := BR2; p_W := fun _ => 1 / 2; p_w := fun _ => 1; p_EQ := fun _ _ => 1; p_DxiQ := z3; p_matEQ := fun _ _ => 1;
  p_E := fun _ _ _ => 1; p_Dxi := z4; p_matE := fun _ _ _ => 1; p_MinvRef := fun _ _ => 1;
  p_J := fun _ q => if (q =? 0)%nat then 1 else 3; p_GQ := z4; p_K := fun _ _ => 1; p_n := z3; p_nu := z3; p_nl := fun _ _ => 1; p_G0 := z4; p_G1 := z4;
  p_pen := fun _ => 1; p_force := z2; p_dir := fun _ _ _ => 0; p_slip := fun _ _ _ => 0 |}.
Definition curved_problem : problem := {| pb_ref := curved_data; pb_loc := fun _ _ => 0%nat; pb_n := fun _ _ _ _ => 0; pb_nl := fun _ _ => 1; pb_G := fun _ _ _ _ _ => 0;
  pb_pen := fun _ => 1; pb_jump := fun _ _ _ => 0; pb_value := fun _ _ => 0 |}.
Theorem curved_mass_refuted : exists Q g, inverts_mass Q /\ (forall q, 0 < p_J (pb_ref Q) g q) /\
  let P := pb_ref Q in rsum (p_N P) (fun t => inverse_mass P g 0 t * rsum (p_Nq P) (fun q => p_W P q * p_J P g q * p_EQ P t q * p_EQ P 0 q)) <> 1.
Proof.
  exists curved_problem, 0%nat. split; [|split].
  - intros s u Hs Hu. cbn in *. replace s with 0%nat by lia. replace u with 0%nat by lia. cbn. field.
  - intro q. cbn. destruct (q =? 0)%nat; lra.
  - cbn. unfold inverse_mass. cbn. lra.
Qed.
Print Assumptions curved_mass_refuted.
