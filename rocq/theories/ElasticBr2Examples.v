(** Data that meet the hypotheses for every degree, and a curved element (C90). *)
Require Import List Arith Lia Bool Reals Lra.
Require Import Verif.Base Verif.LinAlg Verif.SimplexModel Verif.LocalMeshModel Verif.LocalMeshProps Verif.TopoModel Verif.TopoSpec Verif.TopoProps
  Verif.AssembleModel Verif.AssembleSpec Verif.AssembleProps Verif.MatFree Verif.PoissonModel Verif.PenaltyModel Verif.SipSpec Verif.SipExamples
  Verif.GeometryModel Verif.GeometryProofs Verif.GeometrySpec Verif.GeometryProps Verif.GeometryStraight Verif.MeshSpec Verif.MeshExamples
  Verif.ElasticityModel Verif.ElasticFormSpec Verif.MeshElasticSpec Verif.MeshWaveExamples
  Verif.QuadratureModel Verif.RefElementModel Verif.RefElementSpec Verif.RefElementProps Verif.RefElementExamples Verif.OperatorRefModel Verif.OperatorRefProps Verif.OperatorRefExamples
  Verif.Br2Examples Verif.ElasticBr2Spec Verif.ElasticBr2Proofs Verif.ElasticBr2Positive Verif.ElasticBr2Props.
Import ListNotations.
Local Open Scope R_scope.

(** The inverse mass matrices, and the method. *)
Definition inverting (inverse : nat -> (nat -> nat -> R) -> nat -> nat -> R) (E : edata) : edata := let B := with_emethod BR2 (p_pen (e_geo E)) E in {|
  e_geo := e_geo B; e_lam := e_lam B; e_mu := e_mu B; e_rhoInv := e_rhoInv B; e_Minv := fun e => inverse (p_N (e_geo B)) (mass_matrix B e);
  e_force := e_force B; e_dir := e_dir B; e_slip := e_slip B |}.
Lemma rank_of_elastic_br2 inverse G E_ degree m fi E : elastic_rank G E_ degree m fi E -> elastic_br2_rank inverse G E_ m fi (inverting inverse E).
Proof.
  intros [SR RG HM Me HT _]. constructor; auto.
  - destruct SR. constructor; auto.
  - destruct RG. constructor; auto.
Qed.
(** The strip of three triangles on two ranks: the matrix of every degree; lambda is 0 in the first triangle. *)
Example strip_elastic_br2_every_degree : forall N m0 B, (1 <= N)%nat ->
  exists root mi R_, Elasticity_constructor root [] [] [] ginv m0 2 N 0 mi (equi 2 N) B = Some R_ /\
  let n := (length (equi 2 N) * 2)%nat in let Q := mesh_eproblem (strip_at root N) ex_elems (strip_edata R_) N in
  exists A, (forall p, (p < 2)%nat -> map_opt (to_global (ex_part p)) (assemble (ex_part p) (ex_part_fi p)
      (elasticity_mat (inverting ginv (mesh_erank (strip_at root N) (strip_edata R_) N (ex_part p) (ex_part_fi p))))) = Some (A p)) /\
  (forall U, exists r, elifts_jump Q ex_elems ex_facets U r /\
     forall V, pairing n (flat_map A (seq 0 2)) V U = ebr2_form Q ex_elems ex_facets ex_bc r U V) /\
  (forall U V, pairing n (flat_map A (seq 0 2)) V U = pairing n (flat_map A (seq 0 2)) U V) /\
  (forall U, 0 <= pairing n (flat_map A (seq 0 2)) U U).
Proof.
  intros N m0 B HN. destruct (constructor_data_every_degree 2 N ltac:(auto) HN) as (root & mi & CD & _).
  pose proof CD as (HD & RT & Ln & UU & HI & HS & Q1 & Q2 & PW).
  destruct (nodal_basis_exists_unique ginv 2 N mi (equi 2 N) ltac:(lia) RT Ln UU HI) as (psi & Hpsi & _).
  destruct (elastic_reference_of_degree root [] [] [] ginv m0 2 N 0 mi (equi 2 N) psi B CD Hpsi) as (R1 & E1 & _).
  destruct (elasticity_br2_operator_positive root [] [] [] ginv m0 2 N 0 mi (equi 2 N) B strip_X 2 ex_elems ex_facets ex_bc ex_part ex_part_fi
    (fun p => inverting ginv (mesh_erank (strip_at root N) (strip_edata R1) N (ex_part p) (ex_part_fi p))) (strip_edata R1) INR (fun g => INR (S g)) CD HN ex_parts (strip_valid _ _)) as (R_ & E & H).
  - intros. split; apply pos_INR.
  - assert (R_ = R1) by congruence. subst R1. exists root, mi, R_. split; [exact E|]. intros n Q.
    destruct H as (A & HA & H1 & H2 & H3 & H4); [reflexivity|cbn; auto| |].
    + intros p Hp. destruct (strip_table p Hp). apply (rank_of_elastic_br2 ginv _ _ N). apply mesh_erank_ok; auto.
    + exists A. split; [exact HA|]. split; [|split; [exact H3|exact H4]]. intro U. destruct (H1 U) as (r & Hr). exists r. split; [exact Hr|]. intro V. apply (H2 U V r Hr).
Qed.

(** The element of [curved_mass_refuted], whose Jacobian determinant is not constant: here its full mass
    matrix is inverted, so C90a holds there. *)
Example curved_elastic_inverse : let E := {| e_geo := curved_data; e_lam := fun _ _ => 1; e_mu := fun _ _ => 1; e_rhoInv := fun _ _ => 1; e_Minv := fun _ _ _ => 1 / 2;
    e_force := None; e_dir := None; e_slip := None |} in keeps_inverse E 0 /\ mass_matrix E 0 0 0 = 2.
Proof.
  intro E. assert (M : mass_matrix E 0 0 0 = 2) by (unfold mass_matrix; cbn; lra). split; [|exact M].
  intros s u Hs Hu. cbn in Hs, Hu. replace s with 0%nat by lia. replace u with 0%nat by lia. cbn [E e_geo curved_data p_N rsum Nat.eqb e_Minv]. rewrite M. lra.
Qed.
