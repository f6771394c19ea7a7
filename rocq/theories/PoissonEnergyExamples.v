(** Cases for the energy balance of the antiplane body (C93). *)
Require Import List Arith Lia Bool Reals Lra.
Require Import Verif.Base Verif.LinAlg Verif.SimplexModel Verif.LocalMeshModel Verif.LocalMeshProps Verif.TopoModel Verif.TopoSpec Verif.TopoProofs Verif.TopoProps
  Verif.AssembleModel Verif.TopoCheck Verif.AssembleSpec Verif.AssembleProps Verif.MatFree Verif.FaultModel Verif.PoissonModel Verif.PoissonProps Verif.PenaltyModel Verif.SipSpec Verif.SipExamples
  Verif.GeometryModel Verif.GeometryProofs Verif.GeometrySpec Verif.GeometryProps Verif.GeometryStraight Verif.MeshSpec Verif.MeshProofs Verif.MeshPoissonProps Verif.MeshExamples
  Verif.TensorModel Verif.BasisModel Verif.BasisSpec Verif.IntegralSpec Verif.DubinerProofs Verif.NodesConform Verif.ErrorSpec Verif.QuadratureModel Verif.QuadratureSpec Verif.RootsProps Verif.RefElementModel Verif.RefElementSpec Verif.RefElementProps Verif.RefElementExamples
  Verif.DegreeSpec Verif.OperatorRefModel Verif.OperatorRefProps Verif.OperatorRefExamples Verif.ConsistencySpec Verif.ConsistencyProofs Verif.ConsistencyProps Verif.ConsistencyExamples
  Verif.DefiniteSpec Verif.DefiniteProps Verif.DefiniteExamples Verif.PoissonEnergySpec Verif.PoissonEnergyProps.
Import ListNotations.
Local Open Scope R_scope.

(** Case for [poisson_energy_balance]: the strip of three triangles on two ranks, elements of any degree,
    slip s0 and then s1 on the fault between the second and the third. *)
Definition shear_slip (s : R) (f : list nat) (g q : nat) : R := s * ex_slip f g q.
Example strip_shear : forall N m0 B s0 s1, (1 <= N)%nat -> (forall g l, p_K B g l = ex_c g (fun _ => 0)) ->
  exists root mi R_, Poisson_constructor root [] [] [] ginv m0 2 N 0 mi (equi 2 N) B = Some R_ /\ let G := strip_at root N in
  let P s p := loaded_rank G R_ N (shear_slip s) (ex_value G) (ex_part p) (ex_part_fi p) in let n := length mi in
  let Q := data_problem G ex_elems R_ N ex_slip (ex_value G) in let at_slip s := with_values Q (shear_slip s) (ex_value G) in
  exists A r0 r1 U0 U1, (forall p, (p < 2)%nat -> map_opt (to_global (ex_part p)) (assemble (ex_part p) (ex_part_fi p) (poisson_mat (P s0 p))) = Some (A p)) /\
    (forall p, (p < 2)%nat -> map_opt (to_global_row (ex_part p)) (rhs (ex_part p) (ex_part_fi p) (poisson_vec (P s0 p))) = Some (r0 p)) /\
    (forall p, (p < 2)%nat -> map_opt (to_global_row (ex_part p)) (rhs (ex_part p) (ex_part_fi p) (poisson_vec (P s1 p))) = Some (r1 p)) /\
    solves n (flat_map A (seq 0 2)) (flat_map r0 (seq 0 2)) U0 /\ solves n (flat_map A (seq 0 2)) (flat_map r1 (seq 0 2)) U1 /\
    total_energy (at_slip s1) ex_elems ex_facets ex_bc U1 - total_energy (at_slip s0) ex_elems ex_facets ex_bc U0 =
    (shear_work (at_slip s0) ex_elems ex_facets ex_bc U0 (fun f g q => shear_slip s1 f g q - shear_slip s0 f g q) (fun f q => ex_value G f q - ex_value G f q) +
     shear_work (at_slip s1) ex_elems ex_facets ex_bc U1 (fun f g q => shear_slip s1 f g q - shear_slip s0 f g q) (fun f q => ex_value G f q - ex_value G f q)) / 2.
Proof.
  intros N m0 B s0 s1 HN HK. destruct (constructor_data_every_degree 2 N ltac:(auto) ltac:(lia)) as (root & mi & CD & _).
  destruct (poisson_reference_of_degree root [] [] [] ginv m0 2 N 0 mi (equi 2 N) B CD) as (R_ & E1 & EN & _ & RD & _).
  exists root, mi, R_. split; [exact E1|]. intros G P n Q at_slip.
  assert (SJ : forall s f g h q, In f ex_facets -> elements_of ex_elems f = [g; h] -> shear_slip s f h q = - shear_slip s f g q).
  { intros s f g h q Hf El. unfold ex_facets in Hf.
    repeat (destruct Hf as [<- | Hf]; [vm_compute in El; try discriminate El; injection El as <- <-|]); [| |destruct Hf]; unfold shear_slip; cbn; ring. }
  assert (LR : forall s p, (p < 2)%nat -> poisson_rank G R_ N (ex_part p) (ex_part_fi p) (P s p) /\ holds_data 2 R_ (shear_slip s) (ex_value G) (ex_part p) (P s p)).
  { intros s p Hp. destruct (strip_table p Hp). apply loaded_rank_ok; auto. }
  assert (SV : forall s, exists A b U, (forall p, (p < 2)%nat -> map_opt (to_global (ex_part p)) (assemble (ex_part p) (ex_part_fi p) (poisson_mat (P s p))) = Some (A p)) /\
    (forall p, (p < 2)%nat -> map_opt (to_global_row (ex_part p)) (rhs (ex_part p) (ex_part_fi p) (poisson_vec (P s p))) = Some (b p)) /\
    solves n (flat_map A (seq 0 2)) (flat_map b (seq 0 2)) U).
  { intro s. destruct (poisson_operator_exact root [] [] [] ginv m0 2 N 0 mi (equi 2 N) B strip_X 2 ex_elems ex_facets ex_bc ex_part ex_part_fi (P s)
      (fun g => ex_c g (fun _ => 0)) (shear_slip s) (ex_value G) CD ltac:(lia) ex_parts (strip_valid _ _)) as (R2 & E2 & H).
    - intros. apply HK.
    - intros g Hg. destruct g as [|[|[|g]]]; unfold ex_c; lra.
    - apply strip_anchored.
    - apply SJ.
    - assert (R2 = R_) by congruence. subst R2. destruct H as (A & b & U & HA & Hb & _ & PD & S1 & _); [apply LR|].
      exists A, b, U. auto. }
  destruct (SV s0) as (A & r0 & U0 & HA & H0 & S0). destruct (SV s1) as (A1 & r1 & U1 & HA1 & H1 & S1).
  pose proof (rd_dim _ _ _ _ _ _ RD) as Hd. pose proof (rd_N _ _ _ _ _ _ RD) as HNN.
  assert (PO : forall s, problem_ok 2 ex_elems ex_facets (at_slip s)).
  { intro s. destruct (mesh_problem_ok G 2 ex_elems ex_facets ex_bc ex_part ex_parts (strip_valid _ _) R_ Hd N) as [La Nn _]. split; [exact La|exact Nn|apply SJ]. }
  assert (RK : forall s p, (p < 2)%nat -> rank_data 2 (at_slip s) (ex_part p) (P s p) /\ p_method (P s p) = IP /\ facet_table 2 (ex_part p) = Some (ex_part_fi p)).
  { intros s p Hp. exact (data_rank G 2 ex_elems ex_facets ex_bc ex_part R_ N ex_part_fi (P s) (shear_slip s) (ex_value G) p ex_parts (strip_valid _ _) Hd HN HNN (fun p Hp => proj1 (LR s p Hp)) Hp (proj2 (LR s p Hp))). }
  assert (BS : p_N (pb_ref Q) = n) by exact EN.
  (* the matrix does not depend on the slip *)
  destruct (poisson_forms 2 2 ex_elems ex_facets ex_bc ex_part _ (P s0) ex_part_fi A r0 ex_parts (PO s0) (RK s0) HA H0) as [F0 _].
  destruct (poisson_forms 2 2 ex_elems ex_facets ex_bc ex_part _ (P s1) ex_part_fi A1 r1 ex_parts (PO s1) (RK s1) HA1 H1) as [F1 _].
  assert (S1' : solves n (flat_map A (seq 0 2)) (flat_map r1 (seq 0 2)) U1).
  { intro V. rewrite <- S1. rewrite <- BS. etransitivity; [apply F0|]. symmetry. etransitivity; [apply F1|]. reflexivity. }
  exists A, r0, r1, U0, U1. do 4 (split; [assumption|]). split; [exact S1'|].
  apply (poisson_energy_balance 2 2 ex_elems ex_facets ex_bc ex_part Q (P s0) (P s1) (shear_slip s0) (ex_value G) (shear_slip s1) (ex_value G) ex_part_fi A r0 r1 U0 U1 ex_parts (PO s0) (PO s1) (RK s0) (RK s1) HA H0 H1); rewrite BS; auto.
Qed.

(** Case for [reported_flux_is_shear_force]: the fault between the ranks as each of them sees it; the
    second rank has the elements the other way round. *)
Example fault_flux : forall U p i x, (p, i) = (0, 4)%nat \/ (p, i) = (1, 0)%nat -> nth_error (ex_part_fi p) i = Some x ->
  (fi_g1 x <? fi_g0 x) = (p =? 1) /\
  exists T, traction_skeleton (ex_rank p) i x (U (fi_g0 x)) (U (fi_g1 x)) = Some T /\
    rsum 2 (fun a => pb_n ex_problem [2; 3]%nat (fi_g0 x) a 0%nat * T a 0%nat) = (if p =? 1 then -1 else 1) * shear_force ex_problem ex_elems ex_bc [2; 3]%nat U 0.
Proof.
  intros U p i x HC Ex. destruct global_ex as (MP & PO & RK & NO & _).
  assert (Hp : (p < 2)%nat) by (destruct HC as [E|E]; injection E as -> ->; lia). destruct (RK p Hp) as (RD & M & T).
  assert (HI : (i < tm_num_local_facets (ex_part p))%nat) by (destruct HC as [E|E]; injection E as -> ->; cbn; lia).
  assert (EF : nth_error (tm_facets (ex_part p)) i = Some [2; 3]%nat) by (destruct HC as [E|E]; injection E as -> ->; reflexivity).
  assert (X : (fi_up0 x =? fi_up1 x) = false /\ (fi_g1 x <? fi_g0 x) = (p =? 1)) by (destruct HC as [E|E]; injection E as -> ->; vm_compute in Ex; injection Ex as <-; split; reflexivity).
  split; [apply X|].
  destruct (reported_flux_is_shear_force 2 2 ex_elems ex_facets ex_bc ex_part ex_problem (ex_rank p) (ex_part_fi p) U p i [2; 3]%nat x MP PO Hp RD M T (NO p i Hp HI) HI EF Ex eq_refl) as (t & Et & H).
  rewrite (proj1 X) in Et. exists t. split; [exact Et|]. rewrite <- (proj2 X). apply H. cbn. lia.
Qed.
(** The force that opposes a prescribed slip of three when nothing has moved yet. *)
Example fault_force : shear_force ex_problem ex_elems ex_bc [2; 3]%nat (fun _ _ => 0) 0 = 30.
Proof. unfold shear_force, normal_flux, facet_step, imposed, mean_flux, trace, kappa_on, grad_on. cbn. unfold ex_sign. cbn. ring. Qed.
