(** Property theorem: the traction on the fault in elasticity does not depend on which element of a
    facet comes first (C27). *)
Require Import List Arith Lia Bool Reals Lra FunctionalExtensionality.
Require Import Verif.Base Verif.LinAlg Verif.TopoModel Verif.PoissonModel Verif.PoissonExamples Verif.FaultModel Verif.FaultProps Verif.FaultSideProps Verif.FaultExamples
  Verif.ElasticityModel Verif.ElasticitySpec Verif.ElasticityProofs.
Import ListNotations.
Local Open Scope R_scope.

(** Two views of a facet as in [other_side]; the material of the two elements is exchanged too. *)
Record elastic_other_side (E : edata) (i : nat) (x : facet_info) (E' : edata) (i' : nat) (x' : facet_info) : Prop := {
  eo_geo : other_side (e_geo E) i x (e_geo E') i' x';
  eo_lam0 : e_lam E' (fi_up0 x') = e_lam E (fi_up1 x); eo_lam1 : e_lam E' (fi_up1 x') = e_lam E (fi_up0 x);
  eo_mu0 : e_mu E' (fi_up0 x') = e_mu E (fi_up1 x); eo_mu1 : e_mu E' (fi_up1 x') = e_mu E (fi_up0 x) }.

Theorem elasticity_traction_exchange : forall S inverse up ref E i x E' i' x' F F' state slip slip' u0 u1 t t',
  let P := e_geo E in let P' := e_geo E' in
  elastic_other_side E i x E' i' x' -> fi_bc x = BC_Fault ->
  prepare_points (p_dim P) up ref (normals P i) = Some F -> prepare_points (p_dim P') up ref (normals P' i') = Some F' ->
  e_slip E = Some slip -> e_slip E' = Some slip' ->
  (forall p q, (q < p_nq P)%nat -> slip i false p q = elasticity_slip S (p_dim P) F state p q) ->
  (forall p q, (q < p_nq P')%nat -> slip' i' false p q = elasticity_slip S (p_dim P') F' state p q) ->
  traction_skeleton E i x u0 u1 = Some t -> traction_skeleton E' i' x' u1 u0 = Some t' ->
  forall k c, elasticity_traction S inverse (p_dim P') F' t' k c = elasticity_traction S inverse (p_dim P) F t k c.
Proof.
  intros S inverse up ref E i x E' i' x' F F' state slip slip' u0 u1 t t' P P' EO Hbc HF HF' Hsl Hsl' Hs Hs' Ht Ht' k c.
  destruct EO as [O La0 La1 Mu0 Mu1]. fold P P' in O.
  pose proof (prepare_points_length _ _ _ _ _ HF) as L. unfold normals in L. rewrite map_length, seq_length in L.
  destruct (slip_exchange S up ref P i x P' i' x' F O HF) as (F2 & HF2 & _ & Sl). assert (F2 = F') by congruence. subst F2.
  assert (EF : F' = map exchange F).
  { rewrite (normals_other _ _ _ _ _ _ O), (os_dim _ _ _ _ _ _ O), (prepare_points_neg _ _ _ _ _ HF) in HF'. congruence. }
  unfold traction_skeleton, bc_skeleton in Ht, Ht'. rewrite (os_bc _ _ _ _ _ _ O), Hbc, Hsl' in Ht'. rewrite Hbc, Hsl in Ht. cbn [Nat.eqb BC_Fault BC_Dirichlet] in Ht, Ht'.
  injection Ht as <-. injection Ht' as <-. subst F'.
  unfold elasticity_traction. rewrite map_length, (os_dim _ _ _ _ _ _ O). unfold fault_minv. rewrite mass_exchange.
  apply rsum_ext. intros a _. apply rsum_ext. intros q Hq. apply rsum_ext. intros o Ho. rewrite at_q_exchange by auto. cbn [fp_nl fp_basis exchange].
  assert (Hq' : (q < p_nq P')%nat) by (rewrite (os_nq _ _ _ _ _ _ O); lia).
  assert (Ho' : (o < p_dim P')%nat) by (rewrite (os_dim _ _ _ _ _ _ O); auto).
  assert (E0 : E_side P' x' 0 = E_side P x 1) by (unfold E_side; rewrite (os_E _ _ _ _ _ _ O), (os_local0 _ _ _ _ _ _ O); auto).
  assert (E1 : E_side P' x' 1 = E_side P x 0) by (unfold E_side; rewrite (os_E _ _ _ _ _ _ O), (os_local1 _ _ _ _ _ _ O); auto).
  assert (D : forall G l, Dx_q E' G l = Dx_q E G l). { intros. unfold Dx_q. fold P P'. rewrite (os_dim _ _ _ _ _ _ O), (os_Dxi _ _ _ _ _ _ O). auto. }
  assert (D0 : Dx_side E' i' x' 0 = Dx_side E i x 1).
  { unfold Dx_side, G_side, local_side. fold P P'. rewrite D, (os_local0 _ _ _ _ _ _ O), (os_G0 _ _ _ _ _ _ O). auto. }
  assert (D1 : Dx_side E' i' x' 1 = Dx_side E i x 0).
  { unfold Dx_side, G_side, local_side. fold P P'. rewrite D, (os_local1 _ _ _ _ _ _ O), (os_G1 _ _ _ _ _ _ O). auto. }
  assert (M0 : lam_q E' x' 0 = lam_q E x 1 /\ mu_q E' x' 0 = mu_q E x 1).
  { unfold lam_q, mu_q, local_side, up_side. fold P P'. rewrite (os_N _ _ _ _ _ _ O), (os_matE _ _ _ _ _ _ O), (os_local0 _ _ _ _ _ _ O), La0, Mu0. auto. }
  assert (M1 : lam_q E' x' 1 = lam_q E x 0 /\ mu_q E' x' 1 = mu_q E x 0).
  { unfold lam_q, mu_q, local_side, up_side. fold P P'. rewrite (os_N _ _ _ _ _ _ O), (os_matE _ _ _ _ _ _ O), (os_local1 _ _ _ _ _ _ O), La1, Mu1. auto. }
  destruct M0 as [-> ->], M1 as [-> ->]. rewrite D0, D1. fold P P'. rewrite E0, E1, Hs, Hs' by (auto; lia).
  assert (Ix : forall a b, ix E' a b = ix E a b). { intros. unfold ix. fold P P'. rewrite (os_N _ _ _ _ _ _ O). auto. }
  assert (T : forall lam mu Dx U, traction E' (p_nu P' i') lam mu Dx U o q = - traction E (p_nu P i) lam mu Dx U o q).
  { intros lam mu Dx U. rewrite (traction_form E' _ _ _ _ _ _ _ Ho'), (traction_form E _ _ _ _ _ _ _ Ho).
    rewrite <- tct_opp. unfold tct, sig, dgr. fold P P'. rewrite (os_dim _ _ _ _ _ _ O), (os_N _ _ _ _ _ _ O).
    apply rsum_ext. intros j _. rewrite (os_nu _ _ _ _ _ _ O).
    assert (R : forall r s, rsum (p_N P) (fun l => Dx l s q * U (ix E' l r)) = rsum (p_N P) (fun l => Dx l s q * U (ix E l r))) by (intros; apply rsum_ext; intros; rewrite Ix; auto).
    rewrite !R. f_equal. f_equal. f_equal. apply rsum_ext. intros. apply R. }
  rewrite !T.
  assert (R : forall U d, rsum (p_N P') (fun l => E_side P x d l q * U (ix E' l o)) = rsum (p_N P) (fun l => E_side P x d l q * U (ix E l o))).
  { intros. rewrite (os_N _ _ _ _ _ _ O). apply rsum_ext. intros. rewrite Ix. auto. }
  rewrite !R. specialize (Sl state o q ltac:(lia)). rewrite (os_dim _ _ _ _ _ _ O) in Sl |- *. rewrite Sl.
  unfold penalty. rewrite (os_method _ _ _ _ _ _ O), (os_dim _ _ _ _ _ _ O), (os_pen _ _ _ _ _ _ O). ring.
Qed.
Print Assumptions elasticity_traction_exchange.

(** Two such views, with the slip of the adapter in either. *)
Definition elastic_view (x : facet_info) (c : R) (f : nat -> nat -> R) : edata := {|
  e_geo := FaultExamples.view x c (fun _ => 0); e_lam := fun el _ => INR el; e_mu := fun el _ => 1 + INR el; e_rhoInv := fun _ _ => 1;
  e_Minv := fun _ _ _ => 0; e_force := None; e_dir := None; e_slip := Some (fun _ _ => f) |}.
Example elasticity_exchange_ex : exists F F' (state : nat -> R),
  let f := elasticity_slip FaultExamples.e_space 2 F state in let f' := elasticity_slip FaultExamples.e_space 2 F' state in
  let x := FaultExamples.view_x 0 1 in let x' := FaultExamples.view_x 1 0 in
  elastic_other_side (elastic_view x 1 f) 0 x (elastic_view x' (-1) f') 0 x' /\ fi_bc x = BC_Fault /\
  prepare_points 2 FaultExamples.e_up FaultExamples.e_ref (normals (e_geo (elastic_view x 1 f)) 0) = Some F /\
  prepare_points 2 FaultExamples.e_up FaultExamples.e_ref (normals (e_geo (elastic_view x' (-1) f')) 0) = Some F' /\
  exists t t', traction_skeleton (elastic_view x 1 f) 0 x (fun l => INR l) (fun l => 1) = Some t /\
    traction_skeleton (elastic_view x' (-1) f') 0 x' (fun l => 1) (fun l => INR l) = Some t'.
Proof.
  set (n := fun c : nat => 1 * p_n (PoissonExamples.ex_data IP) 0 c 0).
  destruct (FaultExamples.prepare_some n) as [A _]; [unfold n; cbn; lra|]. destruct (prepare_point 2 FaultExamples.e_up FaultExamples.e_ref n) as [p|] eqn:Ep; [|congruence].
  exists [p], [exchange p], (fun l => INR (l + 1)). cbv zeta. set (x := FaultExamples.view_x 0 1). set (x' := FaultExamples.view_x 1 0).
  set (f := elasticity_slip _ _ [p] _). set (f' := elasticity_slip _ _ [exchange p] _).
  assert (O : other_side (FaultExamples.view x 1 (fun _ => 0)) 0 x (FaultExamples.view x' (-1) (fun _ => 0)) 0 x').
  { constructor; try reflexivity; intros; cbn; ring. }
  split; [constructor; [exact O| | | |]; reflexivity|]. split; [reflexivity|].
  assert (HF : prepare_points 2 FaultExamples.e_up FaultExamples.e_ref (normals (e_geo (elastic_view x 1 f)) 0) = Some [p]).
  { unfold normals. cbn -[prepare_point PoissonExamples.ex_data Rmult]. fold n. rewrite Ep. reflexivity. }
  split; [exact HF|]. split.
  - cbn [e_geo elastic_view] in HF |- *. rewrite (normals_other _ _ _ _ _ _ O). apply prepare_points_neg in HF. exact HF.
  - eexists _, _. split; reflexivity.
Qed.
