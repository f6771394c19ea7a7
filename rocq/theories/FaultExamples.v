(** Cases that meet the hypotheses of the theorems about fault facets (C27, C54). *)
Require Import List Arith Lia Bool Reals Lra FunctionalExtensionality.
Require Import Verif.Base Verif.LinAlg Verif.TopoModel Verif.AssembleModel Verif.PoissonModel Verif.PoissonExamples
  Verif.FaultModel Verif.FaultProps Verif.FaultSideProps.
Import ListNotations.
Local Open Scope R_scope.

Definition e_up : vec := fun i => match i with 1 => 1 | _ => 0 end.
Definition e_ref : vec := fun i => match i with 0 => 1 | _ => 0 end.
Definition e_n : vec := fun i => match i with 0 => 3 | 1 => 4 | _ => 0 end.
Lemma e_nonzero dim : (0 < dim)%nat -> nonzero dim e_n.
Proof. intro. exists 0%nat. split; auto. cbn. lra. Qed.
(** In two and three dimensions the basis exists. *)
Example fault_basis_ex : (exists b, facet_basis 2 e_up e_n = Some b) /\ (exists b, facet_basis 3 e_up e_n = Some b).
Proof.
  split; [destruct (facet_basis 2 e_up e_n) as [b|] eqn:E; [eauto|]|destruct (facet_basis 3 e_up e_n) as [b|] eqn:E; [eauto|]];
    apply fault_basis_defined in E; auto; try (apply e_nonzero; lia); destruct E as [t Ht]; pose proof (Ht 0%nat ltac:(lia)) as H0; pose proof (Ht 1%nat ltac:(lia)) as H1; cbn in H0, H1; lra.
Qed.
Lemma prepare_some n : 3 <= n 0%nat -> prepare_point 2 e_up e_ref n <> None /\ prepare_point 2 e_up e_ref (vneg n) <> None.
Proof.
  intro H. assert (A : prepare_point 2 e_up e_ref n <> None).
  { unfold prepare_point. rewrite vdot2. unfold e_ref. pose proof tol_small as T.
    destruct (Rlt_dec (Rabs (1 * n 0%nat + 0 * n 1%nat)) tol) as [L|L]; [rewrite Rabs_right in L; lra|].
    destruct (Rlt_dec (1 * n 0%nat + 0 * n 1%nat) 0) as [L'|L']; [lra|].
    destruct (facet_basis 2 e_up n) eqn:E; [discriminate|]. apply fault_basis_defined in E; auto; [|exists 0%nat; split; [lia|lra]].
    destruct E as [t Ht]. pose proof (Ht 0%nat ltac:(lia)) as H0. pose proof (Ht 1%nat ltac:(lia)) as H1. cbn in H0, H1. assert (t = 0) by nra. subst t. lra. }
  split; auto. destruct (prepare_point 2 e_up e_ref n) as [p|] eqn:E; [|congruence]. rewrite (prepare_point_neg _ _ _ _ _ E). discriminate.
Qed.

(** A fault facet between elements 0 and 1, seen from both sides. *)
Definition view (x : facet_info) (s : R) (slip : nat -> R) : pdata := let D := ex_data IP in {|
  p_dim := 2; p_N := p_N D; p_Nq := p_Nq D; p_nq := 1; p_method := IP; p_W := p_W D; p_w := p_w D; p_EQ := p_EQ D; p_DxiQ := p_DxiQ D; p_matEQ := p_matEQ D;
  p_E := p_E D; p_Dxi := p_Dxi D; p_matE := p_matE D; p_MinvRef := p_MinvRef D; p_J := p_J D; p_GQ := p_GQ D; p_K := fun el _ => INR (el + 1);
  p_n := fun f i q => s * p_n D f i q; p_nu := fun f i q => s * p_nu D f i q; p_nl := p_nl D;
  p_G0 := fun _ e i _ => INR (fi_up0 x + e + i); p_G1 := fun _ e i _ => INR (fi_up1 x + e + i);
  p_pen := p_pen D; p_force := p_force D; p_dir := p_dir D; p_slip := fun _ _ => slip |}.
Definition view_x (a b : nat) : facet_info :=
  {| fi_up0 := a; fi_up1 := b; fi_g0 := a; fi_g1 := b; fi_local0 := a; fi_local1 := b; fi_inside0 := true; fi_inside1 := true; fi_bc := BC_Fault |}.
Definition e_space : fault_space := {| fs_nbf := 2; fs_e := fun l _ => INR (l + 1); fs_w := fun _ => 1 |}.
Example exchange_ex : exists F F' (state : nat -> R), let f := poisson_slip e_space F state in let f' := poisson_slip e_space F' state in
  other_side (view (view_x 0 1) 1 f) 0 (view_x 0 1) (view (view_x 1 0) (-1) f') 0 (view_x 1 0) /\
  prepare_points 2 e_up e_ref (normals (view (view_x 0 1) 1 f) 0) = Some F /\
  prepare_points 2 e_up e_ref (normals (view (view_x 1 0) (-1) f') 0) = Some F' /\
  f 0%nat = 5 /\ f' 0%nat = -5.
Proof.
  set (n := fun c : nat => 1 * p_n (ex_data IP) 0 c 0).
  destruct (prepare_some n) as [A _]; [unfold n; cbn; lra|]. destruct (prepare_point 2 e_up e_ref n) as [p|] eqn:E; [|congruence].
  set (f := poisson_slip e_space [p] (fun l => INR (l + 1))). set (f' := poisson_slip e_space [exchange p] (fun l => INR (l + 1))).
  assert (O : other_side (view (view_x 0 1) 1 f) 0 (view_x 0 1) (view (view_x 1 0) (-1) f') 0 (view_x 1 0)).
  { constructor; try reflexivity; intros; cbn; ring. }
  assert (HF : prepare_points 2 e_up e_ref (normals (view (view_x 0 1) 1 f) 0) = Some [p]).
  { unfold normals. cbn -[prepare_point ex_data Rmult]. fold n. rewrite E. reflexivity. }
  assert (HF' : prepare_points 2 e_up e_ref (normals (view (view_x 1 0) (-1) f') 0) = Some [exchange p]).
  { rewrite (normals_other _ _ _ _ _ _ O). apply prepare_points_neg in HF. exact HF. }
  exists [p], [exchange p], (fun l => INR (l + 1)). split; auto. split; auto. split; auto.
  assert (E1 : poisson_slip e_space [p] (fun l => INR (l + 1)) 0%nat = 5).
  { destruct (imposed_jump e_space e_up e_ref (view (view_x 0 1) 1 f) 0 [p] (fun l => INR (l + 1)) 0%nat HF ltac:(cbn; lia)) as (_ & H & _).
    rewrite H; [unfold slip_field; cbn; lra|]. cbn. lra. }
  split; [exact E1|]. destruct (slip_exchange e_space e_up e_ref _ _ _ _ _ _ _ O HF) as (F2 & HF2 & Hs & _).
  assert (F2 = [exchange p]) by (cbn [p_dim view] in HF2; congruence). subst F2. rewrite Hs by (cbn; lia). rewrite E1. lra.
Qed.
