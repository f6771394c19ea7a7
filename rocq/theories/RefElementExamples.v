(** Concrete cases of the theorems of RefElementProps. *)
Require Import List Arith Lia Reals Lra Permutation.
Require Import Verif.Base Verif.LinAlg Verif.MultiIndexModel Verif.TensorModel Verif.CombinatoricsModel Verif.CombinatoricsProps Verif.EquidistantModel Verif.EquidistantProps
  Verif.BasisModel Verif.BasisSpec Verif.IntegralSpec Verif.IntegralProofs Verif.QuadratureModel Verif.QuadratureSpec Verif.QuadratureProps Verif.QuadratureExamples
  Verif.RootsProps Verif.DubinerProofs Verif.SpanProofs Verif.RefElementSpec Verif.RefElementModel Verif.RefElementProps Verif.UnisolventProps.
Import ListNotations.
Local Open Scope R_scope.

Definition ginv (n : nat) (A : nat -> nat -> R) (k j : nat) : R := gauss n A (fun i => if (i =? j)%nat then 1 else 0) k.
(** For every dimension and degree there are multi-indices, nodes, zeros and tables that meet all hypotheses. *)
Example hypotheses_met : forall D N, (1 <= D <= 3)%nat -> (1 <= N)%nat -> exists mi nodes root,
  runs_through D N mi /\ length nodes = length mi /\ unisolvent D N nodes /\ exact_inverse ginv
  /\ sound_quadrature root [] [] [] (2 * N) /\ exists psi, nodal_basis D N nodes psi.
Proof.
  intros D N HD HN. destruct (integer_sums_enumerate D N true ltac:(lia)) as (fuel & mi & E & _).
  assert (RT : runs_through D N mi) by (now exists fuel).
  destruct (equidistant_unisolvent D VTK N mi HD HN RT) as [L U]. destruct (roots_for_every_order (2 * N)) as (root & Hr).
  exists mi, (map of_list (equidistant_nodes D VTK N)), root.
  split; [exact RT |]. split; [exact L |]. split; [exact U |]. split; [exact gauss_inverse_exact |]. split.
  - split; [exact Hr |]. split; [| split]; intros k r [].
  - destruct (nodal_basis_exists_unique ginv D N mi _ ltac:(lia) RT L U gauss_inverse_exact) as (psi & P & _). now exists psi.
Qed.

(** The linear element on the triangle. *)
Definition mi1 : list (list nat) := [[0; 0]; [1; 0]; [0; 1]]%nat.
Definition nodes1 : list (nat -> R) := map of_list (referenceSimplexVertices 2).
Definition hat (i : nat) (xi : nat -> R) : R := match i with 0%nat => 1 - xi 0%nat - xi 1%nat | 1%nat => xi 0%nat | _ => xi 1%nat end.
Example mi1_runs : runs_through 2 1 mi1.
Proof. exists 50%nat. reflexivity. Qed.
Example nodes1_unisolvent : unisolvent 2 1 nodes1.
Proof.
  destruct (equidistant_unisolvent 2 VTK 1 mi1 ltac:(lia) ltac:(lia) mi1_runs) as [L U].
  destruct (equidistant_nodes_enumerate 2 VTK 1 ltac:(lia) ltac:(lia)) as (idx & _ & _ & E).
  rewrite map_length in L. change (length mi1) with 3%nat in L. change (2 + 1)%nat with 3%nat in E. rewrite <- L, firstn_all in E.
  rewrite E in U. exact U.
Qed.
Example hat_nodal : nodal_basis 2 1 nodes1 hat.
Proof.
  split.
  - intros i Hi. change (length nodes1) with 3%nat in Hi. assert (i = 0 \/ i = 1 \/ i = 2)%nat as [-> | [-> | ->]] by lia; cbn [hat].
    + apply (poly_aff 2 _ 1 (-1) (-1) 0); [intros; unfold hat; ring | left; lia | left; lia | now right].
    + exact (poly_coord 2 0 ltac:(lia)).
    + exact (poly_coord 2 1 ltac:(lia)).
  - intros i k Hi Hk. change (length nodes1) with 3%nat in Hi, Hk.
    assert (i = 0 \/ i = 1 \/ i = 2)%nat as [-> | [-> | ->]] by lia; assert (k = 0 \/ k = 1 \/ k = 2)%nat as [-> | [-> | ->]] by lia;
      cbn [hat nodes1 map referenceSimplexVertices repeat seq nth of_list Nat.eqb]; unfold of_list; cbn; ring.
Qed.
(** The gradient of the first hat function is (-1, -1), here with the order point, basis function, direction. *)
Example gradient_of_hat : forall m0, exists E m,
  nodal_evaluateGradientAt (NodalRefElement ginv 2 1 mi1 nodes1) m0 [pt (1 / 3) (1 / 3) 0] [2; 0; 1]%nat = Some (E, m)
  /\ v_shape E = [1; 3; 2]%nat /\ m (v_addr E [0; 0; 0]%nat) = -1 /\ m (v_addr E [0; 0; 1]%nat) = -1 /\ m (v_addr E [0; 2; 1]%nat) = 1.
Proof.
  intros m0.
  destruct (nodal_ref_element ginv 2 1 mi1 nodes1 hat ltac:(lia) mi1_runs eq_refl nodes1_unisolvent gauss_inverse_exact hat_nodal) as [_ G].
  destruct (G m0 [pt (1 / 3) (1 / 3) 0] [2; 0; 1]%nat) as (E & m & Em & EE & H).
  { apply Permutation_sym. apply (perm_trans (l' := [0; 2; 1]%nat)); [apply perm_skip, perm_swap | apply perm_swap]. }
  exists E, m. split; [exact Em |]. split; [rewrite EE; reflexivity |].
  assert (A : forall i d l, (i < 3)%nat -> (d < 2)%nat -> partial_derivative (hat i) d (pt (1 / 3) (1 / 3) 0) l -> m (v_addr E [0%nat; i; d]) = l).
  { intros i d l Hi Hd Hl. eapply uniqueness_limite; [| exact Hl]. exact (H i d 0%nat Hi Hd ltac:(cbn; lia) ltac:(lia)). }
  assert (Aff : forall c e t, derivable_pt_lim (fun t => c + e * t) t e).
  { intros c e t. apply (JacobiProofs.derivable_pt_lim_ext_eq (fun t => c + e * t) _ _ (0 + e * 1)); [reflexivity | ring |]. apply (derivable_pt_lim_plus (fun _ => c) (fun t => e * t)); [apply derivable_pt_lim_const |].
    apply (derivable_pt_lim_scal id). apply derivable_pt_lim_id. }
  split; [| split]; apply A; try lia; unfold partial_derivative, with_coord, hat; cbn [Nat.eqb pt].
  - apply (JacobiProofs.derivable_pt_lim_ext_eq (fun t => (1 - 1 / 3) + (-1) * t) _ _ (-1)); [intros; ring | reflexivity | apply Aff].
  - apply (JacobiProofs.derivable_pt_lim_ext_eq (fun t => (1 - 1 / 3) + (-1) * t) _ _ (-1)); [intros; ring | reflexivity | apply Aff].
  - apply (JacobiProofs.derivable_pt_lim_ext_eq (fun t => 0 + 1 * t) _ _ 1); [intros; ring | reflexivity | apply Aff].
Qed.
(** Entries 1/12 and 1/24 of the mass matrix. *)
Example mass_of_hat : forall m0 root, (forall a, (a <= 2)%nat -> jacobi_roots 2 a 0 (root 2%nat a 0%nat)) -> exists M,
  nodal_massMatrix (NodalRefElement ginv 2 1 mi1 nodes1) m0 root [] [] [] = Some M /\ M 1%nat 1%nat = 1 / 12 /\ M 1%nat 2%nat = 1 / 24.
Proof.
  intros m0 root Hr.
  destruct (nodal_mass_matrix m0 root [] [] [] ginv 2 1 mi1 nodes1 hat ltac:(lia) mi1_runs eq_refl nodes1_unisolvent gauss_inverse_exact hat_nodal) as (M & Minv & EM & _ & HM & _).
  { split; [exact Hr |]. split; [| split]; intros k r []. }
  exists M. split; [exact EM |]. split.
  - eapply simplex_integral_unique; [| exact (HM 1%nat 1%nat ltac:(cbn; lia) ltac:(cbn; lia)) |]; [lia |].
    eapply simplex_ext; [| | apply (simplex_mono 2 2 2 0 0); [lia | cbn; lia]]; [intros; unfold mono; cbn; ring |]. unfold factR. cbn. field.
  - eapply simplex_integral_unique; [| exact (HM 1%nat 2%nat ltac:(cbn; lia) ltac:(cbn; lia)) |]; [lia |].
    eapply simplex_ext; [| | apply (simplex_mono 2 2 1 1 0); [lia | cbn; lia]]; [intros; unfold mono; cbn; ring |]. unfold factR. cbn. field.
Qed.
