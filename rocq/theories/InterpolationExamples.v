(** The hypotheses of nodal_multigrid are met, for every dimension, degree and number of quantities. *)
Require Import List Arith Lia Reals Lra Permutation.
Require Import Verif.Base Verif.LinAlg Verif.MultiIndexModel Verif.TensorModel Verif.CombinatoricsModel Verif.CombinatoricsProps Verif.EquidistantModel Verif.EquidistantProps
  Verif.BasisModel Verif.BasisSpec Verif.IntegralSpec Verif.IntegralProofs Verif.DubinerProofs Verif.SpanProofs Verif.RefElementSpec Verif.RefElementModel Verif.RefElementProofs
  Verif.RefElementProps Verif.UnisolventProps Verif.RefElementExamples Verif.LocalMeshModel Verif.TopoModel Verif.TopoSpec Verif.AssembleModel Verif.AssembleSpec Verif.AssembleProps
  Verif.MGConfigModel Verif.InterpolationModel Verif.InterpolationSpec Verif.InterpolationProps.
Import ListNotations.
Local Open Scope R_scope.

Lemma bounded_choice : forall (T : Type) (t0 : T) (P : nat -> T -> Prop) n, (forall d, (d <= n)%nat -> exists t, P d t) -> exists f, forall d, (d <= n)%nat -> P d (f d).
Proof.
  intros T t0 P n. induction n as [| n IH]; intros H.
  - destruct (H 0%nat (le_n _)) as (t & Ht). exists (fun _ => t). intros d Hd. now replace d with 0%nat by lia.
  - destruct IH as (f & Hf); [intros d Hd; apply H; lia |]. destruct (H (S n) (le_n _)) as (t & Ht).
    exists (fun d => if (d =? S n)%nat then t else f d). intros d Hd. destruct (Nat.eqb_spec d (S n)) as [-> | Hne]; [exact Ht | apply Hf; lia].
Qed.
(** The centre for degree zero, else the equidistant nodes. *)
Definition mg_nodes (D d : nat) : list (nat -> R) := match d with 0%nat => [fun _ => / INR (D + 1)] | _ => map of_list (equidistant_nodes D VTK d) end.
Lemma mg_nodes_ok : forall D d mi, (1 <= D <= 3)%nat -> runs_through D d mi -> length (mg_nodes D d) = length mi /\ unisolvent D d (mg_nodes D d).
Proof.
  intros D [| d] mi HD RT; [| apply (equidistant_unisolvent D VTK (S d) mi); auto; lia].
  destruct RT as [fuel E]. destruct (sums_multiindices fuel D 0 mi ltac:(lia) E) as [Hmi Hb].
  assert (L : length mi = 1%nat) by (assert (D = 1 \/ D = 2 \/ D = 3)%nat as [-> | [-> | ->]] by lia; cbn in Hb; congruence).
  cbn [mg_nodes]. rewrite L. split; [reflexivity |]. apply (nodal_unisolvent D 0 mi _ (fun _ _ => 1)); [lia | exact Hmi | now rewrite L |].
  split; [intros; apply poly_const |]. intros i k Hi Hk. cbn in Hi, Hk. now replace i with 0%nat by lia; replace k with 0%nat by lia.
Qed.
Example multigrid_hypotheses : forall D max_degree Q m0, (1 <= D <= 3)%nat -> exists (mi : nat -> list (list nat)) psi interp,
  let nodes := mg_nodes D in let bs d := (length (nodes d) * Q)%nat in let S d := NodalRefElement ginv D d (mi d) (nodes d) in
  mesh_parts 2 2 ex_elems ex_facets ex_bc ex_part /\ exact_inverse ginv
  /\ (forall d, (d <= max_degree)%nat -> runs_through D d (mi d) /\ length (nodes d) = length (mi d) /\ unisolvent D d (nodes d) /\ nodal_basis D d (nodes d) (psi d))
  /\ (forall from to, (from < to <= max_degree)%nat ->
     exists blocks, assembled 2 ex_part m0 (nodal_assemble (S to) (S from) Q) (bs to) (bs from) to from blocks /\ interp to from = Some (petsc_matrix (bs to) (bs from) blocks)).
Proof.
  intros D max_degree Q m0 HD.
  destruct (bounded_choice (list (list nat)) [] (fun d mi => runs_through D d mi) max_degree) as (mi & Hmi).
  { intros d _. destruct (integer_sums_enumerate D d true ltac:(lia)) as (fuel & mi & E & _). exists mi. now exists fuel. }
  set (psi := fun d => psi0 ginv D d (mi d) (mg_nodes D d)).
  assert (HF : forall d, (d <= max_degree)%nat -> runs_through D d (mi d) /\ length (mg_nodes D d) = length (mi d) /\ unisolvent D d (mg_nodes D d) /\ nodal_basis D d (mg_nodes D d) (psi d)).
  { intros d Hd. pose proof (Hmi d Hd) as RT. destruct (mg_nodes_ok D d (mi d) HD RT) as [L U]. split; [exact RT |]. split; [exact L |]. split; [exact U |].
    destruct RT as [fuel E]. destruct (sums_multiindices fuel D d (mi d) ltac:(lia) E) as [Hm _].
    apply psi0_nodal; auto; [lia | apply gauss_inverse_exact]. }
  set (bs := fun d => (length (mg_nodes D d) * Q)%nat). set (S0 := fun d => NodalRefElement ginv D d (mi d) (mg_nodes D d)).
  destruct (bounded_choice (nat -> list (nat * nat * list R)) (fun _ => []) (fun to bl => forall from, (from < to)%nat ->
    assembled 2 ex_part m0 (nodal_assemble (S0 to) (S0 from) Q) (bs to) (bs from) to from (bl from)) max_degree) as (bl & Hbl).
  { intros to Hto. destruct (bounded_choice (list (nat * nat * list R)) [] (fun from blocks => (from < to)%nat ->
      assembled 2 ex_part m0 (nodal_assemble (S0 to) (S0 from) Q) (bs to) (bs from) to from blocks) to) as (f & Hf).
    - intros from Hfrom. destruct (Nat.eq_dec from to) as [-> | Hne]; [exists []; intros; lia |].
      destruct (HF from ltac:(lia)) as (Rf & Lf & Uf & Pf). destruct (HF to Hto) as (Rt & Lt & Ut & Pt).
      destruct (nodal_prolongation 2 2 ex_elems ex_facets ex_bc ex_part m0 ex_parts ginv D from to (mi from) (mi to) (mg_nodes D from) (mg_nodes D to) (psi from) (psi to) Q)
        as [(blocks & HB) _]; auto; try lia; [apply gauss_inverse_exact |]. exists blocks. intros _. exact HB.
    - exists f. intros from Hfrom. apply Hf; lia. }
  exists mi, psi, (fun to from => Some (petsc_matrix (bs to) (bs from) (bl to from))). cbv zeta.
  split; [exact ex_parts |]. split; [exact gauss_inverse_exact |]. split; [exact HF |].
  intros from to Hft. exists (bl to from). split; [apply Hbl; lia | reflexivity].
Qed.
(** From linear to quadratic functions on an interval: the midpoint gets the mean of the values at the end points. *)
Example midpoint : forall (x y : nat -> R) psi, nodal_basis 1 2 (map of_list [[0]; [1]; [1 / 2]]) psi ->
  same_function 1 1 (fun i xi => match i with 0%nat => 1 - xi 0%nat | _ => xi 0%nat end) 2 x psi 3 y -> y 2%nat = (x 0%nat + x 1%nat) / 2.
Proof.
  intros x y psi [_ H] S. specialize (S 0%nat 0%nat (of_list [1 / 2]) ltac:(lia) ltac:(lia)). unfold fe_value in S. cbn [rsum Nat.mul Nat.add] in S.
  pose proof (H 0%nat 2%nat ltac:(cbn; lia) ltac:(cbn; lia)) as H0'. pose proof (H 1%nat 2%nat ltac:(cbn; lia) ltac:(cbn; lia)) as H1'. pose proof (H 2%nat 2%nat ltac:(cbn; lia) ltac:(cbn; lia)) as H2'.
  cbn [map nth Nat.eqb] in H0', H1', H2'. rewrite H0', H1', H2' in S. unfold of_list in S. cbn in S. lra.
Qed.
