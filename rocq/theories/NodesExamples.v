(** The hypotheses of the theorems about nodes are met. *)
Require Import List Arith Lia Reals Lra.
Require Import Verif.Base Verif.LinAlg Verif.CombinatoricsModel Verif.CombinatoricsProps Verif.SimplexModel Verif.TopoModel Verif.FaultModel Verif.GeometryModel Verif.GeometrySpec Verif.EquidistantModel
  Verif.BasisModel Verif.BasisSpec Verif.IntegralSpec Verif.QuadratureModel Verif.QuadratureSpec Verif.RootsProps Verif.SpanProofs
  Verif.RefElementSpec Verif.RefElementModel Verif.RefElementProps Verif.UnisolventProps Verif.ErrorSpec Verif.NodesSpec Verif.NodesModel Verif.NodesProofs Verif.NodesConform Verif.NodesProps Verif.NodesMeshProps Verif.NodesSymmetryProps.
Import ListNotations.
Local Open Scope R_scope.

(** Numbers can be put in decreasing order. *)
Lemma place_for : forall n (y : nat -> R) t, (forall i j, (i < j < n)%nat -> y j < y i) -> (forall i, (i < n)%nat -> y i <> t) ->
  exists k, (k <= n)%nat /\ (forall i, (i < k)%nat -> t < y i) /\ forall i, (k <= i < n)%nat -> y i < t.
Proof.
  induction n as [| n IH]; intros y t Hd Hn; [exists 0%nat; repeat split; intros; lia |].
  destruct (Rlt_dec t (y n)) as [H | H].
  - exists (S n). split; [lia |]. split; [| intros; lia]. intros i Hi. destruct (Nat.eq_dec i n) as [-> | Hne]; [exact H |]. specialize (Hd i n ltac:(lia)). lra.
  - destruct (IH y t) as (k & Hk & A & B); [intros; apply Hd; lia | intros; apply Hn; lia |]. exists k. split; [lia |]. split; [exact A |].
    intros i Hi. destruct (Nat.eq_dec i n) as [-> | Hne]; [specialize (Hn n ltac:(lia)); lra | apply B; lia].
Qed.
Lemma sorted_roots : forall n (x : nat -> R), (forall i j, (i < n)%nat -> (j < n)%nat -> x i = x j -> i = j) ->
  exists y : nat -> R, (forall i, (i < n)%nat -> exists j, (j < n)%nat /\ y i = x j) /\ forall i j, (i < j < n)%nat -> y j < y i.
Proof.
  induction n as [| n IH]; intros x Hx; [exists x; split; intros; lia |].
  destruct (IH x) as (y & Hy & Hd); [intros; apply Hx; auto; lia |].
  destruct (place_for n y (x n) Hd) as (k & Hk & A & B); [intros i Hi E; destruct (Hy i Hi) as (j & Hj & Ej); rewrite Ej in E; apply Hx in E; lia |].
  exists (fun i => if (i <? k)%nat then y i else if (i =? k)%nat then x n else y (i - 1)%nat). split.
  - intros i Hi. destruct (Nat.ltb_spec i k).
    + destruct (Hy i ltac:(lia)) as (j & Hj & E). exists j. split; [lia | exact E].
    + destruct (Nat.eqb_spec i k); [exists n; split; [lia | reflexivity] |]. destruct (Hy (i - 1)%nat ltac:(lia)) as (j & Hj & E). exists j. split; [lia | exact E].
  - intros i j Hij. destruct (Nat.ltb_spec j k); destruct (Nat.ltb_spec i k); try lia; [apply Hd; lia | |];
    destruct (Nat.eqb_spec j k); destruct (Nat.eqb_spec i k); try lia; try (apply A; lia); try (apply B; lia); try (apply Hd; lia).
Qed.
Example numerics_exist : forall N, (1 <= N)%nat -> exists solve root eps, sound_numerics solve root eps N /\ decreasing_roots root N /\ jacobi_roots (N + 1) 0 0 (root (N + 1)%nat 0%nat 0%nat).
Proof.
  intros N HN. destruct (jacobi_roots_exist (N - 1) 1 1) as (x & [Z Di] & _). destruct (sorted_roots (N - 1) x Di) as (y & Hy & Hd). destruct (jacobi_roots_exist (N + 1) 0 0) as (w & Hw & _).
  exists gauss, (fun _ a _ => match a with 0%nat => w | _ => y end), (/ (8 * (INR N * INR N * INR N))). assert (P : 0 < INR N) by (apply lt_0_INR; lia).
  assert (P3 : 0 < 8 * (INR N * INR N * INR N)) by (repeat apply Rmult_lt_0_compat; lra). split; [split | split].
  - exact gauss_exact.
  - split.
    + intros i Hi. destruct (Hy i Hi) as (j & Hj & ->). now apply Z.
    + intros i j Hi Hj E. destruct (Nat.lt_trichotomy i j) as [H | [H | H]]; [specialize (Hd i j ltac:(lia)); lra | exact H | specialize (Hd j i ltac:(lia)); lra].
  - now apply Rinv_0_lt_compat.
  - rewrite Rinv_l; lra.
  - exact Hd.
  - exact Hw.
Qed.
(** Degree three: the inner Lobatto points are +-1/sqrt 5. *)
Example lobatto_3 : exists root gl, jacobi_roots 2 1 1 (root 2%nat 1%nat 1%nat) /\ LegendreGaussLobattoPoints root 4 0 0 = Some gl /\ gl = [-1; - / sqrt 5; / sqrt 5; 1].
Proof.
  assert (S5 : sqrt 5 * sqrt 5 = 5) by (apply sqrt_sqrt; lra). assert (P5 : 0 < sqrt 5) by (apply sqrt_lt_R0; lra).
  assert (I5 : / sqrt 5 * / sqrt 5 = / 5) by (rewrite <- Rinv_mult, S5; reflexivity). assert (PI : 0 < / sqrt 5) by now apply Rinv_0_lt_compat.
  exists (fun _ _ _ i => match i with 0%nat => / sqrt 5 | _ => - / sqrt 5 end). eexists. split; [| split; [reflexivity | reflexivity]]. split.
  - intros i Hi. unfold jacobi, jacobi_coeff, factR. cbn [rsum Nat.add Nat.sub fact]. set (s := / sqrt 5) in *. destruct i as [| [| i]]; try lia; simpl; nra.
  - intros [| [| i]] [| [| j]] Hi Hj E; try lia; lra.
Qed.

(** Every unisolvent set of nodes is that of a mesh of elements that interpolate between them. *)
Lemma setup_exists : forall D N mi nodes X, (D = 1 \/ D = 2 \/ D = 3)%nat -> runs_through D N mi -> length nodes = length mi -> unisolvent D N nodes -> exists G, gs_X G = X /\ nodal_setup D N nodes G.
Proof.
  intros D N mi nodes X HD RT L U. destruct (nodal_basis_exists_unique _ D N mi nodes HD RT L U gauss_inverse_exact) as (psi & Hp & _).
  destruct (finite_choice (fun c g => forall x, gradient_at D (psi c) x (fun e => g e x)) (length nodes)) as (g & Hg).
  { intros c Hc. apply (poly_gradient D N). now apply (proj1 Hp). }
  { exact (fun _ _ => 0). }
  exists {| gs_D := D; gs_X := X; gs_T := fun x d => x d * x d + x d; gs_nb := length nodes; gs_node := fun j => nth j nodes (fun _ => 0); gs_phi := psi; gs_dphi := fun j e x => g j e x;
            gs_xi := fun _ _ => 0; gs_chi := fun _ _ => 0 |}.
  split; [reflexivity |]. split; try reflexivity; cbn [gs_phi gs_dphi gs_T].
  - exact Hp.
  - intros j e x Hj He. apply (gradient_partial D (psi j) x (fun e => g j e x)); [now apply Hg | exact He].
  - intros x y E i Hi. now rewrite E.
Qed.
(** Equidistant nodes of every degree, on curved elements with any vertices. *)
Example equidistant_setup : forall D conv N X, (D = 2 \/ D = 3)%nat -> (1 <= N)%nat -> exists G, gs_X G = X /\ nodal_setup D N (map of_list (equidistant_nodes D conv N)) G /\ no_gaps G.
Proof.
  intros D conv N X HD HN. destruct (integer_sums_enumerate D N true ltac:(lia)) as (fuel & mi & Em & _). assert (RT : runs_through D N mi) by (exists fuel; exact Em).
  destruct (equidistant_unisolvent D conv N mi ltac:(lia) HN RT) as [L U]. destruct (setup_exists D N mi _ X ltac:(lia) RT L U) as (G & EX & NS).
  exists G. split; [exact EX |]. split; [exact NS |]. now apply (equidistant_conform D conv N G).
Qed.
(** Warped and blended nodes of degree two. *)
Example warped_setup : forall D alpha X, (D = 2 \/ D = 3)%nat -> exists solve root eps mi nodes G, sound_numerics solve root eps 2 /\ runs_through D 2 mi
  /\ (if (D =? 2)%nat then warp_and_blend_2 solve root eps alpha 2 mi else warp_and_blend_3 solve root eps alpha 2 mi) = Some nodes /\ gs_X G = X /\ nodal_setup D 2 nodes G /\ no_gaps G.
Proof.
  intros D alpha X HD. destruct (numerics_exist 2 ltac:(lia)) as (solve & root & eps & SN & _). destruct (integer_sums_enumerate D 2 true ltac:(lia)) as (fuel & mi & Em & _). assert (RT : runs_through D 2 mi) by (exists fuel; exact Em).
  destruct (low_degree_nodes solve root eps alpha D 2 mi HD ltac:(lia) RT SN) as (nodes & E & L & U & _). destruct (setup_exists D 2 mi nodes X ltac:(lia) RT L U) as (G & EX & NS).
  exists solve, root, eps, mi, nodes, G. repeat (split; [assumption |]). destruct (warp_and_blend_conform solve root eps alpha 2 ltac:(lia) SN) as [C2 C3].
  destruct HD as [-> | ->]; cbn [Nat.eqb] in E; [exact (proj2 (C2 mi nodes G RT E NS)) | exact (proj2 (C3 mi nodes G RT E NS))].
Qed.
