(** The divergence theorem on the reference simplex, for polynomials. *)
Require Import List Arith Lia Bool Reals Lra Factorial.
Require Import Verif.Base Verif.LinAlg Verif.BasisSpec Verif.JacobiProofs Verif.IntegralSpec Verif.IntegralProofs Verif.QuadratureProps Verif.RootsProps Verif.DubinerProofs
  Verif.NodesConform Verif.FaultModel Verif.GeometryModel Verif.GeometryProofs Verif.MeshSpec Verif.TraceProps.
Import ListNotations.
Local Open Scope R_scope.

Lemma is_integral_minus f g a b I J : is_integral f a b I -> is_integral g a b J -> is_integral (fun x => f x - g x) a b (I - J).
Proof.
  intros HF HG. pose proof (is_integral_plus _ _ _ _ _ _ HF (is_integral_scale _ _ _ _ (-1) HG)) as H.
  eapply is_integral_ext; [| | exact H]; [intros; cbv beta; ring|ring].
Qed.
Lemma simplex_minus D f g I J : is_simplex_integral D f I -> is_simplex_integral D g J -> is_simplex_integral D (fun x => f x - g x) (I - J).
Proof.
  intros HF HG. pose proof (simplex_plus D _ _ _ _ HF (simplex_scale D _ _ (-1) HG)) as H.
  eapply simplex_ext; [| | exact H]; [intros; cbv beta; ring|ring].
Qed.
(** The facet opposite to the origin, and the one where the first coordinate is zero. *)
Definition slanted (D : nat) (chi : nat -> R) : nat -> R := pt (1 - rsum (D - 1) chi) (chi 0%nat) (chi 1%nat).
Definition at_zero (chi : nat -> R) : nat -> R := pt 0 (chi 0%nat) (chi 1%nat).

Lemma direction_0 D d f df I : (D = 2 \/ D = 3)%nat -> polynomial D d f -> (forall x, partial_derivative f 0 x (df x)) -> is_simplex_integral D df I ->
  is_simplex_integral (D - 1) (fun chi => f (slanted D chi) - f (at_zero chi)) I.
Proof.
  intros HD Hf Hd HI.
  assert (A : forall x y z, derivable_pt_lim (fun t => f (pt t y z)) x (df (pt x y z))).
  { intros x y z. pose proof (Hd (pt x y z)) as H. unfold partial_derivative in H. change (pt x y z 0%nat) with x in H.
    eapply derivable_pt_lim_ext_eq; [|reflexivity|exact H]. intro t. apply (poly_ext D d f Hf). intros [|[|[|e]]] He; try lia; reflexivity. }
  destruct HD as [-> | ->]; cbn [is_simplex_integral Nat.sub] in *.
  - destruct HI as (G & HG & HI). eapply is_integral_ext; [|reflexivity|exact HI]. intros y Hy.
    rewrite (is_integral_unique _ 0 (1 - y) (G y) (f (pt (1 - y) y 0) - f (pt 0 y 0)) ltac:(lra) (HG y Hy)).
    2:{ exists (fun t => f (pt t y 0)). split; [intros; apply A|reflexivity]. }
    unfold slanted, at_zero. cbn [Nat.sub rsum pt]. f_equal; apply (poly_ext 2 d f Hf); intros [|[|e]] He; try lia; cbn; try reflexivity; ring.
  - destruct HI as (G & H & HG & HH & HI). exists H. split; [|exact HI]. intros z Hz. eapply is_integral_ext; [|reflexivity|exact (HH z Hz)]. intros y Hy. cbv beta.
    rewrite (is_integral_unique _ 0 (1 - y - z) (G y z) (f (pt (1 - y - z) y z) - f (pt 0 y z)) ltac:(lra) (HG z y Hz Hy)).
    2:{ exists (fun t => f (pt t y z)). split; [intros; apply A|reflexivity]. }
    unfold slanted, at_zero. cbn [Nat.sub rsum pt]. f_equal; apply (poly_ext 3 d f Hf); intros [|[|[|e]]] He; try lia; cbn; try reflexivity; ring.
Qed.

(** Derivatives after a permutation of the coordinates. *)
Lemma permuted_partial D d f df a b (s : (nat -> R) -> nat -> R) : polynomial D d f -> (forall x, partial_derivative f b x (df x)) -> (a < D)%nat -> (b < D)%nat ->
  (forall x t e, (e < D)%nat -> s (with_coord x a t) e = with_coord (s x) b t e) -> (forall x, s x b = x a) ->
  forall x, partial_derivative (fun y => f (s y)) a x (df (s x)).
Proof.
  intros Hf Hd Ha Hb Hs Hsb x. unfold partial_derivative. pose proof (Hd (s x)) as H. unfold partial_derivative in H. rewrite Hsb in H.
  eapply derivable_pt_lim_ext_eq; [|reflexivity|exact H]. intro t. cbv beta. apply (poly_ext D d f Hf). intros e He. symmetry. apply Hs; auto.
Qed.
Lemma swap01_partial D d f df : (D = 2 \/ D = 3)%nat -> polynomial D d f -> (forall x, partial_derivative f 1 x (df x)) ->
  forall x, partial_derivative (fun y => f (swap01 y)) 0 x (df (swap01 x)).
Proof.
  intros HD Hf Hd. apply (permuted_partial D d f df 0 1 swap01 Hf Hd); try lia; [|reflexivity].
  intros x t e He. destruct e as [|[|[|e]]]; try lia; reflexivity.
Qed.
Lemma swap12_partial d f df : polynomial 3 d f -> (forall x, partial_derivative f 2 x (df x)) ->
  forall x, partial_derivative (fun y => f (swap12 y)) 1 x (df (swap12 x)).
Proof.
  intros Hf Hd. apply (permuted_partial 3 d f df 1 2 swap12 Hf Hd); try lia; [|reflexivity].
  intros x t e He. destruct e as [|[|[|e]]]; try lia; reflexivity.
Qed.

Lemma facet_flip D f J : (D = 2 \/ D = 3)%nat -> is_simplex_integral (D - 1) f J -> is_simplex_integral (D - 1) (fun chi => f (flip (D - 1) chi)) J.
Proof.
  intros [-> | ->] H; [|apply simplex_flip; auto]. cbn [Nat.sub is_simplex_integral] in *. apply is_integral_flip in H.
  eapply is_integral_ext; [|reflexivity|exact H]. intros x _. cbv beta. unfold flip. cbn [rsum pt]. f_equal. f_equal. ring.
Qed.
Lemma direction_1 D d f df I J0 J1 : (D = 2 \/ D = 3)%nat -> polynomial D d f -> polynomial D d df -> (forall x, partial_derivative f 1 x (df x)) -> is_simplex_integral D df I ->
  is_simplex_integral (D - 1) (fun chi => f (slanted D chi)) J0 -> is_simplex_integral (D - 1) (fun chi => f (swap01 (at_zero chi))) J1 -> I = J0 - J1.
Proof.
  intros HD Hf Hdf Hd HI H0 H1.
  pose proof (direction_0 D d _ _ I HD (poly_swap01 D d f HD Hf) (swap01_partial D d f df HD Hf Hd) (simplex_swap01 D d df I HD Hdf HI)) as A.
  assert (B : is_simplex_integral (D - 1) (fun chi => f (swap01 (slanted D chi))) J0).
  { eapply simplex_ext; [|reflexivity|exact (facet_flip D _ J0 HD H0)]. intros x y z. cbv beta. apply (poly_ext D d f Hf).
    intros e He. destruct HD as [-> | ->]; unfold slanted, flip, swap01; cbn [Nat.sub rsum pt]; destruct e as [|[|[|e]]]; try lia; cbn; ring. }
  apply (simplex_integral_unique (D - 1) _ _ _ ltac:(lia) A). apply (simplex_minus (D - 1) _ _ _ _ B H1).
Qed.
Lemma direction_2 d f df I J0 J1 : polynomial 3 d f -> polynomial 3 d df -> (forall x, partial_derivative f 2 x (df x)) -> is_simplex_integral 3 df I ->
  is_simplex_integral 2 (fun chi => f (slanted 3 chi)) J0 -> is_simplex_integral 2 (fun chi => f (pt (chi 0%nat) (chi 1%nat) 0)) J1 -> I = J0 - J1.
Proof.
  intros Hf Hdf Hd HI H0 H1.
  assert (S2 : polynomial 2 d (fun chi => f (slanted 3 chi))).
  { apply (poly_through 3); [exact Hf|]. intros [|[|[|e]]] He; try lia; unfold slanted; cbn [Nat.sub rsum pt].
    - apply (poly_eq 2 1 (fun chi => 1 + (-1 * chi 0%nat + -1 * chi 1%nat))); [intros; ring|]. apply poly_plus; [apply poly_const|].
      apply poly_plus; apply poly_scale; apply poly_coord; lia.
    - apply poly_coord; lia.
    - apply poly_coord; lia. }
  apply (direction_1 3 d _ _ I J0 J1 ltac:(lia) (poly_swap12 d f Hf) (poly_swap12 d df Hdf) (swap12_partial d f df Hf Hd) (simplex_swap12 d df I Hdf HI)).
  - eapply simplex_ext; [|reflexivity|exact (simplex_swap01 2 d _ J0 ltac:(lia) S2 H0)]. intros x y z. cbv beta. apply (poly_ext 3 d f Hf).
    intros [|[|[|e]]] He; try lia; unfold slanted, swap01, swap12; cbn [Nat.sub rsum pt]; ring.
  - eapply simplex_ext; [|reflexivity|exact H1]. intros x y z. cbv beta. apply (poly_ext 3 d f Hf). intros [|[|[|e]]] He; try lia; reflexivity.
Qed.

(** The normals of the facets of the reference element: (1, 1, 1) and the negative axes. *)
Lemma ref_facets_2 : ref_facet 2 0 = [0;1]%nat /\ ref_facet 2 1 = [0;2]%nat /\ ref_facet 2 2 = [1;2]%nat.
Proof. repeat split; reflexivity. Qed.
Lemma ref_facets_3 : ref_facet 3 0 = [0;1;2]%nat /\ ref_facet 3 1 = [0;1;3]%nat /\ ref_facet 3 2 = [0;2;3]%nat /\ ref_facet 3 3 = [1;2;3]%nat.
Proof. repeat split; reflexivity. Qed.
Definition axis (D s e : nat) : R := if (s =? D)%nat then 1 else if (s + e =? D - 1)%nat then -1 else 0.
Lemma ref_normal_axis D s e : (D = 2 \/ D = 3)%nat -> (s < D + 1)%nat -> (e < D)%nat -> ref_normal D (ref_facet D s) e = axis D s e.
Proof.
  intros HD Hs He. destruct HD as [-> | ->].
  - destruct ref_facets_2 as (E0 & E1 & E2). destruct s as [|[|[|s]]]; try lia; rewrite ?E0, ?E1, ?E2; unfold ref_normal; cbv zeta;
    match goal with |- context [Rlt_dec ?a ?b] => destruct (Rlt_dec a b) as [h|h]; cbn in h; unfold vdiff, ref_vertex in h; cbn in h; try (exfalso; lra) end;
    destruct e as [|[|e]]; try lia; cbn; unfold vdiff, ref_vertex; cbn; ring.
  - destruct ref_facets_3 as (E0 & E1 & E2 & E3). destruct s as [|[|[|[|s]]]]; try lia; rewrite ?E0, ?E1, ?E2, ?E3; unfold ref_normal; cbv zeta;
    match goal with |- context [Rlt_dec ?a ?b] => destruct (Rlt_dec a b) as [h|h]; cbn in h; unfold vdiff, cross, ref_vertex in h; cbn in h; try (exfalso; lra) end;
    destruct e as [|[|[|e]]]; try lia; cbn; unfold vdiff, ref_vertex; cbn; ring.
Qed.

(** The divergence theorem: the integral of a derivative is the sum over the facets of the integrals of
    the function times the component of the normal. *)
Theorem reference_divergence : forall D d f df e I J, (D = 2 \/ D = 3)%nat -> (e < D)%nat -> polynomial D d f -> polynomial D d df ->
  (forall x, partial_derivative f e x (df x)) -> is_simplex_integral D df I ->
  (forall s, (s < D + 1)%nat -> is_simplex_integral (D - 1) (fun chi => f (facet_param D (ref_facet D s) chi)) (J s)) ->
  I = rsum (D + 1) (fun s => ref_normal D (ref_facet D s) e * J s).
Proof.
  intros D d f df e I J HD He Hf Hdf Hd HI HJ.
  rewrite (rsum_ext (D + 1) _ (fun s => axis D s e * J s)) by (intros s Hs; rewrite ref_normal_axis by auto; reflexivity).
  assert (SL : is_simplex_integral (D - 1) (fun chi => f (slanted D chi)) (J D)).
  { eapply simplex_ext; [|reflexivity|exact (HJ D ltac:(lia))]. intros x y z. cbv beta. apply (poly_ext D d f Hf). intros i Hi.
    destruct HD as [-> | ->]; [destruct ref_facets_2 as (_ & _ & ->)|destruct ref_facets_3 as (_ & _ & _ & ->)]; unfold slanted, facet_param;
      destruct i as [|[|[|i]]]; try lia; cbn; ring. }
  assert (Z : forall s (g : (nat -> R) -> nat -> R), (s < D + 1)%nat -> (forall x y z i, (i < D)%nat -> facet_param D (ref_facet D s) (pt x y z) i = g (pt x y z) i) ->
    is_simplex_integral (D - 1) (fun chi => f (g chi)) (J s)).
  { intros s g Hs E. eapply simplex_ext; [|reflexivity|exact (HJ s Hs)]. intros x y z. cbv beta. apply (poly_ext D d f Hf). intros i Hi. apply E; auto. }
  destruct e as [|[|e]].
  - assert (Z0 : is_simplex_integral (D - 1) (fun chi => f (at_zero chi)) (J (D - 1)%nat)).
    { apply Z; [lia|]. intros x y z i Hi. destruct HD as [-> | ->]; [destruct ref_facets_2 as (_ & E & _)|destruct ref_facets_3 as (_ & _ & E & _)]; cbn [Nat.sub]; rewrite E;
        unfold at_zero, facet_param; destruct i as [|[|[|i]]]; try lia; cbn; ring. }
    pose proof (direction_0 D d f df I HD Hf Hd HI) as A.
    rewrite (simplex_integral_unique (D - 1) _ _ _ ltac:(lia) A (simplex_minus _ _ _ _ _ SL Z0)).
    destruct HD as [-> | ->]; cbn; ring.
  - assert (Z1 : is_simplex_integral (D - 1) (fun chi => f (swap01 (at_zero chi))) (J (D - 2)%nat)).
    { apply (Z (D - 2)%nat (fun chi => swap01 (at_zero chi))); [lia|]. intros x y z i Hi. destruct HD as [-> | ->]; [destruct ref_facets_2 as (E & _)|destruct ref_facets_3 as (_ & E & _)]; cbn [Nat.sub]; rewrite E;
        unfold swap01, at_zero, facet_param; destruct i as [|[|[|i]]]; try lia; cbn; ring. }
    rewrite (direction_1 D d f df I (J D) (J (D - 2)%nat) HD Hf Hdf Hd HI SL Z1). destruct HD as [-> | ->]; cbn; ring.
  - destruct HD as [-> | ->]; [lia|]. assert (e = 0)%nat by lia. subst e.
    assert (Z2 : is_simplex_integral 2 (fun chi => f (pt (chi 0%nat) (chi 1%nat) 0)) (J 0%nat)).
    { apply (Z 0%nat (fun chi => pt (chi 0%nat) (chi 1%nat) 0)); [lia|]. intros x y z i Hi. destruct ref_facets_3 as (E & _). rewrite E.
        unfold facet_param; destruct i as [|[|[|i]]]; try lia; cbn; ring. }
    rewrite (direction_2 d f df I (J 3%nat) (J 0%nat) Hf Hdf Hd HI SL Z2). cbn; ring.
Qed.
