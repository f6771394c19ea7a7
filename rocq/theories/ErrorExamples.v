(** The hypotheses of the theorems on error norms are met. *)
Require Import List Arith Lia Reals Lra Permutation.
Require Import Verif.Base Verif.LinAlg Verif.MultiIndexModel Verif.TensorModel Verif.CombinatoricsModel Verif.CombinatoricsProps Verif.SimplexModel Verif.TopoModel Verif.TopoSpec Verif.FaultModel
  Verif.GeometryModel Verif.GeometrySpec Verif.EquidistantModel Verif.BasisModel Verif.BasisSpec Verif.BasisProps Verif.IntegralSpec Verif.IntegralProofs Verif.QuadratureModel Verif.QuadratureSpec
  Verif.RootsProps Verif.QuadratureExamples Verif.DubinerProofs Verif.SpanProofs Verif.RefElementSpec Verif.RefElementModel Verif.RefElementProofs Verif.RefElementProps Verif.UnisolventProps Verif.RefElementExamples
  Verif.AssembleModel Verif.AssembleSpec Verif.AssembleProps Verif.InterpolationSpec Verif.ErrorSpec Verif.ErrorModel Verif.ErrorProofs Verif.ErrorProps Verif.ErrorNormProps Verif.ErrorExactProps.
Import ListNotations.
Local Open Scope R_scope.

(** Nodes of a straight element. *)
Definition straight_nodes (D : nat) (nodes : list (nat -> R)) (v : nat -> R) (A : nat -> nat -> R) (j i : nat) : R :=
  v i + rsum D (fun d => A i d * nth j nodes (fun _ => 0) d).
Lemma straight_place : forall D N nodes psi v A xi i, (1 <= N)%nat -> unisolvent D N nodes -> nodal_basis D N nodes psi ->
  place (length nodes) psi (straight_nodes D nodes v A) xi i = v i + rsum D (fun d => A i d * xi d).
Proof.
  intros D N nodes psi v A xi i HN U HP. symmetry. apply (nodal_reproduces D N nodes psi (fun xi => v i + rsum D (fun d => A i d * xi d)) U HP).
  apply poly_plus; [apply poly_const |]. apply (poly_rsum D N D (fun d xi => A i d * xi d)). intros d Hd. apply poly_scale. apply (poly_le D 1); [exact HN |]. now apply poly_coord.
Qed.
(** On the distributed mesh of the examples: every degree, every straight geometry, every coefficients. *)
Example error_hypotheses : forall D N Q v A x, (D = 2 \/ D = 3)%nat -> (1 <= N <= 10)%nat -> exists root nb b pos cl F,
  sound_quadrature root [] [] [] 20 /\ mesh_parts 2 2 ex_elems ex_facets ex_bc ex_part /\ (1 < length ex_elems)%nat /\ (0 < nb)%nat
  /\ distributed_geometry D 2 ex_part nb b pos cl /\ distributed_function D 2 ex_part nb Q b x F
  /\ (forall g xi i, (g < length ex_elems)%nat -> (i < D)%nat -> place nb b (pos g) xi i = v g i + rsum D (fun d => A g i d * xi d))
  /\ (forall j, (j < nb)%nat -> polynomial D 10 (b j)).
Proof.
  intros D N Q v A x HD HN. destruct (hypotheses_met D N ltac:(lia) ltac:(lia)) as (mi & nodes & _ & RT & L & U & HI & _ & psi & HP).
  destruct (roots_for_every_order 20) as (root & Hr).
  pose proof (nodal_represents ginv D N mi nodes psi ltac:(lia) RT L U HI HP) as REP.
  exists root, (length nodes), psi, (fun g => straight_nodes D nodes (v g) (A g)),
    (fun p => {| cv_re := nodal_re (NodalRefElement ginv D N mi nodes); cv_nb := length nodes; cv_pos := fun e => straight_nodes D nodes (v (nth e (tm_l2cg (ex_part p)) 0%nat)) (A (nth e (tm_l2cg (ex_part p)) 0%nat)) |}),
    (fun p => {| ff_re := nodal_re (NodalRefElement ginv D N mi nodes); ff_nb := length nodes; ff_Q := Q; ff_ne := tm_num_local (ex_part p);
       ff_mem := fun a => x (nth (a / (length nodes * Q)) (tm_l2cg (ex_part p)) 0 * (length nodes * Q) + a mod (length nodes * Q))%nat |}).
  split; [split; [exact Hr |]; split; [| split]; intros k r [] |]. split; [exact ex_parts |]. split; [cbn; lia |]. split.
  { destruct nodes; [| cbn; lia]. exfalso. assert (Z := U (fun _ => 1) (poly_const D 1 N) ltac:(intros k Hk; cbn in Hk; lia) (fun _ => 0)). cbv beta in Z. lra. }
  split; [| split; [| split]].
  - intros p Hp. split; [exact REP |]. split; [reflexivity |]. intros e g j i He Hg Hj. cbn [cv_pos]. now rewrite (nth_error_nth _ _ 0%nat Hg).
  - intros p Hp. split; [exact REP |]. do 3 (split; [reflexivity |]). intros e g i He Hg Hi. cbn [ff_mem].
    replace ((e * (length nodes * Q) + i) / (length nodes * Q))%nat with e by (apply (Nat.div_unique _ _ e i); lia).
    replace ((e * (length nodes * Q) + i) mod (length nodes * Q))%nat with i by (apply (Nat.mod_unique _ _ e i); lia).
    now rewrite (nth_error_nth _ _ 0%nat Hg).
  - intros g xi i _ _. apply (straight_place D N); auto; lia.
  - intros j Hj. apply (poly_le D N); [lia |]. now apply HP.
Qed.
(** With it: on these meshes the error of the interpolant of a polynomial of degree N is zero. *)
Example error_of_interpolant : forall D N (v : nat -> nat -> R) (A : nat -> nat -> nat -> R) f m0, (D = 2 \/ D = 3)%nat -> (1 <= N <= 10)%nat -> polynomial D N f ->
  (forall x y, (forall d, (d < D)%nat -> x d = y d) -> f x = f y) -> (forall g, (g < length ex_elems)%nat -> geo_det D (A g) <> 0) ->
  exists root cl F err, (forall p, (p < 2)%nat -> L2_rank D (sr_points (simplexQuadratureRule root [] [] [] D 20)) (cl p) (F p) (fun y _ => f y) (m0 p) = Some (err p))
  /\ (forall p e i, (p < 2)%nat -> (i < ff_nb (F p))%nat -> exists y, ff_mem (F p) (e * ff_nb (F p) + i)%nat = f y)
  /\ reduce_error 2 err = 0.
Proof.
  intros D N v A f m0 HD HN Hf Hc Hdet.
  destruct (hypotheses_met D N ltac:(lia) ltac:(lia)) as (mi & nodes & _ & RT & L & U & HI & _ & psi & HP).
  destruct (roots_for_every_order 20) as (root & Hr).
  pose proof (nodal_represents ginv D N mi nodes psi ltac:(lia) RT L U HI HP) as REP.
  assert (NZ : length nodes <> 0%nat).
  { destruct nodes; [| discriminate]. exfalso. assert (Z := U (fun _ => 1) (poly_const D 1 N) ltac:(intros k Hk; cbn in Hk; lia) (fun _ => 0)). cbv beta in Z. lra. }
  set (nb := length nodes) in *. set (pos := fun g => straight_nodes D nodes (v g) (A g)).
  set (cl := fun p => {| cv_re := nodal_re (NodalRefElement ginv D N mi nodes); cv_nb := nb; cv_pos := fun e => pos (nth e (tm_l2cg (ex_part p)) 0%nat) |}).
  set (x := fun a => f (pos (a / nb)%nat (a mod nb)%nat)).
  set (F := fun p => {| ff_re := nodal_re (NodalRefElement ginv D N mi nodes); ff_nb := nb; ff_Q := 1%nat; ff_ne := tm_num_local (ex_part p);
     ff_mem := fun a => x (nth (a / nb) (tm_l2cg (ex_part p)) 0 * nb + a mod nb)%nat |}).
  assert (DM : forall e i, (i < nb)%nat -> ((e * nb + i) / nb = e /\ (e * nb + i) mod nb = i)%nat).
  { intros e i Hi. split; symmetry; [apply (Nat.div_unique _ _ e i) | apply (Nat.mod_unique _ _ e i)]; lia. }
  destruct (l2_error_exact root [] [] [] D 2 2 ex_elems ex_facets ex_bc ex_part nb psi pos cl nb 1 psi x F (fun y _ => f y) v A HD) with (m0 := m0) as (err & S & E1 & _ & _ & E2).
  - split; [exact Hr |]; split; [| split]; intros k r [].
  - exact ex_parts.
  - intros p Hp. split; [exact REP |]. split; [reflexivity |]. intros e g j i He Hg Hj. cbn [cv_pos cl]. now rewrite (nth_error_nth _ _ 0%nat Hg).
  - intros p Hp. split; [exact REP |]. do 3 (split; [reflexivity |]). intros e g i He Hg Hi. cbn [ff_mem F]. rewrite Nat.mul_1_r in *.
    destruct (DM e i Hi) as [-> ->]. now rewrite (nth_error_nth _ _ 0%nat Hg).
  - intros y z j Hyz. now apply Hc.
  - intros g xi i _ _. apply (straight_place D N); auto; lia.
  - intros j Hj. apply (poly_le D N); [lia |]. now apply HP.
  - intros j Hj. apply (poly_le D N); [lia |]. exact Hf.
  - exists root, cl, F, err. split; [exact E1 |]. split.
    + intros p e i Hp Hi. cbn [ff_mem ff_nb F] in *. unfold x. eauto.
    + apply E2; [exact Hdet |]. intros g j xi Hg Hj. unfold fe_value. replace j with 0%nat by lia.
      assert (PX : polynomial D N (fun xi => f (place nb psi (pos g) xi))).
      { apply (poly_comp D N f (place nb psi (pos g)) Hf). intros i Hi. apply (poly_eq D 1 (fun xi => v g i + rsum D (fun d => A g i d * xi d))).
        - intros y. symmetry. apply (straight_place D N); auto; lia.
        - apply poly_plus; [apply poly_const |]. apply (poly_rsum D 1 D (fun d xi => A g i d * xi d)). intros d Hd. apply poly_scale. now apply poly_coord. }
      rewrite (nodal_reproduces D N nodes psi _ U HP PX xi). apply rsum_ext. intros k Hk. f_equal. rewrite Nat.mul_1_r. cbn [Nat.mul Nat.add]. unfold x. destruct (DM g k Hk) as [-> ->].
      apply Hc. intros d Hd. symmetry. exact (straight_place D N nodes psi (v g) (A g) (nth k nodes (fun _ => 0)) d ltac:(lia) U HP).
Qed.
(** Facets: facet 1 of a straight element, a boundary function that is zero. *)
Example facet_hypotheses : forall D (v : nat -> R) A, (D = 2 \/ D = 3)%nat -> geo_det D A <> 0 -> exists cl F bg b fs el fc,
  represents D (cv_re cl) (cv_nb cl) bg /\ represents (D - 1) (ff_re F) (ff_nb F) b /\ ff_ne F = 1%nat
  /\ f2v D = Some fs
  /\ (forall bnd, (bnd < ff_ne F)%nat -> exists fctNo lf fs', nth_error [7%nat] bnd = Some fctNo /\ nth_error [3%nat] 0 = Some (el bnd)
     /\ find_index fctNo [5; 7; 6; 9]%nat = Some lf /\ f2v D = Some fs' /\ nth_error fs' lf = Some (fc bnd))
  /\ (forall xi, jacobian_of D (place (cv_nb cl) bg (cv_pos cl 3%nat)) xi A).
Proof.
  intros D v A HD HA. destruct (hypotheses_met D 1 ltac:(lia) ltac:(lia)) as (mi & nodes & _ & RT & L & U & HI & _ & psi & HP).
  destruct (hypotheses_met (D - 1) 1 ltac:(lia) ltac:(lia)) as (mi' & nodes' & _ & RT' & L' & U' & _ & _ & psi' & HP').
  pose proof (nodal_represents ginv D 1 mi nodes psi ltac:(lia) RT L U HI HP) as REP.
  pose proof (nodal_represents ginv (D - 1) 1 mi' nodes' psi' ltac:(lia) RT' L' U' HI HP') as REP'.
  assert (exists fs f, f2v D = Some fs /\ nth_error fs 1 = Some f) as (fs & f & Efs & Ef) by (destruct HD as [-> | ->]; vm_compute; eauto).
  exists {| cv_re := nodal_re (NodalRefElement ginv D 1 mi nodes); cv_nb := length nodes; cv_pos := fun _ => straight_nodes D nodes v A |},
    {| ff_re := nodal_re (NodalRefElement ginv (D - 1) 1 mi' nodes'); ff_nb := length nodes'; ff_Q := 1%nat; ff_ne := 1%nat; ff_mem := fun _ => 0 |}, psi, psi', fs, (fun _ => 3%nat), (fun _ => f).
  split; [exact REP |]. split; [exact REP' |]. split; [reflexivity |]. split; [exact Efs |]. split.
  - intros bnd Hb. cbn in Hb. replace bnd with 0%nat by lia. exists 7%nat, 1%nat, fs. repeat split; auto.
  - intros xi. apply (affine_jacobian D _ v). intros. apply (straight_place D 1); auto; lia.
Qed.
