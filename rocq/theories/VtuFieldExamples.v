(** The hypotheses of the theorems on files for visualisation are met, and what happens for a range of elements that
    does not begin at zero. *)
Require Import List Arith Lia Reals Lra ZArith Permutation.
Require Import Verif.Base Verif.LinAlg Verif.MultiIndexModel Verif.TensorModel Verif.CombinatoricsModel Verif.CombinatoricsProps Verif.SimplexModel Verif.TopoModel Verif.FaultModel
  Verif.GeometryModel Verif.GeometrySpec Verif.GeometryProofs Verif.IntegralSpec Verif.IntegralProofs Verif.EquidistantModel Verif.BasisModel Verif.BasisSpec Verif.BasisProps Verif.QuadratureModel Verif.QuadratureSpec
  Verif.DubinerProofs Verif.SpanProofs Verif.RefElementSpec Verif.RefElementModel Verif.RefElementProofs Verif.RefElementProps Verif.UnisolventProps Verif.RefElementExamples
  Verif.AssembleModel Verif.AssembleSpec Verif.AssembleProps Verif.InterpolationSpec Verif.ErrorSpec Verif.ErrorModel Verif.ErrorProofs Verif.ErrorProps Verif.ErrorNormProps Verif.ErrorExactProps Verif.ErrorExamples Verif.VtuModel Verif.VtuProps Verif.VtuFieldModel Verif.VtuFieldProps.
Import ListNotations.
Local Open Scope R_scope.

(** A nodal element of degree 1 and straight elements: element e of the geometry has vertex v e and edges A e. *)
Lemma straight_case : forall D (v : nat -> nat -> R) (A : nat -> nat -> nat -> R), (D = 2 \/ D = 3)%nat -> exists re nodes psi,
  represents D re (length nodes) psi /\ unisolvent D 1 nodes /\ nodal_basis D 1 nodes psi /\ (0 < length nodes)%nat /\
  let cl := {| cv_re := re; cv_nb := length nodes; cv_pos := fun e => straight_nodes D nodes (v e) (A e) |} in
  (forall e xi i, place (cv_nb cl) psi (cv_pos cl e) xi i = v e i + rsum D (fun d => A e i d * xi d)) /\
  (forall e xi, jacobian_of D (place (cv_nb cl) psi (cv_pos cl e)) xi (A e)).
Proof.
  intros D v A HD. destruct (hypotheses_met D 1 ltac:(lia) ltac:(lia)) as (mi & nodes & _ & RT & L & U & HI & _ & psi & HP).
  pose proof (nodal_represents ginv D 1 mi nodes psi ltac:(lia) RT L U HI HP) as REP.
  exists (nodal_re (NodalRefElement ginv D 1 mi nodes)), nodes, psi. split; [exact REP|]. split; [exact U|]. split; [exact HP|]. split.
  { destruct nodes; [| cbn; lia]. exfalso. assert (Z := U (fun _ => 1) (poly_const D 1 1) ltac:(intros k Hk; cbn in Hk; lia) (fun _ => 0)). cbv beta in Z. lra. }
  cbv zeta. cbn [cv_nb cv_pos]. split; [intros e xi i; apply (straight_place D 1); auto; lia|].
  intros e xi. apply (affine_jacobian D _ (v e)). intros. apply (straight_place D 1); auto; lia.
Qed.
(** Two ranks with two elements and one element, any coefficients, any points: the conclusions of both theorems on the
    volume hold. *)
Example volume_hypotheses : forall D (v : nat -> nat -> R) (A : nat -> nat -> nat -> R) (x : nat -> mem) Q points, (D = 2 \/ D = 3)%nat -> (forall e, geo_det D (A e) <> 0) ->
  exists ranks bg b J, length ranks = 2%nat /\ map (fun y => ff_ne (snd y)) ranks = [2; 1]%nat /\
  (forall cl F, In (cl, F) ranks -> represents D (cv_re cl) (cv_nb cl) bg /\ represents D (ff_re F) (ff_nb F) b /\ ff_Q F = Q /\
     forall e k, (e < ff_ne F)%nat -> (k < length points)%nat -> jacobian_of D (place (cv_nb cl) bg (cv_pos cl e)) (point points k) (J cl e k) /\ geo_det D (J cl e k) <> 0).
Proof.
  intros D v A x Q points HD HA. destruct (straight_case D v A HD) as (re & nodes & psi & REP & U & HP & NZ & S1 & S2).
  set (cl := {| cv_re := re; cv_nb := length nodes; cv_pos := fun e => straight_nodes D nodes (v e) (A e) |}) in *.
  exists [(cl, {| ff_re := re; ff_nb := length nodes; ff_Q := Q; ff_ne := 2; ff_mem := x 0%nat |}); (cl, {| ff_re := re; ff_nb := length nodes; ff_Q := Q; ff_ne := 1; ff_mem := x 1%nat |})], psi, psi, (fun _ e _ => A e).
  split; [reflexivity|]. split; [reflexivity|]. intros cl' F [E|[E|[]]]; injection E as <- <-; (split; [exact REP|]; split; [exact REP|]; split; [reflexivity|]; intros; split; [apply S2|apply HA]).
Qed.
(** The coefficients of a linear function w on straight elements give back w. *)
Lemma linear_field : forall D (v : nat -> nat -> R) (A : nat -> nat -> nat -> R) nodes psi e mem0 c0 (g : nat -> R), unisolvent D 1 nodes -> nodal_basis D 1 nodes psi ->
  (forall k, (k < length nodes)%nat -> mem0 k = c0 + rsum D (fun i => g i * straight_nodes D nodes (v e) (A e) k i)) ->
  forall xi, rsum (length nodes) (fun k => mem0 k * psi k xi) = c0 + rsum D (fun i => g i * place (length nodes) psi (straight_nodes D nodes (v e) (A e)) xi i).
Proof.
  intros D v A nodes psi e mem0 c0 g U HP Hm xi.
  set (f := fun xi : nat -> R => c0 + rsum D (fun i => g i * (v e i + rsum D (fun d => A e i d * xi d)))).
  assert (Pf : polynomial D 1 f).
  { apply poly_plus; [apply poly_const|]. apply (poly_rsum D 1 D (fun i xi => g i * (v e i + rsum D (fun d => A e i d * xi d)))). intros i Hi. apply poly_scale. apply poly_plus; [apply poly_const|].
    apply (poly_rsum D 1 D (fun d xi => A e i d * xi d)). intros d Hd. apply poly_scale. now apply poly_coord. }
  transitivity (f xi).
  - rewrite (nodal_reproduces D 1 nodes psi f U HP Pf xi). apply rsum_ext. intros k Hk. rewrite Hm by exact Hk. unfold f. reflexivity.
  - unfold f. f_equal. apply rsum_ext. intros i Hi. rewrite (straight_place D 1) by (auto; lia). reflexivity.
Qed.
Lemma linear_gradient : forall D c0 (g x : nat -> R), gradient_at D (fun y => c0 + rsum D (fun i => g i * y i)) x g.
Proof.
  intros D c0 g x c t0 v _ Hv. replace (rsum D (fun i => g i * v i)) with (0 + rsum D (fun i => g i * v i)) by ring.
  apply (derivable_pt_lim_plus (fun _ => c0) (fun t => rsum D (fun i => g i * c t i))); [apply derivable_pt_lim_const|].
  revert Hv. induction D as [|D IH]; intro Hv; cbn [rsum]; [apply derivable_pt_lim_const|].
  apply (derivable_pt_lim_plus (fun t => rsum D (fun i => g i * c t i)) (fun t => g D * c t D)); [apply IH; intros; apply Hv; lia|].
  apply (derivable_pt_lim_scal (fun t => c t D) (g D)). apply Hv. lia.
Qed.
(** Two elements and any linear function: the file shows its gradient. *)
Example linear_field_shown : forall D (v : nat -> nat -> R) (A : nat -> nat -> nat -> R) c0 (g : nat -> R), (D = 2 \/ D = 3)%nat -> (forall e, geo_det D (A e) <> 0) ->
  exists cl F b arrays offs conn, ff_ne F = 2%nat /\
  (forall e xi, (e < 2)%nat -> fe_value b (ff_nb F) 1 (ff_mem F) e 0 xi = c0 + rsum D (fun i => g i * place (cv_nb cl) b (cv_pos cl e) xi i)) /\
  addJacobianData D cl 0 F (fun _ => 0) [fun _ => 0; fun _ => /2] = Some arrays /\
  connectivity 2 2 = Some conn /\ cell_offsets 2 2 = Some offs /\
  forall c k d, (c < 2)%nat -> (k < 2)%nat -> (d < D)%nat -> nth (file_point offs conn c k) (derivative_array 0 d arrays) 0 = g d.
Proof.
  intros D v A c0 g HD HA. destruct (straight_case D v A HD) as (re & nodes & psi & REP & U & HP & NZ & S1 & S2).
  set (cl := {| cv_re := re; cv_nb := length nodes; cv_pos := fun e => straight_nodes D nodes (v e) (A e) |}) in *.
  set (nb := length nodes) in *.
  set (F := {| ff_re := re; ff_nb := nb; ff_Q := 1; ff_ne := 2; ff_mem := fun a => c0 + rsum D (fun i => g i * straight_nodes D nodes (v (a / nb)%nat) (A (a / nb)%nat) (a mod nb)%nat i) |}).
  destruct (vtu_shows_derivatives D [(cl, F)] 1 psi psi [fun _ => 0; fun _ => /2] (fun _ e _ => A e) (fun _ => 0) HD) as (conn & offs & arrays & E1 & E2 & E3 & _ & E4).
  { intros cl' F' [E|[]]. injection E as <- <-. split; [exact REP|]. split; [exact REP|]. split; [reflexivity|]. intros; split; [apply S2|apply HA]. }
  { cbn. unfold int32_max. lia. }
  change (map_opt _ [(cl, F)]) with (match addJacobianData D cl 0 F (fun _ => 0) [fun _ => 0; fun _ => /2] with Some b => Some [b] | None => None end) in E3.
  destruct (addJacobianData D cl 0 F (fun _ => 0) [fun _ => 0; fun _ => /2]) as [a|] eqn:Ea; [|discriminate E3]. injection E3 as <-.
  assert (UL : forall e xi, (e < 2)%nat -> fe_value psi nb 1 (ff_mem F) e 0 xi = c0 + rsum D (fun i => g i * place nb psi (cv_pos cl e) xi i)).
  { intros c xi' _. unfold fe_value. cbn [ff_mem F cl cv_pos].
    etransitivity; [|apply (linear_field D v A nodes psi c (fun k => c0 + rsum D (fun i => g i * straight_nodes D nodes (v c) (A c) k i)) c0 g U HP ltac:(reflexivity) xi')].
    apply rsum_ext. intros j Hj. fold nb in Hj. rewrite Nat.mul_1_r. cbn [Nat.mul Nat.add].
    replace ((c * nb + j) / nb)%nat with c by (apply (Nat.div_unique _ _ c j); lia). replace ((c * nb + j) mod nb)%nat with j by (apply (Nat.mod_unique _ _ c j); lia). reflexivity. }
  exists cl, F, psi, a, offs, conn. split; [reflexivity|]. split; [exact UL|]. split; [exact Ea|]. split; [exact E1|]. split; [exact E2|]. intros c k d Hc Hk Hd.
  destruct (E4 c 0%nat c) as (cl' & F' & Er & _ & E5); [destruct c as [|[|c]]; [reflexivity|reflexivity|lia]|]. injection Er as <- <-.
  destruct (E5 k 0%nat Hk ltac:(lia)) as [_ E6]. specialize (E6 (fun y => c0 + rsum D (fun i => g i * y i)) g). cbn [map gather concat] in E6. rewrite <- (app_nil_r (derivative_array 0 d a)). apply E6; [|apply linear_gradient|exact Hd].
  exists 1. split; [lra|]. intros xi' _. symmetry. exact (UL c xi' Hc).
Qed.
(** Facets: facet 1 of a straight element. *)
Example facets_hypotheses : forall D (v : nat -> R) A, (D = 2 \/ D = 3)%nat -> geo_det D A <> 0 -> exists ranks (el : nat -> nat -> nat) (fc : nat -> nat -> list nat) bg b,
  map (fun y => ff_ne (snd y)) ranks = [1]%nat /\
  forall r cl F, nth_error ranks r = Some (cl, F) -> represents D (cv_re cl) (cv_nb cl) bg /\ represents (D - 1) (ff_re F) (ff_nb F) b /\ ff_Q F = 1%nat /\
     forall f, (f < ff_ne F)%nat -> exists lf fs, nth_error [3; 4]%nat 0 = Some (el r f) /\ find_index 7 [5; 7; 6; 9]%nat = Some lf /\ f2v D = Some fs /\ nth_error fs lf = Some (fc r f).
Proof.
  intros D v A HD HA.
  destruct (hypotheses_met D 1 ltac:(lia) ltac:(lia)) as (mi & nodes & _ & RT & L & U & HI & _ & psi & HP).
  destruct (hypotheses_met (D - 1) 1 ltac:(lia) ltac:(lia)) as (mi' & nodes' & _ & RT' & L' & U' & _ & _ & psi' & HP').
  pose proof (nodal_represents ginv D 1 mi nodes psi ltac:(lia) RT L U HI HP) as REP.
  pose proof (nodal_represents ginv (D - 1) 1 mi' nodes' psi' ltac:(lia) RT' L' U' HI HP') as REP'.
  assert (exists fs f, f2v D = Some fs /\ nth_error fs 1 = Some f) as (fs & f & Efs & Ef) by (destruct HD as [-> | ->]; vm_compute; eauto).
  exists [({| cv_re := nodal_re (NodalRefElement ginv D 1 mi nodes); cv_nb := length nodes; cv_pos := fun _ => straight_nodes D nodes v A |},
    {| ff_re := nodal_re (NodalRefElement ginv (D - 1) 1 mi' nodes'); ff_nb := length nodes'; ff_Q := 1%nat; ff_ne := 1%nat; ff_mem := fun _ => 0 |})], (fun _ _ => 3%nat), (fun _ _ => f), psi, psi'.
  split; [reflexivity|]. intros [|r] cl F E; [|destruct r; discriminate E]. injection E as <- <-. split; [exact REP|]. split; [exact REP'|]. split; [reflexivity|].
  intros f' Hf. exists 1%nat, fs. repeat split; auto.
Qed.

(** Not so for a range of elements that begins at 1: the points are those of element 1, the derivatives are taken with
    the map of element 0.  The file shows 2 for the derivative of the first coordinate. *)
Theorem derivatives_of_a_range_refuted : forall D, (D = 2 \/ D = 3)%nat -> exists cl F bg b points els arrays, represents D (cv_re cl) (cv_nb cl) bg /\ represents D (ff_re F) (ff_nb F) b /\
  ff_ne F = 1%nat /\ ff_Q F = 1%nat /\ length points = 1%nat /\
  (forall e xi, exists J, jacobian_of D (place (cv_nb cl) bg (cv_pos cl e)) xi J /\ geo_det D J <> 0) /\
  volume_points D cl 1 1 (fun _ => 0) points = Some els /\ (forall d, (d < D)%nat -> nth d (nth 0 els []) 0 = place (cv_nb cl) bg (cv_pos cl 1) (point points 0) d) /\
  addJacobianData D cl 1 F (fun _ => 0) points = Some arrays /\
  (forall xi, fe_value b (ff_nb F) 1 (ff_mem F) 0 0 xi = place (cv_nb cl) bg (cv_pos cl 1) xi 0%nat) /\
  (forall x, gradient_at D (fun y => y 0%nat) x (fun i => if (i =? 0)%nat then 1 else 0)) /\
  nth 0 (derivative_array 0 0 arrays) 0 = 2.
Proof.
  intros D HD. set (A := fun (e i d : nat) => if (i =? d)%nat then INR (S e) else 0). set (v := fun _ _ : nat => 0).
  destruct (straight_case D v A HD) as (re & nodes & psi & REP & U & HP & NZ & S1 & S2).
  set (cl := {| cv_re := re; cv_nb := length nodes; cv_pos := fun e => straight_nodes D nodes (v e) (A e) |}) in *.
  set (nb := length nodes) in *.
  set (F := {| ff_re := re; ff_nb := nb; ff_Q := 1; ff_ne := 1; ff_mem := fun a => straight_nodes D nodes (v 1%nat) (A 1%nat) a 0%nat |}).
  assert (HA : forall e, geo_det D (A e) <> 0).
  { intro e. pose proof (lt_0_INR (S e) ltac:(lia)) as Hp. destruct HD as [-> | ->]; unfold geo_det, A; cbn [Nat.eqb].
    - replace (INR (S e) * INR (S e) - 0 * 0) with (INR (S e) * INR (S e)) by ring. nra.
    - match goal with |- ?x <> 0 => replace x with (INR (S e) * INR (S e) * INR (S e)) by ring end. pose proof (Rmult_lt_0_compat _ _ Hp Hp). nra. }
  assert (UX : forall xi, fe_value psi nb 1 (ff_mem F) 0 0 xi = place nb psi (cv_pos cl 1) xi 0%nat).
  { intro xi. unfold fe_value, place. apply rsum_ext. intros k Hk. cbn [F ff_mem cl cv_pos]. f_equal. }
  assert (G1 : forall x, gradient_at D (fun y => y 0%nat) x (fun i => if (i =? 0)%nat then 1 else 0)).
  { intros x c t0 w _ Hw. replace (rsum D (fun i => (if (i =? 0)%nat then 1 else 0) * w i)) with (w 0%nat) by (destruct HD as [-> | ->]; cbn; ring). apply Hw. lia. }
  destruct (volume_points_ok D cl psi [fun _ => 0] REP 1 1 (fun _ => 0)) as (els & V1 & _ & V2).
  destruct (vtu_shows_derivatives D [(cl, F)] 1 psi psi [fun _ => 0] (fun _ e _ => A e) (fun _ => 0) HD) as (conn & offs & arrays & E1 & E2 & E3 & _ & E4).
  { intros cl' F' [E|[]]. injection E as <- <-. split; [exact REP|]. split; [exact REP|]. split; [reflexivity|]. intros; split; [apply S2|apply HA]. }
  { cbn. unfold int32_max. lia. }
  change (map_opt _ [(cl, F)]) with (match addJacobianData D cl 0 F (fun _ => 0) [fun _ => 0] with Some b => Some [b] | None => None end) in E3.
  destruct (addJacobianData D cl 0 F (fun _ => 0) [fun _ => 0]) as [a|] eqn:Ea; [|discriminate E3]. injection E3 as <-.
  exists cl, F, psi, psi, [fun _ => 0], els, a. split; [exact REP|]. split; [exact REP|]. do 3 (split; [reflexivity|]). split; [intros e xi; exists (A e); split; [apply S2|apply HA]|].
  split; [exact V1|]. split.
  { intros d Hd. destruct (V2 0%nat ltac:(lia)) as [_ V3]. specialize (V3 0%nat d ltac:(cbn; lia) Hd). rewrite Nat.mul_0_l, Nat.add_0_r in V3. exact V3. }
  split; [exact Ea|]. split; [exact UX|]. split; [exact G1|].
  destruct (E4 0%nat 0%nat 0%nat eq_refl) as (cl' & F' & Er & _ & E5). injection Er as <- <-.
  destruct (E5 0%nat 0%nat ltac:(cbn; lia) ltac:(lia)) as [_ E6]. specialize (E6 (fun y => 0 + rsum D (fun i => (if (i =? 0)%nat then 2 else 0) * y i)) (fun i => if (i =? 0)%nat then 2 else 0)). cbn [map gather concat] in E6. 
  rewrite <- (app_nil_r (derivative_array 0 0 a)).
  rewrite (file_point_no _ _ _ _ 0 0 E1 E2) in E6 by (cbn; lia). apply (fun H1 H2 => E6 H1 H2 0%nat ltac:(lia)); [|apply linear_gradient].
  exists 1. split; [lra|]. intros xi' _. etransitivity; [|symmetry; exact (UX xi')]. change nb with (cv_nb cl). rewrite (S1 1%nat xi' 0%nat).
  rewrite (rsum_ext D _ (fun i => (if (i =? 0)%nat then 2 else 0) * (v 0%nat i + rsum D (fun d => A 0%nat i d * xi' d)))) by (intros i Hi; rewrite (S1 0%nat xi' i); reflexivity).
  unfold v, A. destruct HD as [-> | ->]; cbn; ring.
Qed.
Print Assumptions derivatives_of_a_range_refuted.
