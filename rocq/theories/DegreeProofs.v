(** Trace inequalities for functions of any degree on straight elements. *)
Require Import List Arith Lia Reals Lra Psatz.
Require Import Verif.Base Verif.LinAlg Verif.SimplexModel Verif.TopoModel Verif.TopoSpec Verif.AssembleModel Verif.AssembleSpec Verif.MatFree Verif.FaultModel Verif.PoissonModel Verif.PenaltyModel
  Verif.SipSpec Verif.CoerciveProps
  Verif.GeometryModel Verif.GeometryProofs Verif.GeometrySpec Verif.GeometryProps Verif.GeometryStraight Verif.MeshSpec Verif.MeshProofs Verif.MeshPoissonProps
  Verif.BasisModel Verif.BasisSpec Verif.IntegralSpec Verif.IntegralProofs Verif.JacobiProofs Verif.QuadratureProps Verif.RootsProps Verif.DubinerProofs Verif.RefElementProps Verif.NodesConform
  Verif.TraceProofs Verif.TraceProps Verif.DegreeSpec.
Import ListNotations.
Local Open Scope R_scope.

(** * Derivatives of polynomials *)
Lemma poly_partial : forall D d f e, polynomial D d f -> (e < D)%nat -> exists g, polynomial D (d - 1) g /\ (d = 0%nat -> forall x, g x = 0) /\ forall x, partial_derivative f e x (g x).
Proof.
  intros D d f e H He. induction H as [c d | i Hi | d f g Hf (f' & F1 & F2 & F3) Hg (g' & G1 & G2 & G3) | d1 d2 f g Hf (f' & F1 & F2 & F3) Hg (g' & G1 & G2 & G3) | d1 d2 f Hle Hf (f' & F1 & F2 & F3) | d f g E Hf (f' & F1 & F2 & F3)].
  - exists (fun _ => 0). split; [apply poly_const|]. split; [auto|]. intro x. apply derivable_pt_lim_const.
  - exists (fun _ => if (i =? e)%nat then 1 else 0). split; [apply poly_const|]. split; [discriminate|]. intro x. unfold partial_derivative, with_coord.
    destruct (i =? e)%nat; [apply derivable_pt_lim_id | apply derivable_pt_lim_const].
  - exists (fun x => f' x + g' x). split; [now apply poly_plus|]. split; [intros Z x; rewrite F2, G2 by auto; ring|].
    intro x. exact (derivable_pt_lim_plus (fun t => f (with_coord x e t)) (fun t => g (with_coord x e t)) _ _ _ (F3 x) (G3 x)).
  - exists (fun x => f' x * g x + f x * g' x). split; [|split].
    + apply poly_plus.
      * destruct (Nat.eq_dec d1 0) as [->|N]; [|eapply poly_le; [|apply poly_mult; eassumption]; lia].
        eapply poly_eq; [|apply (poly_const D 0)]. intro x. cbv beta. rewrite F2 by auto. ring.
      * destruct (Nat.eq_dec d2 0) as [->|N]; [|eapply poly_le; [|apply poly_mult; eassumption]; lia].
        eapply poly_eq; [|apply (poly_const D 0)]. intro x. cbv beta. rewrite G2 by auto. ring.
    + intros Z x. rewrite F2, G2 by lia. ring.
    + intro x. pose proof (derivable_pt_lim_mult (fun t => f (with_coord x e t)) (fun t => g (with_coord x e t)) _ _ _ (F3 x) (G3 x)) as M. cbv beta in M.
      rewrite with_coord_same in M. exact M.
  - exists f'. split; [eapply poly_le; [|exact F1]; lia|]. split; [intros Z x; apply F2; lia|exact F3].
  - exists f'. split; [exact F1|]. split; [exact F2|]. intro x. eapply partial_ext; [|apply F3]. exact E.
Qed.

Lemma finite_choice (n : nat) (T : Type) (t0 : T) (P : nat -> T -> Prop) : (forall i, (i < n)%nat -> exists x, P i x) -> exists f, forall i, (i < n)%nat -> P i (f i).
Proof.
  induction n as [|n IH]; intro H; [exists (fun _ => t0); intros; lia|].
  destruct IH as (f & Hf); [intros; apply H; lia|]. destruct (H n ltac:(lia)) as (x & Hx).
  exists (fun i => if (i =? n)%nat then x else f i). intros i Hi. destruct (Nat.eqb_spec i n) as [->|]; [exact Hx|apply Hf; lia].
Qed.

(** * The trace inequality with quadrature *)
Lemma in_ref_facet D s : (D = 2 \/ D = 3)%nat -> (s < D + 1)%nat -> exists fs, f2v D = Some fs /\ In (ref_facet D s) fs.
Proof.
  intros [-> | ->] Hs; eexists; (split; [reflexivity|]); unfold ref_facet; [rewrite f2v_2|rewrite f2v_3]; apply nth_In; cbn; lia.
Qed.
Lemma simplex_one D : (0 < D <= 3)%nat -> is_simplex_integral D (fun _ => 1) (/ INR (Factorial.fact D)).
Proof.
  intro HD. refine (simplex_ext D _ _ _ _ _ _ (simplex_mono D 0 0 0 0 HD ltac:(repeat split; lia))).
  - intros. unfold mono. cbn. ring.
  - unfold factR. change (INR (Factorial.fact 0)) with 1. cbn [Nat.add]. field. apply INR_fact_neq_0.
Qed.
(** Sums of squares of polynomials. *)
Inductive squares (D n : nat) : ((nat -> R) -> R) -> Prop :=
| sq_zero F : (forall x, F x = 0) -> squares D n F
| sq_one p F : polynomial D n p -> (forall x, F x = p x * p x) -> squares D n F
| sq_plus F G H : squares D n F -> squares D n G -> (forall x, H x = F x + G x) -> squares D n H.
Lemma sq_rsum D n m (F : nat -> (nat -> R) -> R) : (forall i, (i < m)%nat -> squares D n (F i)) -> squares D n (fun x => rsum m (fun i => F i x)).
Proof.
  induction m as [|m IH]; intro H; [now apply sq_zero|]. apply (sq_plus D n (fun x => rsum m (fun i => F i x)) (F m)); [apply IH; auto|apply H; lia|reflexivity].
Qed.
Section Quadrature.
Variables (D k : nat) (xi chi : nat -> nat -> R) (phi : nat -> (nat -> R) -> R) (R_ : pdata).
Hypothesis HD : (D = 2 \/ D = 3)%nat.
Hypothesis RD : reference_of_degree D k xi chi phi R_.
Lemma ref_volume : INR (Factorial.fact D) * rsum (p_Nq R_) (p_W R_) = 1.
Proof.
  pose proof (rd_volume _ _ _ _ _ _ RD (fun _ => 1) (poly_const D 1 _)) as V. cbv beta in V.
  rewrite (rsum_ext _ _ (p_W R_)) in V by (intros; ring).
  rewrite (simplex_integral_unique D _ _ _ ltac:(lia) V (simplex_one D ltac:(lia))). field. apply INR_fact_neq_0.
Qed.
Lemma ref_area : INR (Factorial.fact (D - 1)) * rsum (p_nq R_) (p_w R_) = 1.
Proof.
  pose proof (rd_facet _ _ _ _ _ _ RD (fun _ => 1) (poly_const (D - 1) 1 _)) as V. cbv beta in V.
  rewrite (rsum_ext _ _ (p_w R_)) in V by (intros; ring).
  rewrite (simplex_integral_unique (D - 1) _ _ _ ltac:(lia) V (simplex_one (D - 1) ltac:(lia))). field. apply INR_fact_neq_0.
Qed.
Lemma facet_points s p n : polynomial D n p -> polynomial (D - 1) n (fun c => p (facet_param D (ref_facet D s) c)).
Proof. intro H. apply (poly_through D (D - 1) n p _ H). intros i Hi. apply facet_param_poly. lia. Qed.
Lemma squares_trace n s F : (n <= k)%nat -> (s < D + 1)%nat -> squares D n F ->
  rsum (p_nq R_) (fun q => p_w R_ q * F (facet_param D (ref_facet D s) (chi q))) * rsum (p_Nq R_) (p_W R_)
  <= inverse_trace D n * rsum (p_nq R_) (p_w R_) * rsum (p_Nq R_) (fun q => p_W R_ q * F (xi q)).
Proof.
  intros Hn Hs S. induction S as [F Z | p F Hp E | F G H HF IHF HG IHG E].
  - rewrite (rsum_zero (p_nq R_) (fun q => p_w R_ q * F _)), (rsum_zero (p_Nq R_) (fun q => p_W R_ q * F _)) by (intros; rewrite Z; ring). lra.
  - rewrite (rsum_ext (p_nq R_) _ (fun q => p_w R_ q * (p (facet_param D (ref_facet D s) (chi q)) * p (facet_param D (ref_facet D s) (chi q))))) by (intros; now rewrite E).
    rewrite (rsum_ext (p_Nq R_) (fun q => p_W R_ q * F (xi q)) (fun q => p_W R_ q * (p (xi q) * p (xi q)))) by (intros; now rewrite E).
    destruct (in_ref_facet D s HD Hs) as (fs & Ef & If).
    assert (PI : is_simplex_integral D (fun x => p x * p x) (rsum (p_Nq R_) (fun q => p_W R_ q * (p (xi q) * p (xi q))))).
    { apply (rd_volume _ _ _ _ _ _ RD (fun x => p x * p x)). eapply poly_le; [|apply poly_mult; exact Hp]. lia. }
    assert (PJ : is_simplex_integral (D - 1) (fun c => p (facet_param D (ref_facet D s) c) * p (facet_param D (ref_facet D s) c))
       (rsum (p_nq R_) (fun q => p_w R_ q * (p (facet_param D (ref_facet D s) (chi q)) * p (facet_param D (ref_facet D s) (chi q)))))).
    { apply (rd_facet _ _ _ _ _ _ RD (fun c => p (facet_param D (ref_facet D s) c) * p (facet_param D (ref_facet D s) c))).
      eapply poly_le; [|apply poly_mult; apply facet_points; exact Hp]. lia. }
    pose proof (inverse_trace_inequality D n p fs (ref_facet D s) _ _ HD Hp Ef If PI PJ) as T.
    unfold Base.fact in T. change (trace_constant D n) with (inverse_trace D n) in T. pose proof ref_volume as V. pose proof ref_area as A.
    set (I := rsum (p_Nq R_) _) in *. set (J := rsum (p_nq R_) (fun q => p_w R_ q * (_ * _))) in *. set (W := rsum (p_Nq R_) (p_W R_)) in *. set (w := rsum (p_nq R_) (p_w R_)) in *.
    pose proof (INR_fact_lt_0 D) as F1. pose proof (INR_fact_lt_0 (D - 1)) as F2. set (a := INR (Factorial.fact D)) in *. set (b := INR (Factorial.fact (D - 1))) in *. clearbody I J W w a b.
    assert (EW : W = / a) by (apply (Rmult_eq_reg_l a); [rewrite V; field; lra|lra]). assert (Ew : w = / b) by (apply (Rmult_eq_reg_l b); [rewrite A; field; lra|lra]). subst W w.
    apply (Rmult_le_reg_l (a * b)); [nra|]. replace (a * b * (J * / a)) with (b * J) by (field; lra). replace (a * b * (inverse_trace D n * / b * I)) with (inverse_trace D n * (a * I)) by (field; lra). exact T.
  - rewrite (rsum_ext (p_nq R_) _ (fun q => p_w R_ q * F (facet_param D (ref_facet D s) (chi q)) + p_w R_ q * G (facet_param D (ref_facet D s) (chi q)))) by (intros; rewrite E; ring).
    rewrite (rsum_ext (p_Nq R_) (fun q => p_W R_ q * H (xi q)) (fun q => p_W R_ q * F (xi q) + p_W R_ q * G (xi q))) by (intros; rewrite E; ring).
    rewrite !rsum_plus. lra.
Qed.
Lemma weight_pos : 0 < rsum (p_Nq R_) (p_W R_).
Proof. pose proof ref_volume as V. pose proof (INR_fact_lt_0 D). destruct (Rle_or_lt (rsum (p_Nq R_) (p_W R_)) 0); [nra|auto]. Qed.
(** With constant surface element c and volume element j. *)
Lemma squares_scaled n s F c j : (n <= k)%nat -> (s < D + 1)%nat -> squares D n F -> 0 <= c -> 0 < j ->
  rsum (p_nq R_) (fun q => p_w R_ q * c * F (facet_param D (ref_facet D s) (chi q)))
  <= inverse_trace D n * (rsum (p_nq R_) (fun q => p_w R_ q * c) / rsum (p_Nq R_) (fun q => p_W R_ q * j)) * rsum (p_Nq R_) (fun q => p_W R_ q * j * F (xi q)).
Proof.
  intros Hn Hs S Hc Hj. pose proof (squares_trace n s F Hn Hs S) as T. pose proof weight_pos as Wp.
  rewrite (rsum_ext (p_nq R_) (fun q => p_w R_ q * c * F _) (fun q => c * (p_w R_ q * F (facet_param D (ref_facet D s) (chi q))))) by (intros; ring).
  rewrite (rsum_ext (p_Nq R_) (fun q => p_W R_ q * j * F _) (fun q => j * (p_W R_ q * F (xi q)))) by (intros; ring).
  rewrite !rsum_scale, !rsum_scale_r. set (I := rsum (p_Nq R_) (fun q => p_W R_ q * F _)) in *. set (J := rsum (p_nq R_) (fun q => p_w R_ q * F _)) in *.
  set (W := rsum (p_Nq R_) (p_W R_)) in *. set (w := rsum (p_nq R_) (p_w R_)) in *. set (C := inverse_trace D n) in *. clearbody I J W w C.
  replace (C * (w * c / (W * j)) * (j * I)) with (c * (C * w * I / W)) by (field; lra).
  apply Rmult_le_compat_l; [exact Hc|]. apply (Rmult_le_reg_r W); [exact Wp|]. replace (C * w * I / W * W) with (C * w * I) by (field; lra). exact T.
Qed.
End Quadrature.
