(** C69: the error norms on all ranks. *)
Require Import List Arith Lia Reals Lra Permutation FunctionalExtensionality.
Require Import Verif.Base Verif.LinAlg Verif.MultiIndexModel Verif.MultiIndexProps Verif.TensorModel Verif.TensorProps Verif.CombinatoricsModel Verif.CombinatoricsProps Verif.SimplexModel Verif.TopoModel Verif.TopoSpec Verif.FaultModel
  Verif.GeometryModel Verif.GeometrySpec Verif.GeometryProofs Verif.GeometryProps Verif.MeshPoissonProps Verif.BasisModel Verif.BasisSpec Verif.BasisProps Verif.IntegralSpec Verif.IntegralProofs Verif.QuadratureModel Verif.QuadratureSpec Verif.QuadratureProps
  Verif.DubinerProofs Verif.SpanProofs Verif.RefElementSpec Verif.RefElementModel Verif.RefElementProofs Verif.RefElementProps
  Verif.AssembleModel Verif.AssembleSpec Verif.InterpolationSpec Verif.ErrorSpec Verif.ErrorModel Verif.ErrorProofs Verif.ErrorProps.
Import ListNotations.
Local Open Scope R_scope.

(** ** Sums over the elements of all ranks *)
Lemma NoDup_flat_map' : forall (A B : Type) (h : A -> list B) l, NoDup l -> (forall p, In p l -> NoDup (h p)) ->
  (forall p q x, In p l -> In q l -> In x (h p) -> In x (h q) -> p = q) -> NoDup (flat_map h l).
Proof.
  induction l as [| p l IH]; intros Hl Hh Hd; cbn [flat_map]; [constructor |]. inversion Hl as [| p' l' Hni Hl']; subst.
  assert (N2 : NoDup (flat_map h l)) by (apply IH; [exact Hl' | intros; apply Hh; now right | intros p0 q0 x0 Hp0 Hq0; apply Hd; now right]).
  assert (Dj : forall x, In x (h p) -> ~ In x (flat_map h l)).
  { intros x Hx Hin. apply in_flat_map in Hin. destruct Hin as (q & Hq & Hxq). apply Hni. now rewrite (Hd p q x (or_introl eq_refl) (or_intror Hq) Hx Hxq). }
  clear -N2 Dj Hh. specialize (Hh p (or_introl eq_refl)). induction (h p) as [| y t IH]; cbn; [exact N2 |].
  inversion Hh as [| y' t' Hy Ht]; subst. constructor.
  - rewrite in_app_iff. intros [H | H]; [contradiction |]. exact (Dj y (or_introl eq_refl) H).
  - apply IH; [exact Ht | intros x Hx; apply Dj; now right].
Qed.
Lemma NoDup_map_in' : forall (A B : Type) (f : A -> B) l, (forall a a', In a l -> In a' l -> f a = f a' -> a = a') -> NoDup l -> NoDup (map f l).
Proof.
  induction l as [| a l IH]; intros Hi Hl; cbn [map]; [constructor |]. inversion Hl as [| a' l' Ha Hl']; subst. constructor.
  - intros H. apply in_map_iff in H. destruct H as (a' & E & H). apply Ha. rewrite <- (Hi a' a); [exact H | now right | now left | exact E].
  - apply IH; [intros; apply Hi; auto; now right | exact Hl'].
Qed.
Lemma owned_elements : forall k procs elems facets bc m, mesh_parts k procs elems facets bc m ->
  Permutation (flat_map (fun p => map (fun e => nth e (tm_l2cg (m p)) 0%nat) (seq 0 (tm_num_local (m p)))) (seq 0 procs)) (seq 0 (length elems)).
Proof.
  intros k procs elems facets bc m MP.
  assert (Len : forall p, (p < procs)%nat -> (tm_num_local (m p) <= length (tm_l2cg (m p)))%nat).
  { intros p Hp. pose proof (mp_mesh _ _ _ _ _ _ MP p Hp) as T. rewrite (to_l2cg _ _ T). apply (to_local_le _ _ T). }
  assert (NE : forall p e, (p < procs)%nat -> (e < tm_num_local (m p))%nat -> nth_error (tm_l2cg (m p)) e = Some (nth e (tm_l2cg (m p)) 0%nat)).
  { intros p e Hp He. apply nth_error_nth'. specialize (Len p Hp). lia. }
  apply NoDup_Permutation; [| apply seq_NoDup |].
  - apply NoDup_flat_map'; [apply seq_NoDup | |].
    + intros p Hp. apply in_seq in Hp. apply NoDup_map_in'; [| apply seq_NoDup].
      intros e e' He He' E. apply in_seq in He. apply in_seq in He'.
      apply (NoDup_nth (tm_l2cg (m p)) 0%nat); [apply (mp_nodup _ _ _ _ _ _ MP); lia | specialize (Len p ltac:(lia)); lia | specialize (Len p ltac:(lia)); lia | exact E].
    + intros p q x Hp Hq Hx Hy. apply in_seq in Hp. apply in_seq in Hq. apply in_map_iff in Hx. apply in_map_iff in Hy.
      destruct Hx as (e & <- & He). destruct Hy as (e' & E & He'). apply in_seq in He. apply in_seq in He'.
      apply (mp_once _ _ _ _ _ _ MP p q e e' (nth e (tm_l2cg (m p)) 0%nat)); try lia; [apply NE; lia |]. rewrite <- E. apply NE; lia.
  - intros g. rewrite in_flat_map, in_seq. split.
    + intros (p & Hp & Hg). apply in_seq in Hp. apply in_map_iff in Hg. destruct Hg as (e & <- & He). apply in_seq in He.
      destruct (mp_elem _ _ _ _ _ _ MP p e _ ltac:(lia) (NE p e ltac:(lia) ltac:(lia))) as [H _]. lia.
    + intros [_ Hg]. destruct (mp_owned _ _ _ _ _ _ MP g ltac:(lia)) as (p & e & Hp & He & E). exists p. split; [apply in_seq; lia |].
      apply in_map_iff. exists e. split; [| apply in_seq; lia]. rewrite NE in E by assumption. now inversion E.
Qed.
Lemma rsum_ranks : forall k procs elems facets bc m f, mesh_parts k procs elems facets bc m ->
  rsum procs (fun p => rsum (tm_num_local (m p)) (fun e => f (nth e (tm_l2cg (m p)) 0%nat))) = rsum (length elems) f.
Proof.
  intros k procs elems facets bc m f MP. rewrite <- !fold_right_rsum.
  assert (P : forall l l', Permutation l l' -> fold_right (fun e a => f e + a) 0 l = fold_right (fun e a => f e + a) 0 l')
    by (intros l l' H; induction H; cbn; lra).
  rewrite <- (P _ _ (owned_elements k procs elems facets bc m MP)).
  assert (A : forall l l', fold_right (fun e a => f e + a) 0 (l ++ l') = fold_right (fun e a => f e + a) 0 l + fold_right (fun e a => f e + a) 0 l')
    by (induction l; intros l'; cbn; [ring | rewrite IHl; ring]).
  induction (seq 0 procs) as [| p l IH]; cbn [flat_map fold_right]; [reflexivity |]. rewrite A, IH. f_equal.
  rewrite <- fold_right_rsum. generalize (seq 0 (tm_num_local (m p))). induction l0 as [| e t IHt]; cbn; [reflexivity | now rewrite IHt].
Qed.

(** ** All ranks *)
(** The coefficients x and nodes pos of all elements, distributed as the mesh is. *)
Definition distributed_function (D procs : nat) (m : nat -> topo_mesh) (nb Q : nat) (b : nat -> (nat -> R) -> R) (x : nat -> R) (F : nat -> fe_function) : Prop :=
  forall p, (p < procs)%nat -> represents D (ff_re (F p)) nb b /\ ff_nb (F p) = nb /\ ff_Q (F p) = Q /\ ff_ne (F p) = tm_num_local (m p)
  /\ forall e g i, (e < tm_num_local (m p))%nat -> nth_error (tm_l2cg (m p)) e = Some g -> (i < nb * Q)%nat ->
       ff_mem (F p) (e * (nb * Q) + i)%nat = x (g * (nb * Q) + i)%nat.
Definition distributed_geometry (D procs : nat) (m : nat -> topo_mesh) (nb : nat) (b : nat -> (nat -> R) -> R) (pos : nat -> nat -> nat -> R) (cl : nat -> curvilinear) : Prop :=
  forall p, (p < procs)%nat -> represents D (cv_re (cl p)) nb b /\ cv_nb (cl p) = nb
  /\ forall e g j i, (e < tm_num_local (m p))%nat -> nth_error (tm_l2cg (m p)) e = Some g -> (j < nb)%nat -> cv_pos (cl p) e j i = pos g j i.

Section All.
Variables (D k procs : nat) (elems facets : list (list nat)) (bc : list nat -> nat) (m : nat -> topo_mesh).
Variables (nbg : nat) (bg : nat -> (nat -> R) -> R) (pos : nat -> nat -> nat -> R) (cl : nat -> curvilinear).
Variables (nb Q : nat) (b : nat -> (nat -> R) -> R) (x : nat -> R) (F : nat -> fe_function).
Variables (rule : list ((nat -> R) * R)) (reference : (nat -> R) -> nat -> R) (J : nat -> (nat -> R) -> nat -> nat -> R).
Hypothesis HD : (D = 2 \/ D = 3)%nat.
Hypothesis MP : mesh_parts k procs elems facets bc m.
Hypothesis HG : distributed_geometry D procs m nbg bg pos cl.
Hypothesis HF : distributed_function D procs m nb Q b x F.
Hypothesis Href : of_coordinates D reference.
Local Notation X g := (place nbg bg (pos g)).
Local Notation u g j := (fe_value b nb Q x g j).
Hypothesis HJ : forall g xi, (g < length elems)%nat -> jacobian_of D (X g) xi (J g xi).

Lemma owned : forall p e, (p < procs)%nat -> (e < tm_num_local (m p))%nat -> let g := nth e (tm_l2cg (m p)) 0%nat in
  nth_error (tm_l2cg (m p)) e = Some g /\ (g < length elems)%nat.
Proof.
  intros p e Hp He g. assert (E : nth_error (tm_l2cg (m p)) e = Some g).
  { apply nth_error_nth'. pose proof (mp_mesh _ _ _ _ _ _ MP p Hp) as T. rewrite (to_l2cg _ _ T). pose proof (to_local_le _ _ T). lia. }
  split; [exact E |]. now apply (mp_elem _ _ _ _ _ _ MP p e).
Qed.
Lemma local_place : forall p e, (p < procs)%nat -> (e < tm_num_local (m p))%nat -> place (cv_nb (cl p)) bg (cv_pos (cl p) e) = X (nth e (tm_l2cg (m p)) 0%nat).
Proof.
  intros p e Hp He. destruct (owned p e Hp He) as [E _]. destruct (HG p Hp) as (_ & Hn & Hpos). rewrite Hn.
  apply functional_extensionality. intros xi. apply functional_extensionality. intros i. unfold place. apply rsum_ext. intros j Hj. f_equal. now apply Hpos.
Qed.
Lemma local_value : forall p e j xi, (p < procs)%nat -> (e < tm_num_local (m p))%nat -> (j < Q)%nat ->
  fe_value b (ff_nb (F p)) Q (ff_mem (F p)) e j xi = u (nth e (tm_l2cg (m p)) 0%nat) j xi.
Proof.
  intros p e j xi Hp He Hj. destruct (owned p e Hp He) as [E _]. destruct (HF p Hp) as (_ & -> & _ & _ & Hx). unfold fe_value. apply rsum_ext. intros i Hi. f_equal.
  apply Hx; auto. nia.
Qed.
Local Notation loc p e := (nth e (tm_l2cg (m p)) 0%nat).

(** C69c: every rank computes its part, and what the target rank returns is the norm over all elements, whatever the
    partition: the root of the quadrature of the squared differences. *)
Theorem l2_error : forall m0, exists err, (forall p, (p < procs)%nat -> L2_rank D rule (cl p) (F p) reference (m0 p) = Some (err p))
  /\ reduce_error procs err = sqrt (rsum (length elems) (fun g => rsum Q (fun j =>
       rule_sum rule (fun xi => Rabs (geo_det D (J g xi)) * (reference (X g xi) j - u g j xi)²)))).
Proof.
  intros m0. set (h := fun g => rsum Q (fun j => rule_sum rule (fun xi => Rabs (geo_det D (J g xi)) * (reference (X g xi) j - u g j xi)²))).
  exists (fun p => rsum (tm_num_local (m p)) (fun e => h (loc p e))). split.
  - intros p Hp. destruct (HF p Hp) as (HR & Hnb & HQ & Hne & _). destruct (HG p Hp) as (HGr & Hng & _).
    rewrite (L2_rank_ok D rule (cl p) bg (F p) b reference (fun e => J (loc p e)) HD); [| now rewrite Hng | now rewrite Hnb | exact Href |].
    + rewrite Hne, HQ. f_equal. apply rsum_ext. intros e He. unfold h. apply rsum_ext. intros j Hj. rewrite !rule_sum_nth. apply rsum_ext. intros q Hq.
      rewrite local_place by assumption. rewrite local_value by assumption. reflexivity.
    + intros e xi He. rewrite Hne in He. rewrite local_place by assumption. apply HJ. now apply owned.
  - unfold reduce_error. f_equal. exact (rsum_ranks k procs elems facets bc m h MP).
Qed.

(** C69d: the same for the derivatives, with the reference as a matrix in row-major order, for one quantity or D of them. *)
Theorem h1_error : forall du, (Q = 1 \/ Q = D)%nat ->
  (forall g xi, (g < length elems)%nat -> In xi (map fst rule) -> geo_det D (J g xi) <> 0) ->
  (forall g i xi, (g < length elems)%nat -> (i < Q)%nat -> In xi (map fst rule) -> exists w,
     near D xi (fun xi' => w (X g xi') = u g i xi') /\ gradient_at D w (X g xi) (fun j => du g i j xi)) ->
  forall m0, exists err, (forall p, (p < procs)%nat -> H1_semi_rank D rule (cl p) (F p) reference (m0 p) = Some (err p))
  /\ reduce_error procs err = sqrt (rsum (length elems) (fun g => rsum Q (fun i => rsum D (fun j =>
       rule_sum rule (fun xi => Rabs (geo_det D (J g xi)) * (reference (X g xi) (i * D + j)%nat - du g i j xi)²))))).
Proof.
  intros du HQQ Hdet Hdu m0. set (h := fun g => rsum Q (fun i => rsum D (fun j =>
    rule_sum rule (fun xi => Rabs (geo_det D (J g xi)) * (reference (X g xi) (i * D + j)%nat - du g i j xi)²)))).
  exists (fun p => rsum (tm_num_local (m p)) (fun e => h (loc p e))). split.
  - intros p Hp. destruct (HF p Hp) as (HR & Hnb & HQ & Hne & _). destruct (HG p Hp) as (HGr & Hng & _).
    rewrite (H1_rank_ok D rule (cl p) bg (F p) b reference (fun e => J (loc p e)) HD) with (du := fun e => du (loc p e)); [| now rewrite Hng | now rewrite Hnb | exact Href | | |].
    + rewrite Hne, HQ. f_equal. apply rsum_ext. intros e He. unfold h. apply rsum_ext. intros i Hi. apply rsum_ext. intros j Hj. rewrite !rule_sum_nth. apply rsum_ext. intros q Hq.
      rewrite local_place by assumption. replace (i * Q + j)%nat with (i * D + j)%nat; [reflexivity |].
      destruct HQQ as [E | E]; rewrite E in *; [assert (i = 0)%nat by lia; subst; reflexivity | reflexivity].
    + intros e xi He. rewrite Hne in He. rewrite local_place by assumption. apply HJ. now apply owned.
    + intros e q He Hq. rewrite Hne in He. apply Hdet; [now apply owned |]. apply nth_In. now rewrite map_length.
    + intros e i q He Hi Hq. rewrite Hne in He. rewrite local_place by assumption. rewrite HQ in Hi.
      destruct (Hdu (loc p e) i (point (map fst rule) q)) as (w & W1 & W2); [now apply owned | exact Hi | apply nth_In; now rewrite map_length |].
      exists w. split; [| exact W2]. destruct W1 as (eps & He1 & W1). exists eps. split; [exact He1 |]. intros xi' Hx.
      rewrite (W1 xi' Hx). symmetry. rewrite HQ. now apply local_value.
  - unfold reduce_error. f_equal. exact (rsum_ranks k procs elems facets bc m h MP).
Qed.
End All.
Print Assumptions l2_error.
Print Assumptions h1_error.
