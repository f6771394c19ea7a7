(** C62: area and volume kept for the penalty. *)
Require Import List Arith Lia Reals Lra.
Require Import Verif.Base Verif.LinAlg Verif.SimplexModel Verif.FaultModel Verif.GeometryModel Verif.GeometrySpec Verif.GeometryProofs Verif.GeometryProps
  Verif.PoissonModel Verif.MatFree Verif.MeshSpec.
Import ListNotations.
Local Open Scope R_scope.

(** The size of the facet of the reference element: the interval (0, 1) and the triangle of area 1/2. *)
Definition reference_size (D : nat) : R := match D with 2%nat => 1 | _ => 1 / 2 end.
(** C62: the stored area of a facet is the quadrature of the facet's surface element, and for a facet whose element has straight
    edges the length of the edge or the area of the triangle; it is positive if the weights are. *)
Theorem stored_area : forall D fs f nq w J0 J1 x0, (D = 2 \/ D = 3)%nat -> f2v D = Some fs -> In f fs ->
  (forall q, (q < nq)%nat -> geo_det D (J0 q) <> 0) ->
  let edge q j := image D (J0 q) (ref_edge f j) in
  let area := geo_area nq w (fun q => fq_length (prepare_bndskl D f (J0 q) (J1 q) (x0 q))) in
  area = rsum nq (fun q => w q * surface_element D (edge q 1%nat) (edge q 2%nat)) /\
  (rsum nq w = reference_size D -> forall J, (forall q, (q < nq)%nat -> J0 q = J) ->
     area = reference_size D * surface_element D (image D J (ref_edge f 1)) (image D J (ref_edge f 2))) /\
  ((0 < nq)%nat -> (forall q, (q < nq)%nat -> 0 < w q) -> 0 < area).
Proof.
  intros D fs f nq w J0 J1 x0 HD E Hf HJ edge area.
  assert (L : forall q, (q < nq)%nat -> fq_length (prepare_bndskl D f (J0 q) (J1 q) (x0 q)) = surface_element D (edge q 1%nat) (edge q 2%nat) /\
                                        0 < fq_length (prepare_bndskl D f (J0 q) (J1 q) (x0 q))).
  { intros q Hq. destruct (facet_normal_is_outward D fs f (J0 q) (J1 q) (x0 q) HD E Hf (HJ q Hq)) as (_ & _ & A & B & _). split; [exact A | exact B]. }
  assert (A : area = rsum nq (fun q => w q * surface_element D (edge q 1%nat) (edge q 2%nat))).
  { unfold area, geo_area. apply rsum_ext. intros q Hq. rewrite (proj1 (L q Hq)). reflexivity. }
  split; [exact A | split].
  - intros W J HJJ. rewrite A, <- W, <- rsum_scale_r. apply rsum_ext. intros q Hq. unfold edge. rewrite (HJJ q Hq). ring.
  - intros Hn Hw. assert (P : forall q, (q < nq)%nat -> 0 < w q * fq_length (prepare_bndskl D f (J0 q) (J1 q) (x0 q))).
    { intros q Hq. apply Rmult_lt_0_compat; [apply Hw; exact Hq | apply (L q Hq)]. }
    destruct (Rle_lt_dec area 0) as [H | H]; [exfalso | exact H].
    assert (Z := rsum_nonneg_zero nq _ (fun q Hq => Rlt_le _ _ (P q Hq)) (Rle_antisym _ _ H (rsum_nonneg nq _ (fun q Hq => Rlt_le _ _ (P q Hq)))) 0%nat Hn).
    specialize (P 0%nat Hn). lra.
Qed.
Print Assumptions stored_area.
(** The area and the volume in the penalty of a mesh are the stored ones. *)
Theorem penalty_area_and_volume : forall G elems R_ f g,
  mesh_area G elems R_ f = geo_area (p_nq R_) (p_w R_) (mesh_length G elems f) /\
  mesh_volume G elems R_ g = geo_volume (p_Nq R_) (p_W R_) (p_J (with_geometry G elems R_) g).
Proof. intros. split; reflexivity. Qed.
Print Assumptions penalty_area_and_volume.
(** The edge from (0, 0) to (3, 4): the first facet of the triangle (0,0), (3,4), (0,1) has length 5. *)
Example ex_area : exists fs f, f2v 2 = Some fs /\ In f fs /\
  geo_area 1 (fun _ => 1) (fun _ => fq_length (prepare_bndskl 2 f (fun i j => match i, j with O, O => 3 | O, _ => 0 | _, O => 4 | _, _ => 1 end)
    (fun _ _ => 0) (fun _ => 0))) = 5.
Proof.
  exists [[0; 1]; [0; 2]; [1; 2]]%nat, [0; 1]%nat. split; [reflexivity|]. split; [left; reflexivity|].
  assert (E : f2v 2 = Some [[0; 1]; [0; 2]; [1; 2]]%nat) by reflexivity.
  destruct (stored_area 2 _ [0; 1]%nat 1 (fun _ => 1) (fun _ i j => match i, j with O, O => 3 | O, _ => 0 | _, O => 4 | _, _ => 1 end)
    (fun _ _ _ => 0) (fun _ _ => 0) (or_introl eq_refl) E (or_introl eq_refl)) as (_ & A & _).
  - intros q Hq. cbn. lra.
  - specialize (A ltac:(cbn; lra) _ (fun q Hq => eq_refl)). etransitivity; [exact A|].
    unfold surface_element, image, ref_edge, vdot. cbn. 
    match goal with |- _ * sqrt ?x = _ => assert (Q : x = 5 * 5) by (unfold vdiff, ref_vertex; cbn; ring); rewrite Q end. rewrite sqrt_square by lra. ring.
Qed.
