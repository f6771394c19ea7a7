(** Property theorems: linear elements on straight meshes give a positive semidefinite elasticity matrix
    and a stable time step, with nothing left to assume about the discretisation (C64). *)
Require Import List Arith Lia Bool Reals Lra Psatz FunctionalExtensionality Sorting.Sorted Permutation Factorial.
Require Import Verif.Base Verif.LinAlg Verif.SimplexModel Verif.SimplexProofs Verif.LocalMeshModel Verif.LocalMeshProps Verif.TopoModel Verif.TopoSpec Verif.TopoProofs Verif.TopoProps
  Verif.AssembleModel Verif.AssembleSpec Verif.AssembleProofs Verif.AssembleProps Verif.MatFree Verif.FaultModel Verif.PoissonModel Verif.PenaltyModel
  Verif.SipSpec Verif.SipProofs Verif.SipRank Verif.SipProps Verif.CoerciveProps
  Verif.GeometryModel Verif.GeometryProofs Verif.GeometrySpec Verif.GeometryProps Verif.GeometryStraight Verif.MeshSpec Verif.MeshProofs Verif.MeshPoissonProps
  Verif.ElasticityModel Verif.ElasticitySpec Verif.ElasticityProofs Verif.ElasticFormSpec Verif.ElasticFormProofs Verif.ElasticFormRank Verif.ElasticFormProps
  Verif.ElasticCoerciveProps Verif.ElasticCflModel Verif.ElasticCflProps Verif.MeshElasticSpec Verif.MeshElasticProps.
Import ListNotations.
Local Open Scope R_scope.

(** * Linear functions on a simplex *)
Lemma quad_expand nq (w : nat -> R) (B : nat -> nat -> R) n (c : nat -> R) :
  rsum nq (fun q => w q * (rsum n (fun l => B l q * c l) * rsum n (fun l => B l q * c l)))
  = rsum n (fun i => rsum n (fun j => c i * c j * rsum nq (fun q => w q * (B i q * B j q)))).
Proof.
  rewrite (rsum_ext n _ (fun i => rsum nq (fun q => rsum n (fun j => c i * c j * (w q * (B i q * B j q)))))).
  2:{ intros i _. rewrite rsum_swap. apply rsum_ext. intros j _. rewrite rsum_scale. reflexivity. }
  rewrite rsum_swap. apply rsum_ext. intros q _.
  rewrite <- rsum_scale_r, <- rsum_scale. apply rsum_ext. intros i _. rewrite <- rsum_scale, <- rsum_scale. apply rsum_ext. intros j _. ring.
Qed.
(** Derivatives of the barycentric coordinates of the reference simplex. *)
Definition bary_grad (l e : nat) : R := match l with O => -1 | S d => if (d =? e)%nat then 1 else 0 end.
Lemma ref_normal_bary D l e : (D = 2 \/ D = 3)%nat -> (l < D + 1)%nat -> (e < D)%nat -> ref_normal D (ref_facet D l) e = - bary_grad (D - l) e.
Proof.
  intros [-> | ->] Hl He; unfold ref_facet; [rewrite f2v_2|rewrite f2v_3]; unfold ref_normal; cbv zeta.
  - destruct l as [|[|[|l]]]; try lia; cbn [nth]; match goal with |- context [Rlt_dec ?a ?b] => destruct (Rlt_dec a b) as [h|h]; cbn in h; unfold vdiff, ref_vertex in h; cbn in h; try (exfalso; lra) end;
    destruct e as [|[|e]]; try lia; cbn; unfold vdiff, ref_vertex; cbn; ring.
  - destruct l as [|[|[|[|l]]]]; try lia; cbn [nth]; match goal with |- context [Rlt_dec ?a ?b] => destruct (Rlt_dec a b) as [h|h]; cbn in h; unfold vdiff, cross, ref_vertex in h; cbn in h; try (exfalso; lra) end;
    destruct e as [|[|[|e]]]; try lia; cbn; unfold vdiff, ref_vertex; cbn; ring.
Qed.
Section Linear.
Variables (D : nat) (R_ : pdata).
Hypothesis HD : (D = 2 \/ D = 3)%nat.
Hypothesis XQ : exact_quadrature D R_.
Definition mass2 (c : nat -> R) : R := rsum (p_Nq R_) (fun q => p_W R_ q * (rsum (D + 1) (fun l => p_EQ R_ l q * c l) * rsum (D + 1) (fun l => p_EQ R_ l q * c l))).
Definition trace2 (l : nat) (c : nat -> R) : R := rsum (p_nq R_) (fun q => p_w R_ q * (rsum (D + 1) (fun k => p_E R_ l k q * c k) * rsum (D + 1) (fun k => p_E R_ l k q * c k))).
Lemma mass2_value c : INR (fact (D + 2)) * mass2 c = rsum (D + 1) (fun l => c l * c l) + rsum (D + 1) c * rsum (D + 1) c.
Proof.
  unfold mass2. rewrite quad_expand. rewrite <- rsum_scale.
  rewrite (rsum_ext (D + 1) _ (fun i => rsum (D + 1) (fun j => c i * c j * if (i =? j)%nat then 2 else 1))).
  2:{ intros i Hi. rewrite <- rsum_scale. apply rsum_ext. intros j Hj. rewrite <- (xq_mass _ _ XQ i j Hi Hj). ring. }
  destruct HD as [-> | ->]; cbn; ring.
Qed.
Lemma trace2_value l c : (l < D + 1)%nat -> INR (fact (D + 1)) * trace2 l c =
  rsum (D + 1) (fun i => if (i =? D - l)%nat then 0 else c i * c i) + rsum (D + 1) (fun i => if (i =? D - l)%nat then 0 else c i) * rsum (D + 1) (fun i => if (i =? D - l)%nat then 0 else c i).
Proof.
  intro Hl. unfold trace2. rewrite quad_expand. rewrite <- rsum_scale.
  rewrite (rsum_ext (D + 1) _ (fun i => rsum (D + 1) (fun j => c i * c j * if (i =? D - l)%nat then 0 else if (j =? D - l)%nat then 0 else if (i =? j)%nat then 2 else 1))).
  2:{ intros i Hi. rewrite <- rsum_scale. apply rsum_ext. intros j Hj.
      transitivity (c i * c j * (INR (fact (D + 1)) * rsum (p_nq R_) (fun q => p_w R_ q * (p_E R_ l i q * p_E R_ l j q)))); [ring|]. f_equal.
      rewrite (xq_facet _ _ XQ l i j Hl Hi Hj). clear XQ. destruct HD as [-> | ->].
      - destruct l as [|[|[|l]]]; try lia; destruct i as [|[|[|i]]]; try lia; destruct j as [|[|[|j]]]; try lia; reflexivity.
      - destruct l as [|[|[|[|l]]]]; try lia; destruct i as [|[|[|[|i]]]]; try lia; destruct j as [|[|[|[|j]]]]; try lia; reflexivity. }
  destruct HD as [-> | ->].
  - destruct l as [|[|[|l]]]; try lia; cbn; ring.
  - destruct l as [|[|[|[|l]]]]; try lia; cbn; ring.
Qed.
(** The trace inequality for linear functions with the constant of the code. *)
Lemma linear_trace l c : (l < D + 1)%nat -> trace2 l c * rsum (p_Nq R_) (p_W R_) <= inverse_trace D 1 * rsum (p_nq R_) (p_w R_) * mass2 c.
Proof.
  intro Hl. pose proof (mass2_value c) as M. pose proof (trace2_value l c Hl) as T. pose proof (xq_volume _ _ XQ) as V. pose proof (xq_area _ _ XQ) as A.
  set (t := trace2 l c) in *. set (mm := mass2 c) in *. set (W := rsum (p_Nq R_) (p_W R_)) in *. set (w := rsum (p_nq R_) (p_w R_)) in *. unfold inverse_trace.
  clearbody t mm W w. clear XQ. destruct HD as [-> | ->].
  - cbn in V, A. assert (W = 1 / 2) by lra. assert (w = 1) by lra. subst W w.
    destruct l as [|[|[|l]]]; try lia; cbn in M, T |- *; generalize dependent (c 0%nat); intro x; generalize dependent (c 1%nat); intro y; generalize dependent (c 2%nat); intro z; intros M T.
    + pose proof (Rle_0_sqr (x - y)). pose proof (Rle_0_sqr (z + (x + y) / 2)). unfold Rsqr in *. lra.
    + pose proof (Rle_0_sqr (x - z)). pose proof (Rle_0_sqr (y + (x + z) / 2)). unfold Rsqr in *. lra.
    + pose proof (Rle_0_sqr (y - z)). pose proof (Rle_0_sqr (x + (y + z) / 2)). unfold Rsqr in *. lra.
  - cbn in V, A. assert (W = 1 / 6) by lra. assert (w = 1 / 2) by lra. subst W w.
    destruct l as [|[|[|[|l]]]]; try lia; cbn in M, T |- *; generalize dependent (c 0%nat); intro x; generalize dependent (c 1%nat); intro y; generalize dependent (c 2%nat); intro z; generalize dependent (c 3%nat); intro v; intros M T.
    + pose proof (Rle_0_sqr (x - y)). pose proof (Rle_0_sqr (x - z)). pose proof (Rle_0_sqr (y - z)). pose proof (Rle_0_sqr (v + (x + y + z) / 2)). unfold Rsqr in *. lra.
    + pose proof (Rle_0_sqr (x - y)). pose proof (Rle_0_sqr (x - v)). pose proof (Rle_0_sqr (y - v)). pose proof (Rle_0_sqr (z + (x + y + v) / 2)). unfold Rsqr in *. lra.
    + pose proof (Rle_0_sqr (x - v)). pose proof (Rle_0_sqr (x - z)). pose proof (Rle_0_sqr (v - z)). pose proof (Rle_0_sqr (y + (x + v + z) / 2)). unfold Rsqr in *. lra.
    + pose proof (Rle_0_sqr (v - y)). pose proof (Rle_0_sqr (v - z)). pose proof (Rle_0_sqr (y - z)). pose proof (Rle_0_sqr (x + (v + y + z) / 2)). unfold Rsqr in *. lra.
Qed.
Lemma mass2_lower c : rsum (D + 1) (fun l => c l * c l) <= INR (fact (D + 2)) * mass2 c.
Proof. rewrite mass2_value. pose proof (Rle_0_sqr (rsum (D + 1) c)). unfold Rsqr in *. lra. Qed.
(** Gradients: (sum_l c_l g_l)^2 <= (sum c_l^2) (sum |g_l|)^2. *)
Lemma grad_bound n (c : nat -> R) (g : nat -> nat -> R) (a : nat -> R) : (forall l, (l < n)%nat -> 0 <= a l /\ a l * a l = rsum D (fun i => g l i * g l i)) ->
  rsum D (fun i => rsum n (fun l => g l i * c l) * rsum n (fun l => g l i * c l)) <= rsum n (fun l => c l * c l) * (rsum n a * rsum n a).
Proof.
  intro H.
  assert (A2 : rsum n (fun l => a l * a l) <= rsum n a * rsum n a).
  { clear c. induction n as [|n IH]; cbn; [lra|]. specialize (IH ltac:(intros; apply H; lia)). destruct (H n ltac:(lia)) as [Hn _].
    assert (0 <= rsum n a) by (apply rsum_nonneg; intros; apply H; lia). nra. }
  apply Rle_trans with (rsum n (fun l => c l * c l) * rsum n (fun l => a l * a l)).
  2:{ apply Rmult_le_compat_l; [apply rsum_nonneg; intros; apply Rle_0_sqr|exact A2]. }
  rewrite (rsum_ext n (fun l => a l * a l) (fun l => rsum D (fun i => g l i * g l i))) by (intros; apply H; auto).
  rewrite rsum_swap, <- rsum_scale. apply rsum_le. intros i _.
  pose proof (cauchy_sum n (fun l => g l i) c). cbv beta in *. lra.
Qed.
End Linear.

(** * Straight meshes *)
Section Straight.
Variables (D : nat) (X xi chi : nat -> vec) (procs : nat) (elems facets : list (list nat)) (bc : list nat -> nat) (m : nat -> topo_mesh) (E_ : edata) (degree : nat).
Hypothesis HD : (D = 2 \/ D = 3)%nat.
Hypothesis MP : mesh_parts D procs elems facets bc m.
Local Notation G := (linear_setup D X xi chi). Local Notation R_ := (e_geo E_).
Hypothesis VG : valid_geometry G elems facets.
Hypothesis LR : linear_reference D R_.
Local Notation Q := (mesh_eproblem G elems E_ degree).
Local Notation edges g := (edge_matrix X (nth g elems [])).
(** Gradient of basis function l. *)
Definition shape_grad (g l i : nat) : R := rsum D (fun e => geo_inverse D (edges g) e i * bary_grad l e).
Definition det (g : nat) : R := Rabs (geo_det D (edges g)).

Lemma straight_jacobian plex x i j : (i < D)%nat -> (j < D)%nat -> jacobian_at G plex x i j = edge_matrix X plex i j.
Proof. intros Hi Hj. apply (proj2 (straight_elements G plex x i (linear_straight D X xi chi) Hi) j Hj). Qed.
Lemma straight_J g q : p_J (e_geo (ep_ref Q)) g q = det g.
Proof.
  change (p_J (e_geo (ep_ref Q)) g q) with (Rabs (geo_det D (jacobian_at G (nth g elems []) (gs_xi G q)))).
  unfold det. f_equal. apply geo_det_ext; auto. intros. apply straight_jacobian; auto.
Qed.
Lemma straight_volume g : eelem_volume Q g = rsum (p_Nq R_) (p_W R_) * det g.
Proof.
  unfold eelem_volume. rewrite <- rsum_scale_r. apply rsum_ext. intros q _. rewrite straight_J. reflexivity.
Qed.
Lemma det_pos g : (g < length elems)%nat -> 0 < det g.
Proof. intro Hg. destruct (mesh_good G procs elems facets bc m MP VG R_ (lr_dim _ _ LR)) as (_ & HJ & _). rewrite <- (straight_J g 0). apply (HJ g 0%nat Hg). Qed.
Lemma straight_dgrad g u q i j : (j < D)%nat -> dgrad Q g u q i j = rsum (D + 1) (fun l => shape_grad g l j * coef Q u i l).
Proof.
  intro Hj. unfold dgrad, shape_grad. change (p_N (e_geo (ep_ref Q))) with (p_N R_). change (p_dim (e_geo (ep_ref Q))) with (p_dim R_). rewrite (lr_N _ _ LR), (lr_dim _ _ LR).
  apply rsum_ext. intros l _. f_equal. apply rsum_ext. intros e He. f_equal; [|apply (lr_DxiQ _ _ LR)].
  change (geo_inverse D (jacobian_at G (nth g elems []) (gs_xi G q)) e j = geo_inverse D (edges g) e j). apply geo_inverse_ext; auto. intros. apply straight_jacobian; auto.
Qed.
Lemma straight_dgrad_on f g u q i j : (j < D)%nat -> dgrad_on Q f g u q i j = rsum (D + 1) (fun l => shape_grad g l j * coef Q u i l).
Proof.
  intro Hj. unfold dgrad_on, shape_grad. change (p_N (e_geo (ep_ref Q))) with (p_N R_). change (p_dim (e_geo (ep_ref Q))) with (p_dim R_). rewrite (lr_N _ _ LR), (lr_dim _ _ LR).
  apply rsum_ext. intros l _. f_equal. apply rsum_ext. intros e He. f_equal; [|apply (lr_Dxi _ _ LR)].
  cbn [mesh_eproblem ep_G]. unfold mesh_inverse. change (gs_D G) with D. apply geo_inverse_ext; auto. intros. apply straight_jacobian; auto.
Qed.
Lemma straight_strain_trace : etrace_inequality Q elems facets 1.
Proof.
  intros f g u Hf Hg. pose proof (in_elems elems f g Hg) as Hgl. pose proof (det_pos g Hgl) as Dp.
  assert (Wp : 0 < rsum (p_Nq R_) (p_W R_)).
  { rewrite (rsum_ext _ _ (fun q => p_W R_ q * 1)) by (intros; ring). apply good_weights_pos; [apply (lr_W _ _ LR)|intros; lra]. }
  set (H i j := rsum (D + 1) (fun l => shape_grad g l j * coef Q u i l)).
  assert (Sy : forall A, (forall i j, (j < D)%nat -> A i j = H i j) -> sym2 Q A = sym2 Q H).
  { intros A HA. unfold sym2. change (p_dim (e_geo (ep_ref Q))) with (p_dim R_). rewrite (lr_dim _ _ LR). apply rsum_ext. intros i Hi. apply rsum_ext. intros j Hj. rewrite !HA by auto. reflexivity. }
  assert (E1 : strain2 Q g u = eelem_volume Q g * sym2 Q H).
  { unfold strain2, eelem_volume. rewrite <- rsum_scale_r. apply rsum_ext. intros q _. f_equal. apply Sy. intros i j Hj. apply straight_dgrad; auto. }
  assert (E2 : strain2_on Q f g u = efacet_area Q f * sym2 Q H).
  { unfold strain2_on, efacet_area. rewrite <- rsum_scale_r. apply rsum_ext. intros q _. f_equal. apply Sy. intros i j Hj. apply straight_dgrad_on; auto. }
  assert (Dn : 0 < INR D) by (apply lt_0_INR; destruct HD as [-> | ->]; lia).
  assert (V : 0 < eelem_volume Q g) by (rewrite straight_volume; nra).
  rewrite E1, E2. unfold inverse_trace. change (p_dim (e_geo (ep_ref Q))) with (p_dim R_). rewrite (lr_dim _ _ LR). cbn [Nat.sub Nat.add INR]. apply Req_le. field. split; lra.
Qed.

(** Facet f of element g is opposite to vertex D - (its number); its length is that of the gradient of
    the basis function of that vertex. *)
Definition grad_norm (g l : nat) : R := sqrt (rsum D (fun i => shape_grad g l i * shape_grad g l i)).
Lemma grad_norm_sq g l : 0 <= grad_norm g l /\ grad_norm g l * grad_norm g l = rsum D (fun i => shape_grad g l i * shape_grad g l i).
Proof. split; [apply sqrt_pos|]. apply sqrt_sqrt. apply rsum_nonneg. intros. apply Rle_0_sqr. Qed.
Lemma straight_length f g q : In f facets -> In g (elements_of elems f) -> mesh_length G elems f q = det g * grad_norm g (D - facet_number D elems f g).
Proof.
  intros Hf Hg. pose proof (in_elems elems f g Hg) as Hgl. pose proof (det_pos g Hgl) as Dp. pose proof (facet_number_lt G procs elems facets bc m MP VG f g Hf Hg) as Hl. change (gs_D G) with D in Hl.
  destruct (mesh_good G procs elems facets bc m MP VG R_ (lr_dim _ _ LR)) as (_ & _ & HL & HN).
  specialize (HL f q Hf). specialize (HN f g q Hf Hg). change (gs_D G) with D in HN.
  assert (En : rsum D (fun i => mesh_normal G elems f g i q * mesh_normal G elems f g i q) = det g * grad_norm g (D - facet_number D elems f g) * (det g * grad_norm g (D - facet_number D elems f g))).
  { transitivity (det g * det g * (grad_norm g (D - facet_number D elems f g) * grad_norm g (D - facet_number D elems f g))); [|ring].
    rewrite (proj2 (grad_norm_sq g _)), <- rsum_scale. apply rsum_ext. intros i Hi.
    assert (Em : mesh_normal G elems f g i q = - (det g * shape_grad g (D - facet_number D elems f g) i)); [|rewrite Em; ring].
    unfold mesh_normal, mesh_point, point_data, prepare_bndskl, components. change (gs_D G) with D. destruct (Nat.ltb_spec i D); [|lia]. cbn [fq_normal]. unfold geo_normal.
    rewrite (geo_det_ext D _ (edges g) HD (fun i j => straight_jacobian _ _ i j)). fold (det g).
    rewrite <- Ropp_mult_distr_r_reverse. f_equal. unfold shape_grad.
    rewrite <- (Rmult_1_l (rsum D (fun e => geo_inverse D (edges g) e i * bary_grad _ e))), Ropp_mult_distr_l, <- rsum_scale. apply rsum_ext. intros e He.
    rewrite ref_normal_bary by auto. rewrite (geo_inverse_ext D _ (edges g) e i HD (fun i j => straight_jacobian _ _ i j) He Hi). ring. }
  rewrite HN in En. pose proof (proj1 (grad_norm_sq g (D - facet_number D elems f g))) as Np.
  set (a := mesh_length G elems f q) in *. set (b := det g * grad_norm g (D - facet_number D elems f g)) in *. assert (0 <= b) by (unfold b; nra). nra.
Qed.
Lemma straight_area f g : In f facets -> In g (elements_of elems f) -> efacet_area Q f = rsum (p_nq R_) (p_w R_) * (det g * grad_norm g (D - facet_number D elems f g)).
Proof.
  intros Hf Hg. unfold efacet_area. rewrite <- rsum_scale_r. apply rsum_ext. intros q _. change (ep_nl Q f q) with (mesh_length G elems f q).
  rewrite (straight_length f g q Hf Hg). reflexivity.
Qed.
Lemma lsum_nth {T} (F : T -> R) (d : T) l : lsum F l = rsum (length l) (fun i => F (nth i l d)).
Proof. induction l as [|a l IH]; [reflexivity|]. cbn [lsum length]. rewrite rsum_head, IH. reflexivity. Qed.
Lemma straight_boundary g : (g < length elems)%nat -> boundary_area Q elems facets g = rsum (p_nq R_) (p_w R_) * (det g * rsum (D + 1) (grad_norm g)).
Proof.
  intro Hg. destruct (nth_error_lt elems g Hg) as [plex Eg]. destruct (proj2 (vg_elems _ _ _ VG) plex) as [L S]; [eapply nth_error_In; eauto|]. change (gs_D G) with D in L.
  destruct (downward_spec D plex ltac:(lia) S) as (ds & Ed & Id & Nd & Ld).
  assert (Lds : length ds = (D + 1)%nat) by (rewrite L in Ld; clear -HD Ld; destruct HD as [-> | ->]; cbn in Ld; injection Ld as Ld; lia).
  assert (Pm : Permutation (facets_of elems facets g) ds).
  { apply NoDup_Permutation; auto.
    - apply NoDup_filter. apply (proj1 (mp_facets _ _ _ _ _ _ MP)).
    - intro f. rewrite in_facets_of, (nth_error_nth _ _ [] Eg), Id, (mp_facets_all _ _ _ _ _ _ MP). split; [intros [(H1 & H2 & _) H3]; auto|].
      intros (H1 & H2 & H3). split; auto. split; [auto|]. split; [auto|]. exists plex. split; auto. eapply nth_error_In; eauto. }
  unfold boundary_area. rewrite (lsum_perm _ _ _ Pm), (lsum_nth _ []), Lds.
  rewrite (rsum_ext (D + 1) _ (fun i => rsum (p_nq R_) (p_w R_) * det g * grad_norm g (D - i))).
  - rewrite rsum_scale, Rmult_assoc. f_equal. f_equal. destruct HD as [-> | ->]; cbn; ring.
  - intros i Hi. assert (Ei : nth_error ds i = Some (nth i ds [])) by (apply nth_error_nth'; lia).
    assert (Ini : In (nth i ds []) (facets_of elems facets g)) by (apply (Permutation_in _ (Permutation_sym Pm)), nth_In; lia).
    pose proof Ini as I2. apply in_facets_elements in I2 as [Hf He]; auto.
    rewrite (straight_area _ g Hf He).
    assert (Fn : facet_number D elems (nth i ds []) g = i).
    { unfold facet_number. rewrite (nth_error_nth _ _ [] Eg), Ed. apply position_unique; auto. }
    rewrite Fn. ring.
Qed.

Hypothesis XQ : exact_quadrature D R_.
Lemma straight_norm g u : norm2 Q g u = det g * rsum D (fun i => mass2 D R_ (coef Q u i)).
Proof.
  unfold norm2, mass2. change (p_dim (e_geo (ep_ref Q))) with (p_dim R_). rewrite (lr_dim _ _ LR), rsum_swap, <- rsum_scale. apply rsum_ext. intros q _. rewrite straight_J.
  change (p_W (e_geo (ep_ref Q))) with (p_W R_). rewrite (Rmult_comm (p_W R_ q)), Rmult_assoc. f_equal. rewrite <- rsum_scale. apply rsum_ext. intros i _.
  unfold disp. change (p_N (e_geo (ep_ref Q))) with (p_N R_). rewrite (lr_N _ _ LR). reflexivity.
Qed.
Lemma straight_value f g u : In f facets -> In g (elements_of elems f) ->
  value2 Q f g u = det g * grad_norm g (D - facet_number D elems f g) * rsum D (fun i => trace2 D R_ (facet_number D elems f g) (coef Q u i)).
Proof.
  intros Hf Hg. unfold value2, trace2. change (p_dim (e_geo (ep_ref Q))) with (p_dim R_). rewrite (lr_dim _ _ LR), rsum_swap, <- rsum_scale. apply rsum_ext. intros q _.
  change (ep_nl Q f q) with (mesh_length G elems f q). rewrite (straight_length f g q Hf Hg).
  change (p_w (e_geo (ep_ref Q))) with (p_w R_). rewrite (Rmult_comm (p_w R_ q)), Rmult_assoc. f_equal. rewrite <- rsum_scale. apply rsum_ext. intros i _.
  unfold disp_on. change (p_N (e_geo (ep_ref Q))) with (p_N R_). rewrite (lr_N _ _ LR). reflexivity.
Qed.
Lemma straight_value_trace f g u : In f facets -> In g (elements_of elems f) ->
  value2 Q f g u <= inverse_trace D 1 * (efacet_area Q f / eelem_volume Q g) * norm2 Q g u.
Proof.
  intros Hf Hg. pose proof (in_elems elems f g Hg) as Hgl. pose proof (det_pos g Hgl) as Dp. pose proof (facet_number_lt G procs elems facets bc m MP VG f g Hf Hg) as Hl. change (gs_D G) with D in Hl.
  assert (Wp : 0 < rsum (p_Nq R_) (p_W R_)).
  { rewrite (rsum_ext _ _ (fun q => p_W R_ q * 1)) by (intros; ring). apply good_weights_pos; [apply (lr_W _ _ LR)|intros; lra]. }
  rewrite straight_norm, straight_value, (straight_area f g), straight_volume by auto.
  pose proof (proj1 (grad_norm_sq g (D - facet_number D elems f g))) as Np.
  set (W := rsum (p_Nq R_) (p_W R_)) in *. set (w := rsum (p_nq R_) (p_w R_)) in *. set (nn := grad_norm g _) in *. set (S := rsum D (fun i => mass2 D R_ (coef Q u i))).
  assert (T : rsum D (fun i => trace2 D R_ (facet_number D elems f g) (coef Q u i)) * W <= inverse_trace D 1 * w * S).
  { unfold S. rewrite <- rsum_scale, <- rsum_scale_r. apply rsum_le. intros i _. apply linear_trace; auto. }
  set (T2 := rsum D _) in *. set (c := inverse_trace D 1) in *. clearbody W w nn S T2 c.
  replace (c * (w * (det g * nn) / (W * det g)) * (det g * S)) with (det g * nn * (c * w * S / W)) by (field; lra).
  apply Rmult_le_compat_l; [nra|]. apply Rmult_le_reg_r with W; auto. replace (c * w * S / W * W) with (c * w * S) by (field; lra). exact T.
Qed.
Variable C : R.
Hypothesis HC : grad_constant D 1 = Some C.
Lemma straight_grad g u : (g < length elems)%nat ->
  grad2 Q g u <= C * (boundary_area Q elems facets g / eelem_volume Q g) * (boundary_area Q elems facets g / eelem_volume Q g) * norm2 Q g u.
Proof.
  intro Hg. pose proof (det_pos g Hg) as Dp. rewrite straight_norm, straight_boundary, straight_volume by auto.
  set (a := rsum (D + 1) (grad_norm g)). set (S := rsum D (fun i => mass2 D R_ (coef Q u i))).
  assert (Gr : grad2 Q g u <= rsum (p_Nq R_) (p_W R_) * det g * (INR (fact (D + 2)) * S * (a * a))).
  { unfold grad2. change (p_dim (e_geo (ep_ref Q))) with (p_dim R_). rewrite (lr_dim _ _ LR). rewrite <- !rsum_scale_r. apply rsum_le. intros q Hq. rewrite straight_J.
    change (p_W (e_geo (ep_ref Q))) with (p_W R_). apply Rmult_le_compat_l; [apply Rmult_le_pos; [apply (proj1 (lr_W _ _ LR) q Hq)|lra]|].
    unfold S. rewrite <- rsum_scale, <- rsum_scale_r. apply rsum_le. intros i _.
    rewrite (rsum_ext D _ (fun j => rsum (D + 1) (fun l => shape_grad g l j * coef Q u i l) * rsum (D + 1) (fun l => shape_grad g l j * coef Q u i l))) by (intros j Hj; rewrite straight_dgrad by auto; reflexivity).
    eapply Rle_trans; [apply (grad_bound D HD (D + 1)%nat (coef Q u i) (shape_grad g) (grad_norm g)); intros; apply grad_norm_sq|]. fold a.
    apply Rmult_le_compat_r; [apply Rle_0_sqr|]. apply mass2_lower; auto. }
  assert (S0 : 0 <= S).
  { apply rsum_nonneg. intros i _. pose proof (mass2_lower D R_ HD XQ (coef Q u i)) as L. assert (0 <= rsum (D + 1) (fun l => coef Q u i l * coef Q u i l)) by (apply rsum_nonneg; intros; apply Rle_0_sqr).
    assert (0 < INR (fact (D + 2))) by (apply lt_0_INR, lt_O_fact). nra. }
  eapply Rle_trans; [exact Gr|]. pose proof (xq_volume _ _ XQ) as V. pose proof (xq_area _ _ XQ) as A.
  assert (Da : 0 <= det g * S * (a * a)) by (apply Rmult_le_pos; [nra|apply Rle_0_sqr]).
  set (W := rsum (p_Nq R_) (p_W R_)) in *. set (w := rsum (p_nq R_) (p_w R_)) in *. clearbody W w a S.
  destruct HD as [E | E]; rewrite E in V, A, HC |- *; cbn in V, A, HC |- *; injection HC as <-.
  - assert (EW : W = 1 / 2) by lra. assert (Ew : w = 1) by lra. rewrite EW, Ew. set (d := det g) in *. clearbody d.
    replace (60000 / 10000 * (1 * (d * a) / (1 / 2 * d)) * (1 * (d * a) / (1 / 2 * d)) * (d * S)) with (24 * (d * S * (a * a))) by (field; lra). lra.
  - assert (EW : W = 1 / 6) by lra. assert (Ew : w = 1 / 2) by lra. rewrite EW, Ew. set (d := det g) in *. clearbody d.
    replace (4 * (100000 / 10000) * (1 / 2 * (d * a) / (1 / 6 * d)) * (1 / 2 * (d * a) / (1 / 6 * d)) * (d * S)) with (360 * (d * S * (a * a))) by (field; lra). lra.
Qed.
(** The density is positive. *)
Hypothesis Rho : forall g l, (g < length elems)%nat -> (l < D + 1)%nat -> 0 < e_rhoInv E_ g l.
Lemma straight_wave : wave_ok Q elems facets 1 C.
Proof.
  assert (HN : (0 < D + 1)%nat) by lia.
  split; change (p_dim (e_geo (ep_ref Q))) with (p_dim R_); change (p_N (e_geo (ep_ref Q))) with (p_N R_); change (p_Nq (e_geo (ep_ref Q))) with (p_Nq R_); rewrite ?(lr_dim _ _ LR), ?(lr_N _ _ LR).
  - intros f g u Hf Hg. apply straight_value_trace; auto.
  - intros g u Hg. apply straight_grad; auto.
  - clear -HC HD. destruct HD as [-> | ->]; cbn in HC; injection HC as <-; lra.
  - intros g q Hg Hq. destruct (convex_between (D + 1)%nat (p_matEQ R_ q) (fun l => INR D * e_lam E_ g l + 2 * e_mu E_ g l) HN (lr_matEQ _ _ LR q Hq)) as [_ (l & L1 & L)]. exists l. split; auto.
    eapply Rle_trans; [|exact L]. apply Req_le. unfold lam_in, mu_in. cbn [mesh_eproblem ep_ref ep_loc with_egeometry e_geo e_lam e_mu with_geometry p_N p_matEQ]. rewrite (lr_N _ _ LR).
    rewrite <- !rsum_scale, <- rsum_plus. apply rsum_ext. intros. ring.
  - intros g q Hg Hq. unfold rho_inv. cbn [mesh_eproblem ep_ref ep_loc with_egeometry e_geo e_rhoInv with_geometry p_N p_matEQ]. rewrite (lr_N _ _ LR).
    destruct (convex_between (D + 1)%nat (p_matEQ R_ q) (e_rhoInv E_ g) HN (lr_matEQ _ _ LR q Hq)) as [(k & K1 & K2) (l & L1 & L2)].
    rewrite (rsum_ext (D + 1) _ (fun l => e_rhoInv E_ g l * p_matEQ R_ q l)) by (intros; ring). split.
    + eapply Rlt_le_trans; [apply (Rho g k Hg K1)|exact K2].
    + exists l. split; auto.
Qed.
End Straight.

(** C64, linear elements: on every mesh of triangles or tetrahedra with linear functions, for all Lame
    parameters lambda >= 0, mu > 0, numbers of ranks and partitions, the ranks assemble a symmetric
    positive semidefinite matrix.  With densities of at least one, the time step bound that the ranks
    agree on satisfies dt^2 u^T A u <= u^T M u for the matrix A and the mass form M. *)
Theorem straight_mesh_elastic_stable : forall D X xi chi procs elems facets bc m E_ fi E, (D = 2 \/ D = 3)%nat ->
  mesh_parts D procs elems facets bc m -> plex_list (D + 1) elems ->
  (forall plex, In plex elems -> geo_det D (edge_matrix X plex) <> 0) ->
  (forall f g h plex1 plex2 a b, In f facets -> elements_of elems f = [g; h] -> nth_error elems g = Some plex1 -> nth_error elems h = Some plex2 ->
     In a plex1 -> ~ In a f -> In b plex2 -> ~ In b f -> separated D X f a b) ->
  linear_reference D (e_geo E_) ->
  (forall g l, (g < length elems)%nat -> (l < D + 1)%nat -> 0 <= e_lam E_ g l /\ 0 < e_mu E_ g l) ->
  (forall p, (p < procs)%nat -> elastic_rank (linear_setup D X xi chi) E_ 1 (m p) (fi p) (E p)) ->
  let n := ((D + 1) * D)%nat in let Q := mesh_eproblem (linear_setup D X xi chi) elems E_ 1 in
  exists A, (forall p, (p < procs)%nat -> map_opt (to_global (m p)) (assemble (m p) (fi p) (elasticity_mat (E p))) = Some (A p)) /\
    (forall U V, pairing n (flat_map A (seq 0 procs)) V U = pairing n (flat_map A (seq 0 procs)) U V) /\
    (forall U, 0 <= pairing n (flat_map A (seq 0 procs)) U U) /\
    (forall C wr t sl dmax, grad_constant D 1 = Some C -> exact_quadrature D (e_geo E_) -> (forall g l, (g < length elems)%nat -> (l < D + 1)%nat -> 0 < e_rhoInv E_ g l <= 1) ->
     (forall p, (p < procs)%nat -> interleaving (all_side_writes D (fi p)) (wr p) /\ do_writes (fresh_sides D (m p)) (wr p) = Some (t p)) ->
     (forall p e, (p < procs)%nat -> (e < tm_num_local (m p))%nat -> map_opt (fun d => nth_error (t p) (e * (D + 1) + d)) (seq 0 (D + 1)) = Some (sl p e)) ->
     0 < dmax ->
     let dt := cfl_time_step dmax procs (fun p => local_cfl_time_step dmax (tm_num_local (m p)) (fun e => cfl_dt (E p) 1 C e (sl p e))) in
     0 < dt /\ forall U, dt * dt * pairing n (flat_map A (seq 0 procs)) U U <= mass_form Q elems U U).
Proof.
  intros D X xi chi procs elems facets bc m E_ fi E HD MP PE ND SEP LR K0 RK n Q. set (G := linear_setup D X xi chi) in *.
  assert (VG : valid_geometry G elems facets) by (apply straight_mesh_valid; auto; apply (mp_facets _ _ _ _ _ _ MP)).
  assert (HN : (0 < p_N (e_geo E_))%nat) by (rewrite (lr_N _ _ LR); lia).
  assert (K0' : forall g l, (g < length elems)%nat -> (l < p_N (e_geo E_))%nat -> 0 <= e_lam E_ g l /\ 0 < e_mu E_ g l) by (rewrite (lr_N _ _ LR); exact K0).
  pose proof (straight_strain_trace D X xi chi procs elems facets bc m E_ 1 HD MP VG LR) as TI.
  destruct (mesh_gives_elastic_interior_penalty G procs elems facets bc m E_ 1 fi E MP VG (lr_dim _ _ LR)) as (A & HA & _ & HS & HP); auto.
  assert (En : block_size (ep_ref Q) = n) by (unfold block_size, n; cbn; rewrite (lr_dim _ _ LR), (lr_N _ _ LR); reflexivity).
  change (gs_D G) with D in *. rewrite (lr_N _ _ LR) in HS, HP. fold n in HS, HP.
  exists A. split; [exact HA|]. split; [exact HS|]. split.
  - apply HP; auto; [apply (lr_W _ _ LR)|apply (lr_w _ _ LR)|apply (lr_matEQ _ _ LR)|apply (lr_matE _ _ LR)].
  - intros C wr t sl dmax HC XQ Rho TB SL Dm dt. rewrite <- En.
    apply (time_step_bounds_form D procs elems facets bc m Q (no_edata E) fi 1 C A wr t sl dmax); auto.
    + apply (mesh_eproblem_ok G procs elems facets bc m MP VG E_ (lr_dim _ _ LR)).
    + intros p Hp. apply (mesh_erank_data G procs elems facets bc m MP VG E_ (lr_dim _ _ LR) 1 (le_n _) fi E RK HN p Hp).
    + intros p i x Hp Ex. exact (el_pen _ _ _ _ _ _ (RK p Hp) i x Ex).
    + apply (lr_dim _ _ LR).
    + clear -HD. lia.
    + apply (mesh_egeometry_ok G procs elems facets bc m MP VG E_ (lr_dim _ _ LR) 1 HN); auto.
      * apply (lr_W _ _ LR).
      * apply (lr_w _ _ LR).
      * rewrite (lr_N _ _ LR). apply (lr_matEQ _ _ LR).
      * rewrite (lr_N _ _ LR). apply (lr_matE _ _ LR).
    + apply (straight_wave D X xi chi procs elems facets bc m E_ 1 HD MP VG LR XQ C HC). intros. apply Rho; auto.
    + intros g l Hg Hl. apply Rho; auto. rewrite <- (lr_N _ _ LR). exact Hl.
Qed.
Print Assumptions straight_mesh_elastic_stable.
