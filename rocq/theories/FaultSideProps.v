(** Property theorems: slip and traction do not depend on which side of the fault comes first (C27),
    and the traction kept on the fault is the L2 projection of the traction (C27). *)
Require Import List Arith Lia Bool Reals Lra FunctionalExtensionality.
Require Import Verif.Base Verif.LinAlg Verif.TopoModel Verif.AssembleModel Verif.PoissonModel Verif.FaultModel Verif.FaultProps.
Import ListNotations.
Local Open Scope R_scope.

(** * Specification *)
(** The normals at the quadrature points of facet i. *)
Definition normals (P : pdata) (i : nat) : list vec := map (fun q c => p_n P i c q) (seq 0 (p_nq P)).
(** Two views of one facet, in which the elements of the facet come in different order: elements and
    everything belonging to them are exchanged, the normal points the other way.  The views may come
    from different ranks or different numberings of the mesh. *)
Record other_side (P : pdata) (i : nat) (x : facet_info) (P' : pdata) (i' : nat) (x' : facet_info) : Prop := {
  os_dim : p_dim P' = p_dim P; os_N : p_N P' = p_N P; os_nq : p_nq P' = p_nq P; os_method : p_method P' = p_method P;
  os_E : p_E P' = p_E P; os_Dxi : p_Dxi P' = p_Dxi P; os_matE : p_matE P' = p_matE P;
  os_bc : fi_bc x' = fi_bc x;
  os_local0 : fi_local0 x' = fi_local1 x; os_local1 : fi_local1 x' = fi_local0 x;
  os_K0 : p_K P' (fi_up0 x') = p_K P (fi_up1 x); os_K1 : p_K P' (fi_up1 x') = p_K P (fi_up0 x);
  os_G0 : p_G0 P' i' = p_G1 P i; os_G1 : p_G1 P' i' = p_G0 P i;
  os_pen : p_pen P' i' = p_pen P i;
  os_n : forall c q, p_n P' i' c q = - p_n P i c q; os_nu : forall c q, p_nu P' i' c q = - p_nu P i c q }.
(** The slip field the state stands for. *)
Definition slip_field (S : fault_space) (state : nat -> R) (q : nat) : R := rsum (fs_nbf S) (fun p => fs_e S p q * state p).

(** * Lemmas *)
Definition exchange (p : fault_point) : fault_point :=
  {| fp_flipped := negb (fp_flipped p); fp_normal := fp_normal p; fp_nl := fp_nl p; fp_basis := fun j c => fp_basis p j c * -1 |}.
Lemma vneg_vneg n : vneg (vneg n) = n.
Proof. apply functional_extensionality. intro. unfold vneg. ring. Qed.
Lemma vdot_vneg dim a n : vdot dim a (vneg n) = - vdot dim a n.
Proof. unfold vdot, vneg. rewrite (rsum_ext dim _ (fun i => -1 * (a i * n i))) by (intros; ring). rewrite rsum_scale. ring. Qed.
Lemma vnorm_vneg dim n : vnorm dim (vneg n) = vnorm dim n.
Proof. unfold vnorm. f_equal. unfold vdot, vneg. apply rsum_ext. intros. ring. Qed.
Lemma prepare_point_neg dim up ref n p : prepare_point dim up ref n = Some p -> prepare_point dim up ref (vneg n) = Some (exchange p).
Proof.
  unfold prepare_point. rewrite vdot_vneg, Rabs_Ropp, vneg_vneg, vnorm_vneg. pose proof tol_small as T.
  destruct (Rlt_dec (Rabs (vdot dim ref n)) tol) as [|H]; [discriminate|].
  assert (vdot dim ref n <> 0) by (intro E; apply H; rewrite E, Rabs_R0; lra).
  destruct (Rlt_dec (vdot dim ref n) 0), (Rlt_dec (- vdot dim ref n) 0); try lra; (destruct (facet_basis _ _ _) as [b|]; [|discriminate]);
    intros [= <-]; unfold exchange; cbn; do 2 f_equal.
  apply functional_extensionality. intro j. apply functional_extensionality. intro c. ring.
Qed.
Lemma prepare_points_neg dim up ref ns : forall F, prepare_points dim up ref ns = Some F -> prepare_points dim up ref (map vneg ns) = Some (map exchange F).
Proof.
  induction ns as [|n ns IH]; intros F; cbn; [intros [= <-]; auto|].
  destruct (prepare_point dim up ref n) as [p|] eqn:E; [|discriminate]. destruct (prepare_points _ _ _ ns) as [l|]; [|discriminate].
  intros [= <-]. rewrite (prepare_point_neg _ _ _ _ _ E), (IH l eq_refl). auto.
Qed.
Lemma prepare_points_length dim up ref ns : forall F, prepare_points dim up ref ns = Some F -> length F = length ns.
Proof.
  induction ns as [|n ns IH]; intros F; cbn; [intros [= <-]; auto|].
  destruct (prepare_point dim up ref n); [|discriminate]. destruct (prepare_points _ _ _ ns) as [l|]; [|discriminate]. intros [= <-]. cbn. f_equal. auto.
Qed.
Lemma prepare_points_nth dim up ref ns d : forall F q, prepare_points dim up ref ns = Some F -> (q < length ns)%nat ->
  prepare_point dim up ref (nth q ns d) = Some (at_q F q).
Proof.
  induction ns as [|n ns IH]; intros F q; cbn; [lia|].
  destruct (prepare_point dim up ref n) as [p|] eqn:E; [|discriminate]. destruct (prepare_points _ _ _ ns) as [l|]; [|discriminate]. intros [= <-] Hq.
  destruct q; cbn; auto. apply IH; auto. lia.
Qed.
Lemma at_q_exchange F q : (q < length F)%nat -> at_q (map exchange F) q = exchange (at_q F q).
Proof. intro H. unfold at_q. rewrite (nth_indep _ _ (exchange dummy_point)) by (rewrite map_length; auto). apply map_nth. Qed.
Lemma normals_other P i x P' i' x' : other_side P i x P' i' x' -> normals P' i' = map vneg (normals P i).
Proof.
  intro O. unfold normals. rewrite (os_nq _ _ _ _ _ _ O), map_map. apply map_ext. intro q.
  apply functional_extensionality. intro c. rewrite (os_n _ _ _ _ _ _ O). unfold vneg. ring.
Qed.
Lemma mass_exchange S F : fault_mass S (map exchange F) = fault_mass S F.
Proof.
  apply functional_extensionality. intro a. apply functional_extensionality. intro b. unfold fault_mass. rewrite map_length.
  apply rsum_ext. intros q Hq. rewrite at_q_exchange by auto. reflexivity.
Qed.

(** * C27 *)
(** The jump u(up[0]) - u(up[1]) that is imposed is the slip if up[0] lies on the side that the
    reference normal points away from, and minus the slip otherwise; so u(minus) - u(plus) is the slip,
    whichever comes first. *)
Theorem imposed_jump : forall S up ref P i F state q, prepare_points (p_dim P) up ref (normals P i) = Some F -> (q < p_nq P)%nat ->
  let n := fun c => p_n P i c q in
  vdot (p_dim P) ref n <> 0 /\
  (0 < vdot (p_dim P) ref n -> poisson_slip S F state q = slip_field S state q) /\
  (vdot (p_dim P) ref n < 0 -> poisson_slip S F state q = - slip_field S state q).
Proof.
  intros S up ref P i F state q HF Hq n. assert (L : (q < length (normals P i))%nat) by (unfold normals; rewrite map_length, seq_length; auto).
  pose proof (prepare_points_nth _ _ _ _ (fun _ => 0) F q HF L) as E. pose proof tol_small as T.
  assert (En : nth q (normals P i) (fun _ => 0) = n).
  { unfold normals. rewrite (nth_indep _ _ ((fun q c => p_n P i c q) 0%nat)) by auto. rewrite (map_nth (fun q c => p_n P i c q)), seq_nth; auto. }
  rewrite En in E. unfold prepare_point in E. destruct (Rlt_dec (Rabs (vdot (p_dim P) ref n)) tol) as [|H]; [discriminate|].
  split; [intro Z; apply H; rewrite Z, Rabs_R0; lra|]. unfold poisson_slip. fold (slip_field S state q).
  destruct (Rlt_dec (vdot (p_dim P) ref n) 0); (destruct (facet_basis _ _ _); [|discriminate]); injection E as <-; cbn; split; intro; lra.
Qed.
Print Assumptions imposed_jump.
(** For elasticity the slip components multiply the tangents of the basis of the reference-aligned
    normal. *)
Theorem elasticity_imposed_jump : forall S up ref P i F state q, prepare_points (p_dim P) up ref (normals P i) = Some F -> (q < p_nq P)%nat ->
  let n := fun c => p_n P i c q in
  let slip m := rsum (fs_nbf S) (fun l => fs_e S l q * state (l + fs_nbf S * m)%nat) in
  (0 < vdot (p_dim P) ref n -> exists b, facet_basis (p_dim P) up n = Some b /\
     forall p, elasticity_slip S (p_dim P) F state p q = rsum (p_dim P - 1) (fun m => slip m * b p (m + 1)%nat)) /\
  (vdot (p_dim P) ref n < 0 -> exists b, facet_basis (p_dim P) up (vneg n) = Some b /\
     forall p, elasticity_slip S (p_dim P) F state p q = - rsum (p_dim P - 1) (fun m => slip m * b p (m + 1)%nat)).
Proof.
  intros S up ref P i F state q HF Hq n slip. assert (L : (q < length (normals P i))%nat) by (unfold normals; rewrite map_length, seq_length; auto).
  pose proof (prepare_points_nth _ _ _ _ (fun _ => 0) F q HF L) as E.
  assert (En : nth q (normals P i) (fun _ => 0) = n).
  { unfold normals. rewrite (nth_indep _ _ ((fun q c => p_n P i c q) 0%nat)) by auto. rewrite (map_nth (fun q c => p_n P i c q)), seq_nth; auto. }
  rewrite En in E. set (dim := p_dim P) in *.
  assert (G : forall p, elasticity_slip S dim F state p q = rsum (dim - 1) (fun m => slip m * fp_basis (at_q F q) p (m + 1)%nat)).
  { intro p. unfold elasticity_slip.
    rewrite (rsum_ext _ _ (fun l => rsum (dim - 1) (fun m => fs_e S l q * state (l + fs_nbf S * m)%nat * fp_basis (at_q F q) p (m + 1)%nat))).
    - rewrite rsum_swap. apply rsum_ext. intros m _. unfold slip. rewrite <- rsum_scale_r. reflexivity.
    - intros l _. rewrite rsum_swap. apply rsum_ext. intros m Hm. rewrite (rsum_single dim (m + 1)); [|lia|].
      + unfold copy_slip. rewrite Nat.eqb_refl. ring.
      + intros o _ Ho. unfold copy_slip. destruct (Nat.eqb_spec o (m + 1)); [lia|ring]. }
  unfold prepare_point in E. destruct (Rlt_dec (Rabs (vdot dim ref n)) tol) as [|H]; [discriminate|].
  destruct (Rlt_dec (vdot dim ref n) 0); (destruct (facet_basis _ _ _) as [b|]; [|discriminate]); injection E as E; split; intro; try lra;
    exists b; split; auto; intro p; rewrite G, <- E; cbn [fp_basis].
  - transitivity (-1 * rsum (dim - 1) (fun m => slip m * b p (m + 1)%nat)); [|ring]. rewrite <- rsum_scale. apply rsum_ext. intros. ring.
  - reflexivity.
Qed.
Print Assumptions elasticity_imposed_jump.
(** Exchanging the sides negates what is imposed on u(up[0]) - u(up[1]). *)
Theorem slip_exchange : forall S up ref P i x P' i' x' F, other_side P i x P' i' x' -> prepare_points (p_dim P) up ref (normals P i) = Some F ->
  exists F', prepare_points (p_dim P') up ref (normals P' i') = Some F' /\
    (forall state q, (q < p_nq P)%nat -> poisson_slip S F' state q = - poisson_slip S F state q) /\
    (forall state p q, (q < p_nq P)%nat -> elasticity_slip S (p_dim P') F' state p q = - elasticity_slip S (p_dim P) F state p q).
Proof.
  intros S up ref P i x P' i' x' F O HF. exists (map exchange F). rewrite (normals_other _ _ _ _ _ _ O), (os_dim _ _ _ _ _ _ O).
  pose proof (prepare_points_length _ _ _ _ _ HF) as L. unfold normals in L. rewrite map_length, seq_length in L.
  split; [apply prepare_points_neg; auto|]. split.
  - intros state q Hq. unfold poisson_slip. rewrite at_q_exchange by lia. cbn. destruct (fp_flipped (at_q F q)); cbn; ring.
  - intros state p q Hq. unfold elasticity_slip. rewrite at_q_exchange by lia. cbn.
    symmetry. rewrite <- (Rmult_1_l (rsum _ _)), Ropp_mult_distr_l.
    rewrite <- rsum_scale. apply rsum_ext. intros l _. rewrite <- rsum_scale. apply rsum_ext. intros o _. rewrite <- rsum_scale. apply rsum_ext. intros m _. ring.
Qed.
Print Assumptions slip_exchange.
(** The traction on the fault does not depend on the order of the sides, for the slip that the adapter
    imposes in either view. *)
Theorem traction_exchange : forall S inverse up ref P i x P' i' x' F F' state u0 u1 g g',
  other_side P i x P' i' x' -> fi_bc x = BC_Fault ->
  prepare_points (p_dim P) up ref (normals P i) = Some F -> prepare_points (p_dim P') up ref (normals P' i') = Some F' ->
  (forall q, (q < p_nq P)%nat -> p_slip P i false q = poisson_slip S F state q) ->
  (forall q, (q < p_nq P')%nat -> p_slip P' i' false q = poisson_slip S F' state q) ->
  traction_skeleton P i x u0 u1 = Some g -> traction_skeleton P' i' x' u1 u0 = Some g' ->
  forall r, poisson_traction S inverse (p_dim P') F' g' r = poisson_traction S inverse (p_dim P) F g r.
Proof.
  intros S inverse up ref P i x P' i' x' F F' state u0 u1 g g' O Hbc HF HF' Hs Hs' Hg Hg' r.
  pose proof (prepare_points_length _ _ _ _ _ HF) as L. unfold normals in L. rewrite map_length, seq_length in L.
  destruct (slip_exchange S up ref P i x P' i' x' F O HF) as (F2 & HF2 & Sl & _). assert (F2 = F') by congruence. subst F2.
  assert (EF : F' = map exchange F).
  { rewrite (normals_other _ _ _ _ _ _ O), (os_dim _ _ _ _ _ _ O), (prepare_points_neg _ _ _ _ _ HF) in HF'. congruence. }
  unfold traction_skeleton, bc_skeleton in Hg, Hg'. rewrite (os_bc _ _ _ _ _ _ O), Hbc in Hg'. rewrite Hbc in Hg. cbn in Hg, Hg'.
  injection Hg as <-. injection Hg' as <-. subst F'.
  unfold poisson_traction. rewrite map_length, (os_dim _ _ _ _ _ _ O). unfold fault_minv. rewrite mass_exchange.
  apply rsum_ext. intros a _. apply rsum_ext. intros q Hq. apply rsum_ext. intros k _. rewrite at_q_exchange by auto. cbn [fp_normal exchange].
  do 2 f_equal. rewrite Hs, Hs', Sl by (try rewrite (os_nq _ _ _ _ _ _ O); lia). rewrite (os_N _ _ _ _ _ _ O), (os_nu _ _ _ _ _ _ O).
  unfold penalty. rewrite (os_method _ _ _ _ _ _ O), (os_dim _ _ _ _ _ _ O), (os_pen _ _ _ _ _ _ O).
  assert (E0 : E_side P' x' 0 = E_side P x 1) by (unfold E_side; rewrite (os_E _ _ _ _ _ _ O), (os_local0 _ _ _ _ _ _ O); auto).
  assert (E1 : E_side P' x' 1 = E_side P x 0) by (unfold E_side; rewrite (os_E _ _ _ _ _ _ O), (os_local1 _ _ _ _ _ _ O); auto).
  assert (K0 : compute_K_Dx P' i' x' 0 = compute_K_Dx P i x 1).
  { unfold compute_K_Dx, K_Dx. rewrite (os_N _ _ _ _ _ _ O), (os_dim _ _ _ _ _ _ O), (os_K0 _ _ _ _ _ _ O), (os_matE _ _ _ _ _ _ O), (os_Dxi _ _ _ _ _ _ O),
      (os_local0 _ _ _ _ _ _ O), (os_G0 _ _ _ _ _ _ O). auto. }
  assert (K1 : compute_K_Dx P' i' x' 1 = compute_K_Dx P i x 0).
  { unfold compute_K_Dx, K_Dx. rewrite (os_N _ _ _ _ _ _ O), (os_dim _ _ _ _ _ _ O), (os_K1 _ _ _ _ _ _ O), (os_matE _ _ _ _ _ _ O), (os_Dxi _ _ _ _ _ _ O),
      (os_local1 _ _ _ _ _ _ O), (os_G1 _ _ _ _ _ _ O). auto. }
  unfold compute_K_Dx in K0, K1. rewrite E0, E1, K0, K1. ring.
Qed.
Print Assumptions traction_exchange.

(** The traction kept on the fault is the L2 projection of normal . K grad u (with the reference
    normal) to the space on the facet, if Eigen inverts the mass matrix. *)
Definition inverts (n : nat) (B M : nat -> nat -> R) : Prop :=
  forall a b, (a < n)%nat -> (b < n)%nat -> rsum n (fun c => B a c * M c b) = if (a =? b)%nat then 1 else 0.
Lemma mass_symmetric S F a b : fault_mass S F a b = fault_mass S F b a.
Proof. unfold fault_mass. apply rsum_ext. intros. ring. Qed.
Theorem poisson_traction_projection : forall S inverse dim F g,
  inverts (fs_nbf S) (inverse (fault_mass S F)) (fault_mass S F) ->
  forall r, (r < fs_nbf S)%nat ->
  rsum (fs_nbf S) (fun p => fault_mass S F r p * poisson_traction S inverse dim F g p) =
  rsum (length F) (fun q => fs_w S q * fs_e S r q * rsum dim (fun k => g k q * fp_normal (at_q F q) k)).
Proof.
  intros S inverse dim F g Inv r Hr. set (n := fs_nbf S) in *. set (M := fault_mass S F) in *. set (B := inverse M) in *.
  set (b := fun a => rsum (length F) (fun q => fs_w S q * fs_e S a q * rsum dim (fun k => g k q * fp_normal (at_q F q) k))).
  assert (E : forall p, poisson_traction S inverse dim F g p = rsum n (fun a => B a p * b a)).
  { intro p. unfold poisson_traction. fold n. apply rsum_ext. intros a _. unfold b. rewrite <- rsum_scale. apply rsum_ext. intros q _.
    rewrite <- !rsum_scale. apply rsum_ext. intros k _. unfold fault_minv. fold M B. ring. }
  rewrite (rsum_ext n _ (fun p => rsum n (fun a => b a * (B a p * M p r)))).
  2:{ intros p _. rewrite E. rewrite <- rsum_scale. apply rsum_ext. intros a _. unfold M. rewrite (mass_symmetric S F r p). ring. }
  rewrite rsum_swap. rewrite (rsum_ext n _ (fun a => b a * (if (a =? r)%nat then 1 else 0))).
  2:{ intros a Ha. rewrite rsum_scale, Inv by auto. reflexivity. }
  rewrite (rsum_single n r); [|exact Hr|intros a _ Ha; destruct (Nat.eqb_spec a r); [lia|ring]].
  rewrite Nat.eqb_refl. unfold b. ring.
Qed.
Print Assumptions poisson_traction_projection.
Theorem elasticity_traction_projection : forall S inverse dim F t,
  inverts (fs_nbf S) (inverse (fault_mass S F)) (fault_mass S F) ->
  forall r p, (r < fs_nbf S)%nat ->
  rsum (fs_nbf S) (fun k => fault_mass S F r k * elasticity_traction S inverse dim F t k p) =
  rsum (length F) (fun q => fs_w S q * fp_nl (at_q F q) * fs_e S r q * vdot dim (fun o => t o q) (column (fp_basis (at_q F q)) p)).
Proof.
  intros S inverse dim F g Inv r p Hr. set (n := fs_nbf S) in *. set (M := fault_mass S F) in *. set (B := inverse M) in *.
  set (b := fun a => rsum (length F) (fun q => fs_w S q * fp_nl (at_q F q) * fs_e S a q * vdot dim (fun o => g o q) (column (fp_basis (at_q F q)) p))).
  assert (E : forall k, elasticity_traction S inverse dim F g k p = rsum n (fun a => B a k * b a)).
  { intro k. unfold elasticity_traction. fold n. apply rsum_ext. intros a _. unfold b. rewrite <- rsum_scale. apply rsum_ext. intros q _.
    unfold vdot. rewrite <- !rsum_scale. apply rsum_ext. intros o _. unfold fault_minv, column. fold M B. ring. }
  rewrite (rsum_ext n _ (fun p => rsum n (fun a => b a * (B a p * M p r)))).
  2:{ intros k _. rewrite E. rewrite <- rsum_scale. apply rsum_ext. intros a _. unfold M. rewrite (mass_symmetric S F r k). ring. }
  rewrite rsum_swap. rewrite (rsum_ext n _ (fun a => b a * (if (a =? r)%nat then 1 else 0))).
  2:{ intros a Ha. rewrite rsum_scale, Inv by auto. reflexivity. }
  rewrite (rsum_single n r); [|exact Hr|intros a _ Ha; destruct (Nat.eqb_spec a r); [lia|ring]].
  rewrite Nat.eqb_refl. unfold b. ring.
Qed.
Print Assumptions elasticity_traction_projection.
(** In either view, the traction vector t for the normal of up[0] and the basis give the components of
    the traction on the reference-aligned normal in one and the same basis. *)
Theorem traction_components : forall dim up ref n p (t : vec), prepare_point dim up ref n = Some p ->
  exists b, facet_basis dim up (if Rlt_dec (vdot dim ref n) 0 then vneg n else n) = Some b /\
    forall c, vdot dim t (column (fp_basis p) c) = vdot dim (if Rlt_dec (vdot dim ref n) 0 then vneg t else t) (column b c).
Proof.
  intros dim up ref n p t. unfold prepare_point. destruct (Rlt_dec (Rabs _) _); [discriminate|].
  destruct (Rlt_dec (vdot dim ref n) 0); (destruct (facet_basis _ _ _) as [b|]; [|discriminate]); intros [= <-]; exists b; split; auto; intro c; cbn.
  unfold vdot, column, vneg. apply rsum_ext. intros. ring.
Qed.
Print Assumptions traction_components.

(** Functions given by the user on facets: the same as for the fault, with the sign by the reference
    normal; on facets parallel to the reference normal it does depend on the side. *)
Theorem facet_functional_exchange : forall dim ref n fx, vdot dim ref n <> 0 ->
  (forall c, facet_functional dim ref (vneg n) false fx c = - facet_functional dim ref n false fx c) /\
  (0 < vdot dim ref n -> facet_functional dim ref n false fx = fx) /\
  facet_functional dim ref n true fx = fx.
Proof.
  intros dim ref n fx H. unfold facet_functional. cbn [negb]. rewrite vdot_vneg. repeat split; intros.
  - destruct (Rlt_dec (vdot dim ref n) 0), (Rlt_dec (- vdot dim ref n) 0); try lra; unfold vneg; ring.
  - destruct (Rlt_dec _ _); [lra|auto].
Qed.
Print Assumptions facet_functional_exchange.
Theorem facet_functional_parallel_refuted : exists ref n fx c,
  facet_functional 2 ref (vneg n) false fx c <> - facet_functional 2 ref n false fx c.
Proof.
  exists (fun i => match i with O => 1 | _ => 0 end), (fun i => match i with O => 0 | _ => 1 end), (fun _ => 1), 0%nat.
  unfold facet_functional. cbn [negb]. rewrite vdot_vneg, vdot2. cbn. destruct (Rlt_dec _ _); [lra|]. destruct (Rlt_dec _ _); lra.
Qed.
Print Assumptions facet_functional_parallel_refuted.
