(** Example for C79: a solution with a discontinuous coefficient, slip, natural and prescribed boundary
    values on the strip of three triangles, on two ranks, for every degree from two. *)
Require Import List Arith Lia Bool Reals Lra Permutation FunctionalExtensionality.
Require Import Verif.Base Verif.LinAlg Verif.SimplexModel Verif.LocalMeshModel Verif.LocalMeshProps Verif.TopoModel Verif.TopoSpec Verif.TopoProofs Verif.TopoProps
  Verif.AssembleModel Verif.AssembleSpec Verif.AssembleProps Verif.MatFree Verif.FaultModel Verif.PoissonModel Verif.PenaltyModel Verif.SipSpec Verif.SipExamples
  Verif.GeometryModel Verif.GeometryProofs Verif.GeometrySpec Verif.GeometryProps Verif.GeometryStraight Verif.MeshSpec Verif.MeshProofs Verif.MeshExamples
  Verif.TensorModel Verif.BasisModel Verif.BasisSpec Verif.IntegralSpec Verif.DubinerProofs Verif.NodesConform Verif.ErrorSpec Verif.QuadratureModel Verif.QuadratureSpec Verif.RootsProps Verif.RefElementModel Verif.RefElementSpec Verif.RefElementProps Verif.RefElementExamples
  Verif.DegreeSpec Verif.OperatorRefModel Verif.OperatorRefProps Verif.OperatorRefExamples Verif.ConsistencySpec Verif.ConsistencyProofs Verif.ConsistencyProps Verif.JacobiProofs.
Import ListNotations.
Local Open Scope R_scope.

(** A rank with data. *)
Section Rank.
Variables (G : geo_setup) (R_ : pdata) (degree : nat) (slip : list nat -> nat -> nat -> R) (value : list nat -> nat -> R) (m : topo_mesh) (fi : list facet_info).
Local Notation D := (gs_D G).
Definition loaded_rank : pdata := let B := mesh_rank G R_ degree m fi in let f i := nth i (tm_facets m) [] in let g0 i := fi_g0 (nth i fi dummy_record) in {|
  p_dim := p_dim B; p_N := p_N B; p_Nq := p_Nq B; p_nq := p_nq B; p_method := p_method B;
  p_W := p_W B; p_w := p_w B; p_EQ := p_EQ B; p_DxiQ := p_DxiQ B; p_matEQ := p_matEQ B;
  p_E := p_E B; p_Dxi := p_Dxi B; p_matE := p_matE B; p_MinvRef := p_MinvRef B;
  p_J := p_J B; p_GQ := p_GQ B; p_K := p_K B; p_n := p_n B; p_nu := p_nu B; p_nl := p_nl B; p_G0 := p_G0 B; p_G1 := p_G1 B;
  p_pen := p_pen B; p_force := fun e => p_force R_ (nth e (tm_l2cg m) 0%nat);
  p_dir := fun i b => if b : bool then value (f i) else slip (f i) (g0 i);
  p_slip := fun i b q => if b : bool then 2 * value (f i) q else slip (f i) (g0 i) q |}.
Lemma loaded_rank_ok : topo_ok D m -> facet_table D m = Some fi -> poisson_rank G R_ degree m fi loaded_rank /\ holds_data D R_ slip value m loaded_rank.
Proof.
  intros O T. destruct (mesh_rank_ok G R_ degree m fi O T) as [K1 K2 K3 K4 K5 K6]. split; split; auto.
  - destruct K1. split; auto.
  - destruct K2; split; auto.
  - intros e g E. cbn [loaded_rank p_force]. rewrite (nth_error_nth _ _ 0%nat E). reflexivity.
  - intros i f x Hi Ef R Ne. cbn [loaded_rank p_slip p_dir]. rewrite (nth_error_nth _ _ [] Ef).
    destruct (facet_table_correct D m O) as (fi' & Efi' & _ & RS). assert (fi' = fi) by congruence. subst fi'.
    destruct (RS i Hi) as (y & Ey & Ry). destruct (record_unique' D m i x y O R Ry) as (U0 & _). rewrite (nth_error_nth _ _ dummy_record Ey).
    assert (fi_g0 y = fi_g0 x). { pose proof (fr_g0 _ _ _ _ Ry) as A. pose proof (fr_g0 _ _ _ _ R) as B. rewrite <- U0 in A. congruence. }
    rewrite H. split; reflexivity.
  - intros i f x Hi Ef R Ne. cbn [loaded_rank p_slip p_dir]. rewrite (nth_error_nth _ _ [] Ef). split; [intros _ q; field|reflexivity].
Qed.
End Rank.

(** c = 1 and w = x^2 + y^2 below y = 1, c = 2 and w = x^2 + y^2/2 above: the flux is continuous, w jumps by
    1/2; the flux is zero at y = 0. *)
Definition ex_c (g : nat) (x : vec) : R := match g with 2%nat => 2 | _ => 1 end.
Definition ex_w (g : nat) (x : vec) : R := match g with 2%nat => x 0%nat * x 0%nat + 1 / 2 * (x 1%nat * x 1%nat) | _ => x 0%nat * x 0%nat + x 1%nat * x 1%nat end.
Definition ex_dw (g : nat) (x : vec) : vec := fun i => match i, g with 0%nat, _ => 2 * x 0%nat | _, 2%nat => x 1%nat | _, _ => 2 * x 1%nat end.
Definition ex_dflux (g : nat) (x : vec) (i : nat) : vec := fun j => if (i =? j)%nat then match i, g with 0%nat, 2%nat => 4 | _, _ => 2 end else 0.
Definition ex_force (g q : nat) : R := match g with 2%nat => -6 | _ => -4 end.
Definition ex_slip (f : list nat) (g q : nat) : R := match f, g with [2; 3]%nat, 1%nat => 1 / 2 | [2; 3]%nat, 2%nat => - (1 / 2) | _, _ => 0 end.
Definition ex_value (G : geo_setup) (f : list nat) (q : nat) : R := match elements_of ex_elems f with g :: _ => ex_w g (place_on G ex_elems f g q) | [] => 0 end.
Lemma quadratic_gradient (a b : R) x : gradient_at 2 (fun y => a * (y 0%nat * y 0%nat) + b * (y 1%nat * y 1%nat)) x (fun i => match i with 0%nat => 2 * a * x 0%nat | _ => 2 * b * x 1%nat end).
Proof.
  intros cv t0 v Hc Hv. pose proof (Hv 0%nat ltac:(lia)) as V0. pose proof (Hv 1%nat ltac:(lia)) as V1.
  pose proof (derivable_pt_lim_mult _ _ _ _ _ V0 V0) as M0. pose proof (derivable_pt_lim_mult _ _ _ _ _ V1 V1) as M1.
  pose proof (derivable_pt_lim_plus _ _ _ _ _ (derivable_pt_lim_scal _ a _ _ M0) (derivable_pt_lim_scal _ b _ _ M1)) as P.
  eapply derivable_pt_lim_ext_eq; [| |exact P]; [reflexivity|]. cbv beta. rewrite Hc. cbn [rsum]. ring.
Qed.
Lemma linear_gradient' (a : R) j x : (j < 2)%nat -> gradient_at 2 (fun y => a * y j) x (fun i => if (j =? i)%nat then a else 0).
Proof.
  intros Hj cv t0 v Hc Hv. pose proof (derivable_pt_lim_scal _ a _ _ (Hv j Hj)) as P. eapply derivable_pt_lim_ext_eq; [| |exact P]; [reflexivity|].
  destruct j as [|[|j]]; try lia; cbn [rsum Nat.eqb]; ring.
Qed.
Lemma gradient_ext D f f' x d d' : (forall y, f y = f' y) -> (forall i, (i < D)%nat -> d i = d' i) -> gradient_at D f x d -> gradient_at D f' x d'.
Proof.
  intros E Ed H cv t0 v Hc Hv. eapply derivable_pt_lim_ext_eq; [| |apply (H cv t0 v Hc Hv)]; [intro t; apply E|]. apply rsum_ext. intros i Hi. rewrite Ed; auto.
Qed.

Section Strip.
Variables (xi chi : nat -> vec).
Let G := linear_setup 2 strip_X xi chi.
Ltac place := unfold place_on, place_in, position_at, geo_map, positions, geo_nodes, geo_verts, affine_map, facet_param, ref_vertex; cbn; unfold strip_X; cbn.
Lemma place_0 x : place_in G ex_elems 0 x 0%nat = x 0%nat /\ place_in G ex_elems 0 x 1%nat = x 1%nat.
Proof. place. split; ring. Qed.
Lemma place_1 x : place_in G ex_elems 1 x 0%nat = 1 - x 0%nat /\ place_in G ex_elems 1 x 1%nat = x 0%nat + x 1%nat.
Proof. place. split; ring. Qed.
Lemma place_2 x : place_in G ex_elems 2 x 0%nat = x 0%nat /\ place_in G ex_elems 2 x 1%nat = 1 + x 1%nat.
Proof. place. split; ring. Qed.
Lemma on_12 q : place_on G ex_elems [1; 2]%nat 0 q 0%nat = place_on G ex_elems [1; 2]%nat 1 q 0%nat /\ place_on G ex_elems [1; 2]%nat 0 q 1%nat = place_on G ex_elems [1; 2]%nat 1 q 1%nat.
Proof. place. split; ring. Qed.
Lemma on_23 q : place_on G ex_elems [2; 3]%nat 1 q 0%nat = place_on G ex_elems [2; 3]%nat 2 q 0%nat /\ place_on G ex_elems [2; 3]%nat 1 q 1%nat = 1 /\ place_on G ex_elems [2; 3]%nat 2 q 1%nat = 1.
Proof. place. repeat split; ring. Qed.
Lemma on_01 q : place_on G ex_elems [0; 1]%nat 0 q 1%nat = 0.
Proof. place. ring. Qed.
Ltac normal := unfold mesh_normal, mesh_point, point_data, prepare_bndskl, components, fq_normal, geo_normal, geo_inverse, geo_cofactor, jacobian_at, geo_jacobian, positions, geo_nodes, geo_verts, affine_map, ref_vertex;
  cbn; unfold ref_normal; destruct (Rlt_dec _ _); cbn; unfold vdiff, ref_vertex, strip_X; cbn.
Lemma normal_01 q : mesh_normal G ex_elems [0; 1]%nat 0 0 q = 0.
Proof. normal; unfold Rdiv; ring. Qed.
Lemma normal_23 q : mesh_normal G ex_elems [2; 3]%nat 1 0 q = 0.
Proof. normal; unfold Rdiv; ring. Qed.
Lemma normal_23' q : mesh_normal G ex_elems [2; 3]%nat 2 0 q = 0.
Proof. normal; unfold Rdiv; ring. Qed.

Lemma ex_solution Nq nq : classical_solution G ex_elems ex_facets ex_bc ex_force ex_slip (ex_value G) Nq nq ex_c ex_w ex_dw.
Proof.
  split.
  - intros g x Hg. destruct g as [|[|[|g]]]; [| | |cbn in Hg; lia].
    1,2: eapply gradient_ext; [| |apply (quadratic_gradient 1 1 x)]; [intro; unfold ex_w; ring|intros [|[|i]] Hi; try (cbn in Hi; lia); cbn; ring].
    eapply gradient_ext; [| |apply (quadratic_gradient 1 (1 / 2) x)]; [intro; unfold ex_w; field|intros [|[|i]] Hi; try (cbn in Hi; lia); cbn; field].
  - exists ex_dflux. split.
    + intros g x i Hg Hi. change (gs_D G) with 2%nat in *. destruct g as [|[|[|g]]]; [| | |cbn in Hg; lia]; (destruct i as [|[|i]]; [| |lia]).
      5: eapply gradient_ext; [| |apply (linear_gradient' 4 0 x); lia]; [intro; cbn; ring|intros [|[|j]] Hj; try lia; cbn; reflexivity].
      1, 3: eapply gradient_ext; [| |apply (linear_gradient' 2 0 x); lia]; [intro; cbn; ring|intros [|[|j]] Hj; try lia; cbn; reflexivity].
      all: eapply gradient_ext; [| |apply (linear_gradient' 2 1 x); lia]; [intro; cbn; ring|intros [|[|j]] Hj; try lia; cbn; reflexivity].
    + intros g q Hg Hq. destruct g as [|[|[|g]]]; [| | |cbn in Hg; lia]; cbn; lra.
  - intros f g h q Hf El Hq. unfold ex_facets in Hf.
    repeat (destruct Hf as [<- | Hf]; [vm_compute in El; try discriminate El; injection El as <- <-|]); [| |destruct Hf].
    + destruct (on_12 q) as [E0 E1]. cbn [ex_c ex_w ex_dw has_data ex_bc]. change (gs_D G) with 2%nat. cbn [rsum]. cbn [ex_dw]. rewrite E0, E1. cbn. split; ring.
    + destruct (on_23 q) as (E0 & E1 & E2). cbn [ex_c ex_w has_data ex_bc]. change (gs_D G) with 2%nat. cbn [rsum]. cbn [ex_dw]. rewrite normal_23, E0, E1, E2. cbn. split; lra.
  - intros f g q Hf El Hq B. unfold ex_facets in Hf.
    repeat (destruct Hf as [<- | Hf]; [vm_compute in El; try discriminate El; injection El as <-; vm_compute in B; try discriminate B|]); [|destruct Hf].
    change (gs_D G) with 2%nat. cbn [rsum]. cbn [ex_dw ex_c]. rewrite normal_01, on_01. ring.
  - intros f g q Hf El Hq B. unfold ex_value. rewrite El. destruct (has_data (ex_bc f)) eqn:H; [reflexivity|exfalso].
    unfold ex_facets in Hf. repeat (destruct Hf as [<- | Hf]; [vm_compute in El, B, H; try discriminate El; try discriminate H; try (apply B; reflexivity)|]). destruct Hf.
Qed.
End Strip.

(** Case for [poisson_operator_reproduces_polynomials]: for every degree from two the coefficients of w solve
    the equations that the two ranks assemble. *)
Example strip_reproduced_every_degree : forall N m0 B, (2 <= N)%nat -> (forall g l, p_K B g l = ex_c g (fun _ => 0)) -> p_force B = ex_force ->
  exists root mi R_, Poisson_constructor root [] [] [] ginv m0 2 N 0 mi (equi 2 N) B = Some R_ /\ let G := strip_at root N in
  let P p := loaded_rank G R_ N ex_slip (ex_value G) (ex_part p) (ex_part_fi p) in
  exists U A b, (forall g x, (g < 3)%nat -> rsum (length mi) (fun l => U g l * DubinerP 2 (nth l mi []) x) = ex_w g (place_in G ex_elems g x)) /\
    (forall p, (p < 2)%nat -> map_opt (to_global (ex_part p)) (assemble (ex_part p) (ex_part_fi p) (poisson_mat (P p))) = Some (A p)) /\
    (forall p, (p < 2)%nat -> map_opt (to_global_row (ex_part p)) (rhs (ex_part p) (ex_part_fi p) (poisson_vec (P p))) = Some (b p)) /\
    forall V, pairing (length mi) (flat_map A (seq 0 2)) V U = vpairing (length mi) (flat_map b (seq 0 2)) V.
Proof.
  intros N m0 B HN HK HF. destruct (constructor_data_every_degree 2 N ltac:(auto) ltac:(lia)) as (root & mi & CD & _).
  destruct (poisson_reference_of_degree root [] [] [] ginv m0 2 N 0 mi (equi 2 N) B CD) as (R1 & E1 & _).
  destruct (poisson_operator_reproduces_polynomials root [] [] [] ginv m0 2 N 0 mi (equi 2 N) B strip_X 2 ex_elems ex_facets ex_bc ex_part ex_part_fi
    (fun p => loaded_rank (strip_at root N) R1 N ex_slip (ex_value (strip_at root N)) (ex_part p) (ex_part_fi p)) ex_c ex_w ex_dw ex_slip (ex_value (strip_at root N)) CD ltac:(lia) ex_parts (strip_valid _ _)) as (R_ & E & H).
  - intros g Hg. split; [destruct g as [|[|[|g]]]; unfold ex_c; apply poly_const|]. apply (poly_le 2 2); [lia|].
    assert (P2 : forall d, (d < 2)%nat -> polynomial 2 2 (fun x => x d * x d)) by (intros d Hd; apply (poly_mult 2 1 1); apply poly_coord; exact Hd).
    destruct g as [|[|[|g]]]; unfold ex_w; apply poly_plus; try (apply P2; lia). apply poly_scale. apply P2. lia.
  - intros g l Hg Hl. rewrite HK. destruct g as [|[|[|g]]]; reflexivity.
  - intros f g h q Hf El. unfold ex_facets in Hf.
    repeat (destruct Hf as [<- | Hf]; [vm_compute in El; try discriminate El; injection El as <- <-|]); [| |destruct Hf].
    + cbn. ring.
    + cbn. ring.
  - assert (R_ = R1) by congruence. subst R1. exists root, mi, R_. split; [exact E|]. intros G P. rewrite HF in H. apply H; [apply ex_solution|].
    intros p Hp. destruct (strip_table p Hp). apply loaded_rank_ok; auto.
Qed.
