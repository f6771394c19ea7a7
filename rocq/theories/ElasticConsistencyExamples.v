(** Example for C80: an equilibrium with discontinuous Lame parameters, slip, a free and prescribed
    boundaries on the strip of three triangles, on two ranks, for every degree from two. *)
Require Import List Arith Lia Bool Reals Lra Permutation FunctionalExtensionality.
Require Import Verif.Base Verif.LinAlg Verif.SimplexModel Verif.LocalMeshModel Verif.LocalMeshProps Verif.TopoModel Verif.TopoSpec Verif.TopoProofs Verif.TopoProps
  Verif.AssembleModel Verif.AssembleSpec Verif.AssembleProps Verif.MatFree Verif.FaultModel Verif.PoissonModel Verif.PenaltyModel Verif.SipSpec Verif.SipExamples
  Verif.GeometryModel Verif.GeometryProofs Verif.GeometrySpec Verif.GeometryProps Verif.GeometryStraight Verif.MeshSpec Verif.MeshProofs Verif.MeshExamples
  Verif.ElasticityModel Verif.ElasticFormSpec Verif.MeshElasticSpec Verif.MeshWaveExamples
  Verif.TensorModel Verif.BasisModel Verif.BasisSpec Verif.IntegralSpec Verif.DubinerProofs Verif.NodesConform Verif.ErrorSpec Verif.QuadratureModel Verif.QuadratureSpec Verif.RootsProps Verif.RefElementModel Verif.RefElementSpec Verif.RefElementProps Verif.RefElementExamples
  Verif.DegreeSpec Verif.OperatorRefModel Verif.OperatorRefProps Verif.OperatorRefExamples Verif.ConsistencySpec Verif.ConsistencyProofs Verif.ConsistencyExamples
  Verif.ElasticConsistencySpec Verif.ElasticConsistencyProps Verif.JacobiProofs.
Import ListNotations.
Local Open Scope R_scope.

Section Rank.
Variables (G : geo_setup) (E_ : edata) (degree : nat) (F : nat -> nat -> nat -> R) (jump : list nat -> nat -> nat -> nat -> R) (value : list nat -> nat -> nat -> R) (m : topo_mesh) (fi : list facet_info).
Local Notation D := (gs_D G).
Definition all_loads : loads := {| ld_force := Some F; ld_slip := true; ld_dir := true; ld_jump := jump; ld_value := value |}.
Definition loaded_erank : edata := let B := mesh_erank G E_ degree m fi in let f i := nth i (tm_facets m) [] in let g0 i := fi_g0 (nth i fi dummy_record) in {|
  e_geo := e_geo B; e_lam := e_lam B; e_mu := e_mu B; e_rhoInv := e_rhoInv B; e_Minv := e_Minv B;
  e_force := Some (fun e => F (nth e (tm_l2cg m) 0%nat));
  e_dir := Some (fun i b => if b : bool then value (f i) else jump (f i) (g0 i));
  e_slip := Some (fun i b p q => if b : bool then 2 * value (f i) p q else jump (f i) (g0 i) p q) |}.
Lemma loaded_erank_ok : topo_ok D m -> facet_table D m = Some fi -> elastic_rank G E_ degree m fi loaded_erank /\ holds_loads D all_loads m loaded_erank.
Proof.
  intros O T. destruct (mesh_erank_ok G E_ degree m fi O T) as [K1 K2 K3 K4 K5 K6].
  assert (U : forall i x, (i < tm_num_local_facets m)%nat -> facet_record_ok D m i x -> fi_g0 (nth i fi dummy_record) = fi_g0 x).
  { intros i x Hi R. destruct (facet_table_correct D m O) as (fi' & Efi' & _ & RS). assert (fi' = fi) by congruence. subst fi'.
    destruct (RS i Hi) as (y & Ey & Ry). destruct (record_unique' D m i x y O R Ry) as (U0 & _). rewrite (nth_error_nth _ _ dummy_record Ey).
    pose proof (fr_g0 _ _ _ _ Ry) as A. pose proof (fr_g0 _ _ _ _ R) as B. rewrite <- U0 in A. congruence. }
  split; split; auto.
  - cbn. intros e g E. rewrite (nth_error_nth _ _ 0%nat E). reflexivity.
  - cbn [loaded_erank e_slip all_loads ld_slip ld_jump ld_value]. split; [reflexivity|]. intros i f x Hi Ef R _. rewrite (nth_error_nth _ _ [] Ef), (U i x Hi R). split; [reflexivity|intros _ p q; field].
  - cbn [loaded_erank e_dir all_loads ld_dir ld_jump ld_value]. split; [reflexivity|]. intros i f x Hi Ef R _. rewrite (nth_error_nth _ _ [] Ef), (U i x Hi R). split; reflexivity.
Qed.
End Rank.

(** lambda = mu = 1 and u = (3 x + y^2, - y) below y = 1, lambda = 0, mu = 2 and u = (3 x + y^2/2, - 1) above:
    the traction on horizontal lines is (2 y, 0), u_x jumps by 1/2; the force is (-2, 0). *)
Definition up (g : nat) : bool := (g =? 2)%nat.
Definition ex_lam (g : nat) (x : vec) : R := if up g then 0 else 1.
Definition ex_mu (g : nat) (x : vec) : R := if up g then 2 else 1.
Definition ex_u (g : nat) (x : vec) (p : nat) : R := match p with
  | 0%nat => 3 * x 0%nat + (if up g then 1 / 2 else 1) * (x 1%nat * x 1%nat)
  | _ => if up g then -1 else -1 * x 1%nat end.
Definition ex_du (g : nat) (x : vec) (p : nat) : vec := fun i => match p, i with
  | 0%nat, 0%nat => 3 | 0%nat, _ => (if up g then 1 else 2) * x 1%nat
  | _, 0%nat => 0 | _, _ => if up g then 0 else -1 end.
Definition ex_dsigma (g : nat) (x : vec) (i j : nat) : vec := fun d => if (i =? j)%nat then 0 else match d with 1%nat => 2 | _ => 0 end.
Definition ex_body (g p q : nat) : R := match p with 0%nat => -2 | _ => 0 end.
Definition ex_jump (f : list nat) (g p q : nat) : R := match f, g, p with [2; 3]%nat, 1%nat, 0%nat => 1 / 2 | [2; 3]%nat, 2%nat, 0%nat => - (1 / 2) | _, _, _ => 0 end.
Definition ex_disp (G : geo_setup) (f : list nat) (p q : nat) : R := match elements_of ex_elems f with g :: _ => ex_u g (place_on G ex_elems f g q) p | [] => 0 end.
Definition ex_loads (G : geo_setup) : loads := all_loads ex_body ex_jump (ex_disp G).
Lemma shear_gradient (a b d c : R) x : gradient_at 2 (fun y => a * y 0%nat + d * y 1%nat + b * (y 1%nat * y 1%nat) + c) x (fun i => match i with 0%nat => a | _ => d + 2 * b * x 1%nat end).
Proof.
  intros cv t0 v Hc Hv. pose proof (Hv 0%nat ltac:(lia)) as V0. pose proof (Hv 1%nat ltac:(lia)) as V1.
  pose proof (derivable_pt_lim_mult _ _ _ _ _ V1 V1) as M1.
  pose proof (derivable_pt_lim_plus _ _ _ _ _ (derivable_pt_lim_plus _ _ _ _ _ (derivable_pt_lim_plus _ _ _ _ _ (derivable_pt_lim_scal _ a _ _ V0) (derivable_pt_lim_scal _ d _ _ V1)) (derivable_pt_lim_scal _ b _ _ M1)) (derivable_pt_lim_const c t0)) as P.
  eapply derivable_pt_lim_ext_eq; [| |exact P]; [reflexivity|]. cbv beta. rewrite Hc. cbn [rsum]. ring.
Qed.
Lemma sigma_value D g x i j : (D = 2)%nat -> (i < 2)%nat -> (j < 2)%nat ->
  isotropic D (ex_lam g x) (ex_mu g x) (ex_du g x) i j = match i, j with 0%nat, 0%nat => if up g then 12 else 8 | 1%nat, 1%nat => 0 | _, _ => 2 * x 1%nat end.
Proof.
  intros -> Hi Hj. unfold isotropic, ex_lam, ex_mu, ex_du. destruct i as [|[|i]]; [| |lia]; (destruct j as [|[|j]]; [| |lia]); destruct (up g); cbn; ring.
Qed.

Section Strip.
Variables (xi chi : nat -> vec).
Let G := linear_setup 2 strip_X xi chi.
Lemma strip_traction f g n p q : (p < 2)%nat -> mesh_normal G ex_elems f n 0 q = 0 ->
  traction_of G ex_elems ex_lam ex_mu ex_du f g n p q = match p with 0%nat => 2 * place_on G ex_elems f g q 1%nat * mesh_normal G ex_elems f n 1 q | _ => 0 end.
Proof.
  intros Hp H. unfold traction_of, sigma. change (gs_D G) with 2%nat. cbn [rsum]. rewrite !sigma_value by (auto; lia). rewrite H. destruct p as [|[|p]]; [| |lia]; ring.
Qed.
Lemma ex_equilibrium Nq nq : equilibrium G ex_elems ex_facets ex_bc (ex_loads G) Nq nq ex_lam ex_mu ex_u ex_du.
Proof.
  split.
  - intros g x p Hg Hp. change (gs_D G) with 2%nat in *. destruct p as [|[|p]]; [| |lia].
    + eapply gradient_ext; [| |apply (shear_gradient 3 (if up g then 1 / 2 else 1) 0 0 x)]; [intro; cbn; ring|intros [|[|i]] Hi; try lia; cbn; [ring|destruct (up g); field]].
    + eapply gradient_ext; [| |apply (shear_gradient 0 0 (if up g then 0 else -1) (if up g then -1 else 0) x)]; [intro; cbn; destruct (up g); ring|intros [|[|i]] Hi; try lia; cbn; [ring|destruct (up g); ring]].
  - exists ex_dsigma. split.
    + intros g x i j Hg Hi Hj. change (gs_D G) with 2%nat in *. unfold ex_dsigma.
      assert (S : forall b d : R, (forall y : vec, isotropic 2 (ex_lam g y) (ex_mu g y) (ex_du g y) i j = d * y 1%nat + b) ->
        gradient_at 2 (fun y => sigma G ex_lam ex_mu ex_du g y i j) x (fun e => match e with 1%nat => d | _ => 0 end)).
      { intros b d H. eapply gradient_ext; [| |apply (shear_gradient 0 0 d b x)].
        - intro y. cbv beta. unfold sigma. change (gs_D G) with 2%nat. rewrite H. ring.
        - intros [|[|e]] He; try lia; ring. }
      destruct i as [|[|i]]; [| |lia]; (destruct j as [|[|j]]; [| |lia]).
      * eapply gradient_ext; [reflexivity| |apply (S (if up g then 12 else 8) 0); intro y; rewrite sigma_value by (auto; lia); ring]. intros [|[|e]] He; try lia; reflexivity.
      * eapply gradient_ext; [reflexivity| |apply (S 0 2); intro y; rewrite sigma_value by (auto; lia); ring]. intros [|[|e]] He; try lia; reflexivity.
      * eapply gradient_ext; [reflexivity| |apply (S 0 2); intro y; rewrite sigma_value by (auto; lia); ring]. intros [|[|e]] He; try lia; reflexivity.
      * eapply gradient_ext; [reflexivity| |apply (S 0 0); intro y; rewrite sigma_value by (auto; lia); ring]. intros [|[|e]] He; try lia; reflexivity.
    + intros g p q Hg Hp Hq. change (gs_D G) with 2%nat in *. destruct p as [|[|p]]; [| |lia]; cbn; ring.
  - intros f g h p q Hf El Hp Hq. change (gs_D G) with 2%nat in Hp. unfold ex_facets in Hf.
    repeat (destruct Hf as [<- | Hf]; [vm_compute in El; try discriminate El; injection El as <- <-|]); [| |destruct Hf].
    + destruct (on_12 xi chi q) as [E0 E1]. fold G in E0, E1. change (ld_on (ex_loads G) (ex_bc [1; 2]%nat)) with false. cbn iota. split.
      * destruct p as [|[|p]]; [| |lia]; unfold ex_u; change (up 0) with false; change (up 1) with false; cbn iota; rewrite ?E0, ?E1; ring.
      * unfold traction_of, sigma. change (gs_D G) with 2%nat. cbn [rsum]. rewrite !sigma_value by (auto; lia). change (up 0) with false; change (up 1) with false.
        destruct p as [|[|p]]; [| |lia]; cbn iota; rewrite ?E1; ring.
    + destruct (on_23 xi chi q) as (E0 & E1 & E2). fold G in E0, E1, E2. change (ld_on (ex_loads G) (ex_bc [2; 3]%nat)) with true. cbn iota. split.
      * destruct p as [|[|p]]; [| |lia]; unfold ex_u; change (up 2) with true; change (up 1) with false; cbn iota; rewrite ?E0, ?E1, ?E2; cbn; lra.
      * rewrite !strip_traction by (auto; apply normal_23). rewrite E1, E2. reflexivity.
  - intros f g p q Hf El Hp Hq B. change (gs_D G) with 2%nat in Hp. unfold ex_facets in Hf.
    repeat (destruct Hf as [<- | Hf]; [vm_compute in El; try discriminate El; injection El as <-; vm_compute in B; try discriminate B|]); [|destruct Hf].
    rewrite strip_traction by (auto; apply normal_01). unfold G. rewrite on_01. destruct p; [ring|reflexivity].
  - intros f g p q Hf El Hp Hq B. cbn [ex_loads all_loads ld_value]. unfold ex_disp. rewrite El. destruct (ld_on (ex_loads G) (ex_bc f)) eqn:H; [reflexivity|exfalso].
    unfold ex_facets in Hf. repeat (destruct Hf as [<- | Hf]; [vm_compute in El, B, H; try discriminate El; try discriminate H; try (apply B; reflexivity)|]). destruct Hf.
Qed.
End Strip.

Definition ex_material (R_ : pdata) : edata := {|
  e_geo := R_; e_lam := fun g _ => ex_lam g (fun _ => 0); e_mu := fun g _ => ex_mu g (fun _ => 0); e_rhoInv := fun _ _ => 1; e_Minv := fun _ _ _ => 0; e_force := None; e_dir := None; e_slip := None |}.
(** Case for [elastic_operator_reproduces_polynomials]: for every degree from two the nodal values of u solve
    the equations that the two ranks assemble. *)
Example strip_displacement_every_degree : forall N m0 B, (2 <= N)%nat ->
  exists root mi R_, Elasticity_constructor root [] [] [] ginv m0 2 N 0 mi (equi 2 N) B = Some R_ /\ let G := strip_at root N in
  let E p := loaded_erank G (ex_material R_) N ex_body ex_jump (ex_disp G) (ex_part p) (ex_part_fi p) in let n := length (equi 2 N) in
  let U g i := ex_u g (place_in G ex_elems g (point (equi 2 N) (i mod n))) (i / n) in
  exists A b, (forall p, (p < 2)%nat -> map_opt (to_global (ex_part p)) (assemble (ex_part p) (ex_part_fi p) (elasticity_mat (E p))) = Some (A p)) /\
    (forall p, (p < 2)%nat -> map_opt (to_global_row (ex_part p)) (rhs (ex_part p) (ex_part_fi p) (elasticity_vec (E p))) = Some (b p)) /\
    forall V, pairing (n * 2) (flat_map A (seq 0 2)) V U = vpairing (n * 2) (flat_map b (seq 0 2)) V.
Proof.
  intros N m0 B HN. destruct (constructor_data_every_degree 2 N ltac:(auto) ltac:(lia)) as (root & mi & CD & _).
  destruct CD as (HD & RT & Ln & Un & HI & HS & Q1 & Q2 & PW) eqn:ECD.
  destruct (nodal_basis_exists_unique ginv 2 N mi (equi 2 N) ltac:(lia) RT Ln Un HI) as (psi & Hpsi & _).
  destruct (elastic_reference_of_degree root [] [] [] ginv m0 2 N 0 mi (equi 2 N) psi B CD Hpsi) as (R1 & E1 & EN & _ & RD1 & _).
  destruct (elastic_operator_reproduces_polynomials root [] [] [] ginv m0 2 N 0 mi (equi 2 N) B strip_X 2 ex_elems ex_facets ex_bc ex_part ex_part_fi
    (fun p => loaded_erank (strip_at root N) (ex_material R1) N ex_body ex_jump (ex_disp (strip_at root N)) (ex_part p) (ex_part_fi p)) (ex_material R1) (ex_loads (strip_at root N)) ex_lam ex_mu ex_u ex_du CD ltac:(lia) ex_parts (strip_valid _ _)) as (R_ & E & H).
  - intros g Hg. split; [unfold ex_lam; apply poly_const|]. split; [unfold ex_mu; apply poly_const|]. intros p Hp. apply (poly_le 2 2); [lia|].
    assert (PC : forall d, (d < 2)%nat -> polynomial 2 2 (fun x => x d)) by (intros d Hd; apply (poly_le 2 1); [lia|apply poly_coord; exact Hd]).
    destruct p as [|[|p]]; [| |lia]; unfold ex_u.
    + apply poly_plus; [apply poly_scale; apply PC; lia|]. apply poly_scale. apply (poly_mult 2 1 1); apply poly_coord; lia.
    + destruct (up g); [apply poly_const|apply poly_scale; apply PC; lia].
  - intros f g h p q Hf El. unfold ex_facets in Hf.
    repeat (destruct Hf as [<- | Hf]; [vm_compute in El; try discriminate El; injection El as <- <-|]); [| |destruct Hf]; destruct p; cbn; ring.
  - assert (R_ = R1) by congruence. subst R1. exists root, mi, R_. split; [exact E|]. intros G E' n U. apply H; [reflexivity| |apply ex_equilibrium| |].
    + intros g l Hg Hl. split; reflexivity.
    + intros p Hp. destruct (strip_table p Hp). apply loaded_erank_ok; auto.
    + intros g l p Hg Hl Hp. unfold U, n. rewrite (Nat.mul_comm _ p), Nat.mod_add, Nat.div_add, Nat.mod_small, Nat.div_small by lia. reflexivity.
Qed.
