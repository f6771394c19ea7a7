(** C73, C74: right-hand side and moment rates together, concrete cases and findings. *)
Require Import List Arith Bool Reals Lra Lia.
Require Import Verif.Base Verif.LinAlg Verif.VecModel Verif.TopoModel Verif.FaultModel Verif.PoissonModel Verif.ElasticityModel
  Verif.FrictionModel Verif.FrictionProps Verif.FaultOdeModel Verif.FaultOdeSpec Verif.FaultOdeProofs Verif.FaultOdeProps Verif.FaultMomentProps.
Import ListNotations.
Local Open Scope R_scope.

(** C74 with C73: the moment rates computed after the right-hand side are those of slip rates that obey the
    friction law. *)
Theorem fault_moment_of_rhs : forall S eps fuel Va_min num time tr st m FS nq nl info E,
  (1 <= rs_D S)%nat -> fs_nbf FS = rs_nbf S -> 0 <= eps -> 0 < cV0 (rs_c S) ->
  (forall f node, (f < num)%nat -> (node < rs_nbf S)%nat -> loaded S Va_min time tr st f node) ->
  friction_rhs S eps fuel Va_min num time tr st m <> None ->
  (forall f, (f < num)%nat -> fi_up0 (info f) <> fi_up1 (info f)) ->
  exists m' vmax (v : nat -> nat -> list R), friction_rhs S eps fuel Va_min num time tr st m = Some (Done m' vmax) /\
    (forall f node, (f < num)%nat -> (node < rs_nbf S)%nat ->
       obeys_friction eps (rs_c S) (rs_p S (f * rs_nbf S + node)) (node_sn S time tr f node) (node_tau S time tr f node) (state_of (rs_nbf S) (rs_D S) st f node) (v f node)) /\
    forall V, (forall i, (i < num * (rs_nbf S * rs_D S))%nat -> m' i = Some (V i)) ->
      exists l, compute_moment_rates (rs_D S) nq FS nl info (elasticity_mu_avg E) num V = Some l /\ length l = (num * (rs_D S - 1))%nat /\
        forall f t, (f < num)%nat -> (t < rs_D S - 1)%nat -> nth (f * (rs_D S - 1) + t) l 0 =
          face_integral nq (fs_w FS) (nl f) (fun q =>
            (modulus_at (e_geo E) (e_mu E) (fi_up0 (info f)) (fi_local0 (info f)) q + modulus_at (e_geo E) (e_mu E) (fi_up1 (info f)) (fi_local1 (info f)) q) / 2
            * rsum (rs_nbf S) (fun l => nth t (v f l) 0 * fs_e FS l q)).
Proof.
  intros S eps fuel Va_min num time tr st m FS nq nl info E HD HN He HV0 HL NN HI.
  destruct (fault_rhs_obeys_friction S eps fuel Va_min HD num time tr st m He HV0 HL NN) as (m' & vmax & v & Er & Hv & _ & _).
  exists m', vmax, v. split; [exact Er|]. split; [intros f node F N; apply (Hv f node F N)|].
  intros V HV. destruct (moment_rates_elasticity (rs_D S) nq FS nl info E num V HI) as (l & El & Ll & Hl).
  exists l. split; [exact El|]. split; [exact Ll|]. intros f t F T. rewrite Hl by assumption.
  unfold face_integral. apply rsum_ext. intros q _. f_equal. f_equal. unfold slip_rate_at. rewrite HN. apply rsum_ext. intros i I. f_equal.
  destruct (Hv f i F I) as (_ & _ & W & _). specialize (W t T). rewrite HV in W by (apply entry_bound; auto; lia). congruence.
Qed.
Print Assumptions fault_moment_of_rhs.

(** ** A fault with two faces of two nodes in three dimensions *)
Definition demo_p : params := {| pa := 1 / 100; peta := 6; pL := 1 / 125; psn := 50; ptau := [3; 0]; pVinit := [/ 10; 0]; pSinit := [1; 2] |}.
Definition demo : rs_data := {| rs_D := 3; rs_nbf := 2; rs_law := Ageing; rs_c := ex_c; rs_p := fun _ => demo_p; rs_x := fun i => [INR i; 0; 0];
  rs_delta_sn := Some (fun _ _ => -1); rs_delta_tau := Some (fun _ _ => [0; 1]); rs_source := Some (fun x t => t) |}.
(** Normal stress -1, shear tractions 0 and 3. *)
Definition demo_tr (i : nat) : R := match ((i / 2) mod 3)%nat with 0%nat => -1 | 1%nat => 0 | _ => 3 end.
Lemma pow10_m32 : pow10 (-32) <= / 10.
Proof.
  assert (E : pow10 (-1) = / 10) by (unfold pow10; replace (-1 * ln 10) with (- ln 10) by ring; rewrite exp_Ropp, exp_ln by lra; reflexivity).
  rewrite <- E. left. apply pow10_lt. lra.
Qed.
Lemma demo_normV : norm (pVinit demo_p) = / 10.
Proof. cbn. replace (/ 10 * / 10 + (0 * 0 + 0)) with (/ 10 * / 10) by ring. apply sqrt_square. lra. Qed.
Lemma demo_sn : forall f node, (f < 2)%nat -> (node < 2)%nat -> node_sn demo 0 demo_tr f node = -2.
Proof.
  intros f node F N. change (demo_tr (entry 2 3 f node 0) + -1 = -2).
  replace (demo_tr (entry 2 3 f node 0)) with (-1); [lra|]. destruct f as [|[|]]; destruct node as [|[|]]; try lia; reflexivity.
Qed.
Lemma demo_T : forall f node, (f < 2)%nat -> (node < 2)%nat -> norm (vadd (node_tau demo 0 demo_tr f node) (ptau demo_p)) = 5.
Proof.
  intros f node F N. assert (E : vadd (node_tau demo 0 demo_tr f node) (ptau demo_p) = [0 + 0 + 3; 3 + 1 + 0]).
  { destruct f as [|[|]]; destruct node as [|[|]]; try lia; reflexivity. }
  rewrite E, norm_sqrt. cbn. replace ((0 + 0 + 3) * (0 + 0 + 3) + ((3 + 1 + 0) * (3 + 1 + 0) + 0)) with (5 * 5) by ring. apply sqrt_square. lra.
Qed.

Example demo_init : forall f node, (f < 2)%nat -> (node < 2)%nat ->
  pos_params (rs_c demo) demo_p /\ 0 < peta demo_p /\ node_sn demo 0 demo_tr f node < psn demo_p /\ pow10 (-32) <= norm (pVinit demo_p) /\
  peta demo_p * norm (pVinit demo_p) < norm (vadd (node_tau demo 0 demo_tr f node) (ptau demo_p)).
Proof.
  intros f node F N. rewrite demo_sn, demo_T, demo_normV by assumption. split; [unfold pos_params; cbn; split; lra|].
  split; [cbn; lra|]. split; [cbn; lra|]. split; [apply pow10_m32|cbn; lra].
Qed.
Example demo_loaded : exists psi, forall f node, (f < 2)%nat -> (node < 2)%nat ->
  loaded demo (-323) 0 demo_tr (fun _ => psi) f node /\ norm (vadd (node_tau demo 0 demo_tr f node) (ptau demo_p)) < peta demo_p.
Proof.
  destruct (psi_init_balances ex_c demo_p (-2) (node_tau demo 0 demo_tr 0 0)) as (psi & _ & B).
  - unfold pos_params; cbn; split; lra.
  - unfold sn_hat; cbn; lra.
  - rewrite demo_normV. lra.
  - rewrite demo_normV, demo_T by lia. cbn. lra.
  - exists psi. intros f node F N. rewrite (demo_T 0 0), demo_normV in B by lia. split.
    + unfold loaded. change (rs_p demo (f * rs_nbf demo + node)) with demo_p. rewrite demo_T, demo_sn by assumption.
      split; [unfold pos_params; cbn; split; lra|]. split; [cbn; lra|]. split; [cbn; lra|]. split; [reflexivity|].
      split; [intros g x E; injection E as <-; reflexivity|]. split; [lra|].
      exists (/ 10). split; [|left; apply pow10_m32]. unfold state_of. change (rs_c demo) with ex_c.
      replace (psn demo_p - -2) with (sn_hat demo_p (-2)) by (unfold sn_hat; ring). exact B.
    + rewrite demo_T by assumption. cbn. lra.
Qed.
(** So the right-hand side of this fault exists. *)
Example demo_rhs : exists psi fuel m' vmax, friction_rhs demo (/ 2 ^ 52) fuel (-323) 2 0 demo_tr (fun _ => psi) (fun _ => None) = Some (Done m' vmax).
Proof.
  destruct demo_loaded as [psi H]. assert (He : 0 < / 2 ^ 52) by (apply Rinv_0_lt_compat, pow_lt; lra).
  destruct (fault_rhs_finishes demo (/ 2 ^ 52) (-323) 2 0 demo_tr (fun _ => psi) (fun _ => None) ltac:(cbn; lia) He) as [N HN]; [exact H|].
  destruct (fault_rhs_obeys_friction demo (/ 2 ^ 52) N (-323) ltac:(cbn; lia) 2 0 demo_tr (fun _ => psi) (fun _ => None)) as (m' & vmax & _ & E & _).
  - lra.
  - cbn. lra.
  - intros f node F Nn. apply (H f node F Nn).
  - apply HN. lia.
  - exists psi, N, m', vmax. exact E.
Qed.

(** ** Poisson: the moment rate uses nodal values as if they were values at quadrature points *)

(** Linear functions on triangles: values of the nodal basis 1 - x - y, x, y on the facet from the second to
    the third vertex (local facet 0), at the points 1/4 and 3/4. *)
Definition tri_face (local q m : nat) : R :=
  match m with 0%nat => 0 | 1%nat => match q with 0%nat => 3 / 4 | _ => 1 / 4 end | _ => match q with 0%nat => 1 / 4 | _ => 3 / 4 end end.
Definition tri_values (el m : nat) : R := match m with 0%nat => 9 | _ => 1 end.
Definition tri_info (f : nat) : facet_info := {| fi_up0 := 0; fi_up1 := 1; fi_g0 := 0; fi_g1 := 1; fi_local0 := 0; fi_local1 := 0; fi_inside0 := true; fi_inside1 := true; fi_bc := 0 |}.
Definition line_space : fault_space := {| fs_nbf := 1; fs_e := fun _ _ => 1; fs_w := fun _ => 1 / 2 |}.

(** Finding: the material is 1 at every point of the fault, the slip rate is 1 and the fault has length 1; the
    moment rate is 5, not 1. *)
Theorem poisson_moment_rate_refuted :
  (forall q, (q < 2)%nat -> rsum 3 (fun m => tri_values 0 m * tri_face 0 q m) = 1 /\ rsum 3 (fun m => tri_values 1 m * tri_face 0 q m) = 1) /\
  face_integral 2 (fs_w line_space) (fun _ => 1) (fun q => 1 * 1) = 1 /\
  compute_moment_rates 2 2 line_space (fun _ _ => 1) tri_info (poisson_mu_avg 3 (fun i => tri_values (i / 3) (i mod 3))) 1 (fun _ => 1) = Some [5].
Proof.
  split; [|split].
  - intros q Q. destruct q as [|[|]]; [| |lia]; cbn; split; lra.
  - unfold face_integral. cbn. lra.
  - cbn. f_equal. f_equal. lra.
Qed.
Print Assumptions poisson_moment_rate_refuted.

(** Finding: with linear functions on tetrahedra (four nodes) and six points per facet, the moment rate depends
    on the material of an element that does not touch the fault. *)
Definition tet_values (other : R) (el m : nat) : R := if (el =? 1)%nat then other else 1.
Definition tet_info (f : nat) : facet_info := {| fi_up0 := 0; fi_up1 := 2; fi_g0 := 0; fi_g1 := 2; fi_local0 := 0; fi_local1 := 0; fi_inside0 := true; fi_inside1 := true; fi_bc := 0 |}.
Definition face_space : fault_space := {| fs_nbf := 1; fs_e := fun _ _ => 1; fs_w := fun _ => 1 / 12 |}.
Theorem poisson_moment_rate_overrun_refuted : forall a,
  (forall el m, (el = 0 \/ el = 2)%nat -> tet_values a el m = 1) /\
  compute_moment_rates 3 6 face_space (fun _ _ => 1) tet_info (poisson_mu_avg 4 (fun i => tet_values a (i / 4) (i mod 4))) 1 (fun _ => 1) = Some [(5 + a) / 12; (5 + a) / 12].
Proof.
  intro a. split.
  - intros el m [-> | ->]; reflexivity.
  - cbn. do 2 f_equal; [lra|]. f_equal. lra.
Qed.
Print Assumptions poisson_moment_rate_overrun_refuted.

(** A case of the theorems on elasticity: linear functions, shear modulus 30, slip rate 2 along a fault of
    length 1. *)
Definition unit_geo : pdata := {| p_dim := 2; p_N := 3; p_Nq := 0; p_nq := 2; p_method := IP; p_W := fun _ => 0; p_w := fun _ => 1 / 2; p_EQ := fun _ _ => 0;
  p_DxiQ := fun _ _ _ => 0; p_matEQ := fun _ _ => 0; p_E := fun _ _ _ => 0; p_Dxi := fun _ _ _ _ => 0; p_matE := tri_face; p_MinvRef := fun _ _ => 0;
  p_J := fun _ _ => 1; p_GQ := fun _ _ _ _ => 0; p_K := fun _ _ => 0; p_n := fun _ _ _ => 0; p_nu := fun _ _ _ => 0; p_nl := fun _ _ => 1;
  p_G0 := fun _ _ _ _ => 0; p_G1 := fun _ _ _ _ => 0; p_pen := fun _ => 0; p_force := fun _ _ => 0; p_dir := fun _ _ _ => 0; p_slip := fun _ _ _ => 0 |}.
Definition unit_elastic : edata := {| e_geo := unit_geo; e_lam := fun _ _ => 0; e_mu := fun _ _ => 30; e_rhoInv := fun _ _ => 1; e_Minv := fun _ _ _ => 0; e_force := None; e_dir := None; e_slip := None |}.
Example uniform_case : exists l, compute_moment_rates 2 2 line_space (fun _ _ => 1) tri_info (elasticity_mu_avg unit_elastic) 1 (fun _ => 2) = Some l /\ nth 0 l 0 = 60.
Proof.
  destruct (moment_rate_uniform 2 2 line_space (fun _ _ => 1) tri_info unit_elastic 1 (fun _ => 2) 30 2 0 0) as (l & E & H).
  - intros f _. cbn. lia.
  - lia.
  - cbn. lia.
  - intros m M. split; reflexivity.
  - intros q Q. destruct q as [|[|]]; [| |lia]; cbn; split; lra.
  - intros q Q. cbn. lra.
  - intros. reflexivity.
  - exists l. split; [exact E|]. cbn in H. rewrite H. unfold face_integral. cbn. lra.
Qed.
