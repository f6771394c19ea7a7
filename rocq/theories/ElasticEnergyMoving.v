(** Cases for the energy balance with moving boundary values (C84). *)
Require Import List Arith Lia Bool Reals Lra.
Require Import Verif.Base Verif.LinAlg Verif.SimplexModel Verif.LocalMeshModel Verif.LocalMeshProps Verif.TopoModel Verif.TopoSpec Verif.TopoProofs Verif.TopoProps
  Verif.AssembleModel Verif.TopoCheck Verif.AssembleSpec Verif.AssembleProofs Verif.AssembleProps Verif.ApplyModel Verif.MatFree Verif.FaultModel Verif.PoissonModel Verif.PoissonProofs Verif.PoissonProps Verif.PenaltyModel Verif.SipSpec Verif.SipExamples
  Verif.GeometryModel Verif.GeometryProofs Verif.GeometrySpec Verif.GeometryProps Verif.GeometryStraight Verif.MeshSpec Verif.MeshProofs Verif.MeshExamples
  Verif.ElasticityModel Verif.ElasticFormSpec Verif.MeshElasticSpec Verif.MeshWaveExamples
  Verif.TensorModel Verif.BasisModel Verif.BasisSpec Verif.IntegralSpec Verif.DubinerProofs Verif.NodesConform Verif.ErrorSpec Verif.QuadratureModel Verif.QuadratureSpec Verif.RootsProps Verif.RefElementModel Verif.RefElementSpec Verif.RefElementProps Verif.RefElementExamples
  Verif.DegreeSpec Verif.OperatorRefModel Verif.OperatorRefProps Verif.OperatorRefExamples Verif.ConsistencySpec Verif.ConsistencyProofs Verif.ConsistencyExamples
  Verif.ElasticConsistencySpec Verif.ElasticConsistencyProps Verif.ElasticConsistencyExamples Verif.DefiniteSpec Verif.DefiniteProps Verif.DefiniteExamples Verif.ElasticDefiniteProps
  Verif.MeshElasticProps Verif.ApplyProps Verif.WaveProps Verif.ElasticFormExamples Verif.ElasticCoerciveProps Verif.ElasticCflModel Verif.ElasticCflProps Verif.ElasticModeProps Verif.ElasticCflExamples Verif.ElasticEnergySpec Verif.ElasticEnergyProofs Verif.ElasticEnergyProps Verif.ElasticEnergyWave Verif.ElasticEnergyExamples.
Import ListNotations.
Local Open Scope R_scope.

(** Case for [wave_energy_balance]: the same two triangles, held on all of their boundary and stretched
    at a constant rate. *)
Definition held_bc (f : list nat) : nat := BC_Dirichlet.
Definition held_part (p : nat) : topo_mesh :=
  match p with
  | O => {| tm_elems := [[0;1;2]]; tm_num_local := 1; tm_facets := [[0;1]; [0;2]; [1;2]]; tm_num_local_facets := 3;
            tm_owner := [0]; tm_l2cg := [0]; tm_shared := [[]]; tm_bc := Some [5;5;5] |}
  | _ => {| tm_elems := [[3;4;5]]; tm_num_local := 1; tm_facets := [[3;4]; [3;5]; [4;5]]; tm_num_local_facets := 3;
            tm_owner := [1]; tm_l2cg := [1]; tm_shared := [[]]; tm_bc := Some [5;5;5] |}
  end%nat.
Lemma held_parts : mesh_parts 2 2 two_elems two_facets held_bc held_part.
Proof.
  constructor.
  - intros [|[|p]] Hp; try lia; apply topo_okb_spec; vm_compute; reflexivity.
  - intros [|[|p]] e g Hp; try lia; destruct e as [|[|e]]; cbn; try discriminate; intros [= <-]; cbn; split; auto; lia.
  - intros [|[|p]] Hp; try lia; repeat constructor; cbn; intuition lia.
  - intros g Hg. cbn in Hg. destruct g as [|[|g]]; try lia; [exists 0%nat, 0%nat|exists 1%nat, 0%nat]; cbn; auto.
  - intros [|[|p]] [|[|q]] e e' g Hp Hq He He'; try lia; cbn in He, He'; destruct e as [|e]; try lia;
      destruct e' as [|e']; try lia; cbn; congruence.
  - intros p e i f g plex Hp He C Ef Eg I.
    assert (Hg : (g < 2)%nat) by (change 2%nat with (length two_elems); apply nth_error_Some; congruence).
    destruct p as [|[|p]]; try lia; destruct g as [|[|g]]; try lia; cbn [held_part tm_l2cg In]; auto; exfalso; cbn in Eg; injection Eg as <-;
      destruct i as [|[|[|i]]]; cbn in Ef; try discriminate; try (destruct i; discriminate Ef); injection Ef as <-;
        first [specialize (I 0%nat ltac:(cbn; auto)); cbn in I; lia | specialize (I 1%nat ltac:(cbn; auto)); cbn in I; lia
              |specialize (I 3%nat ltac:(cbn; auto)); cbn in I; lia | specialize (I 4%nat ltac:(cbn; auto)); cbn in I; lia].
  - intros [|[|p]] b i f Hp; try lia; cbn; intros [= <-]; destruct i as [|[|[|[|i]]]]; cbn; try discriminate; intros [= <-]; auto.
  - split.
    + repeat constructor; cbn; intuition discriminate.
    + intros s Hs. cbn in Hs. repeat destruct Hs as [<-|Hs]; try tauto; (split; [auto|]);
        (constructor; [repeat constructor|constructor; [lia|constructor]]).
  - intro f. split.
    + intro Hs. cbn in Hs. repeat destruct Hs as [<-|Hs]; try tauto; (split; [auto|]);
        (split; [constructor; [repeat constructor|constructor; [lia|constructor]]|]);
        ((exists [0;1;2]%nat; split; [cbn; tauto|intros v Hv; cbn in *; lia]) || (exists [3;4;5]%nat; split; [cbn; tauto|intros v Hv; cbn in *; lia])).
    + intros (Lf & Sf & plex & Hp & I). destruct f as [|a [|b [|c f]]]; try discriminate.
      inversion Sf as [|? ? ? H1]; subst. inversion H1; subst.
      assert (Ha : In a plex) by (apply I; cbn; auto). assert (Hb : In b plex) by (apply I; cbn; auto).
      cbn in Hp. repeat destruct Hp as [<-|Hp]; try tauto; cbn in Ha, Hb;
        repeat (destruct Ha as [<-|Ha]; [repeat (destruct Hb as [<-|Hb]; [try lia; cbn; tauto|]); lia|]); lia.
Qed.
Definition tri_normal (loc i : nat) : R := match loc, i with 0%nat, 1%nat => -1 | 1%nat, 0%nat => -1 | 2%nat, _ => 1 | _, _ => 0 end.
Definition held : eproblem := let loc f g := match downward 2 (nth g two_elems []) with Some ds => pos_in f ds | None => 0%nat end in {|
  ep_ref := wave_data 1 (1 / 2); ep_loc := loc; ep_n := fun f g i q => tri_normal (loc f g) i; ep_nl := fun f q => match f with [1; 2]%nat | [4; 5]%nat => sqrt 2 | _ => 1 end;
  ep_G := fun _ _ => p_G0 ex_quad 0; ep_pen := fun f => 240; ep_has_slip := false; ep_has_dir := true; ep_jump := fun _ _ _ _ => 0; ep_value := fun _ _ _ => 0 |}.
Definition stretch (t : R) (g l : nat) : R := t * shear g l.
Definition grip (t : R) (f : list nat) (i q : nat) : R := match elements_of two_elems f with g :: _ => t * disp_on held f g (shear g) q i | [] => 0 end.
Definition held_at (t : R) : eproblem := with_data held (fun _ _ _ _ => 0) (grip t).
Definition held_fi (p : nat) : list facet_info := match facet_table 2 (held_part p) with Some fi => fi | None => [] end.
Definition held_rank (t : R) (p : nat) : edata := elocal_data (held_at t) (held_part p) (held_fi p).
Definition held_wr (p : nat) : list (nat * side_info) := concat (all_side_writes 2 (held_fi p)).
Definition held_t (p : nat) : list side_info := match do_writes (fresh_sides 2 (held_part p)) (held_wr p) with Some t => t | None => [] end.
Definition held_sl (p e : nat) : list side_info := match map_opt (fun d => nth_error (held_t p) (e * (2 + 1) + d)) (seq 0 (2 + 1)) with Some s => s | None => [] end.
Lemma held_ok t : eproblem_ok 2 two_elems two_facets (held_at t).
Proof.
  constructor.
  - exact (eo_loc _ _ _ _ two_ok).
  - intros f g h i q Hf El. unfold two_facets in Hf. repeat (destruct Hf as [<-|Hf]; [vm_compute in El; discriminate El|]). destruct Hf.
  - intros f g h i q _ _. cbn. ring.
Qed.
Lemma held_operators t : wave_operators 2 2 (held_at t) held_part held_fi (held_rank t).
Proof.
  intros p Hp. assert (T : facet_table 2 (held_part p) = Some (held_fi p)) by (destruct p as [|[|p]]; try lia; vm_compute; reflexivity).
  split; [apply elocal_data_ok; [apply (mp_mesh _ _ _ _ _ _ held_parts p Hp)|exact T]|]. split; [reflexivity|]. split; [exact T|]. split; [reflexivity|]. split; [apply w_inverse|]. split.
  + assert (S2 : 0 < sqrt 2) by (apply sqrt_lt_R0; lra).
    intros i Hi q Hq. unfold held_rank. destruct p as [|[|p]]; try lia;
      [change (held_fi 0) with (ltac:(let t := eval vm_compute in (held_fi 0) in exact t))|change (held_fi 1) with (ltac:(let t := eval vm_compute in (held_fi 1) in exact t))]; (destruct i as [|[|[|i]]]; [| | |cbn in Hi; lia]); (split; [|intros [|[|j]] Hj; [| |cbn in Hj; lia]; cbn; field; lra]);
      cbn; match goal with |- _ = sqrt ?x => first [replace x with 1 by ring; rewrite sqrt_1; reflexivity | replace x with 2 by ring; reflexivity] end.
  + intros x Hx. destruct p as [|[|p]]; try lia; vm_compute in Hx; repeat destruct Hx as [<-|Hx]; try contradiction; vm_compute; intuition discriminate.
Qed.
Lemma held_sides : side_tables 2 2 held_part held_fi held_sl.
Proof.
  exists held_wr, held_t. split.
  - intros p Hp. split; [apply ApplyProps.il_concat|]. destruct p as [|[|p]]; try lia; vm_compute; reflexivity.
  - intros p e Hp He. destruct p as [|[|p]]; try lia; cbn in He; destruct e; try lia; vm_compute; reflexivity.
Qed.
Lemma pulled_facet : forall E n lam mu G f uh sh S K, p_dim (e_geo E) = 2%nat -> p_N (e_geo E) = 3%nat -> p_nq (e_geo E) = 3%nat -> (K < 6)%nat ->
  (forall i q, (i < 2)%nat -> (q < 3)%nat -> uh i q = 0) -> (forall i j q, (i < 2)%nat -> (j < 2)%nat -> (q < 3)%nat -> sh i j q = S i j) ->
  apply_facet E n lam mu G f uh sh K = rsum 3 (fun q => rsum 2 (fun j => p_w (e_geo E) q * - p_E (e_geo E) f (bf E K) q * n j q * S (cp E K) j)).
Proof.
  intros E n lam mu G f uh sh S K Hd HN Hq HK Zu Hs. unfold apply_facet. rewrite Hd, Hq.
  assert (Hc : (cp E K < 2)%nat) by (unfold cp; rewrite HN; apply Nat.div_lt_upper_bound; lia).
  rewrite rsum_zero; [rewrite Rplus_0_l; apply rsum_ext; intros q Hq'; apply rsum_ext; intros j Hj; rewrite Hs; auto|].
  intros q Hq'. apply rsum_zero. intros j Hj. apply rsum_zero. intros e He. rewrite rsum_zero; [rewrite !Zu by auto; ring|]. intros r Hr. rewrite Zu by auto. ring.
Qed.
Definition pull (c : R) (i j : nat) : R := match i, j with 0%nat, 0%nat => 2 * c | 1%nat, 1%nat => - (2 * c) | _, _ => 0 end.
Ltac pulled c := erewrite (pulled_facet _ _ _ _ _ _ _ _ (pull c)); [|reflexivity|reflexivity|reflexivity|lia| |];
  [|intros [|[|i]] [|[|[|q]]] Hi Hq; try lia; unfold flux_u_add_bc, flux_u_boundary, stretch; cbn; unfold coef, shear; cbn; field
   |intros [|[|i]] [|[|j1]] [|[|[|q]]] Hi Hj1 Hq; try lia; unfold flux_sigma_add_bc, flux_sigma_boundary, constitutive_q, Ju_q, lam_q, mu_q, ElasticityModel.delta, stretch; cbn; unfold coef, shear; cbn; field; try (apply Rgt_not_eq, sqrt_lt_R0; lra)].
Lemma held_accelerations t : accelerations 2 held held_part held_fi held_sl (held_rank t) (stretch t) (fun _ _ => 0).
Proof.
  intros p e g Hp He Eg.
  assert (Z : forall p Ji v, (forall j, (j < 6)%nat -> v j = 0) -> forall j, (j < block_size (ep_ref held))%nat -> 0 = apply_inverse_mass (held_rank t p) Ji v j).
  { intros p' Ji v V j Hj. change (block_size (ep_ref held)) with 6%nat in Hj. unfold apply_inverse_mass. symmetry.
    apply rsum_zero. intros r Hr. apply rsum_zero. intros q Hq. apply rsum_zero. intros s Hs. apply rsum_zero. intros l Hl. rewrite V; [ring|]. unfold ix, cp. cbn in Hl |- *.
    do 6 (destruct j as [|j]; [cbn; lia|]). lia. }
  destruct p as [|[|p]]; try lia; cbn in He; destruct e; try lia; cbn in Eg; injection Eg as <-.
  + change (held_sl 0 0) with (ltac:(let t := eval vm_compute in (held_sl 0 0) in exact t)). unfold wave_rhs, held_rank. change (held_fi 0) with (ltac:(let t := eval vm_compute in (held_fi 0) in exact t)). change (held_fi 1) with (ltac:(let t := eval vm_compute in (held_fi 1) in exact t)).
    match goal with |- exists a, match ?r with _ => _ end = _ /\ _ => assert (Rr : exists v, r = Some v /\ forall j, (j < 6)%nat -> v j = 0) end.
    { eexists. split; [reflexivity|]. intros j Hj.
      cbn; pulled t; pulled t; pulled t; do 6 (destruct j as [|j]; [cbn; unfold lam_W_J, mu_W_J, stretch, coef, shear; cbn; field|]). lia. }
    destruct Rr as (v & -> & V). eexists. split; [reflexivity|]. intros j Hj. apply Z; auto.
  + change (held_sl 1 0) with (ltac:(let t := eval vm_compute in (held_sl 1 0) in exact t)). unfold wave_rhs, held_rank. change (held_fi 0) with (ltac:(let t := eval vm_compute in (held_fi 0) in exact t)). change (held_fi 1) with (ltac:(let t := eval vm_compute in (held_fi 1) in exact t)).
    match goal with |- exists a, match ?r with _ => _ end = _ /\ _ => assert (Rr : exists v, r = Some v /\ forall j, (j < 6)%nat -> v j = 0) end.
    { eexists. split; [reflexivity|]. intros j Hj.
      cbn; pulled (2 * t); pulled (2 * t); pulled (2 * t); do 6 (destruct j as [|j]; [cbn; unfold lam_W_J, mu_W_J, stretch, coef, shear; cbn; field|]). lia. }
    destruct Rr as (v & -> & V). eexists. split; [reflexivity|]. intros j Hj. apply Z; auto.
Qed.
Lemma held_force : forall t f g q i, In (f, g) [([0; 1], 0); ([0; 2], 0); ([1; 2], 0); ([3; 4], 1); ([3; 5], 1); ([4; 5], 1)]%nat -> (q < 3)%nat -> (i < 2)%nat ->
  facet_force (held_at t) two_elems held_bc f (stretch t) q i = rsum 2 (fun j => pull (INR (S g) * t) i j * ep_n held f g j q).
Proof.
  intros t f g q i Hf Hq Hi. unfold facet_force. 
  assert (D : facet_jump (held_at t) two_elems f (stretch t) q i - prescribed (held_at t) two_elems held_bc f q i = 0).
  { cbn in Hf. repeat destruct Hf as [Hf|Hf]; try contradiction; injection Hf as <- <-; unfold facet_jump, prescribed; cbn -[disp_on grip]; unfold grip; cbn -[disp_on];
      unfold disp_on, coef; cbn -[shear on_edge INR]; unfold stretch; ring. }
  rewrite D, Rmult_0_r, Rminus_0_r. clear D.
  cbn in Hf. repeat destruct Hf as [Hf|Hf]; try contradiction; injection Hf as <- <-; unfold facet_traction; cbn -[stress_on ep_n pull INR held]; unfold stress_on, hooke, dgrad_on, lam_on, mu_on, coef;
    destruct q as [|[|[|q]]]; try lia; destruct i as [|[|i]]; try lia; cbn; unfold stretch, shear; cbn; field.
Qed.
Lemma held_work : forall t, work (held_at t) two_elems two_facets held_bc (stretch t) (fun _ _ _ _ => 0) (grip 1) = 10 * t.
Proof.
  intro t. unfold work.
  assert (W : forall f g, In (f, g) [([0; 1], 0); ([0; 2], 0); ([1; 2], 0); ([3; 4], 1); ([3; 5], 1); ([4; 5], 1)]%nat ->
    (if ehas_data (held_at t) (held_bc f) then rsum (p_nq (e_geo (ep_ref (held_at t)))) (fun q => p_w (e_geo (ep_ref (held_at t))) q * rsum (p_dim (e_geo (ep_ref (held_at t)))) (fun i =>
       facet_force (held_at t) two_elems held_bc f (stretch t) q i * match elements_of two_elems f with [_] => grip 1 f i q | [_; _] => 0 | _ => 0 end)) else 0) =
    rsum 3 (fun q => p_w ex_quad q * rsum 2 (fun i => rsum 2 (fun j => pull (INR (S g) * t) i j * ep_n held f g j q) * grip 1 f i q))).
  { intros f g I. change (ehas_data (held_at t) (held_bc f)) with true. cbv iota. apply rsum_ext. intros q Hq. apply f_equal. apply rsum_ext. intros i Hi.
    rewrite (held_force t f g q i I Hq Hi). apply f_equal. cbn in I. repeat destruct I as [I|I]; try contradiction; injection I as <- <-; reflexivity. }
  unfold two_facets. cbn [lsum].
  rewrite (W [0; 1]%nat 0%nat), (W [0; 2]%nat 0%nat), (W [1; 2]%nat 0%nat), (W [3; 4]%nat 1%nat), (W [3; 5]%nat 1%nat), (W [4; 5]%nat 1%nat) by (cbn; tauto).
  cbn -[grip]. unfold grip. cbn -[disp_on]. unfold disp_on, coef. cbn. unfold shear. cbn. field.
Qed.
Example stretch_energy : forall t,
  derivable_pt_lim (fun s => 1 / 2 * mass_form held two_elems shear shear + stored_energy (held_at s) two_elems two_facets held_bc (stretch s)) t
    (work (held_at t) two_elems two_facets held_bc (stretch t) (fun _ _ _ _ => 0) (grip 1)) /\
  work (held_at t) two_elems two_facets held_bc (stretch t) (fun _ _ _ _ => 0) (grip 1) = 10 * t.
Proof.
  intro t. split.
  - apply (wave_energy_balance 2 2 two_elems two_facets held_bc held_part held held_fi held_sl held_rank stretch (fun _ => shear) (fun _ _ _ => 0) (fun _ _ _ _ _ => 0) (fun _ _ _ _ _ => 0) grip (fun _ => grip 1)).
    + apply held_parts. + apply held_sides. + exact two_plain. + intro. split; [apply held_ok|apply held_operators].
    + intros s g l. unfold stretch. apply (d_ext _ (fun s => shear g l * s)); [intros; ring|]. apply d_linear.
    + intros. apply derivable_pt_lim_const. + apply held_accelerations. + intros. apply derivable_pt_lim_const.
    + intros s f i q. unfold grip. destruct (elements_of two_elems f) as [|g r]; [apply derivable_pt_lim_const|].
      apply (d_ext _ (fun s => disp_on held f g (shear g) q i * s)); [intros; ring|]. rewrite Rmult_1_l. apply d_linear.
  - apply held_work.
Qed.

(** Case for [reported_traction_is_facet_force]: the slanted side of the second triangle. *)
Example stretch_traction : forall t, exists T, traction_boundary (held_rank t 1) 2 (nth 2 (held_fi 1) (hd {| fi_up0 := 0; fi_up1 := 0; fi_g0 := 0; fi_g1 := 0; fi_local0 := 0; fi_local1 := 0; fi_inside0 := true; fi_inside1 := true; fi_bc := 0 |} (held_fi 1))) (stretch t 1) = Some T /\
  (forall a q, (a < 2)%nat -> (q < 3)%nat -> sqrt 2 * T a q = facet_force (held_at t) two_elems held_bc [4; 5]%nat (stretch t) q a) /\ facet_force (held_at t) two_elems held_bc [4; 5]%nat (stretch t) 0 0 = 4 * t.
Proof.
  intro t. destruct (held_operators t 1%nat ltac:(lia)) as (RD & Ip & T & _ & _ & Nm & _).
  destruct (reported_traction_is_facet_force 2 2 two_elems two_facets held_bc held_part (held_at t) (held_rank t 1) (held_fi 1) (stretch t) 1 2 [4; 5]%nat
    (nth 2 (held_fi 1) (hd {| fi_up0 := 0; fi_up1 := 0; fi_g0 := 0; fi_g1 := 0; fi_local0 := 0; fi_local1 := 0; fi_inside0 := true; fi_inside1 := true; fi_bc := 0 |} (held_fi 1)))
    held_parts (held_ok t) ltac:(lia) RD Ip T (Nm 2%nat ltac:(vm_compute; lia)) ltac:(vm_compute; lia) eq_refl eq_refl eq_refl) as (Tr & E1 & E2).
  exists Tr. split; [exact E1|]. split.
  - intros a q Ha Hq. pose proof (E2 a q Ha Hq) as E3. change (fi_g1 _ <? fi_g0 _) with false in E3. cbv iota in E3. rewrite Rmult_1_l in E3. exact E3.
  - rewrite (held_force t [4; 5]%nat 1) by (cbn; try lia; tauto). cbn. field.
Qed.
