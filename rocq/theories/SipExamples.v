(** Cases that meet the hypotheses of the theorems about the global operator (C26). *)
Require Import List Arith Lia Bool Reals Lra FunctionalExtensionality Permutation.
Require Import Verif.Base Verif.LinAlg Verif.SimplexModel Verif.LocalMeshModel Verif.LocalMeshProps Verif.TopoModel Verif.TopoSpec Verif.TopoProofs Verif.TopoProps
  Verif.AssembleModel Verif.AssembleSpec Verif.AssembleProofs Verif.AssembleProps Verif.MatFree Verif.ApplyModel Verif.ApplyProps
  Verif.PoissonModel Verif.PoissonProofs Verif.PoissonProps Verif.PoissonExamples Verif.SipSpec Verif.SipProofs Verif.SipRank Verif.SipProps.
Import ListNotations.
Local Open Scope R_scope.

(** Any problem can be distributed to any partition. *)
Definition dummy_record : facet_info :=
  {| fi_up0 := 0; fi_up1 := 0; fi_g0 := 0; fi_g1 := 0; fi_local0 := 0; fi_local1 := 0; fi_inside0 := true; fi_inside1 := true; fi_bc := 0 |}.
Definition local_data (Q : problem) (m : topo_mesh) (fi : list facet_info) : pdata :=
  let R_ := pb_ref Q in let g e := nth e (tm_l2cg m) 0%nat in
  let f i := nth i (tm_facets m) [] in let x i := nth i fi dummy_record in
  {| p_dim := p_dim R_; p_N := p_N R_; p_Nq := p_Nq R_; p_nq := p_nq R_; p_method := p_method R_;
     p_W := p_W R_; p_w := p_w R_; p_EQ := p_EQ R_; p_DxiQ := p_DxiQ R_; p_matEQ := p_matEQ R_;
     p_E := p_E R_; p_Dxi := p_Dxi R_; p_matE := p_matE R_; p_MinvRef := p_MinvRef R_;
     p_J := fun e => p_J R_ (g e); p_GQ := fun e => p_GQ R_ (g e); p_K := fun e => p_K R_ (g e);
     p_n := fun i => pb_n Q (f i) (fi_g0 (x i)); p_nu := fun i j q => pb_n Q (f i) (fi_g0 (x i)) j q / pb_nl Q (f i) q;
     p_nl := fun i => pb_nl Q (f i); p_G0 := fun i => pb_G Q (f i) (fi_g0 (x i)); p_G1 := fun i => pb_G Q (f i) (fi_g1 (x i));
     p_pen := fun i => pb_pen Q (f i); p_force := fun e => p_force R_ (g e);
     p_dir := fun i b => if b then pb_value Q (f i) else pb_jump Q (f i) (fi_g0 (x i));
     p_slip := fun i b => if b then (fun q => 2 * pb_value Q (f i) q) else pb_jump Q (f i) (fi_g0 (x i)) |}.
Lemma record_unique k m i x y : facet_record_ok k m i x -> facet_record_ok k m i y -> fi_g0 x = fi_g0 y /\ fi_g1 x = fi_g1 y.
Proof.
  intros Rx Ry. pose proof (fr_order _ _ _ _ Rx) as Ox. pose proof (fr_order _ _ _ _ Ry) as Oy.
  pose proof (proj1 (fr_up _ _ _ _ Rx _) (proj2 (fr_up _ _ _ _ Ry (fi_up0 y)) (or_introl eq_refl))).
  pose proof (proj1 (fr_up _ _ _ _ Rx _) (proj2 (fr_up _ _ _ _ Ry (fi_up1 y)) (or_intror eq_refl))).
  pose proof (proj1 (fr_up _ _ _ _ Ry _) (proj2 (fr_up _ _ _ _ Rx (fi_up0 x)) (or_introl eq_refl))).
  pose proof (proj1 (fr_up _ _ _ _ Ry _) (proj2 (fr_up _ _ _ _ Rx (fi_up1 x)) (or_intror eq_refl))).
  assert (E0 : fi_up0 x = fi_up0 y) by lia. assert (E1 : fi_up1 x = fi_up1 y) by lia.
  pose proof (fr_g0 _ _ _ _ Rx). pose proof (fr_g0 _ _ _ _ Ry). pose proof (fr_g1 _ _ _ _ Rx). pose proof (fr_g1 _ _ _ _ Ry).
  split; congruence.
Qed.
Lemma local_data_ok k Q m fi : topo_ok k m -> facet_table k m = Some fi -> rank_data k Q m (local_data Q m fi).
Proof.
  intros O Efi.
  assert (X : forall i f x, (i < tm_num_local_facets m)%nat -> nth_error (tm_facets m) i = Some f -> facet_record_ok k m i x ->
    nth i (tm_facets m) [] = f /\ fi_g0 (nth i fi dummy_record) = fi_g0 x /\ fi_g1 (nth i fi dummy_record) = fi_g1 x).
  { intros i f x Hi Ef R. destruct (facet_table_correct k m O) as (fi' & E' & _ & RS). assert (fi' = fi) by congruence. subst fi'.
    destruct (RS i Hi) as (y & Ey & Ry). rewrite (nth_error_nth _ _ _ Ey). destruct (record_unique k m i y x Ry R).
    split; [apply nth_error_nth; auto|auto]. }
  constructor; try reflexivity.
  - intros e g E. cbn. rewrite (nth_error_nth _ _ 0%nat E). auto.
  - intros i f x Hi Ef R. destruct (X i f x Hi Ef R) as (E1 & E2 & E3). cbn. rewrite E1, E2, E3. auto.
  - intros i f x Hi Ef R Nu. destruct (X i f x Hi Ef R) as (E1 & E2 & E3). cbn. rewrite E1, E2. auto.
  - intros i f x Hi Ef R Eu. destruct (X i f x Hi Ef R) as (E1 & E2 & E3). cbn. rewrite E1. split; auto. intros. field.
Qed.

(** The strip of three triangles on two ranks (AssembleProps), with the data of PoissonExamples. *)
Definition pos_in (f : list nat) (ds : list (list nat)) : nat :=
  (fix go ds := match ds with [] => 0 | d :: t => if list_eq_dec Nat.eq_dec d f then 0 else S (go t) end)%nat ds.
Definition ex_sign (f : list nat) (g : nat) : R := match elements_of ex_elems f with h :: _ => if g =? h then 1 else -1 | [] => 1 end.
Definition ex_problem : problem := {|
  pb_ref := ex_data IP;
  pb_loc := fun f g => match downward 2 (nth g ex_elems []) with Some ds => pos_in f ds | None => 0%nat end;
  pb_n := fun f g i q => ex_sign f g * p_n (ex_data IP) 0 i q; pb_nl := fun _ => p_nl (ex_data IP) 0;
  pb_G := fun _ _ => p_G0 (ex_data IP) 0; pb_pen := fun _ => 2;
  pb_jump := fun f g q => ex_sign f g * 3; pb_value := fun f q => 7 |}.
Lemma ex_sign_opp f g h : elements_of ex_elems f = [g; h] -> ex_sign f h = - ex_sign f g.
Proof.
  intro E. unfold ex_sign. rewrite E, Nat.eqb_refl. pose proof (elements_of_sorted ex_elems f) as S. rewrite E in S.
  inversion S as [|? ? ? H]; subst. inversion H; subst. destruct (Nat.eqb_spec h g); [lia|lra].
Qed.
Lemma ex_problem_ok : problem_ok 2 ex_elems ex_facets ex_problem.
Proof.
  constructor.
  - intros f g plex Hf Eg I. assert (Hg : (g < 3)%nat) by (change 3%nat with (length ex_elems); apply nth_error_Some; congruence).
    cbn in Hf. destruct g as [|[|[|g]]]; try lia; cbn in Eg; injection Eg as <-;
      repeat (destruct Hf as [<- | Hf]; [first [eexists; split; vm_compute; reflexivity
        | exfalso; specialize (I 0%nat ltac:(cbn; auto)); cbn in I; lia | exfalso; specialize (I 1%nat ltac:(cbn; auto)); cbn in I; lia
        | exfalso; specialize (I 2%nat ltac:(cbn; auto)); cbn in I; lia | exfalso; specialize (I 3%nat ltac:(cbn; auto)); cbn in I; lia
        | exfalso; specialize (I 4%nat ltac:(cbn; auto)); cbn in I; lia]|]); destruct Hf.
  - intros f g h i q _ E. cbn. rewrite (ex_sign_opp f g h E). ring.
  - intros f g h q _ E. cbn. rewrite (ex_sign_opp f g h E). ring.
Qed.
Definition ex_part_fi (p : nat) : list facet_info := match facet_table 2 (ex_part p) with Some fi => fi | None => [] end.
Definition ex_rank (p : nat) : pdata := local_data ex_problem (ex_part p) (ex_part_fi p).
(** All hypotheses hold; the second rank keeps the normal of the facet between ranks the other way. *)
Example global_ex : mesh_parts 2 2 ex_elems ex_facets ex_bc ex_part /\ problem_ok 2 ex_elems ex_facets ex_problem /\
  (forall p, (p < 2)%nat -> rank_data 2 ex_problem (ex_part p) (ex_rank p) /\ p_method (ex_rank p) = IP /\ facet_table 2 (ex_part p) = Some (ex_part_fi p)) /\
  (forall p i, (p < 2)%nat -> (i < tm_num_local_facets (ex_part p))%nat -> normal_ok (ex_rank p) i) /\
  p_n (ex_rank 0) 4 0 0 = 3 /\ p_n (ex_rank 1) 0 0 0 = -3 /\
  sip_form ex_problem ex_elems ex_facets ex_bc (fun g l => INR g) (fun g l => 1 + INR l) <> 0.
Proof.
  assert (T : forall p, (p < 2)%nat -> facet_table 2 (ex_part p) = Some (ex_part_fi p)).
  { intros [|[|p]] Hp; try lia; vm_compute; reflexivity. }
  split; [apply ex_parts|]. split; [apply ex_problem_ok|]. split; [|split; [|split; [|split]]].
  - intros p Hp. split; [|split; [reflexivity | auto]]. apply local_data_ok; auto. apply (mp_mesh _ _ _ _ _ _ ex_parts p Hp).
  - intros p i Hp Hi q Hq. cbn in Hq. assert (q = 0)%nat by lia. subst q. cbn. unfold ex_sign.
    destruct (elements_of _ _) as [|g r]; [|destruct (_ =? _)].
    + split; [replace (0 + 1 * 3 * (1 * 3) + 1 * 4 * (1 * 4)) with (5 * 5) by ring; rewrite sqrt_square; lra|]. intros [|[|j]] Hj; try lia; field.
    + split; [replace (0 + 1 * 3 * (1 * 3) + 1 * 4 * (1 * 4)) with (5 * 5) by ring; rewrite sqrt_square; lra|]. intros [|[|j]] Hj; try lia; field.
    + split; [replace (0 + -1 * 3 * (-1 * 3) + -1 * 4 * (-1 * 4)) with (5 * 5) by ring; rewrite sqrt_square; lra|]. intros [|[|j]] Hj; try lia; field.
  - cbn. unfold ex_sign. cbn. ring.
  - cbn. unfold ex_sign. cbn. ring.
  - unfold sip_form, facet_term. cbn [ex_facets ex_elems lsum seq length].
    unfold vol_term, int_term, bnd_term, mean_flux, jump, kappa, kappa_on, grad, grad_on, trace. cbn. unfold ex_sign. cbn. lra.
Qed.
