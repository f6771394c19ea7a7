(** Property theorems: drawing of facets and of their boundary conditions (C98). *)
Require Import List Arith Lia Bool Sorted.
Require Import Verif.Base Verif.CombinatoricsModel Verif.SimplexModel Verif.SimplexProofs Verif.LocalMeshModel
  Verif.LocalMeshProofs Verif.LocalMeshProps Verif.TopoModel Verif.TopoSpec Verif.TopoCheck
  Verif.CheckBcModel Verif.CheckBcSpec.
Import ListNotations.
Local Open Scope opt_scope.

Lemma find_pos_in x l : In x l -> find_pos x l < length l /\ nth_error l (find_pos x l) = Some x.
Proof.
  induction l as [|y t IH]; [intros []|]. intro H. cbn [find_pos length].
  destruct (Nat.eqb_spec x y) as [->|N]; [cbn; split; auto; lia|].
  destruct H as [->|H]; [congruence|]. destruct (IH H). cbn. split; auto. lia.
Qed.

Lemma map_opt_total {A B} (f : A -> option B) l : (forall a, In a l -> exists b, f a = Some b) ->
  exists r, map_opt f l = Some r /\ length r = length l /\
    forall i a, nth_error l i = Some a -> exists b, f a = Some b /\ nth_error r i = Some b.
Proof.
  induction l as [|a t IH]; intro H.
  - exists []. cbn. repeat split; auto. intros [|i] x E; discriminate.
  - destruct (H a) as [b Eb]; [left; auto|].
    destruct IH as (r & Er & Lr & Hr); [intros; apply H; right; auto|].
    exists (b :: r). cbn [map_opt]. rewrite Eb. cbn [bind]. rewrite Er. cbn [bind length]. repeat split; auto.
    intros [|i] x E; cbn in E; [injection E as <-; eauto|]. apply Hr in E. auto.
Qed.

Lemma adapter_face_shows k m um fct f : topo_ok k m -> facet_upward k m = Some um ->
  fct < tm_num_local_facets m -> nth_error (tm_facets m) fct = Some f ->
  exists cell, adapter_face k m um fct = Some cell /\ shows k m cell f /\ fst cell < tm_num_local m.
Proof.
  intros T U Hf Ef.
  destruct T as [Te Tf Ta Tl _ Tle _ _ _ _ _].
  destruct (upward_lists_elements _ _ _ Te Tf Ta) as (um' & E' & _ & Hu).
  unfold facet_upward in U. assert (um' = um) by congruence. subst um'.
  destruct (Hu fct f Ef) as (u & Eu & Su & Iu).
  assert (Hfl : fct < length (tm_facets m)) by (apply nth_error_Some; congruence).
  destruct (proj1 (Tl fct Hfl) Hf) as (e & He & plex & f' & Ep & Ef' & Hi).
  assert (f' = f) by congruence. subst f'.
  assert (Ie : In e u) by (apply Iu; eauto).
  destruct u as [|e0 u]; [destruct Ie|].
  assert (Le : e0 <= e).
  { destruct Ie as [->|Ie]; [auto|]. apply StronglySorted_inv in Su. destruct Su as [_ Su].
    rewrite Forall_forall in Su. specialize (Su _ Ie). lia. }
  destruct (proj1 (Iu e0)) as (p0 & Ep0 & Hi0); [left; auto|].
  destruct (upward_downward_dual _ _ _ _ Te Tf Ta E' fct e0 f p0 Ef Ep0) as (d & u' & Ed & Eu' & Ld & Du).
  assert (u' = e0 :: u) by congruence. subst u'.
  assert (Id : In fct d) by (apply Du; left; auto).
  destruct (find_pos_in _ _ Id) as [Lp Np].
  exists (e0, find_pos fct d). unfold adapter_face. rewrite Eu. cbn [bind nth_error]. rewrite Ep0. cbn [bind].
  rewrite Ed. cbn [bind]. rewrite (proj2 (Nat.ltb_lt _ _)) by lia.
  split; [reflexivity|]. split; [|cbn; lia].
  exists p0. cbn [fst snd]. split; [auto|]. split; [lia|].
  destruct Te as [Ne Se]. destruct Tf as [Nf Sf].
  assert (Ip : In p0 (tm_elems m)) by (eapply nth_error_In; eauto).
  destruct (Se _ Ip) as [L0 S0].
  assert (P0 : p0 <> []) by (intro; subst; cbn in L0; lia).
  unfold mesh_downward in Ed.
  pose proof (facets_spec p0 P0) as FS. rewrite L0 in FS. replace (k + 1 - 1) with k in FS by lia.
  rewrite FS in Ed. cbn [bind] in Ed.
  set (ds := map _ _) in *.
  assert (Inc : incl ds (tm_facets m)).
  { destruct (downward_spec k p0 ltac:(lia) S0) as (ds' & Eds & Ids & _).
    assert (ds' = ds) by congruence. subst ds'.
    intros x Hx. apply Ids in Hx. destruct Hx as (A & B & C). eapply Ta; eauto. }
  destruct (lids_of_spec _ ds Nf Inc) as (d' & Ed' & Ld' & Hd).
  assert (d' = d) by congruence. subst d'.
  destruct (nth_error_lt ds (find_pos fct d)) as [x Ex]; [lia|].
  destruct (Hd _ _ Ex) as (j & Ej & Fj).
  assert (j = fct) by congruence. subst j. assert (x = f) by congruence. subst x.
  unfold ds in Ex. rewrite nth_error_map in Ex.
  assert (Q : nth_error (seq 0 (k + 1)) (find_pos fct d) = Some (find_pos fct d)).
  { rewrite (nth_error_nth' _ 0) by (rewrite seq_length; lia). rewrite seq_nth by lia. reflexivity. }
  rewrite Q in Ex. cbn [option_map] in Ex.
  assert (Hx : forall A (a b : A), Some a = Some b -> b = a) by congruence. apply Hx in Ex.
  rewrite Ex. unfold face_without. f_equal. f_equal. lia.
Qed.

(** C98a: for any list of local facets, cell i of the output on a boundary or on the fault shows facet i of the list,
    as a face of an element of this process. *)
Theorem boundary_cells_show_facets : forall k m fctNos,
  topo_ok k m -> (forall f, In f fctNos -> f < tm_num_local_facets m) ->
  exists cells, boundary_adapter k m fctNos = Some cells /\ length cells = length fctNos /\
    forall i fct f, nth_error fctNos i = Some fct -> nth_error (tm_facets m) fct = Some f ->
      exists c, nth_error cells i = Some c /\ shows k m c f /\ fst c < tm_num_local m.
Proof.
  intros k m fctNos T H.
  destruct (upward_lists_elements _ _ _ (to_elems _ _ T) (to_facets _ _ T) (to_all _ _ T)) as (um & U & _ & _).
  unfold boundary_adapter. unfold facet_upward at 1. rewrite U. cbn [bind].
  destruct (map_opt_total (adapter_face k m um) fctNos) as (r & Er & Lr & Hr).
  { intros a Ha. pose proof (to_facets_le _ _ T). specialize (H a Ha).
    destruct (nth_error_lt (tm_facets m) a) as [f Ef]; [lia|].
    destruct (adapter_face_shows k m um a f T U H Ef) as (c & Ec & _). eauto. }
  exists r. split; [auto|]. split; [auto|]. intros i fct f Ei Ef.
  destruct (Hr _ _ Ei) as (c & Ec & Nc). exists c. split; [auto|].
  destruct (adapter_face_shows k m um fct f T U) as (c' & Ec' & S); auto.
  { apply H. eapply nth_error_In; eauto. }
  assert (c' = c) by congruence. subst. auto.
Qed.
Print Assumptions boundary_cells_show_facets.

Lemma find_loop_spec bc : forall l nos codes, (forall f, In f l -> f < length bc) ->
  find_loop bc l nos codes =
    Some (nos ++ filter (fun f => negb (nth f bc 0 =? 0)) l,
          codes ++ map (fun f => nth f bc 0) (filter (fun f => negb (nth f bc 0 =? 0)) l)).
Proof.
  induction l as [|f t IH]; intros nos codes H; cbn [find_loop filter map].
  - rewrite !app_nil_r. reflexivity.
  - rewrite (nth_error_nth' bc 0) by (apply H; left; auto). cbn [bind].
    destruct (nth f bc 0 =? 0); cbn [negb]; rewrite IH by (intros; apply H; right; auto); [reflexivity|].
    cbn [map]. rewrite <- !app_assoc. reflexivity.
Qed.

(** C98b: the file shows the facets of the process that have a boundary condition, in the order of their numbers, each
    once, with the code of the condition; facets without condition are left out. *)
Theorem check_bc_shows_conditions : forall k m bc,
  topo_ok k m -> tm_bc m = Some bc ->
  exists nos cells codes, check_bc k m = Some (cells, codes) /\
    length cells = length nos /\ length codes = length nos /\ StronglySorted lt nos /\
    (forall fct, In fct nos <-> fct < tm_num_local_facets m /\ exists b, nth_error bc fct = Some b /\ b <> 0) /\
    forall i fct f, nth_error nos i = Some fct -> nth_error (tm_facets m) fct = Some f ->
      nth_error codes i = nth_error bc fct /\
      exists c, nth_error cells i = Some c /\ shows k m c f /\ fst c < tm_num_local m.
Proof.
  intros k m bc T B. destruct (to_bc _ _ T) as (bc' & B' & Lb). assert (bc' = bc) by congruence. subst bc'.
  pose proof (to_facets_le _ _ T) as Lf.
  set (nos := filter (fun f => negb (nth f bc 0 =? 0)) (seq 0 (tm_num_local_facets m))).
  assert (I : forall fct, In fct nos <-> fct < tm_num_local_facets m /\ exists b, nth_error bc fct = Some b /\ b <> 0).
  { intro fct. unfold nos. rewrite filter_In, in_seq. split.
    - intros [A C]. split; [lia|]. exists (nth fct bc 0). split; [apply nth_error_nth'; lia|].
      apply negb_true_iff, Nat.eqb_neq in C. exact C.
    - intros (A & b & Eb & Nb). split; [lia|]. rewrite (nth_error_nth _ _ 0 Eb). apply negb_true_iff, Nat.eqb_neq, Nb. }
  destruct (boundary_cells_show_facets k m nos T) as (cells & Ec & Lc & Hc).
  { intros f Hf. apply I in Hf. tauto. }
  exists nos, cells, (map (fun f => nth f bc 0) nos).
  unfold check_bc, find_facets. rewrite B. cbn [bind]. rewrite find_loop_spec.
  2:{ intros f Hf. apply in_seq in Hf. lia. }
  cbn [bind app]. fold nos. rewrite Ec. cbn [bind].
  split; [reflexivity|]. split; [auto|]. split; [apply map_length|]. split.
  { unfold nos. assert (G : forall n a, StronglySorted lt (filter (fun f => negb (nth f bc 0 =? 0)) (seq a n))).
    { induction n as [|n IH]; intro a; cbn [seq filter]; [constructor|]. destruct (negb _); auto.
      constructor; auto. apply Forall_forall. intros x Hx. apply filter_In in Hx. destruct Hx as [Hx _].
      apply in_seq in Hx. lia. }
    apply G. }
  split; [exact I|]. intros i fct f Ei Ef. split; [|eauto].
  rewrite nth_error_map, Ei. cbn [option_map]. symmetry. apply nth_error_nth'.
  assert (In fct nos) by (eapply nth_error_In; eauto). apply I in H. lia.
Qed.
Print Assumptions check_bc_shows_conditions.

(** Two triangles with a fault between them, a Dirichlet and a natural side. *)
Definition bc_mesh : topo_mesh :=
  {| tm_elems := [[0;1;2]; [1;2;3]]; tm_num_local := 2;
     tm_facets := [[0;1]; [0;2]; [1;2]; [1;3]; [2;3]]; tm_num_local_facets := 5;
     tm_owner := [0; 0]; tm_l2cg := [0; 1]; tm_shared := [[]; []];
     tm_bc := Some [0; 5; 3; 0; 1] |}.
Example bc_mesh_ok : topo_ok 2 bc_mesh.
Proof. apply topo_okb_spec. vm_compute. reflexivity. Qed.
Example check_bc_ex : check_bc 2 bc_mesh = Some ([(0, 1); (0, 2); (1, 2)], [5; 3; 1]).
Proof. reflexivity. Qed.

(** C98c: the exit status does not tell that nothing was written. *)
Theorem check_bc_status_refuted :
  ~ forall dim loaded, fst (check_bc_main dim loaded) = 0 -> snd (check_bc_main dim loaded) = true.
Proof. intro H. specialize (H 2 false eq_refl). discriminate. Qed.
Print Assumptions check_bc_status_refuted.
