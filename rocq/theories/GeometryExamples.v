(** Concrete cases for the theorems on element geometry (C62). *)
Require Import List Arith Lia Bool Reals Lra Sorting.Sorted.
Require Import Verif.Base Verif.LinAlg Verif.SimplexModel Verif.SimplexProofs Verif.LocalMeshModel Verif.LocalMeshProps Verif.AssembleSpec Verif.AssembleProofs
  Verif.FaultModel Verif.GeometryModel Verif.GeometryProofs Verif.GeometrySpec Verif.GeometryProps Verif.GeometryStraight Verif.PoissonModel Verif.TopoModel.
Import ListNotations.
Local Open Scope R_scope.

(** The unit square in two triangles. *)
Definition sq_X (v : nat) : vec := fun i => match v, i with
  | 1%nat, 0%nat => 1 | 2%nat, 1%nat => 1 | 3%nat, 0%nat => 1 | 3%nat, 1%nat => 1 | _, _ => 0 end.
Definition sq_elems : list (list nat) := [[0;1;2];[1;2;3]]%nat.
Definition sq_facets : list (list nat) := [[0;1];[0;2];[1;2];[1;3];[2;3]]%nat.
Definition sq_chi (q : nat) : vec := fun _ => match q with O => 1/4 | _ => 3/4 end.
Definition sq : geo_setup := linear_setup 2 sq_X (fun _ _ => 1/3) sq_chi.
Lemma sorted2 a b : (a < b)%nat -> StronglySorted lt [a; b].
Proof. intro. repeat constructor. auto. Qed.
Lemma sorted3 a b c : (a < b)%nat -> (b < c)%nat -> StronglySorted lt [a; b; c].
Proof. intros. repeat constructor; lia. Qed.
Lemma sq_plexes : plex_list 3 sq_elems /\ plex_list 2 sq_facets.
Proof.
  split; split.
  - repeat constructor; cbn; intuition congruence.
  - intros x [<-|[<-|[]]]; split; try reflexivity; apply sorted3; lia.
  - repeat constructor; cbn; intuition congruence.
  - intros x [<-|[<-|[<-|[<-|[<-|[]]]]]]; split; try reflexivity; apply sorted2; lia.
Qed.
Example square_valid : valid_geometry sq sq_elems sq_facets.
Proof.
  apply straight_mesh_valid.
  - auto.
  - apply sq_plexes.
  - apply sq_plexes.
  - intros plex [<-|[<-|[]]]; cbn; unfold edge_matrix, sq_X; cbn; lra.
  - intros f g h plex1 plex2 a b Hf El E1 E2 Ha Hna Hb Hnb.
    destruct Hf as [<-|[<-|[<-|[<-|[<-|[]]]]]]; cbn in El; try discriminate.
    injection El as <- <-. cbn in E1, E2. injection E1 as <-. injection E2 as <-.
    assert (a = 0)%nat by (cbn in *; intuition congruence). assert (b = 3)%nat by (cbn in *; intuition congruence). subst a b.
    exists (fun _ => 1). split; [|split].
    + intros v [<-|[<-|[]]]; unfold vdot, vdiff, sq_X; cbn; lra.
    + unfold vdot, vdiff, sq_X; cbn; lra.
    + unfold vdot, vdiff, sq_X; cbn; lra.
Qed.
(** A normal: the diagonal seen from the first triangle has the normal (1, 1), of length sqrt 2. *)
Example diagonal_normal :
  let p := point_data sq [0;1;2]%nat [1;2]%nat [1;2;3]%nat [0;1]%nat 0 in
  fq_normal p 0%nat = 1 /\ fq_normal p 1%nat = 1 /\ fq_length p = sqrt 2 /\ fq_coords p 0%nat = 3/4 /\ fq_coords p 1%nat = 1/4.
Proof.
  set (p := point_data sq [0;1;2]%nat [1;2]%nat [1;2;3]%nat [0;1]%nat 0).
  set (J := jacobian_at sq [0;1;2]%nat (facet_param 2 [1;2]%nat (sq_chi 0))).
  assert (J0 : J 0%nat 0%nat = 1 /\ J 0%nat 1%nat = 0 /\ J 1%nat 0%nat = 0 /\ J 1%nat 1%nat = 1).
  { unfold J, jacobian_at, geo_jacobian, positions, geo_nodes, affine_map, geo_verts, sq_X, ref_vertex. cbn. repeat split; lra. }
  destruct J0 as (A & B & C & D).
  assert (Dt : geo_det 2 J = 1) by (unfold geo_det; rewrite A, B, C, D; ring).
  assert (N0 : ref_normal 2 [1;2]%nat 0%nat = 1 /\ ref_normal 2 [1;2]%nat 1%nat = 1).
  { unfold ref_normal. cbv zeta. match goal with |- context [Rlt_dec ?a ?b] => destruct (Rlt_dec a b) as [h|h]; cbn in h; unfold vdiff, ref_vertex in h; cbn in h; try (exfalso; lra) end.
    unfold vdiff, ref_vertex. cbn. split; ring. }
  destruct N0 as [N0 N1].
  assert (P0 : fq_normal p 0%nat = 1).
  { change (fq_normal p 0%nat) with (geo_normal 2 (geo_det 2 J) (geo_inverse 2 J) (ref_normal 2 [1;2]%nat) 0%nat). unfold geo_normal, geo_inverse. rewrite Dt, Rabs_R1. cbn [rsum]. unfold geo_cofactor. rewrite N0, N1, C, D. field. }
  assert (P1 : fq_normal p 1%nat = 1).
  { change (fq_normal p 1%nat) with (geo_normal 2 (geo_det 2 J) (geo_inverse 2 J) (ref_normal 2 [1;2]%nat) 1%nat). unfold geo_normal, geo_inverse. rewrite Dt, Rabs_R1. cbn [rsum]. unfold geo_cofactor. rewrite N0, N1, A, B. field. }
  split; [exact P0|]. split; [exact P1|]. split.
  - change (fq_length p) with (sqrt (vdot 2 (fq_normal p) (fq_normal p))). f_equal. unfold vdot. cbn [rsum]. rewrite P0, P1. ring.
  - unfold p, point_data, prepare_bndskl, fq_coords. unfold position_at, geo_map, positions, geo_nodes, affine_map, geo_verts, facet_param, sq_X, sq_chi, ref_vertex. cbn. split; lra.
Qed.

(** Quadratic triangles and a curved mesh: nodes at vertices and midpoints of the edges. *)
Definition quad_node (j : nat) : vec := fun i => match j, i with
  | 1%nat, 0%nat => 1 | 2%nat, 1%nat => 1 | 3%nat, 0%nat => 1/2 | 4%nat, 1%nat => 1/2 | 5%nat, 0%nat => 1/2 | 5%nat, 1%nat => 1/2 | _, _ => 0 end.
Definition quad_phi (j : nat) (x : vec) : R := let l := 1 - x 0%nat - x 1%nat in match j with
  | 0%nat => l * (2 * l - 1) | 1%nat => x 0%nat * (2 * x 0%nat - 1) | 2%nat => x 1%nat * (2 * x 1%nat - 1)
  | 3%nat => 4 * l * x 0%nat | 4%nat => 4 * l * x 1%nat | _ => 4 * x 0%nat * x 1%nat end.
Definition quad_dphi (j e : nat) (x : vec) : R := let l := 1 - x 0%nat - x 1%nat in match j, e with
  | 0%nat, _ => 1 - 4 * l
  | 1%nat, 0%nat => 4 * x 0%nat - 1 | 1%nat, _ => 0
  | 2%nat, 0%nat => 0 | 2%nat, _ => 4 * x 1%nat - 1
  | 3%nat, 0%nat => 4 * l - 4 * x 0%nat | 3%nat, _ => - 4 * x 0%nat
  | 4%nat, 0%nat => - 4 * x 1%nat | 4%nat, _ => 4 * l - 4 * x 1%nat
  | _, 0%nat => 4 * x 1%nat | _, _ => 4 * x 0%nat end.
(** The square with its upper side bent. *)
Definition bent : geo_setup := {| gs_D := 2; gs_X := sq_X; gs_T := fun x i => match i with 1%nat => x 1%nat * (1 + x 0%nat * (1 - x 0%nat) / 2) | _ => x 0%nat end;
  gs_nb := 6; gs_node := quad_node; gs_phi := quad_phi; gs_dphi := quad_dphi; gs_xi := fun _ _ => 1/3; gs_chi := sq_chi |}.
Definition mid (c : nat) : vec := fun _ => match c with O => 0 | 1%nat => 1/2 | _ => 1 end.
Definition quad_psi (c : nat) (chi : vec) : R := let x := chi 0%nat in match c with O => (1 - x) * (1 - 2 * x) | 1%nat => 4 * x * (1 - x) | _ => x * (2 * x - 1) end.
Definition quad_dpsi (c d : nat) (chi : vec) : R := let x := chi 0%nat in match c with O => 4 * x - 3 | 1%nat => 4 - 8 * x | _ => 4 * x - 1 end.
Example bent_conforming : conforming_basis bent 3 mid quad_psi quad_dpsi.
Proof.
  split; cbn [bent gs_D gs_nb gs_node gs_phi gs_dphi gs_T].
  - intros j x y Hj H. unfold quad_phi. cbv zeta. rewrite (H 0%nat), (H 1%nat) by lia. reflexivity.
  - intros x y H i Hi. destruct i as [|[|i]]; [apply H; lia|rewrite (H 0%nat), (H 1%nat) by lia; reflexivity|lia].
  - intros i j Hi Hj. do 6 (destruct i as [|i]; [do 6 (destruct j as [|j]; [unfold quad_phi, quad_node; cbn; lra|]); lia|]). lia.
  - intros fs f c E Hf Hc. change (f2v 2 = Some fs) in E. rewrite f2v_2 in E. injection E as <-.
    destruct c as [|[|[|c]]]; [| | |lia]; destruct Hf as [<-|[<-|[<-|[]]]].
    all: match goal with
      | |- context [facet_param 2 [0; 1]%nat (mid 0)] => exists 0%nat | |- context [facet_param 2 [0; 2]%nat (mid 0)] => exists 0%nat | |- context [facet_param 2 [1; 2]%nat (mid 0)] => exists 1%nat
      | |- context [facet_param 2 [0; 1]%nat (mid 1)] => exists 3%nat | |- context [facet_param 2 [0; 2]%nat (mid 1)] => exists 4%nat | |- context [facet_param 2 [1; 2]%nat (mid 1)] => exists 5%nat
      | |- context [facet_param 2 [0; 1]%nat (mid 2)] => exists 1%nat | |- context [facet_param 2 [0; 2]%nat (mid 2)] => exists 2%nat | |- context [facet_param 2 [1; 2]%nat (mid 2)] => exists 2%nat end.
    all: split; [lia|]; intros d Hd; destruct d as [|[|d]]; [| |lia]; unfold facet_param, mid, ref_vertex; cbn; lra.
  - intros fs f j chi E Hf Hj. change (f2v 2 = Some fs) in E. rewrite f2v_2 in E. injection E as <-.
    destruct Hf as [<-|[<-|[<-|[]]]]; do 6 (destruct j as [|j]; [unfold quad_phi, quad_psi, facet_param, mid, ref_vertex; cbn; field|]); lia.
  - intros fs f j d chi E Hf Hj Hd. change (f2v 2 = Some fs) in E. rewrite f2v_2 in E. injection E as <-. assert (d = 1)%nat by lia. subst d.
    destruct Hf as [<-|[<-|[<-|[]]]]; do 6 (destruct j as [|j]; [unfold quad_phi, quad_dphi, quad_dpsi, ref_edge, vdiff, facet_param, mid, ref_vertex; cbn; field|]); lia.
Qed.
(** The two triangles of the bent square meet along their common edge. *)
Example bent_meets chi i : (i < 2)%nat ->
  position_at bent [0;1;2]%nat (facet_param 2 [1;2]%nat chi) i = position_at bent [1;2;3]%nat (facet_param 2 [0;1]%nat chi) i.
Proof.
  intro Hi. apply (shared_facets_coincide bent 3 mid quad_psi quad_dpsi [[0;1];[0;2];[1;2]]%nat [1;2]%nat [0;1]%nat [0;1;2]%nat [1;2;3]%nat chi bent_conforming); cbn; auto.
Qed.
Example bent_is_curved : position_at bent [1;2;3]%nat (facet_param 2 [1;2]%nat (fun _ => 1/2)) 1%nat <> 1.
Proof. unfold position_at, geo_map, positions, geo_nodes, affine_map, geo_verts, facet_param, ref_vertex. cbn. lra. Qed.

