(** Nodes of facets and elements (C70). *)
Require Import List Arith Reals.
Require Import Verif.LinAlg Verif.SimplexModel Verif.TopoModel Verif.FaultModel Verif.GeometryModel Verif.GeometrySpec Verif.BasisSpec Verif.QuadratureSpec Verif.RefElementSpec Verif.RefElementModel.
Import ListNotations.
Local Open Scope R_scope.

(** Every facet of the reference element carries the nodes [fnodes], and they are among [nodes]. *)
Definition on_facets (D : nat) (nodes fnodes : list (nat -> R)) : Prop :=
  forall fs f c, f2v D = Some fs -> In f fs -> In c fnodes -> exists x : nat -> R, In x nodes /\ forall d, (d < D)%nat -> x d = facet_param D f c d.
(** What is assumed of Eigen's solver, of the Newton iteration for degree N, and of the machine precision. *)
Record sound_numerics (solve : nat -> (nat -> nat -> R) -> (nat -> R) -> nat -> R) (root : nat -> nat -> nat -> nat -> R) (eps : R) (N : nat) : Prop := {
  sn_solve : exact_solver solve;
  sn_roots : jacobi_roots (N - 1) 1 1 (root (N - 1)%nat 1%nat 1%nat);
  sn_eps : 0 < eps;
  sn_small : eps * (8 * (INR N * INR N * INR N)) <= 1 }.
(** Newton's iteration finds the roots from the largest to the smallest. *)
Definition decreasing_roots (root : nat -> nat -> nat -> nat -> R) (N : nat) : Prop :=
  forall i j, (i < j < N - 1)%nat -> root (N - 1)%nat 1%nat 1%nat j < root (N - 1)%nat 1%nat 1%nat i.
(** The elements of the mesh interpolate between [nodes] with polynomials of degree N. *)
Record nodal_setup (D N : nat) (nodes : list (nat -> R)) (G : geo_setup) : Prop := {
  ns_dim : gs_D G = D;
  ns_nb : gs_nb G = length nodes;
  ns_node : forall j, (j < length nodes)%nat -> gs_node G j = nth j nodes (fun _ => 0);
  ns_phi : nodal_basis D N nodes (gs_phi G);
  ns_dphi : forall j e x, (j < length nodes)%nat -> (e < D)%nat -> partial_derivative (gs_phi G j) e x (gs_dphi G j e x);
  ns_T : forall x y, (forall d, (d < D)%nat -> x d = y d) -> forall i, (i < D)%nat -> gs_T G x i = gs_T G y i }.
(** Elements that share a facet map each of its points to the same place, and the edges of the facet to the same vectors. *)
Definition no_gaps (G : geo_setup) : Prop :=
  forall fs f1 f2 plex1 plex2 chi, f2v (gs_D G) = Some fs -> In f1 fs -> In f2 fs ->
  map (fun v => nth v plex1 0%nat) f1 = map (fun v => nth v plex2 0%nat) f2 ->
  let p1 := facet_param (gs_D G) f1 chi in let p2 := facet_param (gs_D G) f2 chi in
  forall i, (i < gs_D G)%nat -> position_at G plex1 p1 i = position_at G plex2 p2 i /\
    forall d, (0 < d < gs_D G)%nat ->
      image (gs_D G) (jacobian_at G plex1 p1) (ref_edge f1 d) i = image (gs_D G) (jacobian_at G plex2 p2) (ref_edge f2 d) i.
(** Barycentric coordinate number c of x. *)
Definition bcoord (D : nat) (x : nat -> R) (c : nat) : R := match c with O => 1 - rsum D x | S d => x d end.
