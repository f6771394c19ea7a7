(** The hypotheses of C87 are met: straight triangles or tetrahedra, two facets of the fault on rank 0 and one on
    rank 1; the file has their vertices. *)
Require Import Bool Arith ZArith Reals String Lia Lra Permutation List.
Require Import Verif.Base Verif.LinAlg Verif.QuadratureSpec Verif.RefElementSpec Verif.TensorModel Verif.TopoModel Verif.GeometryModel Verif.RefElementModel Verif.ErrorModel Verif.ErrorSpec Verif.ErrorProofs
  Verif.NodesConform Verif.ErrorExamples Verif.VtuFieldModel Verif.VtuFieldProps Verif.VtuFieldExamples Verif.Hdf5Model Verif.Hdf5Props Verif.FaultFileModel Verif.FaultFileProofs Verif.FaultFileProps.
Import ListNotations.
Local Open Scope nat_scope.
Local Open Scope list_scope.

Example fault_of_three_facets : forall D degree (v : nat -> nat -> R) (A : nat -> nat -> nat -> R), D = 2 \/ D = 3 -> 1 <= degree -> exists x f' V N,
  (fr_fctNos (x 0) = [7; 6] /\ fr_fctNos (x 1) = [5]) /\
  write_static D degree 2 [1; 0] x (fun _ => 0%R) (fun _ => None) = Some f' /\ f' "faultVertices"%string = Some V /\ f' "faultNo"%string = Some N /\
  extents number V = [3; D; D] /\ extents number N = [3] /\
  map (fun i => cell number N [i]) [0; 1; 2] = [Integer 107; Integer 106; Integer 205] /\
  exists fs, f2v D = Some fs /\ forall j d, j < D -> d < D ->
    let at_vertex e face := Real (v e d + rsum D (fun i => A e d i * ref_vertex (nth j (nth face fs []) 0%nat) i))%R in
    cell number V [0; j; d] = at_vertex 3 1 /\ cell number V [1; j; d] = at_vertex 3 2 /\ cell number V [2; j; d] = at_vertex 4 0.
Proof.
  intros D degree v A HD Hdeg. destruct (straight_case D v A HD) as (re & nodes & psi & REP & U & HP & NZ & S1 & S2).
  set (cl := {| cv_re := re; cv_nb := length nodes; cv_pos := fun e => straight_nodes D nodes (v e) (A e) |}) in *.
  set (x := fun r => if r =? 0 then {| fr_cl := cl; fr_upward := fun _ => [3]; fr_downward := fun _ => [5; 7; 6]; fr_fctNos := [7; 6]; fr_l2cg := fun f => 100 + f |}
                     else {| fr_cl := cl; fr_upward := fun _ => [4; 1]; fr_downward := fun _ => [5; 7; 6]; fr_fctNos := [5]; fr_l2cg := fun f => 200 + f |}).
  assert (exists fs a b c, f2v D = Some fs /\ nth_error fs 0 = Some a /\ nth_error fs 1 = Some b /\ nth_error fs 2 = Some c) as (fs & a & b & c & Efs & Ea & Eb & Ec)
    by (destruct HD as [-> | ->]; vm_compute; repeat eexists).
  destruct (fault_geometry_written D degree 2 [1; 0] x psi (fun r _ => 3 + r) (fun r e => if r =? 0 then (if e =? 0 then b else c) else a) (fun _ => 0%R) (fun _ => None) HD Hdeg) as (f' & V & N & W & V1 & V2 & N1 & N2 & _ & C).
  - apply perm_swap.
  - intros r Hr. split; [unfold x; destruct (r =? 0); exact REP|]. split.
    + intros j p q Hj Hpq. apply (poly_ext D 1 (psi j)); [apply (proj1 HP); unfold x in Hj; destruct (r =? 0); exact Hj|exact Hpq].
    + intros e He. destruct r as [|[|r]]; [| |lia]; cbn in He |- *.
      * destruct e as [|[|e]]; [| |lia]; [exists 7, 1, fs|exists 6, 2, fs]; repeat split; assumption.
      * destruct e as [|e]; [|lia]. exists 5, 0, fs. repeat split; assumption.
  - cbn. lia.
  - reflexivity.
  - reflexivity.
  - intros r e Hr He. unfold facet_number. destruct r as [|[|r]]; [| |lia]; cbn in He; destruct e as [|[|e]]; try lia; reflexivity.
  - exists x, f', V, N. split; [split; reflexivity|]. split; [exact W|]. split; [exact V1|]. split; [exact N1|]. split; [exact V2|]. split; [exact N2|].
    pose proof (C 0 0 ltac:(lia) ltac:(cbn; lia)) as (A0 & B0). pose proof (C 0 1 ltac:(lia) ltac:(cbn; lia)) as (A1 & B1). pose proof (C 1 0 ltac:(lia) ltac:(cbn; lia)) as (A2 & B2).
    cbn [sumn Nat.add x fr_fctNos length Nat.eqb] in A0, A1, A2, B0, B1, B2. split.
    + cbn [map]. rewrite A0, A1, A2. reflexivity.
    + exists fs. split; [exact Efs|]. intros j d Hj Hd. cbv zeta. rewrite (B0 j d Hj Hd), (B1 j d Hj Hd), (B2 j d Hj Hd).
      rewrite (nth_error_nth _ _ [] Ea), (nth_error_nth _ _ [] Eb), (nth_error_nth _ _ [] Ec). cbn [fr_cl Nat.eqb]. rewrite !S1. auto.
Qed.
