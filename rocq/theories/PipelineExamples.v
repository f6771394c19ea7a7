(** A mesh of five triangles read on two ranks and redistributed: the hypotheses of C60 and C61 hold,
    and what the ranks get. *)
Require Import List Arith Bool ZArith Lia Permutation Sorted.
Require Import Verif.Base Verif.SimplexModel Verif.LocalMeshModel Verif.LocalMeshProps Verif.PartitionProps Verif.GhostModel Verif.GhostSpec Verif.GhostProps Verif.TopoModel Verif.TopoSpec Verif.ApplyProps
  Verif.AssembleModel Verif.AssembleSpec Verif.PipelineModel Verif.PipelineProps Verif.PipelineAssembleProps.
Import ListNotations.

(** The strip of triangles 012, 123, 234, 345, 456; two boundary facets and one interior facet are tagged. *)
Definition given (p : nat) : list (list nat) := nth p [[[0;1;2]; [2;3;4]; [1;2;3]]; [[4;5;6]; [3;4;5]]] [].
Definition given_part (p : nat) : list nat := nth p [[1;0;1]; [0;0]] [].
Definition given_enum (p : nat) : list nat := nth p [[1;2;0]; [0;1]] [].
Definition given_tags (p : nat) : list (list nat) := nth p [[[5;6]]; [[0;1]; [2;3]]] [].
Definition given_bc (p : nat) : list nat := nth p [[1]; [3;2]] [].
Definition given_hash (f : list nat) : nat := nth 0 f 0 mod 2.
Definition given_benum (p : nat) : list nat := nth p [[0]; [0;1]] [].

Lemma given_mesh : mesh_given 2 2 given given_tags given_bc.
Proof.
  constructor.
  - constructor.
    + intros q e Hq He. destruct q as [|[|q]]; [| |lia]; cbn in He; repeat (destruct He as [<-|He]; [split; [reflexivity|repeat constructor]|]); destruct He.
    + cbn. repeat (constructor; [intro H; cbn in H; repeat (destruct H as [H|H]; [discriminate|]); destruct H|]). constructor.
    + intros f a b c Ha Hb Hc (L & S & Ia) (_ & _ & Ib) (_ & _ & Ic). destruct f as [|u [|v [|w f]]]; cbn in L; try lia.
      inversion S as [|? ? _ Fu]; subst. inversion Fu as [|? ? Huv _]; subst.
      cbn in Ha, Hb, Hc.
      assert (X : forall e, In e [[0;1;2]; [2;3;4]; [1;2;3]; [4;5;6]; [3;4;5]] -> incl [u;v] e -> exists n, e = [n; n+1; n+2] /\ n <= u /\ v <= n + 2).
      { intros e He I. pose proof (I u (or_introl eq_refl)) as Iu. pose proof (I v (or_intror (or_introl eq_refl))) as Iv.
        cbn in He. repeat (destruct He as [<-|He]; [cbn in Iu, Iv; match goal with |- exists n, ?x :: _ = _ /\ _ => exists x end; split; [reflexivity|lia]|]). destruct He. }
      destruct (X a Ha Ia) as (i & -> & A1 & A2). destruct (X b Hb Ib) as (j & -> & B1 & B2). destruct (X c Hc Ic) as (l & -> & C1 & C2).
      assert (i = j \/ i = l \/ j = l) as [->|[->| ->]] by lia; auto.
  - reflexivity.
  - cbn. repeat (constructor; [intro H; cbn in H; repeat (destruct H as [H|H]; [discriminate|]); destruct H|]). constructor.
  - intros p Hp. destruct p as [|[|p]]; [| |lia]; reflexivity.
Qed.
Lemma given_outcomes : outcomes 2 given_hash given given_part given_enum [1;0] given_tags given_benum [1;0]
  (fun _ _ l => rev l) (fun _ _ l => rev l) (fun _ _ => [1;0]) (fun _ => [0;1]).
Proof.
  constructor.
  - intro f. apply Nat.mod_upper_bound. lia.
  - intros p Hp. destruct p as [|[|p]]; [| |lia]; (split; [reflexivity|split; [split|]]).
    + cbn. apply perm_trans with [1; 0; 2]; [apply perm_skip, perm_swap|apply perm_swap].
    + cbn. repeat constructor; cbn; lia.
    + cbn. intros x Hx. lia.
    + cbn. auto.
    + cbn. repeat constructor; cbn; lia.
    + cbn. intros x Hx. lia.
  - intros p Hp. destruct p as [|[|p]]; [| |lia]; split; cbn; auto; repeat constructor; cbn; lia.
  - apply perm_swap.
  - apply perm_swap.
  - intros. apply Permutation_sym, Permutation_rev.
  - intros. apply Permutation_sym, Permutation_rev.
  - intros. apply perm_swap.
  - intros. auto.
Qed.
(** Rank 0 gets 456, 345, 234 and as ghost 123, rank 1 gets 012, 123 and as ghost 234; the facet 23
    between them has its tag on both. *)
Example given_run : exists m, local_topology 2 2 given_hash given given_part given_enum [1;0] given_tags given_bc given_benum [1;0]
    (fun _ _ l => rev l) (fun _ _ l => rev l) (fun _ _ => [1;0]) (fun _ => [0;1]) = Some m /\
  tm_elems (m 0) = [[4;5;6]; [3;4;5]; [2;3;4]; [1;2;3]] /\ tm_num_local (m 0) = 3 /\ num_interior 0 (m 0) = Some 2 /\
  tm_l2cg (m 0) = [0; 1; 2; 4] /\ tm_elems (m 1) = [[0;1;2]; [1;2;3]; [2;3;4]] /\ num_interior 1 (m 1) = Some 1 /\
  (exists i b, nth_error (tm_facets (m 1)) i = Some [2;3] /\ tm_bc (m 1) = Some b /\ nth_error b i = Some 2) /\
  exists E F bc, Permutation E (given 0 ++ given 1) /\ bc [0;1] = 3 /\ bc [5;6] = 1 /\ bc [1;2] = 0 /\ mesh_parts 2 2 E F bc m /\ dist_mesh 2 2 m.
Proof.
  destruct (local_meshes_fit_together 2 2 given_hash given given_part given_enum [1;0] given_tags given_bc given_benum [1;0]
    (fun _ _ l => rev l) (fun _ _ l => rev l) (fun _ _ => [1;0]) (fun _ => [0;1]) ltac:(lia) ltac:(lia) given_mesh given_outcomes)
    as (m & E & F & bc & Em & PE & [B1 B2] & MP & DM & _).
  exists m. split; auto.
  assert (C : (exists E F bc, Permutation E (given 0 ++ given 1) /\ bc [0;1] = 3 /\ bc [5;6] = 1 /\ bc [1;2] = 0 /\ mesh_parts 2 2 E F bc m /\ dist_mesh 2 2 m)).
  { exists E, F, bc. split; [exact PE|]. split; [apply (B1 1 0); auto|]. split; [apply (B1 0 0); auto|]. split; auto.
    apply B2. intros p Hp. destruct p as [|[|p]]; [| |lia]; cbn; intuition discriminate. }
  revert Em C. clear. match goal with |- ?x = Some m -> _ => set (y := x); vm_compute in y; subst y end. intro Em. inversion Em. subst m. clear Em. intro C.
  split; [reflexivity|]. split; [reflexivity|]. split; [reflexivity|]. split; [reflexivity|]. split; [reflexivity|]. split; [reflexivity|]. split; [|exact C].
  vm_compute. eexists; eexists. split; [|split; [reflexivity|]].
  1: instantiate (1 := 4); reflexivity. reflexivity.
Qed.

(** * A form, and the blocks two ranks and one rank compute *)
(** The blocks tell what they are for: a volume block is the sum of the vertices, a facet block the
    facet's first vertex, its boundary condition and the first vertices of row and column. *)
Definition toy : plex_form (list nat) :=
  {| w_volume x := Some [list_sum x];
     w_skeleton f bc x y := let v s := nth 0 s 0 in Some ([v f; bc; v x; v x], [v f; bc; v x; v y], [v f; bc; v y; v x], [v f; bc; v y; v y]);
     w_boundary f bc x := if bc =? 1 then None else Some (bc :: f);
     w_post x := None |}.
Lemma toy_symmetric : plex_symmetric toy.
Proof. intros f bc x y. reflexivity. Qed.
Definition toy_load : plex_load nat :=
  {| wv_volume x := Some (list_sum x); wv_skeleton f bc x y := if bc =? 2 then Some (nth 0 x 0, nth 0 y 0) else None; wv_boundary f bc x := Some bc; wv_post x := None |}.
Lemma toy_load_symmetric : load_symmetric toy_load.
Proof. intros f bc x y. cbn. destruct (bc =? 2); reflexivity. Qed.
(** A local operator that looks up the vertices. *)
Definition toy_op {B} (W : plex_form B) (m : topo_mesh) : mat_lop B :=
  let el e := nth e (tm_elems m) [] in let fc i := nth i (tm_facets m) [] in
  {| a_volume e := w_volume W (el e); a_skeleton i r := w_skeleton W (fc i) (fi_bc r) (el (fi_up0 r)) (el (fi_up1 r));
     a_boundary i r := w_boundary W (fc i) (fi_bc r) (el (fi_up0 r)); a_post e := w_post W (el e) |}.
Definition toy_rhs {B} (W : plex_load B) (m : topo_mesh) : vec_lop B :=
  let el e := nth e (tm_elems m) [] in let fc i := nth i (tm_facets m) [] in
  {| r_volume e := wv_volume W (el e); r_skeleton i r := wv_skeleton W (fc i) (fi_bc r) (el (fi_up0 r)) (el (fi_up1 r));
     r_boundary i r := wv_boundary W (fc i) (fi_bc r) (el (fi_up0 r)); r_post e := wv_post W (el e) |}.
Lemma toy_evaluates {B} k (W : plex_form B) m : evaluates_plex k W m (toy_op W m).
Proof.
  split.
  - intros e x _ Ex. cbn. rewrite (nth_error_nth _ _ _ Ex). auto.
  - intros i f r x y _ Ef _ Ex Ey. cbn. rewrite (nth_error_nth _ _ _ Ex), (nth_error_nth _ _ _ Ey), (nth_error_nth _ _ _ Ef). auto.
Qed.
Lemma toy_evaluates_load {B} k (W : plex_load B) m : evaluates_load k W m (toy_rhs W m).
Proof.
  split.
  - intros e x _ Ex. cbn. rewrite (nth_error_nth _ _ _ Ex). auto.
  - intros i f r x y _ Ef _ Ex Ey. cbn. rewrite (nth_error_nth _ _ _ Ex), (nth_error_nth _ _ _ Ey), (nth_error_nth _ _ _ Ef). auto.
Qed.
Definition given_facets : list (list nat) := [[0;1]; [0;2]; [1;2]; [1;3]; [2;3]; [2;4]; [3;4]; [3;5]; [4;5]; [4;6]; [5;6]].
Lemma given_all_facets : all_facets 2 (concat (map given (seq 0 2))) given_facets.
Proof.
  split; [unfold given_facets; repeat (constructor; [intro H; cbn in H; repeat (destruct H as [H|H]; [discriminate|]); destruct H|]); constructor|].
  intro f. split.
  - assert (X : forall u v x, u < v -> In x (concat (map given (seq 0 2))) -> In u x -> In v x ->
      length [u;v] = 2 /\ StronglySorted lt [u;v] /\ exists x, In x (concat (map given (seq 0 2))) /\ incl [u;v] x).
    { intros u v x Huv Hx Hu Hv. split; auto. split; [repeat (constructor; auto)|]. exists x. split; auto. intros w [<-|[<-|[]]]; auto. }
    intro H. cbn in H.
    repeat (destruct H as [<-|H]; [first [apply (X _ _ [0;1;2]); [lia|cbn; tauto|cbn; tauto|cbn; tauto]|apply (X _ _ [2;3;4]); [lia|cbn; tauto|cbn; tauto|cbn; tauto]
      |apply (X _ _ [1;2;3]); [lia|cbn; tauto|cbn; tauto|cbn; tauto]|apply (X _ _ [4;5;6]); [lia|cbn; tauto|cbn; tauto|cbn; tauto]|apply (X _ _ [3;4;5]); [lia|cbn; tauto|cbn; tauto|cbn; tauto]]|]).
    destruct H.
  - intros (L & S & x & Hx & I). destruct f as [|u [|v [|w f]]]; cbn in L; try lia.
    inversion S as [|? ? _ Fu]; subst. inversion Fu as [|? ? Huv _]; subst.
    pose proof (I u (or_introl eq_refl)) as Iu. pose proof (I v (or_intror (or_introl eq_refl))) as Iv.
    cbn in Hx. repeat (destruct Hx as [<-|Hx]; [cbn in Iu, Iv; repeat (destruct Iu as [<-|Iu]; [repeat (destruct Iv as [<-|Iv]; [try lia; cbn; tauto|]); destruct Iv|]); destruct Iu|]). destruct Hx.
Qed.
Definition given_m : nat -> topo_mesh :=
  match local_topology 2 2 given_hash given given_part given_enum [1;0] given_tags given_bc given_benum [1;0]
    (fun _ _ l => rev l) (fun _ _ l => rev l) (fun _ _ => [1;0]) (fun _ => [0;1]) with Some m => m | None => fun _ => topo_of (Build_local_faces _ [] [] [] 0 [] [] [] None None) (Build_local_faces _ [] [] [] 0 [] [] [] None None) end.
(** The two ranks together compute the blocks on the mesh that was given, among them the four of the
    facet 23 between them, tagged 2. *)
Example given_assembly : exists A fi, (forall p, p < 2 -> facet_table 2 (given_m p) = Some (fi p) /\
    map_opt (to_plex (given_m p)) (assemble (given_m p) (fi p) (toy_op toy (given_m p))) = Some (A p)) /\
  Permutation (A 0 ++ A 1) (plex_matrix (given 0 ++ given 1) given_facets (fun f => if list_eq_dec Nat.eq_dec f [5;6] then 1 else if list_eq_dec Nat.eq_dec f [0;1] then 3 else if list_eq_dec Nat.eq_dec f [2;3] then 2 else 0) toy) /\
  In ([2;3;4], [1;2;3], [2;2;2;1]) (A 0) /\ In ([1;2;3], [2;3;4], [2;2;1;2]) (A 1).
Proof.
  destruct (assembly_of_mesh_read 2 2 given_hash given given_part given_enum [1;0] given_tags given_bc given_benum [1;0]
    (fun _ _ l => rev l) (fun _ _ l => rev l) (fun _ _ => [1;0]) (fun _ => [0;1]) given_facets
    (fun f => if list_eq_dec Nat.eq_dec f [5;6] then 1 else if list_eq_dec Nat.eq_dec f [0;1] then 3 else if list_eq_dec Nat.eq_dec f [2;3] then 2 else 0)
    toy {| wv_volume _ := None; wv_skeleton _ _ _ _ := None; wv_boundary _ _ _ := None; wv_post _ := None |}
    ltac:(lia) ltac:(lia) given_mesh given_outcomes given_all_facets) as (m & fi & Em & Fi & X & _).
  - split.
    + intros p j f b Hp Hf Hb. destruct p as [|[|p]]; [| |lia]; destruct j as [|[|[|j]]]; cbn in Hf, Hb; try discriminate; injection Hf as <-; injection Hb as <-; reflexivity.
    + intros f N. pose proof (N 0 ltac:(lia)) as N0. pose proof (N 1 ltac:(lia)) as N1. cbn in N0, N1.
      destruct (list_eq_dec _ f [5;6]); [subst; tauto|]. destruct (list_eq_dec _ f [0;1]); [subst; tauto|]. destruct (list_eq_dec _ f [2;3]); [subst; tauto|]. reflexivity.
  - apply toy_symmetric.
  - intros f b x y. reflexivity.
  - assert (m = given_m) by (unfold given_m; rewrite Em; reflexivity). subst m. clear Em.
    destruct (X (fun p => toy_op toy (given_m p))) as (A & HA & PA); [intros p _; apply toy_evaluates|]. clear X.
    exists A, fi. split; [intros p Hp; auto|]. cbn [seq flat_map] in PA. rewrite app_nil_r in PA. split; [exact PA|]. clear PA.
    pose proof (HA 0 ltac:(lia)) as A0. pose proof (HA 1 ltac:(lia)) as A1. pose proof (Fi 0 ltac:(lia)) as F0. pose proof (Fi 1 ltac:(lia)) as F1. clear HA Fi.
    vm_compute in F0, F1. injection F0 as F0. injection F1 as F1. rewrite <- F0 in A0. rewrite <- F1 in A1. vm_compute in A0, A1. injection A0 as A0. injection A1 as A1.
    rewrite <- A0, <- A1. split; cbn; tauto.
Qed.
