(** C52: location of points on the fault. *)
Require Import Arith Bool Reals Lra Lia List.
From Verif Require Import Base LinAlg PlexModel PlexSpec PlexProofs PlexProps LocatorModel LocateProps.
Import ListNotations.
Local Open Scope R_scope.

Section Facets.
Variable solve : nat -> (nat -> nat -> R) -> (nat -> R) -> nat -> R.
Hypothesis Hsolve : exact_solver solve.
(** The dimension is S D. *)
Variable D : nat.
Variable X : nat -> pt -> pt.
Variable Jac : nat -> pt -> nat -> nat -> R.
Variable nodes : list pt.
Variables huge lowest atol rtol bbox_factor : R.
Variable max_its : nat.
Variable facet_vertices : nat -> nat -> pt.

(** x is the image, under the map of element e, of the point of local facet f that is closest to xi in
    reference coordinates. *)
Definition facet_point (e f : nat) (xi chi x : pt) : Prop :=
  in_ref_simplex D chi /\ (forall d, x d = X e (ref_to_general D (facet_vertices f) chi) d) /\
  forall y, in_simplex (S D) (S D) (facet_vertices f) y ->
    distance (S D) (ref_to_general D (facet_vertices f) chi) xi <= distance (S D) y xi.

Notation visf := (visit_facet solve (S D) X huge facet_vertices).
Notation visfs := (visit_facets solve (S D) X huge facet_vertices).

Lemma convex_split : forall f mu y, convex_coords (S D) (S D) (facet_vertices f) mu y ->
  in_ref_simplex D (fun d => mu (S d)) /\
  forall d, (d < S D)%nat -> ref_to_general D (facet_vertices f) (fun d => mu (S d)) d = y d.
Proof.
  intros f mu y (Hmu & H1 & Hy). rewrite rsum_head in H1. split.
  - split; [intros; apply Hmu; lia |]. specialize (Hmu 0%nat ltac:(lia)). lra.
  - intros d Hd. rewrite Hy by auto. rewrite ref_value. unfold weighted. rewrite rsum_head.
    replace (1 - rsum D (fun d => mu (S d))) with (mu 0%nat) by lra. reflexivity.
Qed.
Lemma distance_ext : forall n a b c, (forall d, (d < n)%nat -> a d = b d) -> distance n a c = distance n b c.
Proof. intros. unfold distance, distance2. f_equal. apply rsum_ext. intros d Hd. rewrite H; auto. Qed.

Lemma visit_facet_cases : forall point e xi r k f local r',
  affinely_independent (S D) (S D) (facet_vertices local) ->
  distance2 (S D) (facet_vertices local 0%nat) xi < huge ->
  visf point e xi r (k, (f, local)) = Some r' ->
  exists chi x, facet_point e local xi chi x /\
    ((distance (S D) x point < b_dist r /\
      r' = {| b_no := Some f; b_dist := distance (S D) x point; b_chi := chi; b_x := x |}) \/
     (b_dist r <= distance (S D) x point /\ r' = r)).
Proof.
  intros point e xi r k f local r' Hi Hh E. unfold visit_facet in E.
  destruct (closest_point solve (S D) (S D) (facet_vertices local) huge xi Hsolve Hi) as (c & Ec & Hc & Hd & Hmin).
  { exists 0%nat. split; [lia | auto]. }
  rewrite Ec in E. cbn [bind] in E. rewrite pnorm_distance in E.
  destruct (convex_split local (bary c) (PlexModel.xi c) Hc) as [Hr Hx].
  exists (fun d => bary c (S d)), (X e (facet_param (S D) facet_vertices local (fun d => bary c (S d)))).
  unfold facet_param in *. replace (S D - 1)%nat with D in * by lia.
  split.
  - split; auto. split; [reflexivity |]. intros y Hy. rewrite (distance_ext (S D) _ (PlexModel.xi c)) by auto.
    rewrite <- Hd. auto.
  - destruct (Rlt_dec _ (b_dist r)) as [C | C]; [left | right]; split; auto; try congruence. lra.
Qed.

Lemma visit_facets_spec : forall point e xi entries r0 r,
  (forall k f local, In (k, (f, local)) entries ->
     affinely_independent (S D) (S D) (facet_vertices local) /\ distance2 (S D) (facet_vertices local 0%nat) xi < huge) ->
  visfs point e xi entries r0 = Some r ->
  b_dist r <= b_dist r0 /\
  (forall k f local, In (k, (f, local)) entries ->
     exists chi x, facet_point e local xi chi x /\ b_dist r <= distance (S D) x point) /\
  (r = r0 \/ exists k f local, In (k, (f, local)) entries /\ b_no r = Some f /\ b_dist r < b_dist r0 /\
     facet_point e local xi (b_chi r) (b_x r) /\ b_dist r = distance (S D) (b_x r) point).
Proof.
  intros point e xi entries. induction entries as [| [k [f local]] t IH]; intros r0 r Hok E; cbn [visit_facets] in E.
  - injection E as <-. split; [lra |]. split; auto. intros k f local [].
  - destruct (visf point e xi r0 (k, (f, local))) as [r1 |] eqn:E1; [| discriminate]. cbn [bind] in E.
    destruct (Hok k f local (or_introl eq_refl)) as [Hi Hh].
    destruct (visit_facet_cases point e xi r0 k f local r1 Hi Hh E1) as (chi & x & Hf & Hcase).
    destruct (IH r1 r) as (A & B & C); auto; [intros; eapply Hok; right; eauto |].
    assert (Hle : b_dist r1 <= b_dist r0 /\ b_dist r1 <= distance (S D) x point).
    { destruct Hcase as [[H ->] | [H ->]]; cbn; lra. }
    split; [lra |]. split.
    + intros k' f' local' [Eq | Hin]; [| eauto]. injection Eq as <- <- <-. exists chi, x. split; auto. lra.
    + destruct C as [-> | (k' & f' & local' & Hin & Hno & Hlt & Hfp & Hd)].
      * destruct Hcase as [[H ->] | [_ ->]]; [right | left; auto].
        exists k, f, local. split; [left; auto |]. cbn. auto.
      * right. exists k', f', local'. split; [right; auto |]. split; auto. split; [lra | auto].
Qed.

Lemma from_key_in : forall k bnds b, In b bnds -> fst b = k -> In b (from_key k bnds).
Proof.
  intros k bnds b Hin <-. induction bnds as [| a t IH]; [destruct Hin |]. cbn.
  destruct (Nat.eqb_spec (fst a) (fst b)) as [E | E]; [auto |]. destruct Hin as [-> | Hin]; [contradiction | auto].
Qed.
Lemma from_key_sub : forall k bnds b, In b (from_key k bnds) -> In b bnds.
Proof.
  intros k bnds b. induction bnds as [| a t IH]; cbn; auto. destruct (fst a =? k)%nat; auto.
Qed.

(** C52: the facet found.  l is the result of the search for the closest element, els and bnds are the
    fault elements and their facets in the order of iteration of the containers.  If no other element's
    facet follows the facets of the element found, then the result is a fault facet of that element:
    chi are facet coordinates in the reference facet, x the image of the point of the local facet
    that is closest in reference coordinates, and no other fault facet of that element gives a smaller
    distance. *)
Theorem facet_located : forall els bnds point l e r,
  locate solve (S D) X Jac nodes huge lowest atol rtol bbox_factor max_its point els = Some l ->
  l_no l = Some e ->
  (forall k f local, In (k, (f, local)) bnds ->
     affinely_independent (S D) (S D) (facet_vertices local) /\
     distance2 (S D) (facet_vertices local 0%nat) (l_xi l) < huge) ->
  (exists before mine, bnds = before ++ mine /\ (forall b, In b before -> fst b <> e) /\ (forall b, In b mine -> fst b = e)) ->
  blocate solve (S D) X Jac nodes huge lowest atol rtol bbox_factor max_its facet_vertices els bnds point = Some r ->
  (forall f local, In (e, (f, local)) bnds ->
     exists chi x, facet_point e local (l_xi l) chi x /\ b_dist r <= distance (S D) x point) /\
  (b_no r = None /\ b_dist r = huge \/
   exists f local, b_no r = Some f /\ In (e, (f, local)) bnds /\
     facet_point e local (l_xi l) (b_chi r) (b_x r) /\ b_dist r = distance (S D) (b_x r) point).
Proof.
  intros els bnds point l e r El Eno Hok (before & mine & Eb & Hbef & Hmine) E. unfold blocate in E. rewrite El in E.
  cbn [bind] in E. rewrite Eno in E.
  assert (Hkeys : forall b, In b (from_key e bnds) -> fst b = e).
  { intros b. subst bnds. clear - Hbef Hmine. induction before as [| a t IH]; cbn [app from_key].
    - intros Hb. apply Hmine. eapply from_key_sub; eauto.
    - cbn. destruct (Nat.eqb_spec (fst a) e) as [C | _]; [exfalso; apply (Hbef a); [left; auto | auto] |].
      apply IH. intros; apply Hbef; right; auto. }
  apply visit_facets_spec in E; [| intros k f local Hin; eapply Hok; eapply from_key_sub; eauto].
  destruct E as (_ & B & C). split.
  - intros f local Hin. eapply B. apply from_key_in; [eauto | reflexivity].
  - destruct C as [-> | (k & f & local & Hin & Hno & _ & Hf & Hd)]; [left; split; reflexivity |].
    right. exists f, local. pose proof (Hkeys _ Hin) as K. cbn in K. subst k. split; auto.
    split; [eapply from_key_sub; eauto | auto].
Qed.
End Facets.
Print Assumptions facet_located.

(** ** A finding: the loop runs over the facets of other elements as well *)
(** The facets of the reference triangle. *)
Definition tri_facets (f i : nat) : pt :=
  ref_vertices_of (match f, i with 0%nat, 0%nat => 0 | 0%nat, _ => 1 | 1%nat, 0%nat => 0 | 1%nat, _ => 2 | _, 0%nat => 1 | _, _ => 2 end)%nat.
Lemma tri_facets_independent : forall f, affinely_independent 2 2 (tri_facets f).
Proof.
  intros f c H1 Hd i Hi. pose proof (Hd 0%nat ltac:(lia)) as E0. pose proof (Hd 1%nat ltac:(lia)) as E1.
  unfold weighted, tri_facets, ref_vertices_of in E0, E1. cbn in E0, E1, H1.
  destruct f as [| [| f]]; cbn in E0, E1; destruct i as [| [| i]]; try lra; lia.
Qed.
Lemma middle_located : exists l,
  locate gauss 2 (affine_map 2 two_tri) (affine_jac two_tri) tri_nodes 1000 (-1000) (1 / 10000000000) (1 / 1000000000)
    (3 / 2) 100 (xy (1 / 2) (1 / 2)) [0%nat; 1%nat] = Some l /\
  l_no l = Some 0%nat /\ forall d, (d < 2)%nat -> l_xi l d = 1 / 2.
Proof.
  set (point := xy (1 / 2) (1 / 2)).
  destruct (locate_affine gauss gauss_exact 1 two_tri 1000 (-1000) (1 / 10000000000) (1 / 1000000000) (3 / 2) tri_nodes
    tri_nodes_ok ltac:(lra) ltac:(lra) ltac:(lra) 100 ltac:(lia) point [0%nat; 1%nat]) as (l & El & Hin & _).
  { intros e He. split; [apply two_tri_independent |]. split.
    - intros xi0 Hx. pose proof (Hx 0%nat ltac:(lia)) as E0. pose proof (Hx 1%nat ltac:(lia)) as E1.
      rewrite two_tri_map in E0, E1 by lia. unfold point in E0, E1. cbn [xy] in E0, E1.
      destruct He as [<- | [<- | []]]; cbn in E0, E1; unfold distance2, ref_vertices_of; cbn; nra.
    - rewrite two_tri_map by lia. unfold third, point, xy. destruct He as [<- | [<- | []]]; cbn; lra. }
  { lra. }
  destruct Hin as (e & Eno & He & Hsim & _ & Hxi & Hx).
  { exists 0%nat. split; [left; auto |]. apply unit_contains; lra. }
  assert (e = 0%nat).
  { destruct He as [<- | [<- | []]]; auto. exfalso. destruct Hsim as (mu & Hmu & H1 & Hy).
    specialize (Hy 0%nat ltac:(lia)). unfold weighted, two_tri, ref_vertices_of, point, xy in Hy. cbn in Hy, H1.
    pose proof (Hmu 1%nat ltac:(lia)). lra. }
  subst e. clear He Hsim.
  assert (Hl : forall d, (d < 2)%nat -> l_xi l d = 1 / 2).
  { intros d Hd. destruct (Hx d Hd) as [_ Hxd]. change (affine_map 2 two_tri 0 (l_xi l) d = point d) in Hxd.
    rewrite two_tri_map in Hxd by auto. cbn in Hxd. unfold point, xy in Hxd. destruct d; lra. }
  exists l. auto.
Qed.
(** The hypotheses of [facet_located] are met when the facets of element 0 come last. *)
Example facet_located_ex : exists r,
  blocate gauss 2 (affine_map 2 two_tri) (affine_jac two_tri) tri_nodes 1000 (-1000) (1 / 10000000000) (1 / 1000000000)
    (3 / 2) 100 tri_facets [0%nat; 1%nat] [(1, (9, 2)); (0, (7, 0))]%nat (xy (1 / 2) (1 / 2)) = Some r /\
  (b_no r = None \/ b_no r = Some 7%nat).
Proof.
  destruct middle_located as (l & El & Eno & Hl).
  assert (Hov : forall f, distance2 2 (tri_facets f 0) (l_xi l) < 1000).
  { intros f. unfold distance2. cbn [rsum]. rewrite !Hl by lia. unfold tri_facets, ref_vertices_of.
    destruct f as [| [| f]]; cbn; lra. }
  assert (Htot : exists r, blocate gauss 2 (affine_map 2 two_tri) (affine_jac two_tri) tri_nodes 1000 (-1000) (1 / 10000000000) (1 / 1000000000)
    (3 / 2) 100 tri_facets [0%nat; 1%nat] [(1, (9, 2)); (0, (7, 0))]%nat (xy (1 / 2) (1 / 2)) = Some r).
  { unfold blocate. rewrite El. cbn [bind]. rewrite Eno. cbn [from_key fst Nat.eqb visit_facets]. unfold visit_facet.
    destruct (closest_point gauss 2 2 (tri_facets 0) 1000 (l_xi l) gauss_exact (tri_facets_independent 0)) as (c0 & -> & _).
    { exists 0%nat. split; [lia | apply Hov]. }
    cbn [bind]. eauto. }
  destruct Htot as (r & Er). exists r. split; auto.
  pose proof (fun H1 H2 => facet_located gauss gauss_exact 1 _ _ _ _ _ _ _ _ _ _ _ _ _ _ _ r El Eno H1 H2 Er) as F.
  destruct F as [_ [[H _] | (f & local & Hf & Hin & _)]].
  - intros k f local Hin. split; [apply tri_facets_independent | apply Hov].
  - exists [(1, (9, 2))]%nat, [(0, (7, 0))]%nat. split; [reflexivity |].
    split; intros b [<- | []]; cbn; lia.
  - auto.
  - right. destruct Hin as [Eq | [Eq | []]]; congruence.
Qed.
(** Facet 7 is the bottom edge of element 0 (the unit triangle), facet 9 the diagonal edge of element 1,
    which is far away.  For the point (1/2, 1/2) the locator returns facet 9, although the position it
    returns is no point of facet 9 but of element 0, and the distance to facet 9 is more than 10. *)
Theorem foreign_facet_refuted : exists point r,
  blocate gauss 2 (affine_map 2 two_tri) (affine_jac two_tri) tri_nodes 1000 (-1000) (1 / 10000000000) (1 / 1000000000)
    (3 / 2) 100 tri_facets [0%nat; 1%nat] [(0, (7, 0)); (1, (9, 2))]%nat point = Some r /\
  b_no r = Some 9%nat /\ b_dist r = 0 /\ (forall d, (d < 2)%nat -> b_x r d = point d) /\
  forall y, in_simplex 2 2 (fun i => affine_map 2 two_tri 1 (tri_facets 2 i)) y -> 10 <= distance 2 y point.
Proof.
  set (point := xy (1 / 2) (1 / 2)).
  destruct middle_located as (l & El & Eno & Hl). fold point in El.
  assert (Htot : exists r, blocate gauss 2 (affine_map 2 two_tri) (affine_jac two_tri) tri_nodes 1000 (-1000) (1 / 10000000000) (1 / 1000000000)
    (3 / 2) 100 tri_facets [0%nat; 1%nat] [(0, (7, 0)); (1, (9, 2))]%nat point = Some r).
  { unfold blocate. rewrite El. cbn [bind]. rewrite Eno. cbn [from_key fst Nat.eqb visit_facets].
    unfold visit_facet.
    destruct (closest_point gauss 2 2 (tri_facets 0) 1000 (l_xi l) gauss_exact (tri_facets_independent 0)) as (c0 & -> & _).
    { exists 0%nat. split; [lia |]. unfold distance2. cbn [rsum]. rewrite !Hl by lia. unfold tri_facets, ref_vertices_of. cbn. lra. }
    destruct (closest_point gauss 2 2 (tri_facets 2) 1000 (l_xi l) gauss_exact (tri_facets_independent 2)) as (c2 & -> & _).
    { exists 0%nat. split; [lia |]. unfold distance2. cbn [rsum]. rewrite !Hl by lia. unfold tri_facets, ref_vertices_of. cbn. lra. }
    cbn [bind]. eauto. }
  destruct Htot as (r & Er). exists point, r. split; [exact Er |].
  unfold blocate in Er. rewrite El in Er. cbn [bind] in Er. rewrite Eno in Er.
  change (from_key 0 [(0, (7, 0)); (1, (9, 2))]%nat) with [(0, (7, 0)); (1, (9, 2))]%nat in Er.
  apply (visit_facets_spec gauss gauss_exact 1) in Er.
  2: { intros k f local Hin. split; [apply tri_facets_independent |].
       unfold distance2. cbn [rsum]. rewrite !Hl by lia. unfold tri_facets, ref_vertices_of.
       destruct Hin as [Eq | [Eq | []]]; injection Eq as <- <- <-; cbn; lra. }
  cbn [b_dist] in Er. destruct Er as (_ & B & C).
  assert (Hface : forall local chi x, facet_point 1 (affine_map 2 two_tri) tri_facets 0 local (l_xi l) chi x ->
    (local = 2%nat -> distance 2 x point = 0 /\ forall d, (d < 2)%nat -> x d = point d) /\
    (local = 0%nat -> x 1%nat = 0)).
  { intros local chi x (Hchi & Hxx & Hmin). split; intros ->.
    - assert (Hz : distance 2 (ref_to_general 1 (tri_facets 2) chi) (l_xi l) <= 0).
      { replace 0 with (distance 2 point (l_xi l)).
        - apply Hmin. exists (fun _ => / 2). split; [intros; lra |]. split; [cbn; lra |].
          intros [| [| d]] Hd; [| | lia]; unfold weighted, tri_facets, ref_vertices_of, point, xy; cbn; lra.
        - apply (dist_zero 1). intros d Hd. rewrite Hl by lia. unfold point, xy. destruct d; reflexivity. }
      assert (Hz' : distance 2 (ref_to_general 1 (tri_facets 2) chi) (l_xi l) = 0).
      { apply Rle_antisym; auto. apply sqrt_pos. }
      pose proof (dist_zero_inv 1 _ _ Hz') as Hq.
      assert (Hp : forall d, (d < 2)%nat -> x d = point d).
      { intros d Hd. rewrite Hxx, two_tri_map by auto. rewrite Hq, Hl by lia. unfold point, xy. cbn. destruct d; lra. }
      split; auto. apply (dist_zero 1). auto.
    - rewrite Hxx, two_tri_map by lia. rewrite ref_value. unfold tri_facets, ref_vertices_of. cbn. ring. }
  destruct (B 1%nat 9%nat 2%nat (or_intror (or_introl eq_refl))) as (chi2 & x2 & Hf2 & Hle).
  destruct (Hface _ _ _ Hf2) as [H2 _]. destruct (H2 eq_refl) as [Hz2 _].
  destruct C as [-> | (k & f & local & Hin & Hno & _ & Hf & Hd)]; [cbn in Hle; lra |].
  assert (Hdz : b_dist r = 0).
  { assert (0 <= b_dist r) by (rewrite Hd; apply sqrt_pos). lra. }
  destruct Hin as [Eq | [Eq | []]]; injection Eq as <- <- <-.
  - exfalso. destruct (Hface _ _ _ Hf) as [_ H0]. specialize (H0 eq_refl). rewrite Hdz in Hd. symmetry in Hd.
    pose proof (dist_zero_inv 1 _ _ Hd 1%nat ltac:(lia)) as Q. unfold point, xy in Q. lra.
  - destruct (Hface _ _ _ Hf) as [H2' _]. destruct (H2' eq_refl) as [_ Hp]. split; auto. split; auto. split; auto.
    intros y (mu & Hmu & H1 & Hy). pose proof (Hy 0%nat ltac:(lia)) as Y0. pose proof (Hy 1%nat ltac:(lia)) as Y1.
    unfold weighted in Y0, Y1. cbn [rsum] in Y0, Y1, H1. rewrite !two_tri_map in Y0, Y1 by lia.
    unfold tri_facets, ref_vertices_of in Y0, Y1. cbn in Y0, Y1.
    pose proof (Hmu 0%nat ltac:(lia)). pose proof (Hmu 1%nat ltac:(lia)).
    unfold distance. rewrite <- (sqrt_Rsqr 10) by lra. apply sqrt_le_1_alt. unfold Rsqr, distance2. cbn [rsum].
    unfold point, xy. nra.
Qed.
Print Assumptions foreign_facet_refuted.
