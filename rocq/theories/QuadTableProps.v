(** C85: the quadrature rules of the tables are what they are taken for. *)
Require Import List Arith Bool ZArith Uint63 Lia Reals Lra.
Require Import Verif.LinAlg Verif.BasisModel Verif.BasisSpec Verif.JacobiProofs Verif.IntegralSpec Verif.QuadratureModel Verif.QuadratureSpec
  Verif.QuadratureProofs Verif.QuadratureProps Verif.RootsProps Verif.QuadTableModel Verif.QuadTableSpec Verif.QuadTableTri Verif.QuadTableTet Verif.QuadTableJS
  Verif.QuadTableCheck Verif.QuadTableProofs Verif.QuadTableSound.
Import ListNotations.
Local Open Scope R_scope.

Lemma tri_checked : forallb (fun kr => check_rule 2 1 2 4 (fst kr) (snd kr)) WV_Tri = true.
Proof. vm_compute. reflexivity. Qed.
Lemma tet_checked : forallb (fun kr => check_rule 3 1 2 8 (fst kr) (snd kr)) WV_Tet = true.
Proof. vm_compute. reflexivity. Qed.
Lemma js_checked : forallb (fun kr => check_rule 3 0 1 6 (fst kr) (snd kr)) JS_Tet = true.
Proof. vm_compute. reflexivity. Qed.
Lemma table_sound : forall D a b wb tr t, (D = 2 \/ D = 3)%nat -> (forall p, snd (tr p) = snd p / IZR (to_Z wb)) ->
  (forall p d, (d < D)%nat -> fst (tr p) d = (IZR (to_Z a) + fst p d) / IZR (to_Z b)) ->
  forallb (fun kr => check_rule D a b wb (fst kr) (snd kr)) t = true ->
  forall k r, In (k, r) (as_table t) -> proper_rule D (map tr r) /\ nearly_exact (2 / 10 ^ 15) D (map tr r) k.
Proof.
  intros D a b wb tr t HD Hw Hx Hc k r Hi. unfold as_table in Hi. apply in_map_iff in Hi. destruct Hi as ([k' raw] & E & Hi).
  cbn [fst snd] in E. injection E as <- <-. rewrite forallb_forall in Hc. specialize (Hc _ Hi). cbn [fst snd] in Hc.
  exact (check_rule_sound D a b wb tr HD Hw Hx k' raw Hc).
Qed.

(** C85a: every rule of the triangle table, mapped to the reference triangle, has its points in the triangle and positive
    weights, and integrates every polynomial up to the rule's order with an error of at most 2e-15 times the sum
    of the magnitudes of the coefficients. *)
Theorem triangle_rules_accurate : forall k r, In (k, r) (as_table WV_Tri) ->
  proper_rule 2 (map (wv_transform 2) r) /\ nearly_exact (2 / 10 ^ 15) 2 (map (wv_transform 2) r) k.
Proof.
  apply (table_sound 2 1 2 4); [lia | | | exact tri_checked].
  - intros p. change (to_Z 4) with 4%Z. unfold wv_transform. cbn [snd]. rewrite INR_IZR_INZ. reflexivity.
  - intros p d Hd. unfold wv_transform. cbn [fst]. apply Nat.ltb_lt in Hd. rewrite Hd. change (to_Z 1) with 1%Z. change (to_Z 2) with 2%Z. field.
Qed.
Print Assumptions triangle_rules_accurate.
(** C85b: likewise for the first table of rules on tetrahedra. *)
Theorem tetrahedron_rules_accurate : forall k r, In (k, r) (as_table WV_Tet) ->
  proper_rule 3 (map (wv_transform 3) r) /\ nearly_exact (2 / 10 ^ 15) 3 (map (wv_transform 3) r) k.
Proof.
  apply (table_sound 3 1 2 8); [lia | | | exact tet_checked].
  - intros p. change (to_Z 8) with 8%Z. unfold wv_transform. cbn [snd]. rewrite INR_IZR_INZ. reflexivity.
  - intros p d Hd. unfold wv_transform. cbn [fst]. apply Nat.ltb_lt in Hd. rewrite Hd. change (to_Z 1) with 1%Z. change (to_Z 2) with 2%Z. field.
Qed.
Print Assumptions tetrahedron_rules_accurate.
(** C85c: and for the second one. *)
Theorem high_order_tetrahedron_rules_accurate : forall k r, In (k, r) (as_table JS_Tet) ->
  proper_rule 3 (map js_transform r) /\ nearly_exact (2 / 10 ^ 15) 3 (map js_transform r) k.
Proof.
  apply (table_sound 3 0 1 6); [lia | | | exact js_checked].
  - intros p. reflexivity.
  - intros p d Hd. unfold js_transform. cbn [fst]. change (to_Z 0) with 0%Z. change (to_Z 1) with 1%Z. field.
Qed.
Print Assumptions high_order_tetrahedron_rules_accurate.

(** C85d: the tables are sorted by order, every rule has as many points as weights, every point has as many
    coordinates as the dimension. *)
Definition well_formed (D : nat) (t : raw_table) : Prop :=
  (forall i j, (i < j < length t)%nat -> (nth i (map fst t) 0 < nth j (map fst t) 0)%nat)
  /\ forall k ps ws, In (k, (ps, ws)) t -> length ps = length ws /\ (0 < length ps)%nat /\ forall p, In p ps -> length p = D.
Fixpoint increasing (l : list nat) : bool := match l with x :: (y :: _) as m => (x <? y)%nat && increasing m | _ => true end.
Lemma increasing_spec : forall l, increasing l = true -> forall i j, (i < j < length l)%nat -> (nth i l 0 < nth j l 0)%nat.
Proof.
  induction l as [| x l IH]; intros H i j Hij; [cbn in Hij; lia |].
  assert (Hl : increasing l = true) by (destruct l; [reflexivity | cbn [increasing] in H; apply andb_prop in H; apply H]).
  assert (Hx : forall j, (j < length l)%nat -> (x < nth j l 0)%nat).
  { intros j' Hj. destruct l as [| y l]; [cbn in Hj; lia |]. cbn [increasing] in H. apply andb_prop in H. destruct H as [H _]. apply Nat.ltb_lt in H.
    destruct j' as [| j']; [exact H |]. pose proof (IH Hl 0%nat (S j') ltac:(lia)) as Q. change (nth 0 (y :: l) 0%nat) with y in Q. lia. }
  destruct i as [| i], j as [| j]; cbn [nth length] in *; try lia; [apply Hx; lia | apply IH; [exact Hl | lia]].
Qed.
Definition formed (D : nat) (t : raw_table) : bool := increasing (map fst t) &&
  forallb (fun kr : nat * raw_rule => (length (fst (snd kr)) =? length (snd (snd kr)))%nat && (0 <? length (fst (snd kr)))%nat && forallb (fun p : list decimal => (length p =? D)%nat) (fst (snd kr))) t.
Lemma formed_spec : forall D t, formed D t = true -> well_formed D t.
Proof.
  intros D t H. apply andb_prop in H. destruct H as [H1 H2]. split.
  - intros i j Hij. apply increasing_spec; [exact H1 | rewrite map_length; exact Hij].
  - intros k ps ws Hi. rewrite forallb_forall in H2. specialize (H2 _ Hi). cbn [fst snd] in H2. apply andb_prop in H2. destruct H2 as [H2 H3].
    apply andb_prop in H2. destruct H2 as [H2 H4]. apply Nat.eqb_eq in H2. apply Nat.ltb_lt in H4. rewrite forallb_forall in H3.
    split; [exact H2 |]. split; [exact H4 |]. intros p Hp. apply Nat.eqb_eq. now apply H3.
Qed.
Theorem tables_well_formed : well_formed 2 WV_Tri /\ well_formed 3 WV_Tet /\ well_formed 3 JS_Tet.
Proof. repeat (split; [apply formed_spec; vm_compute; reflexivity |]). apply formed_spec; vm_compute; reflexivity. Qed.
Print Assumptions tables_well_formed.

(** ** The rule that is chosen *)
Lemma nearly_le : forall eps D r d d', (d' <= d)%nat -> nearly_exact eps D r d -> nearly_exact eps D r d'.
Proof. intros eps D r d d' Hd H l Hl. apply H. intros c p q s Hi. destruct (Hl c p q s Hi) as (A1 & A2). split; [lia | exact A2]. Qed.
Lemma poly_power : forall D e n, (e < D)%nat -> polynomial D n (fun xi => xi e ^ n).
Proof.
  intros D e n He. induction n as [| n IH]; [apply (poly_const D 1 0) |].
  apply (poly_eq D _ (fun xi => xi e * xi e ^ n)); [reflexivity |]. change (S n) with (1 + n)%nat. apply poly_mult; [now apply poly_coord | exact IH].
Qed.
Lemma poly_mono : forall D d p q r, (0 < D)%nat -> expo D d (p, q, r) -> polynomial D d (mono p q r).
Proof.
  intros D d p q r HD (H & Hq & Hr). apply (poly_le D (p + q + r)); [exact H |]. unfold mono.
  apply (poly_mult D (p + q) r (fun xi => xi 0%nat ^ p * xi 1%nat ^ q)); [apply (poly_mult D p q (fun xi => xi 0%nat ^ p)) |].
  - apply poly_power. lia.
  - destruct (le_lt_dec 2 D); [apply poly_power; lia |]. rewrite Hq by lia. apply (poly_const D 1 0).
  - destruct (le_lt_dec 3 D); [apply poly_power; lia |]. rewrite Hr by lia. apply (poly_const D 1 0).
Qed.
Lemma exact_nearly : forall eps D r d, 0 <= eps -> (D = 1 \/ D = 2 \/ D = 3)%nat -> exact_on_simplex D r d -> nearly_exact eps D r d.
Proof.
  intros eps D r d He HD H. apply near_monos; [exact HD |]. intros p q s Hp.
  pose proof (H _ (poly_mono D d p q s ltac:(lia) Hp)) as A. pose proof (simplex_mono D d p q s ltac:(lia) Hp) as B.
  rewrite (simplex_integral_unique D _ _ _ HD A B). rewrite Rminus_diag_eq by reflexivity. rewrite Rabs_R0. exact He.
Qed.
Lemma min_size_pick : forall m cs c, (exists c', In c' (c :: cs) /\ rc_size c' m <> None) ->
  exists c' s, In c' (c :: cs) /\ minSizeSimplexQuadratureRule c cs m = rc_get c' m /\ rc_size c' m = Some s
    /\ forall c'' s', In c'' (c :: cs) -> rc_size c'' m = Some s' -> (s <= s')%nat.
Proof.
  intros m. induction cs as [| c2 cs IH]; intros c (c0 & Hi & Hs); cbn [minSizeSimplexQuadratureRule].
  - destruct Hi as [-> | []]. destruct (rc_size c0 m) as [s |] eqn:E; [| congruence]. exists c0, s. split; [left; reflexivity |]. split; [reflexivity |]. split; [reflexivity || exact E |].
    intros c'' s' [<- | []] E'. assert (s = s') by congruence. lia.
  - destruct (size_le (rc_size c m) (rc_size c2 m)) eqn:EL.
    + destruct (IH c) as (c' & s & A1 & A2 & A3 & A4).
      * destruct Hi as [<- | [<- | Hi]]; [exists c; split; [left; reflexivity | exact Hs] | | exists c0; split; [right; exact Hi | exact Hs]].
        exists c. split; [left; reflexivity |]. intros C. rewrite C in EL. destruct (rc_size c2 m); [discriminate | congruence].
      * exists c', s. split; [destruct A1 as [<- | A1]; cbn; auto |]. split; [exact A2 |]. split; [exact A3 |].
        intros c'' s' [<- | [<- | H]] E.
        -- apply (A4 c s'); cbn; auto.
        -- rewrite E in EL. destruct (rc_size c m) as [s1 |] eqn:E1; [| discriminate]. cbn in EL. apply Nat.leb_le in EL.
           pose proof (A4 c s1 (or_introl eq_refl) E1). lia.
        -- apply (A4 c'' s'); cbn; auto.
    + destruct (IH c2) as (c' & s & A1 & A2 & A3 & A4).
      * exists c2. split; [left; reflexivity |]. intros C. rewrite C in EL. destruct (rc_size c m); discriminate.
      * exists c', s. split; [destruct A1 as [<- | A1]; cbn; auto |]. split; [exact A2 |]. split; [exact A3 |].
        intros c'' s' [<- | [<- | H]] E.
        -- rewrite E in EL. destruct (rc_size c2 m) as [s2 |] eqn:E2; [| discriminate]. cbn in EL. apply Nat.leb_gt in EL.
           pose proof (A4 c2 s2 (or_introl eq_refl) E2). lia.
        -- apply (A4 c2 s'); cbn; auto.
        -- apply (A4 c'' s'); cbn; auto.
Qed.
(** The rule a class delivers for order m. *)
Definition serves (D m s : nat) (r : simplex_rule) : Prop :=
  sr_size r = s /\ (m <= sr_order r)%nat /\ proper_rule D (sr_points r) /\ nearly_exact (2 / 10 ^ 15) D (sr_points r) m.
Lemma table_serves : forall D m s t tr, (forall k r, In (k, r) t -> proper_rule D (map tr r) /\ nearly_exact (2 / 10 ^ 15) D (map tr r) k) ->
  rc_size (tabulated_class t tr) m = Some s -> serves D m s (rc_get (tabulated_class t tr) m).
Proof.
  intros D m s t tr Ht E. unfold tabulated_class in *. cbn [rc_size rc_get] in *.
  destruct (lower_bound t m) as [[k r] |] eqn:L; [| discriminate]. injection E as <-.
  destruct (lower_bound_spec t m k r L) as [Hi Hm]. destruct (Ht k r Hi) as [A1 A2].
  split; [unfold sr_size; cbn [sr_points]; now rewrite map_length |]. split; [exact Hm |]. split; [exact A1 | exact (nearly_le _ _ _ _ _ Hm A2)].
Qed.
Lemma tensor_serves : forall root D m, (forall a, (a <= 2)%nat -> jacobi_roots (1 + m / 2) a 0 (root (1 + m / 2)%nat a 0%nat)) -> (D = 1 \/ D = 2 \/ D = 3)%nat ->
  serves D m (tensor_size D m) (TensorProductRule root D m).
Proof.
  intros root D m Hr HD. destruct (tensor_product_rule_exact root D m Hr HD) as (A1 & A2 & A3). split; [exact A3 |]. split; [exact A2 |]. split.
  - intros x w Hi. destruct (tensor_product_rule_inside root D m Hr HD x w Hi) as (B1 & B2 & B3). split; [split; [intros d Hd; left; now apply B2 | lra] | exact B1].
  - apply (nearly_le _ _ _ (sr_order (TensorProductRule root D m))); [exact A2 |]. apply exact_nearly; [apply Rmult_le_pos; [lra | left; apply Rinv_0_lt_compat, pow_lt; lra] | exact HD | exact A1].
Qed.
Lemma tensor_size_pow : forall D m, tensor_size D m = ((1 + m / 2) ^ D)%nat.
Proof.
  intros D m. unfold tensor_size. change (pointsPerDim m) with (1 + m / 2)%nat. generalize (1 + m / 2)%nat. intros n.
  assert (F : forall l acc, fold_left (fun s (_ : nat) => (s * n)%nat) l acc = (acc * n ^ length l)%nat).
  { induction l as [| e l IH]; intros acc; cbn [fold_left length]; [cbn; lia |]. rewrite IH. cbn. ring. }
  rewrite F, seq_length. lia.
Qed.

(** C85e: with the tables as they are in the code, simplexQuadratureRule<D>(m) has its points in the reference
    simplex and positive weights, integrates every polynomial of degree at most m up to 2e-15 times the sum of the
    magnitudes of its coefficients, and has no more points than the tensor product rule or the first rule of a table
    that is of sufficient order, for every m. *)
Theorem simplex_quadrature_rule_accurate : forall root D m,
  (forall a, (a <= 2)%nat -> jacobi_roots (1 + m / 2) a 0 (root (1 + m / 2)%nat a 0%nat)) -> (D = 1 \/ D = 2 \/ D = 3)%nat ->
  let r := simplexQuadratureRule root (as_table WV_Tri) (as_table JS_Tet) (as_table WV_Tet) D m in
  proper_rule D (sr_points r) /\ nearly_exact (2 / 10 ^ 15) D (sr_points r) m /\ (m <= sr_order r)%nat
  /\ (sr_size r <= (1 + m / 2) ^ D)%nat
  /\ (forall k l, D = 2%nat -> lower_bound (as_table WV_Tri) m = Some (k, l) -> (sr_size r <= length l)%nat)
  /\ (forall k l, D = 3%nat -> lower_bound (as_table JS_Tet) m = Some (k, l) \/ lower_bound (as_table WV_Tet) m = Some (k, l) -> (sr_size r <= length l)%nat).
Proof.
  intros root D m Hr HD r. pose proof triangle_rules_accurate as T2. pose proof tetrahedron_rules_accurate as T3. pose proof high_order_tetrahedron_rules_accurate as TJ.
  unfold r, simplexQuadratureRule. clear r. revert T2 T3 TJ. generalize (as_table WV_Tri) (as_table WV_Tet) (as_table JS_Tet). intros wv2 wv3 js T2 T3 TJ.
  destruct HD as [-> | [-> | ->]].
  - destruct (tensor_serves root 1 m Hr ltac:(lia)) as (S1 & S2 & S3 & S4). rewrite <- tensor_size_pow.
    split; [exact S3 |]. split; [exact S4 |]. split; [exact S2 |]. split; [rewrite S1; apply le_n |]. split; intros; discriminate.
  - destruct (min_size_pick m [tensor_class root 2] (tabulated_class wv2 (wv_transform 2))) as (c & s & A1 & -> & A3 & A4).
    { exists (tensor_class root 2). split; [right; left; reflexivity | discriminate]. }
    assert (SV : serves 2 m s (rc_get c m)).
    { destruct A1 as [<- | [<- | []]]; [apply table_serves; [exact T2 | exact A3] |]. injection A3 as <-. apply tensor_serves; [exact Hr | lia]. }
    destruct SV as (S1 & S2 & S3 & S4). rewrite S1, <- tensor_size_pow. split; [exact S3 |]. split; [exact S4 |]. split; [exact S2 |].
    split; [apply (A4 (tensor_class root 2)); [right; left; reflexivity | reflexivity] |]. split; [| intros; discriminate].
    intros k l _ L. apply (A4 (tabulated_class wv2 (wv_transform 2))); [left; reflexivity |]. cbn. now rewrite L.
  - destruct (min_size_pick m [tabulated_class wv3 (wv_transform 3); tensor_class root 3] (tabulated_class js js_transform)) as (c & s & A1 & -> & A3 & A4).
    { exists (tensor_class root 3). split; [right; right; left; reflexivity | discriminate]. }
    assert (SV : serves 3 m s (rc_get c m)).
    { destruct A1 as [<- | [<- | [<- | []]]]; [apply table_serves; [exact TJ | exact A3] | apply table_serves; [exact T3 | exact A3] |]. injection A3 as <-. apply tensor_serves; [exact Hr | lia]. }
    destruct SV as (S1 & S2 & S3 & S4). rewrite S1, <- tensor_size_pow. split; [exact S3 |]. split; [exact S4 |]. split; [exact S2 |].
    split; [apply (A4 (tensor_class root 3)); [right; right; left; reflexivity | reflexivity] |]. split; [intros; discriminate |].
    intros k l _ [L | L]; [apply (A4 (tabulated_class js js_transform)); [left; reflexivity |] | apply (A4 (tabulated_class wv3 (wv_transform 3))); [right; left; reflexivity |]]; cbn; now rewrite L.
Qed.
Print Assumptions simplex_quadrature_rule_accurate.

(** C85f: the literal numbers are not exact (they are decimals cut off), so an error bound as above is all one can ask:
    the rule of order 1 on triangles does not integrate the first coordinate exactly. *)
Theorem triangle_rules_exact_refuted : ~ good_table 2 (wv_transform 2) (as_table WV_Tri).
Proof.
  intros G. assert (I1 : In (1%nat, as_rule WV_Tri_1) (as_table WV_Tri)) by (left; reflexivity).
  specialize (G _ _ I1). pose proof (G (mono 1 0 0) (poly_mono 2 1 1 0 0 ltac:(lia) ltac:(repeat split; lia))) as A.
  pose proof (simplex_mono 2 1 1 0 0 ltac:(lia) ltac:(repeat split; lia)) as B.
  pose proof (simplex_integral_unique 2 _ _ _ ltac:(lia) A B) as E. revert E.
  unfold as_rule, WV_Tri_1, rule_sum, mono, wv_transform. cbn [map combine fst snd fold_right Nat.ltb Nat.leb nth decimal_value groups_value].
  rewrite ten18_val. unfold factR. cbn [fact Nat.add Nat.mul INR pow Nat.pow].
  repeat match goal with |- context [to_Z ?x] => let v := eval vm_compute in (to_Z x) in change (to_Z x) with v end.
  intros E. lra.
Qed.
Print Assumptions triangle_rules_exact_refuted.
