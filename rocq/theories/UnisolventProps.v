(** C67f: equidistant nodes determine the polynomials of degree at most N, in every dimension and for every N; so do
    N + 1 distinct points of an interval. *)
Require Import List Arith Lia Reals Lra.
Require Import Verif.Base Verif.LinAlg Verif.CombinatoricsModel Verif.CombinatoricsProps Verif.EquidistantModel Verif.EquidistantProps
  Verif.BasisModel Verif.BasisSpec Verif.IntegralSpec Verif.IntegralProofs
  Verif.DubinerProofs Verif.SpanProofs Verif.RefElementSpec Verif.RefElementModel Verif.RefElementProps.
Import ListNotations.
Local Open Scope R_scope.

(** As many polynomials as there are nodes, one at their node and zero at the others, make the nodes unisolvent. *)
Lemma nodal_unisolvent : forall D N mi nodes psi, (D = 1 \/ D = 2 \/ D = 3)%nat -> multiindices D N mi -> length nodes = length mi ->
  nodal_basis D N nodes psi -> unisolvent D N nodes.
Proof.
  intros D N mi nodes psi HD Hmi Hn [PP PN] f Hf Hz xi. set (nb := length mi) in *. rewrite Hn in PP, PN.
  destruct (phi_span D N mi HD Hmi f Hf) as (c & Hc). fold nb in Hc.
  destruct (choice1 D HD nb (fun i c => forall xi, psi i xi = rsum nb (fun j => c j * DubinerP D (nth j mi []) xi))) as (L & HL).
  { intros i Hi. apply (phi_span D N mi HD Hmi). now apply PP. }
  set (x := fun j => nth j nodes (fun _ => 0)). set (V := fun j m => DubinerP D (nth m mi []) (x j)).
  assert (LV : forall k j, (k < nb)%nat -> (j < nb)%nat -> rsum nb (fun m => L k m * V j m) = delta k j).
  { intros k j Hk Hj. unfold V. rewrite <- HL by assumption. now apply PN. }
  pose proof (inverse_commutes nb L (fun m j => V j m) LV) as VL. cbv beta in VL.
  rewrite Hc. apply rsum_zero. intros k Hk.
  assert (E : c k = 0); [| rewrite E; ring].
  transitivity (rsum nb (fun j => rsum nb (fun m => c m * V j m) * L j k)).
  - rewrite (rsum_ext nb _ (fun j => rsum nb (fun m => c m * (V j m * L j k)))) by (intros j Hj; rewrite <- rsum_scale_r; apply rsum_ext; intros; ring).
    rewrite rsum_swap. rewrite (rsum_ext nb _ (fun m => c m * delta m k)) by (intros m Hm; rewrite rsum_scale, VL by assumption; reflexivity).
    rewrite (rsum_single nb k (fun m => c m * delta m k)); [| exact Hk |].
    + unfold delta. rewrite Nat.eqb_refl. ring.
    + intros m Hm Hne. unfold delta. destruct (Nat.eqb_spec m k); [congruence | ring].
  - apply rsum_zero. intros j Hj. unfold V. rewrite <- Hc. rewrite Hz; [ring |]. unfold x. apply nth_In. lia.
Qed.

(** ** Lattice points *)
Fixpoint lprod (m : nat) (f : nat -> R) : R := match m with O => 1 | S m => lprod m f * f m end.
Lemma lprod_zero : forall m f k, (k < m)%nat -> f k = 0 -> lprod m f = 0.
Proof.
  induction m as [| m IH]; intros f k Hk E; [lia |]. cbn [lprod]. destruct (Nat.eq_dec k m) as [<- | Hne]; [rewrite E; ring |].
  rewrite (IH f k ltac:(lia) E). ring.
Qed.
Lemma lprod_one : forall m f, (forall k, (k < m)%nat -> f k = 1) -> lprod m f = 1.
Proof. induction m as [| m IH]; intros f E; [reflexivity |]. cbn [lprod]. rewrite IH, E by auto with arith. ring. Qed.
Lemma lprod_poly : forall D m (f : nat -> (nat -> R) -> R), (forall k, (k < m)%nat -> polynomial D 1 (f k)) ->
  polynomial D m (fun xi => lprod m (fun k => f k xi)).
Proof.
  induction m as [| m IH]; intros f H; cbn [lprod]; [apply poly_const |]. replace (S m) with (m + 1)%nat by lia.
  apply (poly_mult D m 1 (fun xi => lprod m (fun k => f k xi)) (f m)); [apply IH; auto with arith | apply H; lia].
Qed.
(** Rising to one at m, zero at 0, ..., m - 1. *)
Definition fall (m : nat) (t : R) : R := lprod m (fun k => (t - INR k) / (INR m - INR k)).
Lemma fall_zero : forall m b, (b < m)%nat -> fall m (INR b) = 0.
Proof. intros m b H. unfold fall. apply (lprod_zero m _ b H). unfold Rdiv. ring. Qed.
Lemma fall_one : forall m, fall m (INR m) = 1.
Proof. intros m. unfold fall. apply lprod_one. intros k Hk. apply lt_INR in Hk. field. lra. Qed.
Lemma fall_poly : forall D m g, polynomial D 1 g -> polynomial D m (fun xi => fall m (g xi)).
Proof.
  intros D m g H. unfold fall. apply (lprod_poly D m (fun k xi => (g xi - INR k) / (INR m - INR k))). intros k Hk.
  apply (poly_eq D 1 (fun xi => / (INR m - INR k) * (g xi + - INR k))); [intros; unfold Rdiv; ring |].
  apply poly_scale. apply poly_plus; [exact H | apply poly_const].
Qed.
(** N times the barycentric coordinates. *)
Definition nbary (D N off : nat) (xi : nat -> R) : R :=
  match off with O => INR N * (1 - rsum D xi) | S d => INR N * xi d end.
Lemma nbary_poly : forall D N off, (off <= D)%nat -> polynomial D 1 (nbary D N off).
Proof.
  intros D N [| d] Hd; unfold nbary; apply poly_scale; [| apply poly_coord; lia].
  apply (poly_eq D 1 (fun xi => 1 + -1 * rsum D (fun k => xi k))); [intros; rewrite (rsum_ext D (fun k => xi k) xi) by reflexivity; ring |].
  apply poly_plus; [apply poly_const |]. apply poly_scale. apply (poly_rsum D 1 D (fun k xi => xi k)). intros; now apply poly_coord.
Qed.
Fixpoint lagr (D N off : nat) (a : list nat) (xi : nat -> R) : R :=
  match a with [] => 1 | x :: a => fall x (nbary D N off xi) * lagr D N (S off) a xi end.
Lemma lagr_poly : forall D N a off, (off + length a <= D + 1)%nat -> polynomial D (list_sum a) (lagr D N off a).
Proof.
  intros D N. induction a as [| x a IH]; intros off H; cbn [lagr]; [apply poly_const |].
  change (list_sum (x :: a)) with (x + list_sum a)%nat. cbn [length] in H.
  apply (poly_mult D x (list_sum a) (fun xi => fall x (nbary D N off xi)) (lagr D N (S off) a)).
  - apply fall_poly. apply nbary_poly. lia.
  - apply IH. lia.
Qed.
Lemma lagr_self : forall D N xi a off, (forall i, (i < length a)%nat -> nbary D N (off + i) xi = INR (nth i a 0%nat)) -> lagr D N off a xi = 1.
Proof.
  intros D N xi. induction a as [| x a IH]; intros off H; [reflexivity |]. cbn [lagr].
  pose proof (H 0%nat ltac:(cbn; lia)) as E. rewrite Nat.add_0_r in E. cbn [nth] in E. rewrite E, fall_one, IH; [ring |].
  intros i Hi. specialize (H (S i) ltac:(cbn; lia)). cbn [nth] in H. rewrite <- H. f_equal. lia.
Qed.
Lemma lagr_other : forall D N xi a b off, length a = length b -> (forall i, (i < length a)%nat -> nbary D N (off + i) xi = INR (nth i b 0%nat)) ->
  a <> b -> (list_sum b <= list_sum a)%nat -> lagr D N off a xi = 0.
Proof.
  intros D N xi. induction a as [| x a IH]; intros [| y b] off L H Hne HS; try discriminate; [congruence |]. cbn [lagr].
  pose proof (H 0%nat ltac:(cbn; lia)) as E. rewrite Nat.add_0_r in E. cbn [nth] in E. rewrite E.
  change (list_sum (x :: a)) with (x + list_sum a)%nat in HS. change (list_sum (y :: b)) with (y + list_sum b)%nat in HS.
  destruct (le_lt_dec x y) as [Hxy | Hxy]; [| rewrite fall_zero by exact Hxy; ring].
  rewrite (IH b (S off)); [ring | now inversion L | | | lia].
  - intros i Hi. specialize (H (S i) ltac:(cbn; lia)). cbn [nth] in H. rewrite <- H. f_equal. lia.
  - intros ->. assert (x = y) by lia. congruence.
Qed.

(** A point given by the list of its coordinates. *)
Definition of_list (x : list R) : nat -> R := fun d => nth d x 0.
Lemma nbary_lattice : forall D N a i, (1 <= N)%nat -> length a = (D + 1)%nat -> list_sum a = N -> (i < D + 1)%nat ->
  nbary D N i (of_list (lattice_point N a)) = INR (nth i a 0%nat).
Proof.
  intros D N a i HN L HS Hi. assert (PN : INR N <> 0) by (apply not_0_INR; lia).
  assert (C : forall d, (d < D)%nat -> of_list (lattice_point N a) d = INR (nth (S d) a 0%nat) / INR N).
  { intros d Hd. unfold of_list, lattice_point. destruct a as [| a0 a]; [cbn in L; lia |]. cbn [tl nth length] in *.
    set (f := fun x => INR x / INR N). rewrite nth_indep with (d' := f O) by (rewrite map_length; lia). now rewrite map_nth. }
  destruct i as [| d]; unfold nbary; [| rewrite C by lia; field; exact PN].
  rewrite (rsum_ext D _ (fun d => / INR N * INR (nth (S d) a 0%nat))) by (intros d Hd; rewrite C by exact Hd; unfold Rdiv; ring).
  rewrite rsum_scale. destruct a as [| a0 a]; [cbn in L; lia |]. cbn [nth].
  assert (G : forall l, rsum (length l) (fun d => INR (nth d l 0%nat)) = INR (list_sum l)).
  { induction l as [| y l IH]; [reflexivity |]. cbn [length]. rewrite rsum_head. cbn [nth]. rewrite IH.
    change (list_sum (y :: l)) with (y + list_sum l)%nat. now rewrite plus_INR. }
  assert (LD : length a = D) by (cbn in L; lia). rewrite <- LD, G. change (list_sum (a0 :: a)) with (a0 + list_sum a)%nat in HS.
  rewrite <- HS in *. rewrite plus_INR in *. field. exact PN.
Qed.
Lemma enumerates_length : forall D N idx mi, enumerates D N idx -> multiindices D N mi -> length idx = length mi.
Proof.
  intros D N idx mi [ND HA] [NM HM]. apply Nat.le_antisymm.
  - rewrite <- (map_length (@tl nat) idx). apply NoDup_incl_length.
    + clear NM HM. assert (J : forall a b, In a idx -> In b idx -> tl a = tl b -> a = b).
      { intros a b Ia Ib E. apply HA in Ia. apply HA in Ib. destruct Ia as [La Sa]. destruct Ib as [Lb Sb].
        destruct a as [| x a]; [cbn in La; lia |]. destruct b as [| y b]; [cbn in Lb; lia |]. cbn [tl] in E. subst b.
        change (list_sum (x :: a)) with (x + list_sum a)%nat in Sa. change (list_sum (y :: a)) with (y + list_sum a)%nat in Sb. f_equal. lia. }
      clear HA. induction idx as [| a idx IH]; [constructor |]. cbn [map]. inversion ND; subst. constructor.
      * intros Hin. apply in_map_iff in Hin. destruct Hin as (b & E & Ib). assert (a = b) by (apply J; [now left | now right | congruence]). subst. contradiction.
      * apply IH; [assumption |]. intros; apply J; auto; now right.
    + intros a Ha. apply in_map_iff in Ha. destruct Ha as (b & <- & Ib). apply HA in Ib. destruct Ib as [Lb Sb]. apply HM.
      destruct b as [| y b]; [cbn in Lb; lia |]. cbn [tl length] in *. change (list_sum (y :: b)) with (y + list_sum b)%nat in Sb. lia.
  - rewrite <- (map_length (fun x => (N - list_sum x)%nat :: x) mi). apply NoDup_incl_length.
    + apply FinFun.Injective_map_NoDup; [| exact NM]. intros x y E. now inversion E.
    + intros a Ha. apply in_map_iff in Ha. destruct Ha as (b & <- & Ib). apply HM in Ib. apply HA. cbn [length].
      change (list_sum ((N - list_sum b)%nat :: b)) with (N - list_sum b + list_sum b)%nat. lia.
Qed.

(** The nodes of Nodal basis with equidistant nodes: (N+D over D) many, and they determine the polynomials. *)
Theorem equidistant_unisolvent : forall D conv N mi, (1 <= D <= 3)%nat -> (1 <= N)%nat -> runs_through D N mi ->
  let nodes := map of_list (equidistant_nodes D conv N) in
  length nodes = length mi /\ unisolvent D N nodes.
Proof.
  intros D conv N mi HD HN [fuel E] nodes. destruct (sums_multiindices fuel D N mi ltac:(lia) E) as [Hmi Hb]. clear E.
  destruct (equidistant_nodes_enumerate D conv N HD HN) as (idx & HE & EN & _).
  assert (L : length nodes = length mi) by (unfold nodes; rewrite EN, !map_length; now apply (enumerates_length D N)).
  split; [exact L |].
  assert (LI : length nodes = length idx) by (unfold nodes; rewrite EN, !map_length; reflexivity).
  assert (X : forall k, (k < length idx)%nat -> nth k nodes (fun _ => 0) = of_list (lattice_point N (nth k idx []))).
  { intros k Hk. unfold nodes. rewrite EN, map_map. set (f := fun a => of_list (lattice_point N a)).
    rewrite nth_indep with (d' := f []) by (now rewrite map_length). now rewrite map_nth. }
  destruct HE as [ND HA].
  apply (nodal_unisolvent D N mi nodes (fun i => lagr D N 0 (nth i idx [])) ltac:(lia) Hmi L). split.
  - intros i Hi. rewrite LI in Hi. destruct (proj1 (HA (nth i idx [])) (nth_In idx [] Hi)) as [La Sa].
    rewrite <- Sa at 1. apply lagr_poly. lia.
  - intros i k Hi Hk. rewrite LI in Hi, Hk. rewrite X by exact Hk.
    destruct (proj1 (HA (nth i idx [])) (nth_In idx [] Hi)) as [La Sa]. destruct (proj1 (HA (nth k idx [])) (nth_In idx [] Hk)) as [Lb Sb].
    destruct (Nat.eqb_spec i k) as [<- | Hne].
    + apply lagr_self. intros j Hj. apply nbary_lattice; auto; lia.
    + apply (lagr_other D N _ _ (nth k idx [])); [lia | | | lia].
      * intros j Hj. apply nbary_lattice; auto; lia.
      * intros EQ. apply Hne. now apply (proj1 (NoDup_nth idx []) ND i k).
Qed.
Print Assumptions equidistant_unisolvent.

(** N + 1 distinct points of the interval, such as the Legendre-Gauss-Lobatto and Gauss-Legendre points. *)
Theorem interval_unisolvent : forall N (x : nat -> R), (forall i j, (i <= N)%nat -> (j <= N)%nat -> x i = x j -> i = j) ->
  unisolvent 1 N (map (fun i => pt (x i) 0 0) (seq 0 (N + 1))).
Proof.
  intros N x Hx. set (nodes := map _ _).
  destruct (integer_sums_enumerate 1 N true ltac:(lia)) as (fuel & mi & E & _). destruct (sums_multiindices fuel 1 N mi ltac:(lia) E) as [Hmi Hb].
  assert (LN : length nodes = (N + 1)%nat) by (unfold nodes; now rewrite map_length, seq_length).
  assert (X : forall k, (k < N + 1)%nat -> nth k nodes (fun _ => 0) = pt (x k) 0 0).
  { intros k Hk. unfold nodes. set (f := fun i => pt (x i) 0 0). rewrite nth_indep with (d' := f O) by (now rewrite map_length, seq_length).
    now rewrite map_nth, seq_nth by lia. }
  assert (LM : length mi = (N + 1)%nat).
  { transitivity (length (map (fun k => [k]) (seq 0 (N + 1)))); [| now rewrite map_length, seq_length]. destruct Hmi as [NM HM].
    assert (Sg : forall k, list_sum [k] = k) by (intros k; change (list_sum [k]) with (k + 0)%nat; lia).
    apply Nat.le_antisymm; apply NoDup_incl_length; try assumption.
    - intros a Ha. apply HM in Ha. destruct Ha as [La Sa]. destruct a as [| k [| ? ?]]; try discriminate. rewrite Sg in Sa.
      apply in_map_iff. exists k. split; [reflexivity |]. apply in_seq. lia.
    - apply FinFun.Injective_map_NoDup; [| apply seq_NoDup]. intros a b EQ. now inversion EQ.
    - intros a Ha. apply in_map_iff in Ha. destruct Ha as (k & <- & Hk). apply in_seq in Hk. apply HM. rewrite Sg. split; [reflexivity | lia]. }
  apply (nodal_unisolvent 1 N mi nodes
    (fun i xi => lprod (N + 1) (fun k => if (k =? i)%nat then 1 else (xi 0%nat - x k) / (x i - x k))) ltac:(lia) Hmi ltac:(lia)). split.
  - intros i Hi. rewrite LN in Hi.
    assert (G : forall m, (m <= N + 1)%nat -> polynomial 1 (if (i <? m)%nat then m - 1 else m)
      (fun xi => lprod m (fun k => if (k =? i)%nat then 1 else (xi 0%nat - x k) / (x i - x k)))).
    { induction m as [| m IH]; intros Hm; cbn [lprod]; [apply poly_const |]. specialize (IH ltac:(lia)).
      destruct (Nat.eqb_spec m i) as [-> | Hne].
      - rewrite Nat.ltb_irrefl in IH. replace (i <? S i)%nat with true by (symmetry; apply Nat.ltb_lt; lia). replace (S i - 1)%nat with i by lia.
        eapply poly_eq; [| exact IH]. intros xi. cbv beta. ring.
      - replace (if (i <? S m)%nat then (S m - 1)%nat else S m) with ((if (i <? m)%nat then m - 1 else m) + 1)%nat
          by (destruct (Nat.ltb_spec i m); destruct (Nat.ltb_spec i (S m)); lia).
        apply (poly_mult 1 _ 1 (fun xi => lprod m (fun k => if (k =? i)%nat then 1 else (xi 0%nat - x k) / (x i - x k))) (fun xi => (xi 0%nat - x m) / (x i - x m))); [exact IH |].
        apply (poly_eq 1 1 (fun xi => / (x i - x m) * (xi 0%nat + - x m))); [intros; unfold Rdiv; ring |].
        apply poly_scale. apply poly_plus; [apply poly_coord; lia | apply poly_const]. }
    specialize (G (N + 1)%nat (le_n _)). replace (i <? N + 1)%nat with true in G by (symmetry; apply Nat.ltb_lt; lia).
    now replace (N + 1 - 1)%nat with N in G by lia.
  - intros i k Hi Hk. rewrite LN in Hi, Hk. rewrite X by exact Hk. destruct (Nat.eqb_spec i k) as [<- | Hne].
    + apply lprod_one. intros j Hj. destruct (Nat.eqb_spec j i) as [-> | Hji]; [reflexivity |]. cbn [pt]. field.
      intros Z. apply Hji. apply Hx; [lia | lia | lra].
    + apply (lprod_zero _ _ k Hk). destruct (Nat.eqb_spec k i); [congruence |]. cbn [pt]. unfold Rdiv. ring.
Qed.
Print Assumptions interval_unisolvent.

(** Gaussian elimination with pivoting, column by column, is an exact inverse. *)
Theorem gauss_inverse_exact : exact_inverse (fun n A k j => gauss n A (fun i => if (i =? j)%nat then 1 else 0) k).
Proof. intros n A NS i j Hi Hj. exact (gauss_exact n A (fun i => if (i =? j)%nat then 1 else 0) NS i Hi). Qed.
Print Assumptions gauss_inverse_exact.
