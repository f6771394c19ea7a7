(** Proofs for C28. *)
Require Import Arith Reals Lra Lia List Sorting.Sorted.
From Verif Require Import Base CombinatoricsModel CombinatoricsProofs CombinatoricsProps LinAlg PlexModel PlexSpec.
Import ListNotations.
Local Open Scope R_scope.

Lemma weighted_lin : forall V v a b s d,
  weighted V v (fun i => a i + s * (b i - a i)) d = weighted V v a d + s * (weighted V v b d - weighted V v a d).
Proof.
  intros. unfold weighted. rewrite <- rsum_minus, <- rsum_scale, <- rsum_plus. apply rsum_ext. intros. ring.
Qed.

Lemma fold_points : forall (f : nat -> R) (g : nat -> pt) n (x0 : pt) d,
  fold_left (fun x j => padd x (pscale (f j) (g j))) (seq 0 n) x0 d = x0 d + rsum n (fun j => f j * g j d).
Proof.
  intros f g n x0 d. induction n as [| n IH]; [cbn; ring |].
  rewrite seq_S, fold_left_app. cbn [fold_left rsum].
  match goal with |- padd ?a _ _ = _ => change (a d + f n * g n d = x0 d + (rsum n (fun j => f j * g j d) + f n * g n d)) end.
  rewrite IH. ring.
Qed.

(** ** scatter *)
Lemma scatter_other : forall is lambda j, ~ In j is -> scatter is lambda j = 0.
Proof.
  intros is lambda j H. unfold scatter.
  assert (G : forall n, (n <= length is)%nat ->
    fold_left (fun f i => fun j => if Nat.eqb j (nth i is 0%nat) then lambda i else f j) (seq 0 n) (fun _ => 0) j = 0).
  { induction n as [| n IH]; intros Hn; [reflexivity |]. rewrite seq_S, fold_left_app. cbn [fold_left].
    destruct (Nat.eqb_spec j (nth (0 + n) is 0%nat)) as [-> | E]; [| apply IH; lia].
    exfalso. apply H. apply nth_In. lia. }
  apply G. lia.
Qed.
Lemma scatter_nth : forall is lambda k, NoDup is -> (k < length is)%nat ->
  scatter is lambda (nth k is 0%nat) = lambda k.
Proof.
  intros is lambda k ND Hk. unfold scatter.
  assert (G : forall n, (n <= length is)%nat -> (k < n)%nat ->
    fold_left (fun f i => fun j => if Nat.eqb j (nth i is 0%nat) then lambda i else f j) (seq 0 n) (fun _ => 0)
      (nth k is 0%nat) = lambda k).
  { induction n as [| n IH]; intros Hn Hkn; [lia |]. rewrite seq_S, fold_left_app. cbn [fold_left].
    destruct (Nat.eqb_spec (nth k is 0%nat) (nth (0 + n) is 0%nat)) as [E | E].
    - f_equal. apply (proj1 (NoDup_nth is 0%nat) ND) in E; cbn in *; lia.
    - destruct (Nat.eq_dec k n) as [-> | K]; [contradiction |]. apply IH; lia. }
  apply G; lia.
Qed.
(** Sums over the vertices and sums over the vertices of the face. *)
Lemma face_sum : forall V is (f : nat -> R), NoDup is -> (forall i, In i is -> (i < V)%nat) ->
  (forall i, (i < V)%nat -> ~ In i is -> f i = 0) ->
  rsum V f = rsum (length is) (fun j => f (nth j is 0%nat)).
Proof.
  intros V is. induction is as [| k r IH]; intros f ND Hlt H0.
  - cbn. apply rsum_zero. intros i Hi. apply H0; auto.
  - cbn [length]. rewrite rsum_head. cbn [nth]. inversion ND; subst.
    assert (E : rsum (length r) (fun j => f (nth j r 0%nat)) =
                rsum V (fun i => if Nat.eq_dec i k then 0 else f i)).
    { rewrite (IH (fun i => if Nat.eq_dec i k then 0 else f i)).
      - apply rsum_ext. intros j Hj. destruct (Nat.eq_dec (nth j r 0%nat) k) as [Ek | _]; auto.
        exfalso. subst k. auto using nth_In.
      - auto.
      - intros; apply Hlt; right; auto.
      - intros i Hi Hni. destruct (Nat.eq_dec i k); auto. apply H0; auto. intros [Ek | Ek]; auto. }
    rewrite E. replace (f k) with (rsum V (fun i => if Nat.eq_dec i k then f k else 0)).
    + rewrite <- rsum_plus. apply rsum_ext. intros i _. destruct (Nat.eq_dec i k); subst; ring.
    + rewrite (rsum_single V k); [destruct (Nat.eq_dec k k); congruence | apply Hlt; left; auto |].
      intros i _ Hne. destruct (Nat.eq_dec i k); congruence.
Qed.

Section S.
Variable solve : nat -> (nat -> nat -> R) -> (nat -> R) -> nat -> R.
Hypothesis Hsolve : exact_solver solve.
Variables D V : nat.
Variable vertices : nat -> pt.
Variable huge : R.
Hypothesis Hind : affinely_independent D V vertices.

Definition face (is : list nat) : Prop := NoDup is /\ (forall i, In i is -> (i < V)%nat) /\ is <> [].
Notation wt := (weighted V vertices).

Lemma pdot_comm : forall a b, pdot D a b = pdot D b a.
Proof. intros. apply rsum_ext. intros. ring. Qed.
Lemma pdot_weighted : forall mu (w : pt), pdot D (wt mu) w = rsum V (fun i => mu i * pdot D (vertices i) w).
Proof.
  intros mu w. unfold pdot, weighted.
  rewrite (rsum_ext D _ (fun d => rsum V (fun i => mu i * vertices i d * w d))).
  - rewrite rsum_swap. apply rsum_ext. intros i _. rewrite <- rsum_scale. apply rsum_ext. intros. ring.
  - intros d _. rewrite <- rsum_scale_r. reflexivity.
Qed.
Lemma pdot_zero : forall w : pt, pdot D w w = 0 -> forall d, (d < D)%nat -> w d = 0.
Proof.
  intros w H d Hd. assert (w d * w d = 0); [| nra].
  apply (rsum_nonneg_zero D (fun d => w d * w d)); auto. intros. nra.
Qed.
Lemma pdot_ext : forall a a' b b' : pt, (forall d, (d < D)%nat -> a d = a' d) -> (forall d, (d < D)%nat -> b d = b' d) ->
  pdot D a b = pdot D a' b'.
Proof. intros. apply rsum_ext. intros d Hd. rewrite H, H0; auto. Qed.

Lemma scatter_sum : forall is lambda (g : nat -> R), face is ->
  rsum V (fun i => scatter is lambda i * g i) = rsum (length is) (fun j => lambda j * g (nth j is 0%nat)).
Proof.
  intros is lambda g (ND & Hlt & _). rewrite (face_sum V is); auto.
  - apply rsum_ext. intros j Hj. rewrite scatter_nth; auto.
  - intros i Hi Hni. rewrite scatter_other; auto. ring.
Qed.
Lemma scatter_total : forall is lambda, face is -> rsum V (scatter is lambda) = rsum (length is) lambda.
Proof.
  intros is lambda H. rewrite (rsum_ext V _ (fun i => scatter is lambda i * 1)) by (intros; ring).
  rewrite scatter_sum by auto. apply rsum_ext. intros. ring.
Qed.

(** Row i of the system is the scalar product of an edge with the combination of the vertices. *)
Lemma bary_row : forall is x i, face is -> (i < length is - 1)%nat ->
  mat_vec (length is) (bary_matrix D vertices is) x i =
  pdot D (vertices (nth (i + 1) is 0%nat)) (wt (scatter is x)) - pdot D (vertices (nth 0 is 0%nat)) (wt (scatter is x)).
Proof.
  intros is x i Hf Hi. rewrite (pdot_comm (vertices (nth (i + 1) is 0%nat))), (pdot_comm (vertices (nth 0 is 0%nat))).
  rewrite !pdot_weighted, !scatter_sum by auto. rewrite <- rsum_minus. apply rsum_ext. intros j Hj.
  unfold bary_matrix, dot_products. destruct (Nat.ltb_spec i (length is - 1)); [| lia].
  rewrite (pdot_comm (vertices (nth j is 0%nat)) (vertices (nth (i + 1) is 0%nat))),
          (pdot_comm (vertices (nth j is 0%nat)) (vertices (nth 0 is 0%nat))). ring.
Qed.
Lemma bary_last : forall is x, face is ->
  mat_vec (length is) (bary_matrix D vertices is) x (length is - 1) = rsum V (scatter is x).
Proof.
  intros is x Hf. rewrite scatter_total by auto. apply rsum_ext. intros j Hj. unfold bary_matrix.
  destruct (Nat.ltb_spec (length is - 1) (length is - 1)); [lia | ring].
Qed.
Lemma face_len : forall is, face is -> (1 <= length is)%nat.
Proof. intros [| k r] (_ & _ & H); [congruence | cbn; lia]. Qed.

(** All vertices of the face have the same scalar product with w. *)
Lemma same_products : forall is (w : pt), face is ->
  (forall i, (i < length is - 1)%nat ->
     pdot D (vertices (nth (i + 1) is 0%nat)) w = pdot D (vertices (nth 0 is 0%nat)) w) ->
  forall mu, (forall i, (i < V)%nat -> ~ In i is -> mu i = 0) ->
  pdot D (wt mu) w = pdot D (vertices (nth 0 is 0%nat)) w * rsum V mu.
Proof.
  intros is w Hf H mu H0. rewrite pdot_weighted, <- rsum_scale. apply rsum_ext. intros i Hi.
  destruct (in_dec Nat.eq_dec i is) as [Hin | Hni]; [| rewrite H0 by auto; ring].
  destruct (In_nth _ _ 0%nat Hin) as (k & Hk & <-). destruct k as [| k]; [ring |].
  specialize (H k). rewrite Nat.add_1_r in H. rewrite H by lia. ring.
Qed.

Lemma bary_nonsingular : forall is, face is -> nonsingular (length is) (bary_matrix D vertices is).
Proof.
  intros is Hf x Hx j Hj. pose proof (face_len is Hf) as Hl.
  assert (Hs : rsum V (scatter is x) = 0) by (rewrite <- bary_last by auto; apply Hx; lia).
  assert (Hw : pdot D (wt (scatter is x)) (wt (scatter is x)) = 0).
  { rewrite (same_products is (wt (scatter is x))); auto.
    - rewrite Hs. ring.
    - intros i Hi. specialize (Hx i ltac:(lia)). rewrite bary_row in Hx by auto. lra.
    - intros. apply scatter_other. auto. }
  destruct Hf as (ND & Hlt & Hne). rewrite <- (scatter_nth is x j) by auto.
  apply (Hind (scatter is x)); auto using nth_In.
  intros d Hd. apply (pdot_zero (wt (scatter is x))); auto.
Qed.

Variable point : pt.
Notation rhs := (fun i => pdot D point (vertices i)).
Definition lam (is : list nat) : nat -> R := bary_solve solve D vertices is rhs.
Definition proj (is : list nat) : pt := wt (scatter is (lam is)).

Lemma combine_proj : forall is d, face is -> combine vertices is (lam is) d = proj is d.
Proof.
  intros is d Hf. unfold combine. rewrite (fold_points (lam is) (fun j => vertices (nth j is 0%nat))).
  unfold proj, weighted. rewrite (scatter_sum is (lam is) (fun i => vertices i d)) by auto. ring.
Qed.
Lemma lam_total : forall is, face is -> rsum V (scatter is (lam is)) = 1.
Proof.
  intros is Hf. rewrite <- bary_last by auto. pose proof (face_len is Hf).
  unfold lam, bary_solve. rewrite Hsolve by (auto using bary_nonsingular; lia).
  unfold bary_rhs. destruct (Nat.ltb_spec (length is - 1) (length is - 1)); [lia | reflexivity].
Qed.
Lemma proj_orth : forall is, face is -> forall i, (i < length is - 1)%nat ->
  pdot D (vertices (nth (i + 1) is 0%nat)) (psub (proj is) point) =
  pdot D (vertices (nth 0 is 0%nat)) (psub (proj is) point).
Proof.
  intros is Hf i Hi. pose proof (bary_row is (lam is) i Hf Hi) as E. unfold lam at 1, bary_solve in E.
  rewrite Hsolve in E by (auto using bary_nonsingular; lia). unfold bary_rhs in E.
  destruct (Nat.ltb_spec i (length is - 1)); [| lia].
  assert (G : forall a, pdot D a (psub (proj is) point) = pdot D a (proj is) - pdot D point a).
  { intros a. unfold pdot, psub. rewrite <- rsum_minus. apply rsum_ext. intros. ring. }
  rewrite !G. fold (proj is) in E. lra.
Qed.

(** Pythagoras: any affine combination of the vertices of the face. *)
Lemma pythagoras : forall is mu, face is -> (forall i, (i < V)%nat -> ~ In i is -> mu i = 0) -> rsum V mu = 1 ->
  distance2 D (wt mu) point = distance2 D (wt mu) (proj is) + distance2 D (proj is) point.
Proof.
  intros is mu Hf H0 H1.
  assert (E : pdot D (wt mu) (psub (proj is) point) = pdot D (proj is) (psub (proj is) point)).
  { rewrite (same_products is _ Hf (proj_orth is Hf) mu H0), H1.
    assert (Z : forall i, (i < V)%nat -> ~ In i is -> scatter is (lam is) i = 0) by (intros; apply scatter_other; auto).
    pose proof (same_products is _ Hf (proj_orth is Hf) _ Z) as P. rewrite lam_total in P by auto.
    unfold proj at 2. rewrite P. ring. }
  unfold distance2. rewrite <- rsum_plus.
  rewrite (rsum_ext D _ (fun d => ((wt mu d - proj is d) * (wt mu d - proj is d) + (proj is d - point d) * (proj is d - point d)) +
    2 * (wt mu d * psub (proj is) point d - proj is d * psub (proj is) point d))).
  - rewrite rsum_plus, rsum_scale, rsum_minus. unfold pdot in E. rewrite E. ring.
  - intros d _. unfold psub. ring.
Qed.
Lemma towards_proj : forall is mu t, face is -> (forall i, (i < V)%nat -> ~ In i is -> mu i = 0) -> rsum V mu = 1 ->
  0 <= t <= 1 ->
  distance2 D (wt (fun i => mu i + t * (scatter is (lam is) i - mu i))) point <= distance2 D (wt mu) point.
Proof.
  intros is mu t Hf H0 H1 Ht. rewrite (pythagoras is mu) by auto.
  rewrite (pythagoras is (fun i => mu i + t * (scatter is (lam is) i - mu i))).
  - apply Rplus_le_compat_r. unfold distance2. apply rsum_le. intros d _. rewrite weighted_lin. fold (proj is).
    set (a := wt mu d). set (b := proj is d).
    replace (a + t * (b - a) - b) with ((1 - t) * (a - b)) by ring.
    assert (0 <= (a - b) * (a - b)) by apply Rle_0_sqr.
    assert ((1 - t) * (1 - t) <= 1) by (clear - Ht; nra).
    replace ((1 - t) * (a - b) * ((1 - t) * (a - b))) with ((1 - t) * (1 - t) * ((a - b) * (a - b))) by ring.
    nra.
  - auto.
  - intros i Hi Hni. rewrite H0, scatter_other by auto. ring.
  - rewrite rsum_plus, rsum_scale, rsum_minus, lam_total, H1 by auto. ring.
Qed.

(** ** Leaving the face *)
Lemma first_exit : forall n mu L, (forall i, (i < n)%nat -> 0 <= mu i) ->
  (forall i, (i < n)%nat -> L i < 0 -> 0 < mu i) ->
  (forall i, (i < n)%nat -> 0 <= L i) \/
  exists t k, 0 <= t <= 1 /\ (k < n)%nat /\ 0 < mu k /\ mu k + t * (L k - mu k) = 0 /\
    forall i, (i < n)%nat -> 0 <= mu i + t * (L i - mu i).
Proof.
  induction n as [| n IH]; intros mu L Hmu HL; [left; intros; lia |].
  assert (Hstay : forall t t' i, (i < S n)%nat -> 0 <= t' <= t -> 0 <= mu i + t * (L i - mu i) -> 0 <= mu i + t' * (L i - mu i)).
  { intros t t' i Hi Ht H. specialize (Hmu i Hi). destruct (Rle_dec 0 (L i - mu i)) as [C | C]; nra. }
  destruct (Rle_dec 0 (L n)) as [Hn | Hn].
  - destruct (IH mu L) as [A | (t & k & Ht & Hk & Hp & E & A)]; auto.
    + left. intros i Hi. destruct (Nat.eq_dec i n) as [-> | K]; auto. apply A. lia.
    + right. exists t, k. repeat split; auto; try lra; try lia.
      intros i Hi. destruct (Nat.eq_dec i n) as [-> | K]; [| apply A; lia].
      specialize (Hmu n Hi). nra.
  - assert (Hpn : 0 < mu n) by (apply HL; [lia | lra]).
    set (s := mu n / (mu n - L n)).
    assert (Es : s * (L n - mu n) = - mu n) by (unfold s; field; lra).
    assert (Hs : 0 <= s <= 1).
    { split; [apply Rlt_le, Rdiv_lt_0_compat; lra |].
      apply (Rmult_le_reg_r (mu n - L n)); [lra |]. lra. }
    destruct (IH mu L) as [A | (t & k & Ht & Hk & Hp & E & A)]; auto.
    + right. exists s, n. repeat split; auto; try lra; try lia.
      intros i Hi. destruct (Nat.eq_dec i n) as [-> | K]; [lra |].
      specialize (A i ltac:(lia)). specialize (Hmu i Hi). nra.
    + right. destruct (Rle_dec s t) as [C | C].
      * exists s, n. repeat split; auto; try lra; try lia.
        intros i Hi. destruct (Nat.eq_dec i n) as [-> | K]; [lra |].
        apply (Hstay t); auto; [lra |]. apply A. lia.
      * exists t, k. repeat split; auto; try lra; try lia.
        intros i Hi. destruct (Nat.eq_dec i n) as [-> | K]; [| apply A; lia].
        apply (Hstay s); auto; lra.
Qed.

Definition supp (mu : nat -> R) : list nat := filter (fun i => if Req_EM_T (mu i) 0 then false else true) (seq 0 V).
Lemma in_supp : forall mu i, In i (supp mu) <-> (i < V)%nat /\ mu i <> 0.
Proof.
  intros mu i. unfold supp. rewrite filter_In, in_seq. destruct (Req_EM_T (mu i) 0); intuition (try lia; try congruence).
Qed.
Lemma supp_face : forall mu, rsum V mu = 1 -> face (supp mu).
Proof.
  intros mu H. split; [apply NoDup_filter, seq_NoDup |]. split; [intros i Hi; apply in_supp in Hi; tauto |].
  intros E. rewrite rsum_zero in H; [lra |]. intros i Hi. destruct (Req_EM_T (mu i) 0) as [|N]; auto.
  exfalso. assert (In i (supp mu)) by (apply in_supp; auto). rewrite E in *. auto.
Qed.

(** Every convex combination is at least as far from the point as the projection onto some face in
    which the projection is a convex combination. *)
Lemma candidate_exists : forall n mu, (length (supp mu) <= n)%nat ->
  (forall i, (i < V)%nat -> 0 <= mu i) -> rsum V mu = 1 ->
  exists is, face is /\ (exists nu, is = supp nu) /\ (forall i, (i < V)%nat -> 0 <= scatter is (lam is) i) /\
    distance2 D (proj is) point <= distance2 D (wt mu) point.
Proof.
  induction n as [| n IH]; intros mu Hn Hmu H1; pose proof (supp_face mu H1) as Hf.
  - pose proof (face_len _ Hf). lia.
  - assert (H0 : forall i, (i < V)%nat -> ~ In i (supp mu) -> mu i = 0).
    { intros i Hi Hni. destruct (Req_EM_T (mu i) 0); auto. exfalso. apply Hni, in_supp. auto. }
    destruct (first_exit V mu (scatter (supp mu) (lam (supp mu)))) as [A | (t & k & Ht & Hk & Hp & E & A)]; auto.
    + intros i Hi HL. destruct (in_dec Nat.eq_dec i (supp mu)) as [Hin | Hni].
      * apply in_supp in Hin. specialize (Hmu i Hi). lra.
      * rewrite scatter_other in HL by auto. lra.
    + exists (supp mu). split; auto. split; [eauto |]. split; auto.
      pose proof (towards_proj (supp mu) mu 1 Hf H0 H1 ltac:(lra)) as T.
      eapply Rle_trans; [| exact T]. apply Req_le. unfold distance2. apply rsum_ext. intros d _.
      rewrite weighted_lin. unfold proj. ring.
    + set (mu' := fun i => mu i + t * (scatter (supp mu) (lam (supp mu)) i - mu i)) in *.
      assert (Hsub : forall i, In i (supp mu') -> In i (supp mu) /\ i <> k).
      { intros i Hi. apply in_supp in Hi. destruct Hi as [Hi Hne]. split.
        - destruct (in_dec Nat.eq_dec i (supp mu)) as [| Hni]; auto. exfalso. apply Hne. unfold mu'.
          rewrite H0, scatter_other by auto. ring.
        - intros ->. apply Hne. exact E. }
      assert (H1' : rsum V mu' = 1).
      { unfold mu'. rewrite rsum_plus, rsum_scale, rsum_minus, lam_total, H1 by auto. ring. }
      destruct (IH mu') as (is & F & Hnu & P & Hd); auto.
      * assert (L : (length (k :: supp mu') <= length (supp mu))%nat); [| cbn in L; lia].
        apply NoDup_incl_length.
        -- constructor; [intros C; apply Hsub in C; tauto |]. apply NoDup_filter, seq_NoDup.
        -- intros i [<- | Hi]; [apply in_supp; split; auto; lra | apply Hsub; auto].
      * exists is. split; auto. split; auto. split; auto. eapply Rle_trans; [exact Hd |]. apply towards_proj; auto.
Qed.

(** ** The loops *)
Definition good (is : list nat) : Prop := face is /\ forall i, (i < V)%nat -> 0 <= scatter is (lam is) i.
Definition res_of (is : list nat) : R := distance2 D (proj is) point.
Definition result_of (is : list nat) (r : result) : Prop :=
  dist r = res_of is /\ (forall d, xi r d = proj is d) /\ (forall i, bary r i = scatter is (lam is) i).

Lemma all_nonneg_spec : forall n f, all_nonneg n f = true <-> forall i, (i < n)%nat -> 0 <= f i.
Proof.
  induction n as [| n IH]; intros f; cbn; [split; intros; [lia | reflexivity] |].
  destruct (Rle_dec 0 (f n)) as [H | H].
  - rewrite IH. split; intros A i Hi; [destruct (Nat.eq_dec i n) as [-> | K]; auto; apply A; lia | apply A; lia].
  - split; [discriminate |]. intros A. exfalso. apply H. apply A. lia.
Qed.
Lemma nonneg_good : forall is, face is ->
  (forall i, (i < length is)%nat -> 0 <= lam is i) <-> (forall i, (i < V)%nat -> 0 <= scatter is (lam is) i).
Proof.
  intros is (ND & Hlt & Hne). split; intros A i Hi.
  - destruct (in_dec Nat.eq_dec i is) as [Hin | Hni]; [| rewrite scatter_other by auto; lra].
    destruct (In_nth _ _ 0%nat Hin) as (k & Hk & <-). rewrite scatter_nth; auto.
  - rewrite <- (scatter_nth is (lam is) i) by auto. apply A, Hlt, nth_In. auto.
Qed.

Notation tryf := (try_face solve D vertices point rhs).
Lemma try_cases : forall r is, face is ->
  (tryf r is = r /\ (good is -> dist r <= res_of is)) \/
  (good is /\ res_of is < dist r /\ result_of is (tryf r is)).
Proof.
  intros r is Hf. unfold try_face. fold (lam is).
  assert (Ed : pdot D (psub (combine vertices is (lam is)) point) (psub (combine vertices is (lam is)) point) = res_of is).
  { apply rsum_ext. intros d _. unfold psub. rewrite combine_proj by auto. reflexivity. }
  rewrite Ed. destruct (all_nonneg (length is) (lam is)) eqn:E.
  - assert (G : good is) by (split; auto; apply nonneg_good; auto; apply all_nonneg_spec; auto).
    destruct (Rlt_dec (res_of is) (dist r)) as [C | C].
    + right. split; auto. split; auto. split; [reflexivity |]. split; auto.
      intros d. apply combine_proj. auto.
    + left. split; auto. intros _. lra.
  - left. split; auto. intros [_ G]. pose proof (proj2 (nonneg_good is Hf) G) as G2. clear G. rename G2 into G. apply all_nonneg_spec in G. congruence.
Qed.
Lemma fold_cases : forall fs r, (forall is, In is fs -> face is) ->
  let r' := fold_left tryf fs r in
  (r' = r \/ exists is, In is fs /\ good is /\ result_of is r' /\ res_of is < dist r) /\
  dist r' <= dist r /\ (forall is, In is fs -> good is -> dist r' <= res_of is).
Proof.
  induction fs as [| is fs IH]; intros r Hfs; cbn [fold_left].
  - cbn. split; auto. split; [lra |]. intros ? [].
  - assert (Hf : face is) by (apply Hfs; left; auto).
    assert (Hfs' : forall is, In is fs -> face is) by (intros; apply Hfs; right; auto).
    specialize (IH (tryf r is) Hfs'). cbn zeta in IH. cbn zeta. destruct IH as (A & B & C).
    destruct (try_cases r is Hf) as [[E G] | (G & Hlt & Hr)].
    + rewrite E in *. split; [| split]; auto.
      * destruct A as [A | (j & Hj & A)]; auto. right. exists j. split; auto. right. auto.
      * intros j [-> | Hj] Hg; auto. specialize (G Hg). lra.
    + destruct Hr as [Hd Hr]. split; [| split].
      * right. destruct A as [A | (j & Hj & A1 & A2 & A3)].
        -- rewrite A. exists is. split; [left; auto |]. split; auto. split; auto. split; auto.
        -- exists j. split; [right; auto |]. split; auto. split; auto. lra.
      * lra.
      * intros j [-> | Hj] Hg; auto. lra.
Qed.

Lemma faces_spec : forall DD, (DD < V)%nat -> exists fs, faces V DD = Some fs /\
  forall is, In is fs <-> is_subset V (DD + 1) is.
Proof.
  intros DD H. destruct (choose_enum_spec V (DD + 1) ltac:(lia) (V ^ (DD + 1))%nat (le_n _)) as (l & E & _ & I).
  exists l. split; auto. intros is. rewrite I. apply cset_subset.
Qed.

Lemma subset_face : forall k is, is_subset V (S k) is -> face is.
Proof.
  intros k is (L & Hlt & Hs). split; [| split; auto; intros ->; discriminate].
  clear L Hlt. induction Hs as [| a t Ht IH Ha]; constructor; auto.
  intros C. rewrite Forall_forall in Ha. specialize (Ha a C). lia.
Qed.
Lemma filter_sorted : forall (f : nat -> bool) l, StronglySorted lt l -> StronglySorted lt (filter f l).
Proof.
  intros f l H. induction H as [| a t Ht IH Ha]; cbn; [constructor |]. destruct (f a); auto. constructor; auto.
  rewrite Forall_forall in *. intros x Hx. apply filter_In in Hx. apply Ha. tauto.
Qed.
Lemma seq_sorted : forall n m, StronglySorted lt (seq m n).
Proof.
  induction n as [| n IH]; intros m; cbn; constructor; auto. apply Forall_forall. intros x Hx.
  apply in_seq in Hx. lia.
Qed.
Lemma supp_subset : forall mu, is_subset V (length (supp mu)) (supp mu).
Proof.
  intros mu. split; auto. split; [intros i Hi; apply in_supp in Hi; tauto |].
  apply filter_sorted, seq_sorted.
Qed.
Lemma supp_length : forall mu, (length (supp mu) <= V)%nat.
Proof.
  intros mu. unfold supp. rewrite <- (seq_length V 0) at 2. induction (seq 0 V); cbn; auto.
  destruct (Req_EM_T (mu a) 0); cbn; lia.
Qed.

Lemma closest2_spec : forall dims, (forall DD, In DD dims -> (DD < V)%nat) ->
  exists r, closest2 solve D V vertices huge point rhs dims = Some r /\
  (dist r = huge \/ exists is, good is /\ result_of is r) /\ dist r <= huge /\
  forall DD is, In DD dims -> is_subset V (DD + 1) is -> good is -> dist r <= res_of is.
Proof.
  induction dims as [| DD tail IH]; intros Hdims; cbn [closest2].
  - eexists. split; [reflexivity |]. cbn. split; auto. split; [lra |]. intros ? ? [].
  - destruct (faces_spec DD ltac:(apply Hdims; left; auto)) as (fs & -> & Hfs). cbn [bind].
    set (r0 := {| dist := huge; xi := fun _ => 0; bary := fun _ => 0 |}).
    assert (Hf : forall is, In is fs -> face is).
    { intros is Hi. apply Hfs in Hi. rewrite Nat.add_1_r in Hi. eapply subset_face; eauto. }
    destruct (fold_cases fs r0 Hf) as (A & B & C). set (r := fold_left tryf fs r0) in *. clearbody r.
    assert (A' : dist r = huge \/ exists is, good is /\ result_of is r).
    { destruct A as [-> | (is & _ & G & Hr & _)]; [left; reflexivity | right; eauto]. }
    cbn [dist r0] in B.
    assert (Here : forall is, is_subset V (DD + 1) is -> good is -> dist r <= res_of is).
    { intros is Hi G. apply C; auto. apply Hfs; auto. }
    destruct tail as [| DD' tail].
    + exists r. split; auto. split; auto. split; auto. intros D0 is [<- | []]; auto.
    + destruct IH as (o & E & Ao & Bo & Co); [intros; apply Hdims; right; auto |].
      rewrite E. cbn [bind]. eexists. split; [reflexivity |].
      destruct (Rlt_dec (dist o) (dist r)) as [L | L].
      * split; auto. split; auto. intros D0 is [<- | Hin] Hs G; [| eapply Co; eauto].
        specialize (Here is Hs G). lra.
      * split; auto. split; auto. intros D0 is [<- | Hin] Hs G; [auto |].
        specialize (Co D0 is Hin Hs G). lra.
Qed.

Lemma closest_spec : (exists i, (i < V)%nat /\ distance2 D (vertices i) point < huge) ->
  exists r, closest solve D V vertices huge point = Some r /\
    convex_coords D V vertices (bary r) (xi r) /\ dist r = distance D (xi r) point /\
    forall y, in_simplex D V vertices y -> dist r <= distance D y point.
Proof.
  intros (v & Hv & Hclose). unfold closest.
  destruct (closest2_spec (seq 0 V)) as (c & -> & A & B & C); [intros DD H; apply in_seq in H; lia |].
  assert (Cand : forall mu, (forall i, (i < V)%nat -> 0 <= mu i) -> rsum V mu = 1 ->
    dist c <= distance2 D (wt mu) point).
  { intros mu Hmu H1. destruct (candidate_exists (length (supp mu)) mu (le_n _) Hmu H1) as (is & F & (nu & ->) & P & Hd).
    eapply Rle_trans; [| exact Hd]. pose proof (face_len _ F). pose proof (supp_length nu).
    apply (C (length (supp nu) - 1)%nat).
    - apply in_seq. lia.
    - replace (length (supp nu) - 1 + 1)%nat with (length (supp nu)) by lia. apply supp_subset.
    - split; auto. }
  assert (Hmin : forall y, in_simplex D V vertices y -> dist c <= distance2 D y point).
  { intros y (mu & Hmu & H1 & Hy). eapply Rle_trans; [apply (Cand mu Hmu H1) |]. apply Req_le.
    apply rsum_ext. intros d Hd. rewrite Hy by auto. reflexivity. }
  assert (Hvs : in_simplex D V vertices (vertices v)).
  { exists (fun i => if Nat.eq_dec i v then 1 else 0). split; [intros i _; destruct (Nat.eq_dec i v); lra |].
    split.
    - rewrite (rsum_single V v); auto; [destruct (Nat.eq_dec v v); congruence |].
      intros i _ Hne. destruct (Nat.eq_dec i v); congruence.
    - intros d Hd. unfold weighted. rewrite (rsum_single V v); auto.
      + destruct (Nat.eq_dec v v); [ring | congruence].
      + intros i _ Hne. destruct (Nat.eq_dec i v); [congruence | ring]. }
  destruct A as [A | (is & (F & P) & (Hd & Hx & Hb))]; [specialize (Hmin _ Hvs); lra |].
  cbn [bind]. eexists. split; [reflexivity |]. cbn [dist xi bary].
  assert (Hdist : dist c = distance2 D (xi c) point).
  { rewrite Hd. apply rsum_ext. intros d _. rewrite Hx. reflexivity. }
  split; [| split].
  - split; [intros i Hi; rewrite Hb; auto |]. split.
    + rewrite (rsum_ext V _ (scatter is (lam is))) by auto. apply lam_total. auto.
    + intros d _. rewrite Hx. unfold weighted. apply rsum_ext. intros i _. rewrite Hb. reflexivity.
  - unfold distance. rewrite <- Hdist. reflexivity.
  - intros y Hy. unfold distance. apply sqrt_le_1_alt. auto.
Qed.
End S.
