(** Lobatto points and the warp function. *)
Require Import List Arith Lia Reals Lra.
Require Import Verif.Base Verif.LinAlg Verif.CombinatoricsModel Verif.CombinatoricsProps Verif.SimplexModel Verif.TopoModel Verif.FaultModel Verif.GeometryModel Verif.GeometryProofs Verif.PlexModel Verif.PlexSpec Verif.PlexProps
  Verif.BasisModel Verif.BasisSpec Verif.JacobiProofs Verif.IntegralSpec Verif.IntegralProofs Verif.QuadratureModel Verif.QuadratureSpec Verif.RootsProofs Verif.RootsProps Verif.DubinerProofs Verif.SpanProofs
  Verif.RefElementSpec Verif.RefElementProofs Verif.RefElementProps Verif.UnisolventProps Verif.NodesModel.
Import ListNotations.
Local Open Scope R_scope.

(** ** Symmetry of Jacobi polynomials *)
Lemma hjac_parity : forall n a x y, hjac n a a (- x) y = (-1) ^ n * hjac n a a x y /\ hjac (n + 1) a a (- x) y = (-1) ^ (n + 1) * hjac (n + 1) a a x y.
Proof.
  induction n as [| n IH]; intros a x y.
  - rewrite !hjac_0, !hjac_1. cbn. split; [ring | lra].
  - destruct (IH a x y) as [A B]. split; [now replace (S n) with (n + 1)%nat by lia |].
    replace (S n + 1)%nat with (n + 2)%nat by lia.
    pose proof (hjac_rec a a n (- x) y) as R1. pose proof (hjac_rec a a n x y) as R2. cbv zeta in R1, R2. set (m := INR (n + 2)) in *.
    assert (Hm : 2 <= m) by (unfold m; rewrite plus_INR; pose proof (pos_INR n); simpl (INR 2); lra).
    set (c := 2 * m * (m + INR a + INR a) * (2 * m + INR a + INR a - 2)) in *.
    assert (Hc : c <> 0). { unfold c. pose proof (pos_INR a). apply Rgt_not_eq. repeat apply Rmult_lt_0_compat; lra. }
    apply (Rmult_eq_reg_l c); [| exact Hc]. rewrite R1, A, B.
    replace (c * ((-1) ^ (n + 2) * hjac (n + 2) a a x y)) with ((-1) ^ (n + 2) * (c * hjac (n + 2) a a x y)) by ring. rewrite R2.
    rewrite !pow_add. cbn [pow]. ring.
Qed.
Lemma jacobi_parity : forall n a x, jacobi n a a (- x) = (-1) ^ n * jacobi n a a x.
Proof. intros n a x. rewrite <- !hjac_jacobi. apply hjac_parity. Qed.
Lemma JacobiP_jacobi : forall n a b x, JacobiP n a b x = jacobi n a b x.
Proof. intros. now rewrite JacobiP_hjac, hjac_jacobi. Qed.

(** ** Lobatto points *)
Lemma lobatto_list : forall root N, (1 <= N)%nat -> exists gl, LegendreGaussLobattoPoints root (N + 1) 0 0 = Some gl /\ length gl = (N + 1)%nat
  /\ nth 0 gl 0 = -1 /\ nth N gl 0 = 1 /\ forall i, (0 < i < N)%nat -> nth i gl 0 = root (N - 1)%nat 1%nat 1%nat (N - 1 - i)%nat.
Proof.
  intros root N HN. unfold LegendreGaussLobattoPoints. replace (N + 1 <? 2)%nat with false by (symmetry; apply Nat.ltb_ge; lia).
  cbv zeta. cbn [ir_x ir_n GaussJacobi]. replace (N + 1 - 2)%nat with (N - 1)%nat by lia. replace (0 + 1)%nat with 1%nat by lia. set (r := root (N - 1)%nat 1%nat 1%nat).
  assert (LR : length (rev (map r (seq 0 (N - 1)))) = (N - 1)%nat) by now rewrite rev_length, map_length, seq_length.
  eexists. split; [reflexivity |]. split; [rewrite !app_length, LR; cbn; lia |]. split; [reflexivity |]. split.
  - change ([-1] ++ rev (map r (seq 0 (N - 1))) ++ [1]) with ((-1) :: (rev (map r (seq 0 (N - 1))) ++ [1])). destruct N as [| N']; [lia |].
    cbn [nth]. rewrite app_nth2 by lia. rewrite LR. replace (N' - (S N' - 1))%nat with 0%nat by lia. reflexivity.
  - intros i Hi. change ([-1] ++ rev (map r (seq 0 (N - 1))) ++ [1]) with ((-1) :: (rev (map r (seq 0 (N - 1))) ++ [1])). destruct i as [| i']; [lia |].
    cbn [nth]. rewrite app_nth1 by lia. rewrite rev_nth by (rewrite map_length, seq_length; lia). rewrite map_length, seq_length.
    rewrite (nth_indep _ 0 (r 0%nat)) by (rewrite map_length, seq_length; lia). rewrite map_nth, seq_nth by lia. f_equal; try lia.
Qed.
Section Lobatto.
Variables (root : nat -> nat -> nat -> nat -> R) (N : nat) (gl : list R).
Hypothesis HN : (1 <= N)%nat.
Hypothesis Hroot : jacobi_roots (N - 1) 1 1 (root (N - 1)%nat 1%nat 1%nat).
Hypothesis Hgl : LegendreGaussLobattoPoints root (N + 1) 0 0 = Some gl.
Lemma gl_length : length gl = (N + 1)%nat.
Proof. destruct (lobatto_list root N HN) as (g & E & H). rewrite Hgl in E. injection E as <-. tauto. Qed.
Lemma gl_first : nth 0 gl 0 = -1.
Proof. destruct (lobatto_list root N HN) as (g & E & H). rewrite Hgl in E. injection E as <-. tauto. Qed.
Lemma gl_last : nth N gl 0 = 1.
Proof. destruct (lobatto_list root N HN) as (g & E & H). rewrite Hgl in E. injection E as <-. tauto. Qed.
Lemma gl_inner : forall i, (0 < i < N)%nat -> nth i gl 0 = root (N - 1)%nat 1%nat 1%nat (N - 1 - i)%nat.
Proof. destruct (lobatto_list root N HN) as (g & E & H). rewrite Hgl in E. injection E as <-. tauto. Qed.
Lemma gl_inside : forall i, (0 < i < N)%nat -> -1 < nth i gl 0 < 1.
Proof. intros i Hi. rewrite gl_inner by exact Hi. apply (roots_inside (N - 1) 1 1); [exact Hroot | lia]. Qed.
Lemma gl_range : forall i, (i <= N)%nat -> -1 <= nth i gl 0 <= 1.
Proof.
  intros i Hi. destruct (Nat.eq_dec i 0) as [-> | H0]; [rewrite gl_first; lra |]. destruct (Nat.eq_dec i N) as [-> | H1]; [rewrite gl_last; lra |].
  pose proof (gl_inside i ltac:(lia)). lra.
Qed.
Lemma gl_distinct : forall i j, (i <= N)%nat -> (j <= N)%nat -> nth i gl 0 = nth j gl 0 -> i = j.
Proof.
  assert (C : forall i, (i <= N)%nat -> (i = 0%nat /\ nth i gl 0 = -1) \/ (i = N /\ nth i gl 0 = 1) \/ (0 < i < N)%nat /\ -1 < nth i gl 0 < 1).
  { intros i Hi. destruct (Nat.eq_dec i 0) as [-> | H0]; [left; split; [reflexivity | apply gl_first] |].
    destruct (Nat.eq_dec i N) as [-> | H1]; [right; left; split; [reflexivity | apply gl_last] |]. right; right. split; [lia | apply gl_inside; lia]. }
  intros i j Hi Hj E. destruct (C i Hi) as [[-> Ei] | [[-> Ei] | [Ii Ei]]], (C j Hj) as [[-> Ej] | [[-> Ej] | [Ij Ej]]]; try reflexivity; try lra.
  rewrite !gl_inner in E by assumption. apply (proj2 Hroot) in E; lia.
Qed.
(** The points in increasing order are symmetric. *)
Hypothesis Hdecr : forall i j, (i < j < N - 1)%nat -> root (N - 1)%nat 1%nat 1%nat j < root (N - 1)%nat 1%nat 1%nat i.
Lemma gl_increasing : forall i j, (i < j <= N)%nat -> nth i gl 0 < nth j gl 0.
Proof.
  intros i j Hij. destruct (Nat.eq_dec i 0) as [-> | H0].
  - destruct (Nat.eq_dec j N) as [-> | H1]; [rewrite gl_first, gl_last; lra |]. rewrite gl_first. apply gl_inside. lia.
  - destruct (Nat.eq_dec j N) as [-> | H1]; [rewrite gl_last; apply gl_inside; lia |]. rewrite !gl_inner by lia. apply Hdecr. lia.
Qed.
End Lobatto.
(** Two increasing sequences with the same values are the same. *)
Lemma increasing_same : forall n (x y : nat -> R), (forall i j, (i < j < n)%nat -> x i < x j) -> (forall i j, (i < j < n)%nat -> y i < y j) ->
  (forall i, (i < n)%nat -> exists j, (j < n)%nat /\ x i = y j) -> forall i, (i < n)%nat -> x i = y i.
Proof.
  intros n x y Hx Hy H.
  assert (G : forall i k, (i <= k)%nat -> (k < n)%nat -> exists j, (j < n)%nat /\ x k = y j /\ (k - i <= j)%nat) .
  { intros i k. remember (k - i)%nat as d. revert i k Heqd. induction d as [| d IH]; intros i k E Hik Hk.
    - destruct (H k Hk) as (j & Hj & E'). exists j. split; [exact Hj |]. split; [exact E' | lia].
    - destruct (IH i (k - 1)%nat) as (j & Hj & E' & Hd); [lia | lia | lia |]. destruct (H k Hk) as (j' & Hj' & E''). exists j'. split; [exact Hj' |]. split; [exact E'' |].
      assert (x (k - 1)%nat < x k) by (apply Hx; lia). destruct (le_lt_dec j' j) as [L | L]; [| lia]. exfalso.
      destruct (Nat.eq_dec j' j) as [-> | Hn]; [lra |]. assert (y j' < y j) by (apply Hy; lia). lra. }
  assert (F : forall i k, (i <= k)%nat -> (k < n)%nat -> forall j, (j < n)%nat -> x i = y j -> (j + (k - i) < n)%nat).
  { intros i k. remember (k - i)%nat as d. revert i k Heqd. induction d as [| d IH]; intros i k E Hik Hk j Hj Ej; [lia |].
    destruct (H (i + 1)%nat ltac:(lia)) as (j' & Hj' & E'). assert (x i < x (i + 1)%nat) by (apply Hx; lia).
    assert (j < j')%nat. { destruct (le_lt_dec j' j) as [L | L]; [| exact L]. exfalso. destruct (Nat.eq_dec j' j) as [-> | Hn]; [lra |]. assert (y j' < y j) by (apply Hy; lia). lra. }
    pose proof (IH (i + 1)%nat k ltac:(lia) ltac:(lia) Hk j' Hj' E'). lia. }
  intros i Hi. destruct (G 0%nat i ltac:(lia) Hi) as (j & Hj & E & L). pose proof (F i (n - 1)%nat ltac:(lia) ltac:(lia) j Hj E). now replace i with j at 2 by lia.
Qed.
Lemma roots_all : forall n a b x t, jacobi_roots n a b x -> (forall i j, (i < j < n)%nat -> x j < x i) -> jacobi n a b t = 0 -> exists i, (i < n)%nat /\ t = x i.
Proof.
  intros n a b x t [Hz _] Hd Ht. destruct (Nat.eq_dec n 0) as [-> | Hn].
  - rewrite <- hjac_jacobi, hjac_0 in Ht. lra.
  - pose proof (jacobi_factored a b n (fun i => x (n - 1 - i)%nat) ltac:(lia) (fun i Hi => Hz (n - 1 - i)%nat ltac:(lia)) (fun i j Hij => Hd (n - 1 - j)%nat (n - 1 - i)%nat ltac:(lia)) t) as E.
    rewrite Ht in E. symmetry in E. apply Rmult_integral in E. destruct E as [E | E]; [pose proof (lead_pos a b n); lra |].
    destruct (zprod_zero_inv _ _ _ E) as (j & Hj & Ej). exists (n - 1 - j)%nat. split; [lia | exact Ej].
Qed.
Lemma gl_symmetric : forall root N gl, (1 <= N)%nat -> jacobi_roots (N - 1) 1 1 (root (N - 1)%nat 1%nat 1%nat) ->
  (forall i j, (i < j < N - 1)%nat -> root (N - 1)%nat 1%nat 1%nat j < root (N - 1)%nat 1%nat 1%nat i) ->
  LegendreGaussLobattoPoints root (N + 1) 0 0 = Some gl -> forall i, (i <= N)%nat -> nth (N - i) gl 0 = - nth i gl 0.
Proof.
  intros root N gl HN Hr Hd Hgl i Hi. set (r := root (N - 1)%nat 1%nat 1%nat) in *.
  destruct (Nat.eq_dec i 0) as [-> | H0]; [rewrite Nat.sub_0_r, (gl_last root N gl HN Hgl), (gl_first root N gl HN Hgl); ring |].
  destruct (Nat.eq_dec i N) as [-> | H1]; [rewrite Nat.sub_diag, (gl_last root N gl HN Hgl), (gl_first root N gl HN Hgl); ring |].
  rewrite !(gl_inner root N gl HN Hgl) by lia. fold r. replace (N - 1 - (N - i))%nat with (i - 1)%nat by lia.
  pose proof (increasing_same (N - 1) (fun k => - r k) (fun k => r (N - 1 - 1 - k)%nat)) as S. cbv beta in S.
  rewrite <- (Ropp_involutive (r (i - 1)%nat)). f_equal. rewrite S.
  - f_equal. lia.
  - intros a b Hab. specialize (Hd a b Hab). lra.
  - intros a b Hab. apply Hd. lia.
  - intros k Hk. destruct (roots_all (N - 1) 1 1 r (- r k) Hr Hd) as (j & Hj & E).
    + rewrite jacobi_parity, (proj1 Hr k Hk). ring.
    + exists (N - 1 - 1 - j)%nat. split; [lia |]. rewrite E. f_equal. lia.
  - lia.
Qed.
(** The inner points are the stationary points of the Legendre polynomial of degree N. *)
Lemma gl_stationary : forall root N gl i, (1 <= N)%nat -> jacobi_roots (N - 1) 1 1 (root (N - 1)%nat 1%nat 1%nat) ->
  LegendreGaussLobattoPoints root (N + 1) 0 0 = Some gl -> (0 < i < N)%nat -> derivable_pt_lim (jacobi N 0 0) (nth i gl 0) 0.
Proof.
  intros root N gl i HN Hr Hgl Hi. rewrite (gl_inner root N gl HN Hgl i Hi).
  pose proof (jacobi_deriv N 0 0 (root (N - 1)%nat 1%nat 1%nat (N - 1 - i)%nat)) as D.
  destruct N as [| n]; [lia |]. cbn [Nat.add] in D. replace (S n - 1)%nat with n in * by lia.
  eapply derivable_pt_lim_ext_eq; [reflexivity | | exact D]. rewrite (proj1 Hr (n - i)%nat) by lia. ring.
Qed.

(** ** The warp function *)
Lemma eqPoint_eq : forall N i, (1 <= N)%nat -> eqPoint N i = 2 * (INR i / INR N) - 1.
Proof. intros N i HN. unfold eqPoint. rewrite mult_INR. simpl (INR 2). field. apply not_0_INR. lia. Qed.
Lemma eqPoint_opp : forall N i, (1 <= N)%nat -> (i <= N)%nat -> eqPoint N (N - i) = - eqPoint N i.
Proof. intros N i HN Hi. rewrite !eqPoint_eq by exact HN. rewrite minus_INR by exact Hi. field. apply not_0_INR. lia. Qed.
Lemma eqPoint_inj : forall N i j, (1 <= N)%nat -> eqPoint N i = eqPoint N j -> i = j.
Proof.
  intros N i j HN E. rewrite !eqPoint_eq in E by exact HN. apply INR_eq. assert (INR N <> 0) by (apply not_0_INR; lia).
  apply (Rmult_eq_reg_r (/ INR N)); [| now apply Rinv_neq_0_compat]. unfold Rdiv in E. lra.
Qed.
Lemma multiindices_1 : forall N mi, multiindices 1 N mi -> length mi = (N + 1)%nat.
Proof.
  intros N mi [NM HM]. transitivity (length (map (fun k => [k]) (seq 0 (N + 1)))); [| now rewrite map_length, seq_length].
  assert (Sg : forall k, list_sum [k] = k) by (intros k; change (list_sum [k]) with (k + 0)%nat; lia).
  apply Nat.le_antisymm; apply NoDup_incl_length; try assumption.
  - intros a Ha. apply HM in Ha. destruct Ha as [La Sa]. destruct a as [| k [| ? ?]]; try discriminate. rewrite Sg in Sa.
    apply in_map_iff. exists k. split; [reflexivity |]. apply in_seq. lia.
  - apply FinFun.Injective_map_NoDup; [| apply seq_NoDup]. intros a b EQ. now inversion EQ.
  - intros a Ha. apply in_map_iff in Ha. destruct Ha as (k & <- & Hk). apply in_seq in Hk. apply HM. rewrite Sg. split; [reflexivity | lia].
Qed.
(** A functional on the polynomials of degree N that vanishes on Legendre polynomials has zero weights at distinct points. *)
Lemma weights_zero : forall N (y x : nat -> R), (forall i j, (i <= N)%nat -> (j <= N)%nat -> y i = y j -> i = j) ->
  (forall j, (j <= N)%nat -> rsum (N + 1) (fun i => JacobiP j 0 0 (2 * y i - 1) * x i) = 0) -> forall k, (k <= N)%nat -> x k = 0.
Proof.
  intros N y x Hy Hx k Hk. pose proof (interval_unisolvent N y Hy) as U. set (nodes := map (fun i => IntegralSpec.pt (y i) 0 0) (seq 0 (N + 1))) in U.
  assert (LN : length nodes = (N + 1)%nat) by (unfold nodes; now rewrite map_length, seq_length).
  assert (PN : forall i, (i < N + 1)%nat -> nth i nodes (fun _ => 0) = IntegralSpec.pt (y i) 0 0).
  { intros i Hi. unfold nodes. rewrite (nth_indep _ (fun _ => 0) (IntegralSpec.pt (y 0%nat) 0 0)) by (rewrite map_length, seq_length; lia).
    rewrite (map_nth (fun i => IntegralSpec.pt (y i) 0 0)), seq_nth by lia. reflexivity. }
  destruct (integer_sums_enumerate 1 N true ltac:(lia)) as (fuel & mi & E & _). destruct (sums_multiindices fuel 1 N mi ltac:(lia) E) as [Hmi _].
  pose proof (multiindices_1 N mi Hmi) as LM.
  destruct (nodal_basis_exists_unique _ 1 N mi nodes ltac:(lia) (ex_intro _ fuel E) ltac:(lia) U gauss_inverse_exact) as (psi & [PP PV] & _).
  destruct (phi_span 1 N mi ltac:(lia) Hmi (psi k) (PP k ltac:(lia))) as (c & Hc).
  assert (Z : rsum (N + 1) (fun i => psi k (nth i nodes (fun _ => 0)) * x i) = 0).
  { rewrite (rsum_ext (N + 1) _ (fun i => rsum (length mi) (fun j => c j * (DubinerP 1 (nth j mi []) (nth i nodes (fun _ => 0)) * x i)))).
    - rewrite rsum_swap. apply rsum_zero. intros j Hj. rewrite rsum_scale.
      rewrite (rsum_ext (N + 1) _ (fun i => JacobiP (nth 0 (nth j mi []) 0%nat) 0 0 (2 * y i - 1) * x i)); [rewrite Hx; [ring |] | intros i Hi; rewrite PN by exact Hi; reflexivity].
      destruct (proj1 (proj2 Hmi (nth j mi [])) (nth_In _ _ Hj)) as [La Sa]. destruct (nth j mi []) as [| a [| ? ?]]; try discriminate. change (list_sum [a]) with (a + 0)%nat in Sa. cbn [nth]. lia.
    - intros i Hi. rewrite Hc, <- rsum_scale_r. apply rsum_ext. intros; ring. }
  rewrite (rsum_single (N + 1) k) in Z; [| lia |].
  - rewrite PV in Z by lia. rewrite Nat.eqb_refl in Z. lra.
  - intros i Hi Hne. rewrite PV by lia. destruct (Nat.eqb_spec k i); [congruence | ring].
Qed.
Lemma vt_nonsingular : forall N, (1 <= N)%nat -> nonsingular (N + 1) (vandermondeT N).
Proof.
  intros N HN x Hx k Hk. apply (weights_zero N (fun i => INR i / INR N) x); [| | lia].
  - intros i j _ _ E. apply (eqPoint_inj N i j HN). rewrite !eqPoint_eq by exact HN. now rewrite E.
  - intros j Hj. rewrite <- (Hx j ltac:(lia)). unfold mat_vec, vandermondeT. apply rsum_ext. intros i Hi. now rewrite eqPoint_eq.
Qed.
Lemma rsum_rev : forall n f, rsum (n + 1) f = rsum (n + 1) (fun i => f (n - i)%nat).
Proof.
  induction n as [| n IH]; intros f; [reflexivity |]. replace (S n + 1)%nat with (S (n + 1)) by lia.
  rewrite (rsum_head (n + 1) (fun i => f (S n - i)%nat)). cbn [rsum]. rewrite IH, Nat.sub_0_r. replace (n + 1)%nat with (S n) at 2 by lia. rewrite Rplus_comm. f_equal.
Qed.
Section Warp.
Variables (solve : nat -> (nat -> nat -> R) -> (nat -> R) -> nat -> R) (root : nat -> nat -> nat -> nat -> R) (eps : R) (N : nat) (gl : list R).
Hypothesis HN : (1 <= N)%nat.
Hypothesis Hsolve : exact_solver solve.
Hypothesis Hroot : jacobi_roots (N - 1) 1 1 (root (N - 1)%nat 1%nat 1%nat).
Hypothesis Hgl : LegendreGaussLobattoPoints root (N + 1) 0 0 = Some gl.
Hypothesis Heps : 0 < eps < / INR N.
Local Notation wl r := (solve (N + 1) (vandermondeT N) (fun i => JacobiP i 0 0 r)).
Lemma wl_node : forall k i, (k <= N)%nat -> (i <= N)%nat -> wl (eqPoint N k) i = if (i =? k)%nat then 1 else 0.
Proof.
  intros k i Hk Hi. apply (solver_unique solve (N + 1) (vandermondeT N) _ (fun i => if (i =? k)%nat then 1 else 0) Hsolve (vt_nonsingular N HN)); [| lia].
  intros j Hj. unfold mat_vec. rewrite (rsum_single (N + 1) k); [rewrite Nat.eqb_refl; unfold vandermondeT; ring | lia |].
  intros m Hm Hne. destruct (Nat.eqb_spec m k); [congruence | ring].
Qed.
Lemma wl_opp : forall r i, (i <= N)%nat -> wl (- r) i = wl r (N - i)%nat.
Proof.
  intros r i Hi. apply (solver_unique solve (N + 1) (vandermondeT N) _ (fun i => wl r (N - i)%nat) Hsolve (vt_nonsingular N HN)); [| lia].
  intros j Hj. unfold mat_vec. rewrite rsum_rev.
  rewrite (rsum_ext (N + 1) _ (fun i => (-1) ^ j * (vandermondeT N j i * wl r i))).
  - rewrite rsum_scale. pose proof (Hsolve (N + 1)%nat (vandermondeT N) (fun i => JacobiP i 0 0 r) (vt_nonsingular N HN) j Hj) as Q. unfold mat_vec in Q. rewrite Q. rewrite !JacobiP_jacobi. symmetry. apply jacobi_parity.
  - intros m Hm. replace (N - (N - m))%nat with m by lia. unfold vandermondeT. rewrite eqPoint_opp by lia. rewrite !JacobiP_jacobi, jacobi_parity. ring.
Qed.
Lemma inv_N : / INR N <= 1 /\ 0 < / INR N.
Proof.
  assert (1 <= INR N) by (change 1 with (INR 1); apply le_INR; exact HN). split; [| apply Rinv_0_lt_compat; lra]. rewrite <- Rinv_1. apply Rinv_le_contravar; lra.
Qed.
(** At the equidistant points the warp function, times the bubble, moves to the Lobatto points. *)
Lemma warpfactor_node : forall k, (k <= N)%nat -> warpfactor solve eps N gl (eqPoint N k) * (1 - eqPoint N k * eqPoint N k) = nth k gl 0 - eqPoint N k.
Proof.
  intros k Hk. unfold warpfactor. set (w := rsum (N + 1) _).
  assert (W : w = nth k gl 0 - eqPoint N k).
  { unfold w. rewrite (rsum_single (N + 1) k); [rewrite wl_node, Nat.eqb_refl by lia; ring | lia |].
    intros i Hi Hne. rewrite wl_node by lia. destruct (Nat.eqb_spec i k); [congruence | ring]. }
  assert (NZ : INR N <> 0) by (apply not_0_INR; lia). destruct inv_N as [I1 I2].
  destruct (Nat.eq_dec k 0) as [-> | K0].
  { assert (E : eqPoint N 0 = -1) by (rewrite eqPoint_eq by exact HN; simpl (INR 0); field; exact NZ). rewrite W, E, (gl_first root N gl HN Hgl). destruct (Rlt_dec _ _); unfold Rdiv; ring. }
  destruct (Nat.eq_dec k N) as [-> | KN].
  { assert (E : eqPoint N N = 1) by (rewrite eqPoint_eq by exact HN; field; exact NZ). rewrite W, E, (gl_last root N gl HN Hgl). destruct (Rlt_dec _ _); unfold Rdiv; ring. }
  assert (B : Rabs (eqPoint N k) <= 1 - 2 * / INR N).
  { rewrite eqPoint_eq by exact HN. assert (/ INR N <= INR k / INR N <= 1 - / INR N).
    { split.
      - unfold Rdiv. rewrite <- (Rmult_1_l (/ INR N)) at 1. apply Rmult_le_compat_r; [lra |]. change 1 with (INR 1). apply le_INR. lia.
      - replace (1 - / INR N) with ((INR N - 1) * / INR N) by (field; exact NZ). apply Rmult_le_compat_r; [lra |]. change 1 with (INR 1). rewrite <- minus_INR by lia. apply le_INR. lia. }
    apply Rabs_le. lra. }
  destruct (Rlt_dec _ _) as [_ | Hn]; [| exfalso; apply Hn; lra]. rewrite W. field.
  assert (-1 < eqPoint N k < 1) by (destruct (Rabs_def2 (eqPoint N k) 1); lra). nra.
Qed.
Lemma warpfactor_odd : forall r, (forall i, (i <= N)%nat -> nth (N - i) gl 0 = - nth i gl 0) -> warpfactor solve eps N gl (- r) = - warpfactor solve eps N gl r.
Proof.
  intros r Hs. unfold warpfactor. rewrite Rabs_Ropp.
  assert (E : rsum (N + 1) (fun i => wl (- r) i * (nth i gl 0 - eqPoint N i)) = - rsum (N + 1) (fun i => wl r i * (nth i gl 0 - eqPoint N i))).
  { rewrite rsum_rev. replace (- rsum (N + 1) (fun i => wl r i * (nth i gl 0 - eqPoint N i))) with (-1 * rsum (N + 1) (fun i => wl r i * (nth i gl 0 - eqPoint N i))) by ring.
    rewrite <- rsum_scale. apply rsum_ext. intros i Hi. rewrite wl_opp by lia. replace (N - (N - i))%nat with i by lia. rewrite Hs, eqPoint_opp by lia. ring. }
  rewrite E. destruct (Rlt_dec _ _); [| reflexivity]. replace (1 - - r * - r) with (1 - r * r) by ring. unfold Rdiv. ring.
Qed.

(** ** Triangle *)
(** The amount by which the edge from a to b moves a point with barycentric coordinates L; c is the other vertex. *)
Definition edge_warp (alpha : R) (L : nat -> R) (a b c : nat) : R :=
  warpfactor solve eps N gl (L b - L a) * (4 * (L a * L b) * (1 + alpha * alpha * (L c * L c))).
(** The change of barycentric coordinates. *)
Definition tri_shift (alpha : R) (L : nat -> R) (c : nat) : R :=
  let W01 := edge_warp alpha L 0 1 2 in let W02 := edge_warp alpha L 0 2 1 in let W12 := edge_warp alpha L 1 2 0 in
  match c with
  | 0%nat => - (W01 + W02) / 2
  | 1%nat => (W01 - W12) / 2
  | _ => (W02 + W12) / 2
  end.
Lemma sqrt3 : sqrt 3 * sqrt 3 = 3 /\ sqrt 3 <> 0.
Proof. split; [apply sqrt_sqrt; lra |]. apply Rgt_not_eq. apply sqrt_lt_R0. lra. Qed.
Lemma sqrt6 : sqrt 6 * sqrt 6 = 6 /\ sqrt 6 <> 0.
Proof. split; [apply sqrt_sqrt; lra |]. apply Rgt_not_eq. apply sqrt_lt_R0. lra. Qed.
Lemma over_sqrt3 : forall c, c / sqrt 3 = c / 3 * sqrt 3.
Proof. intros c. destruct sqrt3 as [S N0]. replace 3 with (sqrt 3 * sqrt 3) at 2 by exact S. field. exact N0. Qed.
Lemma over_sqrt6 : forall c, c / sqrt 6 = c / 6 * sqrt 6.
Proof. intros c. destruct sqrt6 as [S N0]. replace 6 with (sqrt 6 * sqrt 6) at 2 by exact S. field. exact N0. Qed.
Lemma normalized_length : forall D v l, 0 < l -> vdot D v v = l * l -> forall d, normalized D v d = v d / l.
Proof.
  intros D v l Hl E d. unfold normalized. destruct (Rlt_dec 0 (vdot D v v)) as [_ | Hn]; [| exfalso; apply Hn; rewrite E; now apply Rmult_lt_0_compat].
  unfold vnorm. rewrite E, sqrt_square by lra. reflexivity.
Qed.
Lemma triangle_edges : forall a b, (a, b) = (0, 1)%nat \/ (a, b) = (0, 2)%nat \/ (a, b) = (1, 2)%nat -> forall d,
  normalized 2 (vdiff (equilateralTriangle b) (equilateralTriangle a)) d = (equilateralTriangle b d - equilateralTriangle a d) / 2.
Proof.
  intros a b H d. destruct sqrt3 as [S N0].
  rewrite (normalized_length 2 _ 2); [reflexivity | lra |].
  destruct H as [H | [H | H]]; injection H as -> ->; unfold vdot, vdiff; cbn [rsum equilateralTriangle coords]; rewrite ?over_sqrt3; lra.
Qed.
Lemma triangle_shift : forall alpha L, exists w, warpAndBlendTriangle solve root eps N alpha L = Some w
  /\ forall d, w d = rsum 3 (fun c => tri_shift alpha L c * equilateralTriangle c d).
Proof.
  intros alpha L. unfold warpAndBlendTriangle. rewrite Hgl. cbn [bind]. rewrite f2v_2. cbn [bind fold_left nth]. eexists. split; [reflexivity |]. intros d.
  change (missing_vertex 2 [0; 1]%nat) with 2%nat. change (missing_vertex 2 [0; 2]%nat) with 1%nat. change (missing_vertex 2 [1; 2]%nat) with 0%nat.
  cbv beta. rewrite !triangle_edges by auto. cbn [rsum]. unfold tri_shift, edge_warp. field.
Qed.
End Warp.
