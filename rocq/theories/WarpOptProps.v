(** C94: the program for the warp and blend parameter. *)
Require Import List Arith Lia Reals Lra.
Require Import Verif.Base Verif.LinAlg Verif.CombinatoricsModel Verif.BasisModel Verif.BasisSpec Verif.BasisProps Verif.IntegralSpec Verif.DubinerProofs Verif.SpanProofs
  Verif.RefElementSpec Verif.RefElementModel Verif.RefElementProofs Verif.RefElementProps Verif.WarpOptModel Verif.WarpOptSpec.
Import ListNotations.
Local Open Scope R_scope.

Lemma golden : invGR * invGR = 1 - invGR /\ 1 / 2 < invGR < 1.
Proof.
  assert (S : sqrt 5 * sqrt 5 = 5) by (apply sqrt_sqrt; lra). assert (S2 : 2 < sqrt 5 < 3).
  { split; [rewrite <- (sqrt_square 2) by lra|rewrite <- (sqrt_square 3) by lra]; apply sqrt_lt_1; lra. }
  unfold invGR. split; [|split].
  - field_simplify_eq; [|lra]. nra.
  - apply (Rmult_lt_reg_r (sqrt 5 + 1)); [lra|]. field_simplify; lra.
  - apply (Rmult_lt_reg_r (sqrt 5 + 1)); [lra|]. field_simplify; lra.
Qed.

Section Search.
Variables (f : R -> R) (a b : R).
Record search_ok (s : search) : Prop := {
  so_a : a <= gs_x0 s; so_b : gs_x3 s <= b; so_h : gs_h s = gs_x3 s - gs_x0 s; so_pos : 0 < gs_h s;
  so_x1 : gs_x1 s = gs_x3 s - gs_h s * invGR; so_x2 : gs_x2 s = gs_x0 s + gs_h s * invGR;
  so_f0 : gs_f0 s = f (gs_x1 s); so_f1 : gs_f1 s = f (gs_x2 s);
  so_in1 : In (gs_x1 s) (gs_calls s); so_in2 : In (gs_x2 s) (gs_calls s);
  so_range : forall y, In y (gs_calls s) -> a <= y <= b;
  so_best : forall y, In y (gs_calls s) -> gs_f0 s <= f y \/ gs_f1 s <= f y;
  so_uni : forall m, unimodal f a b m -> gs_x0 s <= m <= gs_x3 s }.
Lemma begin_ok : a < b -> search_ok (search_begin f a b).
Proof.
  intro H. destruct golden as [G [G1 G2]]. assert (P1 : 0 < (b - a) * invGR) by (apply Rmult_lt_0_compat; lra). assert (P2 : 0 < (b - a) * (1 - invGR)) by (apply Rmult_lt_0_compat; lra).
  constructor; cbn; auto; try lra.
  - intros y [<-|[<-|[]]]; nra.
  - intros y [<-|[<-|[]]]; lra.
  - intros m [Hm _]. exact Hm.
Qed.
Lemma step_ok s : search_ok s -> search_ok (search_step f s) /\ gs_h (search_step f s) = gs_h s * invGR.
Proof.
  intros [A B H P X1 X2 F0 F1 I1 I2 Rg Bs Un]. destruct golden as [G [G1 G2]]. destruct s as [x0 x1 x2 x3 h f0 f1 l]. cbn in *.
  assert (P1 : 0 < h * invGR) by (apply Rmult_lt_0_compat; lra). assert (P2 : 0 < h * (1 - invGR)) by (apply Rmult_lt_0_compat; lra).
  assert (GG : h * invGR * invGR = h * (1 - invGR)) by (rewrite <- G; ring). assert (P3 : 0 < h * (2 * invGR - 1)) by (apply Rmult_lt_0_compat; lra).
  assert (x1 < x2) by nra.
  unfold search_step. cbn. destruct (Rle_dec f0 f1) as [L|L].
  - assert (HH : x2 - x0 = h * invGR) by lra. split; [constructor; cbn; auto; try lra|cbn; lra].
    + nra.
    + intros y [<-|Hy]; [|auto]. rewrite HH. nra.
    + intros y [<-|Hy]; [left; lra|]. right. destruct (Bs y Hy); lra.
    + intros m U. pose proof (Un m U). destruct U as (Hm & Um & Up). split; [lra|]. apply Rnot_lt_le. intro C. pose proof (Um x1 x2 ltac:(nra) ltac:(lra) ltac:(lra)). lra.
  - assert (HH : x3 - x1 = h * invGR) by lra. split; [constructor; cbn; auto; try lra|cbn; lra].
    + nra.
    + intros y [<-|Hy]; [|auto]. rewrite HH. nra.
    + intros y [<-|Hy]; [right; lra|]. left. destruct (Bs y Hy); lra.
    + intros m U. pose proof (Un m U). destruct U as (Hm & Um & Up). split; [|lra]. apply Rnot_lt_le. intro C. pose proof (Up x1 x2 ltac:(lra) ltac:(lra) ltac:(nra)). lra.
Qed.
Lemma step_calls s : length (gs_calls (search_step f s)) = S (length (gs_calls s)).
Proof. unfold search_step. destruct (Rle_dec _ _); reflexivity. Qed.
Lemma loop_ends tol n : forall s, search_ok s -> gs_h s * invGR ^ n <= tol -> exists k t, (k <= n)%nat /\ search_ok t /\ gs_h t <= tol /\
  (forall fuel, (k <= fuel)%nat -> search_loop fuel f tol s = Some (1 / 2 * (gs_x0 t + gs_x3 t), gs_calls t)) /\
  (forall fuel, (fuel < k)%nat -> search_loop fuel f tol s = None) /\
  length (gs_calls t) = (k + length (gs_calls s))%nat /\ gs_h s * invGR ^ k <= tol /\ (k = 0%nat \/ tol < gs_h s * invGR ^ (k - 1)).
Proof.
  induction n as [|n IH]; intros s O Hn.
  - exists 0%nat, s. cbn in Hn. rewrite Rmult_1_r in Hn. split; [lia|]. split; [exact O|]. split; [exact Hn|]. split; [|split; [intros; lia|]].
    + intros fuel _. destruct fuel; cbn; (destruct (Rlt_dec tol (Rabs (gs_h s))) as [C|C]; [|reflexivity]); rewrite Rabs_pos_eq in C by (pose proof (so_pos _ O); lra); lra.
    + cbn. rewrite Rmult_1_r. auto.
  - destruct (Rlt_dec tol (gs_h s)) as [C|C].
    + destruct (step_ok s O) as [O' H']. destruct (IH (search_step f s) O') as (k & t & Hk & Ot & Ht & E1 & E2 & Ln & B1 & B2).
      { rewrite H'. cbn in Hn. lra. }
      assert (AB : Rabs (gs_h s) = gs_h s) by (apply Rabs_pos_eq; pose proof (so_pos _ O); lra).
      exists (S k), t. split; [lia|]. split; [exact Ot|]. split; [exact Ht|]. split; [|split; [|split; [|split]]].
      * intros [|fuel] Hf; [lia|]. cbn. rewrite AB. destruct (Rlt_dec tol (gs_h s)); [|lra]. apply E1. lia.
      * intros fuel Hf. destruct fuel; cbn; rewrite AB; (destruct (Rlt_dec tol (gs_h s)); [|lra]); [reflexivity|]. apply E2. lia.
      * rewrite Ln, step_calls. lia.
      * rewrite H' in B1. cbn. lra.
      * right. rewrite H' in B2. replace (S k - 1)%nat with k by lia. destruct B2 as [->|B2]; [cbn; lra|]. destruct k; [cbn; lra|]. replace (S k - 1)%nat with k in B2 by lia. cbn. lra.
    + exists 0%nat, s. split; [lia|]. split; [exact O|]. split; [lra|]. split; [|split; [intros; lia|]].
      * intros fuel _. destruct fuel; cbn; (destruct (Rlt_dec tol (Rabs (gs_h s))) as [C'|C']; [|reflexivity]); rewrite Rabs_pos_eq in C' by (pose proof (so_pos _ O); lra); lra.
      * cbn. rewrite Rmult_1_r. split; [auto|]. split; [lra|auto].
Qed.
End Search.

(** C94: for every function and every positive tolerance the search ends, after as many rounds as it takes
    to shrink the interval to the tolerance by the golden ratio, with one call in each round.  It looks only
    inside the interval, and what it returns is within half the tolerance of the best point it has looked
    at.  If the function falls and then rises, it is within half the tolerance of the minimum. *)
Theorem golden_section_search : forall f a b tol, a < b -> 0 < tol ->
  exists n r calls, (forall fuel, (n <= fuel)%nat -> GoldenSectionSearch fuel f a b tol = Some (r, calls)) /\
    a <= r <= b /\ (forall y, In y calls -> a <= y <= b) /\
    length calls = (n + 2)%nat /\ (b - a) * (2 / (sqrt 5 + 1)) ^ n <= tol /\ (n = 0%nat \/ tol < (b - a) * (2 / (sqrt 5 + 1)) ^ (n - 1)) /\
    (exists best, In best calls /\ (forall y, In y calls -> f best <= f y) /\ Rabs (best - r) <= tol / 2) /\
    (forall m, unimodal f a b m -> Rabs (r - m) <= tol / 2).
Proof.
  intros f a b tol H T. pose proof (begin_ok f a b H) as O. destruct golden as [G [G1 G2]].
  destruct (pow_lt_1_zero invGR ltac:(rewrite Rabs_pos_eq; lra) (tol / (b - a))) as (N & HN); [apply Rdiv_lt_0_compat; lra|].
  specialize (HN N (le_n _)). assert (0 < invGR ^ N) by (apply pow_lt; lra). rewrite Rabs_pos_eq in HN by lra.
  assert (E : (b - a) * (tol / (b - a)) = tol) by (field; lra).
  destruct (loop_ends f a b tol N _ O) as (n & t & _ & Ot & Ht & E1 & _ & Ln & B1 & B2); [cbn; nra|].
  exists n, (1 / 2 * (gs_x0 t + gs_x3 t)), (gs_calls t). split; [exact E1|]. destruct Ot as [A B Hh P X1 X2 F0 F1 I1 I2 Rg Bs Un].
  split; [lra|]. split; [exact Rg|]. split; [exact Ln|]. split; [exact B1|]. split; [exact B2|].
  assert (P1 : 0 < gs_h t * invGR) by (apply Rmult_lt_0_compat; lra). assert (P2 : 0 < gs_h t * (1 - invGR)) by (apply Rmult_lt_0_compat; lra).
  split.
  - destruct (Rle_dec (gs_f0 t) (gs_f1 t)) as [L|L].
    + exists (gs_x1 t). split; [exact I1|]. split; [intros y Hy; rewrite <- F0; destruct (Bs y Hy); lra|]. apply Rabs_le. lra.
    + exists (gs_x2 t). split; [exact I2|]. split; [intros y Hy; rewrite <- F1; destruct (Bs y Hy); lra|]. apply Rabs_le. lra.
  - intros m U. pose proof (Un m U). apply Rabs_le. lra.
Qed.
Print Assumptions golden_section_search.
(** With a tolerance that is not positive, which the command line accepts, the search does not end. *)
Theorem golden_section_ends_refuted : forall f a b tol fuel, a < b -> tol <= 0 -> GoldenSectionSearch fuel f a b tol = None.
Proof.
  intros f a b tol fuel H T. unfold GoldenSectionSearch. pose proof (begin_ok f a b H) as O. revert O. generalize (search_begin f a b). induction fuel as [|n IH]; intros s O;
    cbn; (destruct (Rlt_dec tol (Rabs (gs_h s))) as [C|C]; [|exfalso; apply C; rewrite Rabs_pos_eq by (pose proof (so_pos _ _ _ _ O); lra); pose proof (so_pos _ _ _ _ O); lra]); [reflexivity|].
  apply IH. apply step_ok. exact O.
Qed.
Print Assumptions golden_section_ends_refuted.

(** C94: the random points are points of the simplex, and uniformly distributed if the generator's are. *)
Theorem sample_triangle : (forall c, square c -> triangle (sample2 c)) /\ folds apply2 det2 square triangle_inside sample2 2.
Proof.
  split.
  - intros [x y]. cbn. destruct (Rlt_dec 1 (x + y)); cbn; lra.
  - exists [((1, 0, 0), (0, 1, 0)); ((0, -1, 1), (-1, 0, 1))]. split; [reflexivity|]. split.
    + intros F [<-|[<-|[]]]; cbn; [rewrite Rabs_right; lra|rewrite Rabs_left; lra].
    + intros [p q] (Hp & Hq & Hpq). split.
      * cbn. constructor; [intros [E|[]]; injection E as; lra|]. constructor; [intros []|constructor].
      * intros [x y]. cbn. split.
        -- intros [Hc E]. destruct (Rlt_dec 1 (x + y)); injection E as; [right; left|left]; f_equal; lra.
        -- intros [E|[E|[]]]; injection E as; (split; [lra|]); destruct (Rlt_dec 1 (x + y)); try lra; f_equal; lra.
Qed.
Print Assumptions sample_triangle.
Theorem sample_tetrahedron : (forall c, cube c -> tetrahedron (sample3 c)) /\ folds apply3 det3 cube tetrahedron_inside sample3 6.
Proof.
  split.
  - intros [[x y] z]. cbn. destruct (Rlt_dec 1 (x + y)).
    + destruct (Rlt_dec 1 (1 - x + (1 - y) + z)); [destruct (Rlt_dec 1 (1 - y + z))|]; cbn; lra.
    + destruct (Rlt_dec 1 (x + y + z)); [destruct (Rlt_dec 1 (y + z))|]; cbn; lra.
  - exists [((1, 0, 0, 0), (0, 1, 0, 0), (0, 0, 1, 0)); ((1, 0, 0, 0), (-1, 0, -1, 1), (0, -1, 0, 1)); ((1, 0, 1, 0), (0, 1, 0, 0), (-1, -1, 0, 1));
            ((-1, 0, 0, 1), (0, -1, 0, 1), (0, 0, 1, 0)); ((-1, 0, 0, 1), (1, 0, 1, 0), (0, -1, 0, 1)); ((-1, 0, -1, 1), (0, -1, 0, 1), (-1, -1, 0, 1))].
    split; [reflexivity|]. split.
    + intros F HF. cbn in HF. repeat (destruct HF as [<-|HF]; [cbn; match goal with |- Rabs ?e = 1 => (replace e with 1 by ring; apply Rabs_R1) || (replace e with (Ropp 1) by ring; rewrite Rabs_Ropp; apply Rabs_R1) end|]). destruct HF.
    + intros [[p q] r] (Hp & Hq & Hr & Hs). split.
      * cbn. repeat (constructor; [cbn; intros HF; repeat (destruct HF as [E|HF]; [injection E as; lra|]); destruct HF|]). constructor.
      * intros [[x y] z]. cbn. split.
        -- intros [Hc E]. destruct (Rlt_dec 1 (x + y)).
           ++ destruct (Rlt_dec 1 (1 - x + (1 - y) + z)); [destruct (Rlt_dec 1 (1 - y + z))|]; injection E as.
              ** do 4 right. left. f_equal; [f_equal|]; lra.
              ** do 5 right. left. f_equal; [f_equal|]; lra.
              ** do 3 right. left. f_equal; [f_equal|]; lra.
           ++ destruct (Rlt_dec 1 (x + y + z)); [destruct (Rlt_dec 1 (y + z))|]; injection E as.
              ** right. left. f_equal; [f_equal|]; lra.
              ** do 2 right. left. f_equal; [f_equal|]; lra.
              ** left. f_equal; [f_equal|]; lra.
        -- assert (K : (0 <= x <= 1 /\ 0 <= y <= 1 /\ 0 <= z <= 1) ->
             (x + y <= 1 -> x + y + z <= 1 -> x = p /\ y = q /\ z = r) -> (x + y <= 1 -> 1 < x + y + z -> 1 < y + z -> x = p /\ 1 - z = q /\ 1 - y - x = r) ->
             (x + y <= 1 -> 1 < x + y + z -> y + z <= 1 -> 1 - y - z = p /\ y = q /\ x + y + z - 1 = r) ->
             (1 < x + y -> z <= x + y - 1 -> 1 - x = p /\ 1 - y = q /\ z = r) -> (1 < x + y -> x + y - 1 < z -> y < z -> 1 - x = p /\ 1 - z = q /\ x + y - 1 = r) ->
             (1 < x + y -> x + y - 1 < z -> z <= y -> y - z = p /\ 1 - y = q /\ 1 - x - y + z = r) ->
             (0 <= x <= 1 /\ 0 <= y <= 1 /\ 0 <= z <= 1) /\ sample3 (x, y, z) = (p, q, r)).
           { intros Hc K1 K2 K3 K4 K5 K6. split; [exact Hc|]. unfold sample3. destruct (Rlt_dec 1 (x + y)) as [A|A].
             - destruct (Rlt_dec 1 (1 - x + (1 - y) + z)) as [B|B]; [destruct (Rlt_dec 1 (1 - y + z)) as [C|C]|].
               + destruct (K5 ltac:(lra) ltac:(lra) ltac:(lra)) as (E1 & E2 & E3). f_equal; [f_equal|]; lra.
               + destruct (K6 ltac:(lra) ltac:(lra) ltac:(lra)) as (E1 & E2 & E3). f_equal; [f_equal|]; lra.
               + destruct (K4 ltac:(lra) ltac:(lra)) as (E1 & E2 & E3). f_equal; [f_equal|]; lra.
             - destruct (Rlt_dec 1 (x + y + z)) as [B|B]; [destruct (Rlt_dec 1 (y + z)) as [C|C]|].
               + destruct (K2 ltac:(lra) ltac:(lra) ltac:(lra)) as (E1 & E2 & E3). f_equal; [f_equal|]; lra.
               + destruct (K3 ltac:(lra) ltac:(lra) ltac:(lra)) as (E1 & E2 & E3). f_equal; [f_equal|]; lra.
               + destruct (K1 ltac:(lra) ltac:(lra)) as (E1 & E2 & E3). f_equal; [f_equal|]; lra. }
           intros HF. repeat (destruct HF as [E|HF]; [injection E as; apply K; intros; lra|]). destruct HF.
Qed.
Print Assumptions sample_tetrahedron.

(** * Lebesgue function *)
Lemma rsum_abs n g : Rabs (rsum n g) <= rsum n (fun i => Rabs (g i)).
Proof.
  induction n as [|n IH]; cbn [rsum]; [rewrite Rabs_R0; lra|]. eapply Rle_trans; [apply Rabs_triang|]. lra.
Qed.
Lemma rsum_mono n g h : (forall i, (i < n)%nat -> g i <= h i) -> rsum n g <= rsum n h.
Proof. induction n as [|n IH]; intro H; cbn [rsum]; [lra|]. specialize (IH (fun i Hi => H i ltac:(lia))). specialize (H n ltac:(lia)). lra. Qed.
Section Lebesgue.
Variables (inverse : nat -> (nat -> nat -> R) -> nat -> nat -> R) (D N : nat) (mi : list (list nat)) (nodes : list (nat -> R)).
Hypothesis HD : (D = 1 \/ D = 2 \/ D = 3)%nat.
Hypothesis RT : runs_through D N mi.
Hypothesis Ln : length nodes = length mi.
Hypothesis Un : unisolvent D N nodes.
Hypothesis HI : exact_inverse inverse.
Local Notation n := (length nodes).
Local Notation phi j := (DubinerP D (nth j mi [])).
(** The entries of vInvT * phi are the nodal basis functions. *)
Lemma lebesgue_entries psi : nodal_basis D N nodes psi -> (forall f, polynomial D N f -> forall xi, f xi = rsum n (fun i => f (point nodes i) * psi i xi)) ->
  forall i xi, (i < n)%nat -> rsum n (fun j => vInvT inverse D mi nodes i j * phi j xi) = psi i xi.
Proof.
  intros [PP PN] Rep. destruct (modal_ref_element D N mi HD RT) as (_ & Pphi & Sp & _).
  set (A := fun r c => Vandermonde D mi nodes c r).
  (* a combination of values at the nodes that vanishes for the modal basis vanishes *)
  assert (NS : nonsingular n A).
  { intros c Hc k Hk. destruct (Sp (psi k) (PP k Hk)) as (u & Hu & _).
    assert (Z : rsum n (fun i => c i * psi k (point nodes i)) = 0).
    { rewrite (rsum_ext n _ (fun i => rsum (length mi) (fun j => u j * (phi j (point nodes i) * c i)))).
      - rewrite rsum_swap. apply rsum_zero. intros j Hj. rewrite rsum_scale. specialize (Hc j ltac:(lia)). unfold mat_vec, A, Vandermonde in Hc. rewrite Hc. ring.
      - intros i Hi. rewrite (Hu (point nodes i)), <- rsum_scale. apply rsum_ext. intros. ring. }
    rewrite (rsum_single n k) in Z; [|exact Hk|intros i Hi Ne; unfold point; rewrite PN by auto; destruct (Nat.eqb_spec k i); [congruence|ring]].
    unfold point in Z. rewrite PN, Nat.eqb_refl in Z by auto. lra. }
  intros i xi Hi. set (d := fun i => rsum n (fun j => vInvT inverse D mi nodes i j * phi j xi) - psi i xi).
  assert (Z : d i = 0); [|unfold d in Z; lra]. apply (NS d); [|exact Hi]. intros j Hj. unfold mat_vec, d.
  rewrite (rsum_ext n _ (fun k => A j k * rsum n (fun l => vInvT inverse D mi nodes k l * phi l xi) - A j k * psi k xi)) by (intros; ring). rewrite rsum_minus.
  assert (E1 : rsum n (fun k => A j k * rsum n (fun l => vInvT inverse D mi nodes k l * phi l xi)) = phi j xi).
  { rewrite (rsum_ext n _ (fun k => rsum n (fun l => phi l xi * (A j k * vInvT inverse D mi nodes k l)))) by (intros k Hk; rewrite <- rsum_scale; apply rsum_ext; intros; ring).
    rewrite rsum_swap, (rsum_single n j); [|exact Hj|].
    - rewrite rsum_scale. unfold vInvT. fold A. rewrite (HI n A NS) by auto. rewrite Nat.eqb_refl. ring.
    - intros l Hl Ne. rewrite rsum_scale. unfold vInvT. fold A. rewrite (HI n A NS) by auto. destruct (Nat.eqb_spec j l); [congruence|ring]. }
  rewrite E1, (Rep (phi j) (Pphi j ltac:(lia)) xi). unfold A, Vandermonde. ring.
Qed.

(** C94: at every point the Lebesgue function is the norm of the interpolation; it is at least one, and one
    at the nodes. *)
Theorem lebesgue_function_correct : forall xi,
  lebesgue_value D N nodes xi (LebesgueFunction inverse D mi nodes xi) /\ 1 <= LebesgueFunction inverse D mi nodes xi /\
  (forall k, (k < n)%nat -> LebesgueFunction inverse D mi nodes (nth k nodes (fun _ => 0)) = 1).
Proof.
  intro xi. destruct (nodal_basis_exists_unique inverse D N mi nodes HD RT Ln Un HI) as (psi & NB & _ & Rep & One). pose proof (lebesgue_entries psi NB Rep) as LE.
  assert (LF : forall x, LebesgueFunction inverse D mi nodes x = rsum n (fun i => Rabs (psi i x))) by (intro x; unfold LebesgueFunction; apply rsum_ext; intros i Hi; rewrite LE by auto; reflexivity).
  destruct NB as [PP PN]. rewrite !LF.
  assert (UB : forall f, polynomial D N f -> (forall x, In x nodes -> Rabs (f x) <= 1) -> Rabs (f xi) <= rsum n (fun i => Rabs (psi i xi))).
  { intros f Pf B. rewrite (Rep f Pf xi). eapply Rle_trans; [apply rsum_abs|]. apply rsum_mono. intros i Hi. rewrite Rabs_mult.
    assert (Rabs (f (point nodes i)) <= 1) by (apply B, nth_In; exact Hi). pose proof (Rabs_pos (psi i xi)). nra. }
  split; [split; [exact UB|]|split].
  - set (sg := fun i => if Rle_dec 0 (psi i xi) then 1 else -1). exists (fun x => rsum n (fun i => sg i * psi i x)). split; [|split].
    + apply (poly_rsum D N n (fun i x => sg i * psi i x)). intros i Hi. apply poly_scale. auto.
    + intros x Hx. destruct (In_nth nodes x (fun _ => 0) Hx) as (k & Hk & <-). rewrite (rsum_single n k); [|exact Hk|intros i Hi Ne; rewrite PN by auto; destruct (Nat.eqb_spec i k); [congruence|ring]].
      rewrite PN, Nat.eqb_refl by auto. unfold sg. destruct (Rle_dec 0 (psi k xi)); rewrite ?Rmult_1_r; [rewrite Rabs_R1; lra|rewrite Rabs_left; lra].
    + apply rsum_ext. intros i Hi. unfold sg. destruct (Rle_dec 0 (psi i xi)); [rewrite Rabs_pos_eq by auto; ring|rewrite Rabs_left by lra; ring].
  - rewrite <- (One xi) at 1. apply rsum_mono. intros. apply Rle_abs.
  - intros k Hk. rewrite LF, (rsum_single n k); [rewrite PN, Nat.eqb_refl, Rabs_R1 by auto; reflexivity|exact Hk|].
    intros i Hi Ne. rewrite PN by auto. destruct (Nat.eqb_spec i k); [congruence|apply Rabs_R0].
Qed.
End Lebesgue.
Print Assumptions lebesgue_function_correct.

Lemma fold_max_ge (g : (nat -> R) -> R) c : forall L, L <= fold_left (fun L p => Rmax L (g p)) c L /\ (forall p, In p c -> g p <= fold_left (fun L p => Rmax L (g p)) c L) /\
  (fold_left (fun L p => Rmax L (g p)) c L = L \/ exists p, In p c /\ fold_left (fun L p => Rmax L (g p)) c L = g p).
Proof.
  induction c as [|p c IH]; intro L; cbn [fold_left].
  - split; [lra|]. split; [intros p []|auto].
  - destruct (IH (Rmax L (g p))) as (H1 & H2 & H3). pose proof (Rmax_l L (g p)). pose proof (Rmax_r L (g p)). split; [lra|]. split.
    + intros q [<-|Hq]; [lra|auto].
    + destruct H3 as [E|(q & Hq & E)]; [|right; exists q; split; [right|]; auto]. rewrite E. unfold Rmax. destruct (Rle_dec L (g p)); [right; exists p; split; [left|]; auto|auto].
Qed.
Lemma fold_chunks (g : (nat -> R) -> R) low : forall chunks L, low <= L ->
  fold_left Rmax (map (fun c => fold_left (fun L p => Rmax L (g p)) c low) chunks) L = fold_left (fun L p => Rmax L (g p)) (concat chunks) L.
Proof.
  induction chunks as [|c chunks IH]; intros L HL; [reflexivity|]. cbn [map fold_left concat]. rewrite fold_left_app.
  assert (E : forall c L, low <= L -> Rmax L (fold_left (fun L p => Rmax L (g p)) c low) = fold_left (fun L p => Rmax L (g p)) c L).
  { clear. induction c as [|p c IH] using rev_ind; intros L HL; cbn; [apply Rmax_left; auto|]. rewrite !fold_left_app. cbn. rewrite Rmax_assoc, IH by auto. reflexivity. }
  rewrite E by auto. apply IH. pose proof (proj1 (fold_max_ge g c L)). lra.
Qed.
(** C94: for every number of threads and every distribution of the points to them, the estimate of the
    Lebesgue constant is the largest value at the points; it is at least one and not more than any bound
    on the simplex. *)
Theorem lebesgue_estimate_correct : forall inverse D N mi nodes low chunks,
  (D = 1 \/ D = 2 \/ D = 3)%nat -> runs_through D N mi -> length nodes = length mi -> unisolvent D N nodes -> exact_inverse inverse ->
  low <= 0 -> concat chunks <> [] ->
  let Lam := LebesgueFunction inverse D mi nodes in
  exists L, estimateLebesgueConstant low Lam chunks = L /\ 1 <= L /\ (forall p, In p (concat chunks) -> Lam p <= L) /\ exists p, In p (concat chunks) /\ L = Lam p.
Proof.
  intros inverse D N mi nodes low chunks HD RT Ln Un HI Hl Ne Lam. exists (estimateLebesgueConstant low Lam chunks). split; [reflexivity|].
  unfold estimateLebesgueConstant. rewrite fold_chunks by exact Hl. destruct (fold_max_ge Lam (concat chunks) 0) as (H1 & H2 & H3).
  assert (G : forall p, 1 <= Lam p) by (intro p; apply (lebesgue_function_correct inverse D N mi nodes HD RT Ln Un HI p)).
  destruct (concat chunks) as [|p0 l] eqn:E; [congruence|]. pose proof (H2 p0 (or_introl eq_refl)). pose proof (G p0).
  split; [lra|]. split; [exact H2|]. destruct H3 as [Z|(p & Hp & Z)]; [lra|]. exists p. auto.
Qed.
Print Assumptions lebesgue_estimate_correct.
