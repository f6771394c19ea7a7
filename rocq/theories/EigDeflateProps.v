(** C72: randomized eigenvalue computation and the deflation preconditioner. *)
Require Import List Arith Bool Lia Reals Lra.
Require Import Verif.LinAlg Verif.LsPolySpec Verif.LsPolyProofs Verif.LsPolyProps Verif.EigDeflateSpec Verif.EigDeflateModel Verif.EigDeflateProofs Verif.EigDeflateRitz.
Import ListNotations.
Local Open Scope R_scope.

(** The Gram-Schmidt loop turns independent columns into orthonormal ones and keeps every leading span. *)
Theorem gram_schmidt : forall N n X, independent N n X -> let Y := MatDenseOrthonormalize N n X in
  orthonormal N n Y /\ forall m, (m <= n)%nat -> same_span N m X Y.
Proof.
  intros N n X H Y. pose proof (mgs_final N n X H) as (H1 & _ & H3). split; [exact H1 |].
  intros m Hm. split; intros j Hj; apply (in_span_mono N (S j) m); try lia; apply H3; lia.
Qed.
Print Assumptions gram_schmidt.

(** The matrix handed to the eigenvalue solver is symmetric, whatever the operator is. *)
Theorem projected_symmetric : forall N Op n X, symmetric n (projected N Op n X).
Proof. intros N Op n X i j Hi Hj. unfold projected. rewrite !symmetrize_spec by assumption. ring. Qed.
Print Assumptions projected_symmetric.

Lemma powers_shift : forall N A p X j i, powers N A (S p) X j i = powers N A p (fun j => mat_vec N A (X j)) j i.
Proof.
  intros N A p X j. unfold powers. induction p as [| p IH]; intros i; [reflexivity |]. cbn [power] in *. apply mat_vec_ext. intros l _. apply IH.
Qed.
Lemma powers_in_span : forall N A p n X v, in_span N n X v -> in_span N n (powers N A p X) (power (mat_vec N A) p v).
Proof. intros N A p n X v H. induction p as [| p IH]; [exact H |]. now apply in_span_map. Qed.

Section Min.
Variables (N : nat) (eigh : nat -> (nat -> nat -> R) -> (nat -> R) * (nat -> nat -> R)) (Sol : nat -> nat -> R) (k o p : nat) (X0 : nat -> nat -> R).
Hypothesis Hko : (k + o <= N)%nat.
Hypothesis HS : positive_definite N Sol.
Hypothesis Hh : eigen_solver (k + o) eigh.
Hypothesis H0 : independent N (k + o) X0.
Let n := (k + o)%nat.
Let X := search_space N Sol n p X0.
Let w := fst (eigh n (projected N Sol n X)).
Let Z := snd (eigh n (projected N Sol n X)).
Lemma min_setup : symmetric N Sol /\ orthonormal N n X /\ eigen_answer n (projected N Sol n X) w Z /\ same_span N n (powers N Sol (S p) X0) X.
Proof.
  destruct (search_space_spec N n Sol (positive_nonsingular N Sol HS) p X0 H0) as (K1 & K2).
  split; [apply HS |]. split; [exact K1 |]. split; [| exact K2]. apply Hh. apply projected_symmetric.
Qed.
Lemma w_pos : forall b, (b < n)%nat -> 0 < w b.
Proof.
  intros b Hb. destruct min_setup as (A1 & A2 & A3 & _).
  pose proof (ritz_diagonal N n Sol X w Z A1 A3 b b Hb Hb) as D. rewrite Nat.eqb_refl in D. rewrite <- D. apply HS.
  pose proof (ritz_orthonormal N n Sol X w Z A2 A3 b b Hb Hb) as E. rewrite Nat.eqb_refl in E.
  destruct (Classical_Prop.classic (exists i, (i < N)%nat /\ ritz n X Z b i <> 0)) as [K | K]; [exact K |]. exfalso.
  unfold dot in E. rewrite rsum_zero in E; [lra |]. intros i Hi. destruct (Req_dec (ritz n X Z b i) 0) as [-> | F]; [ring |].
  exfalso. apply K. now exists i.
Qed.
Lemma min_result : exists e V, RandEigsMin N eigh Sol k o p X0 = Some (e, V)
  /\ (forall i, (i < k)%nat -> e i = / w (n - 1 - i)) /\ (forall i, (i < k)%nat -> V i = ritz n X Z (n - 1 - i)).
Proof.
  unfold RandEigsMin. destruct (Nat.ltb_spec N (k + o)); [lia |]. fold n. fold X. unfold w, Z.
  destruct (eigh n (projected N Sol n X)) as (w', Z') eqn:E. eexists; eexists. split; [reflexivity |]. cbn [fst snd]. split; intros i Hi.
  - rewrite swap_all by (unfold n; lia). unfold Rdiv. ring.
  - unfold ritz. rewrite swap_all by (unfold n; lia). reflexivity.
Qed.
End Min.

(** RandEigsMin: with Sol the solver for A (the inverse of A, positive definite) and independent random columns, the k vectors
    are orthonormal, lie in the space of Sol^(power_its+1) applied to the random columns, and are the best that space
    offers: the eigenvalues are positive, ascending, and e_i is the smallest quotient (u.u)/(u.Sol u) over the vectors of
    the space orthogonal to the previous ones. *)
Theorem rand_eigs_min : forall N eigh Sol k o power_its X0, (k + o <= N)%nat -> positive_definite N Sol -> eigen_solver (k + o) eigh -> independent N (k + o) X0 ->
  exists e V, RandEigsMin N eigh Sol k o power_its X0 = Some (e, V)
  /\ orthonormal N k V
  /\ (forall i, (i < k)%nat -> in_span N (k + o) (powers N Sol (S power_its) X0) (V i))
  /\ (forall i j, (i <= j)%nat -> (j < k)%nat -> 0 < e i <= e j)
  /\ (forall i j, (i < k)%nat -> (j < k)%nat -> dot N (V i) (mat_vec N Sol (V j)) = if Nat.eqb i j then / e i else 0)
  /\ (forall i u, (i < k)%nat -> in_span N (k + o) (powers N Sol (S power_its) X0) u -> (forall j, (j < i)%nat -> dot N u (V j) = 0) ->
      e i * dot N u (mat_vec N Sol u) <= dot N u u).
Proof.
  intros N eigh Sol k o p X0 Hko HS Hh H0.
  destruct (min_setup N eigh Sol k o p X0 HS Hh H0) as (A1 & A2 & A3 & A4).
  pose proof (w_pos N eigh Sol k o p X0 HS Hh H0) as Hw.
  destruct (min_result N eigh Sol k o p X0 Hko) as (e & V & HR & He & HV).
  set (n := (k + o)%nat) in *. set (X := search_space N Sol n p X0) in *.
  set (w := fst (eigh n (projected N Sol n X))) in *. set (Z := snd (eigh n (projected N Sol n X))) in *.
  exists e, V. split; [exact HR |]. assert (Hn : (k <= n)%nat) by (unfold n; lia).
  repeat split.
  - intros i j Hi Hj. rewrite (HV i Hi), (HV j Hj), (ritz_orthonormal N n Sol X w Z A2 A3) by lia.
    destruct (Nat.eqb_spec i j), (Nat.eqb_spec (n - 1 - i) (n - 1 - j)); try lia; reflexivity.
  - intros i Hi. rewrite (HV i Hi). apply (in_span_trans N n n _ X); [apply A4 |]. apply (ritz_span N n Sol X w Z A3). lia.
  - rewrite He by lia. apply Rinv_0_lt_compat. apply Hw. lia.
  - rewrite !He by lia. apply Rinv_le_contravar; [apply Hw; lia |]. destruct A3 as (A3 & _). apply A3; lia.
  - intros i j Hi Hj. rewrite (HV i Hi), (HV j Hj), (ritz_diagonal N n Sol X w Z A1 A3), He by lia. rewrite Rinv_inv.
    destruct (Nat.eqb_spec i j), (Nat.eqb_spec (n - 1 - i) (n - 1 - j)); try lia; [now subst | reflexivity].
  - intros i u Hi Hu Ho. rewrite (He i Hi).
    assert (K : dot N u (mat_vec N Sol u) <= w (n - 1 - i)%nat * dot N u u).
    { apply (ritz_largest N n Sol X w Z A1 A2 A3); [| lia |].
      - apply (in_span_trans N n n X (powers N Sol (S p) X0)); [apply A4 | exact Hu].
      - intros b Hb Hb'. replace b with (n - 1 - (n - 1 - b))%nat by lia. rewrite <- (HV (n - 1 - b)%nat) by lia. apply Ho. lia. }
    pose proof (Hw (n - 1 - i)%nat ltac:(lia)) as P. apply (Rmult_le_reg_l (w (n - 1 - i)%nat)); [exact P |].
    rewrite <- Rmult_assoc, Rinv_r, Rmult_1_l by lra. exact K.
Qed.
Print Assumptions rand_eigs_min.

(** If Sol maps the span of the random columns into itself (for example because there are as many columns as unknowns) the
    results are exact: eigenvectors of Sol for 1/e_i and, when Sol solves with A, of A for e_i. *)
Theorem rand_eigs_min_exact : forall N eigh Sol k o power_its X0, (k + o <= N)%nat -> positive_definite N Sol -> eigen_solver (k + o) eigh -> independent N (k + o) X0 ->
  (forall j, (j < k + o)%nat -> in_span N (k + o) X0 (mat_vec N Sol (X0 j))) \/ (k + o = N)%nat ->
  exists e V, RandEigsMin N eigh Sol k o power_its X0 = Some (e, V)
  /\ forall i, (i < k)%nat -> eigenvector N (mat_vec N Sol) (/ e i) (V i)
     /\ forall A, (forall v r, (r < N)%nat -> mat_vec N A (mat_vec N Sol v) r = v r) -> eigenvector N (mat_vec N A) (e i) (V i).
Proof.
  intros N eigh Sol k o p X0 Hko HS Hh H0 Hinv.
  destruct (min_setup N eigh Sol k o p X0 HS Hh H0) as (A1 & A2 & A3 & A4).
  pose proof (w_pos N eigh Sol k o p X0 HS Hh H0) as Hw.
  destruct (min_result N eigh Sol k o p X0 Hko) as (e & V & HR & He & HV).
  set (n := (k + o)%nat) in *. set (X := search_space N Sol n p X0) in *.
  set (w := fst (eigh n (projected N Sol n X))) in *. set (Z := snd (eigh n (projected N Sol n X))) in *.
  exists e, V. split; [exact HR |]. assert (Hn : (k <= n)%nat) by (unfold n; lia).
  assert (Hin : forall j, (j < n)%nat -> in_span N n X (mat_vec N Sol (X j))).
  { destruct Hinv as [Hinv | E].
    - intros j Hj. apply (in_span_trans N n n X (powers N Sol (S p) X0)); [apply A4 |].
      apply (in_span_trans N n n _ (fun j => mat_vec N Sol (powers N Sol (S p) X0 j))); [| apply in_span_map; now apply A4].
      intros l Hl. apply (in_span_ext N n _ _ (powers N Sol (S p) (fun j => mat_vec N Sol (X0 j)) l)).
      + intros i _. apply (powers_shift N Sol (S p) X0 l i).
      + apply (powers_in_span N Sol (S p) n X0). now apply Hinv.
    - intros j Hj. pose proof (orthonormal_independent N n X A2) as I. rewrite E in *. now apply full_span. }
  intros i Hi. pose proof (Hw (n - 1 - i)%nat ltac:(lia)) as P.
  assert (Hv : eigenvector N (mat_vec N Sol) (/ e i) (V i)).
  { rewrite (HV i Hi), (He i Hi), Rinv_inv. apply (ritz_exact N n Sol X w Z A1 A2 A3 Hin). lia. }
  split; [exact Hv |]. intros A HA r Hr. rewrite <- (HA (V i) r Hr).
  rewrite (mat_vec_ext N A (mat_vec N Sol (V i)) (fun j => / e i * V i j) r (fun j Hj => Hv j Hj)), mat_vec_scale.
  rewrite (He i Hi), Rinv_inv. field. lra.
Qed.
Print Assumptions rand_eigs_min_exact.

(** RandEigsMax: the k largest values of the space A^(power_its+1) X0, ascending. *)
Theorem rand_eigs_max : forall N eigh A k o power_its X0, (k + o <= N)%nat -> symmetric N A -> nonsingular N A -> eigen_solver (k + o) eigh -> independent N (k + o) X0 ->
  exists e V, RandEigsMax N eigh A k o power_its X0 = Some (e, V)
  /\ orthonormal N k V
  /\ (forall i, (i < k)%nat -> in_span N (k + o) (powers N A (S power_its) X0) (V i))
  /\ (forall i j, (i <= j)%nat -> (j < k)%nat -> e i <= e j)
  /\ (forall i j, (i < k)%nat -> (j < k)%nat -> dot N (V i) (mat_vec N A (V j)) = if Nat.eqb i j then e i else 0)
  /\ (forall i u, (i < k)%nat -> in_span N (k + o) (powers N A (S power_its) X0) u -> (forall j, (i < j)%nat -> (j < k)%nat -> dot N u (V j) = 0) ->
      dot N u (mat_vec N A u) <= e i * dot N u u).
Proof.
  intros N eigh A k o p X0 Hko HS Hns Hh H0.
  destruct (search_space_spec N (k + o) A Hns p X0 H0) as (A2 & A4). unfold RandEigsMax. destruct (Nat.ltb_spec N (k + o)); [lia |].
  set (n := (k + o)%nat) in *. set (X := search_space N A n p X0) in *.
  pose proof (Hh (projected N A n X) (projected_symmetric N A n X)) as A3.
  destruct (eigh n (projected N A n X)) as (w, Z). cbn [fst snd] in A3. eexists; eexists. split; [reflexivity |]. cbv beta.
  assert (Hn : (k <= n)%nat) by (unfold n; lia).
  assert (HV : forall j, combine n X (fun l => Z l (j + o)%nat) = ritz n X Z (j + o)) by reflexivity.
  repeat split.
  - intros i j Hi Hj. rewrite !HV, (ritz_orthonormal N n A X w Z A2 A3) by lia. destruct (Nat.eqb_spec i j), (Nat.eqb_spec (i + o) (j + o)); try lia; reflexivity.
  - intros i Hi. rewrite HV. apply (in_span_trans N n n _ X); [apply A4 |]. apply (ritz_span N n A X w Z A3). lia.
  - intros i j Hi Hj. destruct A3 as (A3 & _). apply A3; lia.
  - intros i j Hi Hj. rewrite !HV, (ritz_diagonal N n A X w Z HS A3) by lia. destruct (Nat.eqb_spec i j), (Nat.eqb_spec (i + o) (j + o)); try lia; [now subst | reflexivity].
  - intros i u Hi Hu Ho. apply (ritz_largest N n A X w Z HS A2 A3); [| lia |].
    + apply (in_span_trans N n n X (powers N A (S p) X0)); [apply A4 | exact Hu].
    + intros b Hb Hb'. specialize (Ho (b - o)%nat). rewrite HV in Ho. replace (b - o + o)%nat with b in Ho by lia. apply Ho; lia.
Qed.
Print Assumptions rand_eigs_max.

(** ** The preconditioner *)
Lemma allreduce_spec : forall ms start Qj r, allreduce_product ms start Qj r = rsum (list_sum ms) (fun i => Qj (start + i)%nat * r (start + i)%nat).
Proof.
  induction ms as [| m ms IH]; intros start Qj r; [reflexivity |]. cbn [allreduce_product list_sum fold_right]. rewrite IH. fold (list_sum ms).
  assert (E : forall b f, rsum (m + b) f = rsum m f + rsum b (fun i => f (m + i)%nat)).
  { induction b as [| b IHb]; intros f; [rewrite Nat.add_0_r; cbn [rsum]; ring |]. rewrite Nat.add_succ_r. cbn [rsum]. rewrite IHb. ring. }
  rewrite E. f_equal. apply rsum_ext. intros i _. now rewrite <- Nat.add_assoc.
Qed.
Lemma multiply_redundant_spec : forall ms start k Q rc y i, multiply_redundant ms start k Q rc y i =
  if ((start <=? i) && (i <? start + list_sum ms))%nat%bool then rsum k (fun j => Q j i * rc j) else y i.
Proof.
  induction ms as [| m ms IH]; intros start k Q rc y i; cbn [multiply_redundant list_sum fold_right].
  - destruct (Nat.leb_spec start i), (Nat.ltb_spec i (start + 0)); try lia; reflexivity.
  - rewrite IH. fold (list_sum ms).
    destruct (Nat.leb_spec (start + m) i), (Nat.ltb_spec i (start + m + list_sum ms)), (Nat.leb_spec start i), (Nat.ltb_spec i (start + m)), (Nat.ltb_spec i (start + (m + list_sum ms))); cbn [andb]; try lia; reflexivity.
Qed.
(** Without smoothing: the sum over the deflated pairs of (Q_j . x) / e_j Q_j, whatever the partition of the rows is. *)
Theorem pc_apply_formula : forall N ms A smooth ed x i, list_sum ms = N -> (i < N)%nat ->
  PCApply_eigdeflate N ms A smooth 0 0 ed x i = rsum (ed_nev ed) (fun j => dot N (ed_Q ed j) x / ed_eigs ed j * ed_Q ed j i).
Proof.
  intros N ms A smooth ed x i Hms Hi. unfold PCApply_eigdeflate. cbn [Nat.ltb Nat.leb]. rewrite multiply_redundant_spec, Hms.
  destruct (Nat.leb_spec 0 i), (Nat.ltb_spec i (0 + N)); try lia. apply rsum_ext. intros j _. rewrite allreduce_spec, Hms. cbn [Nat.add].
  unfold dot. ring.
Qed.
Print Assumptions pc_apply_formula.
(** With smoothing: the deflation acts on the residual of the pre-smoothed vector and its result replaces that vector;
    the post-smoother continues from there with the right-hand side itself. *)
Theorem pc_apply_smoothed : forall N ms A smooth npre npost ed x, list_sum ms = N ->
  let r := if (npre =? 0)%nat then x else (fun i => x i - mat_vec N A (smooth npre x (fun _ => 0)) i) in
  exists z, (forall i, (i < N)%nat -> z i = rsum (ed_nev ed) (fun j => dot N (ed_Q ed j) r / ed_eigs ed j * ed_Q ed j i))
  /\ forall i, PCApply_eigdeflate N ms A smooth npre npost ed x i = if (npost =? 0)%nat then z i else smooth npost x z i.
Proof.
  intros N ms A smooth npre npost ed x Hms r. unfold PCApply_eigdeflate.
  assert (R : forall y r', (forall i, r' i = r i) -> forall i, (i < N)%nat -> multiply_redundant ms 0 (ed_nev ed) (ed_Q ed) (fun j => allreduce_product ms 0 (ed_Q ed j) r' / ed_eigs ed j) y i
    = rsum (ed_nev ed) (fun j => dot N (ed_Q ed j) r / ed_eigs ed j * ed_Q ed j i)).
  { intros y r' E i Hi. rewrite multiply_redundant_spec, Hms. destruct (Nat.leb_spec 0 i), (Nat.ltb_spec i (0 + N)); try lia. apply rsum_ext. intros j _.
    rewrite allreduce_spec, Hms. cbn [Nat.add]. unfold dot. rewrite (rsum_ext N (fun i0 => ed_Q ed j i0 * r' i0) (fun i => ed_Q ed j i * r i)) by (intros; now rewrite E). ring. }
  destruct npre as [|npre]; cbn [Nat.ltb Nat.leb Nat.eqb] in *; destruct npost as [|npost]; cbn [Nat.ltb Nat.leb Nat.eqb]; eexists; apply and_comm; (split; [intros; reflexivity | apply R; intros; unfold r; ring]).
Qed.
Print Assumptions pc_apply_smoothed.
(** With smoothing the partition does not matter either. *)
Theorem pc_apply_partition : forall N ms ms' A smooth npre npost ed x, list_sum ms = N -> list_sum ms' = N ->
  (forall t b u v, (forall i, u i = v i) -> forall i, smooth t b u i = smooth t b v i) ->
  forall i, PCApply_eigdeflate N ms A smooth npre npost ed x i = PCApply_eigdeflate N ms' A smooth npre npost ed x i.
Proof.
  intros N ms ms' A smooth npre npost ed x H H' Hs i. unfold PCApply_eigdeflate.
  destruct (if (0 <? npre)%nat then _ else _) as (y, r).
  assert (E : forall i, multiply_redundant ms 0 (ed_nev ed) (ed_Q ed) (fun j => allreduce_product ms 0 (ed_Q ed j) r / ed_eigs ed j) y i
    = multiply_redundant ms' 0 (ed_nev ed) (ed_Q ed) (fun j => allreduce_product ms' 0 (ed_Q ed j) r / ed_eigs ed j) y i).
  { intros i'. rewrite !multiply_redundant_spec, H, H'. destruct ((0 <=? i') && (i' <? 0 + N))%nat%bool; [| reflexivity].
    apply rsum_ext. intros j _. now rewrite !allreduce_spec, H, H'. }
  destruct (0 <? npost)%nat; [now apply Hs | apply E].
Qed.
Print Assumptions pc_apply_partition.
(** Without smoothing it is symmetric and positive semidefinite. *)
Theorem pc_apply_symmetric : forall N ms A smooth ed, list_sum ms = N -> (forall j, (j < ed_nev ed)%nat -> 0 < ed_eigs ed j) ->
  let P := PCApply_eigdeflate N ms A smooth 0 0 ed in
  (forall x x', dot N x' (P x) = dot N x (P x')) /\ (forall x, 0 <= dot N x (P x))
  /\ (forall x, dot N x (P x) = 0 <-> forall j, (j < ed_nev ed)%nat -> dot N (ed_Q ed j) x = 0).
Proof.
  intros N ms A smooth ed Hms He P.
  assert (E : forall x x', dot N x' (P x) = rsum (ed_nev ed) (fun j => dot N (ed_Q ed j) x / ed_eigs ed j * dot N x' (ed_Q ed j))).
  { intros x x'. rewrite <- dot_rsum_r. apply dot_ext; [reflexivity |]. intros i Hi. now apply pc_apply_formula. }
  assert (Hnn : forall x j, (j < ed_nev ed)%nat -> 0 <= dot N (ed_Q ed j) x / ed_eigs ed j * dot N x (ed_Q ed j)).
  { intros x j Hj. rewrite (dot_comm N x). replace (dot N (ed_Q ed j) x / ed_eigs ed j * dot N (ed_Q ed j) x) with (dot N (ed_Q ed j) x * dot N (ed_Q ed j) x * / ed_eigs ed j) by (unfold Rdiv; ring).
    apply Rmult_le_pos; [apply Rle_0_sqr |]. apply Rlt_le. apply Rinv_0_lt_compat. now apply He. }
  split; [| split].
  - intros x x'. rewrite !E. apply rsum_ext. intros j _. rewrite (dot_comm N x'), (dot_comm N x). unfold Rdiv. ring.
  - intros x. rewrite E. apply rsum_nonneg. apply Hnn.
  - intros x. rewrite E. split; intros H.
    + intros j Hj. pose proof (rsum_nonneg_zero _ _ (Hnn x) H j Hj) as Z. cbv beta in Z. rewrite (dot_comm N x) in Z.
      apply Rmult_integral in Z. destruct Z as [Z | Z]; [| exact Z]. unfold Rdiv in Z. apply Rmult_integral in Z. destruct Z as [Z | Z]; [exact Z |].
      pose proof (Rinv_0_lt_compat _ (He j Hj)). lra.
    + apply rsum_zero. intros j Hj. rewrite (H j Hj). unfold Rdiv. ring.
Qed.
Print Assumptions pc_apply_symmetric.

(** Deflation: if the pairs are exact, the components of the solution along the deflated vectors are found exactly; the
    others are what npost Richardson steps from zero leave of them, a factor (1 - alpha l)^npost of the error. *)
Lemma richardson_components : forall N A alpha t x u y (v : nat -> nat -> R) l d n, (forall i, (i < N)%nat -> x i = mat_vec N A u i) ->
  (forall m, (m < n)%nat -> eigenvector N (mat_vec N A) (l m) (v m)) -> combination N n (fun i => y i - u i) d v ->
  combination N n (fun i => richardson N A alpha t x y i - u i) (fun m => (1 - alpha * l m) ^ t * d m) v.
Proof.
  intros N A alpha t. induction t as [| t IH]; intros x u y v l d n Hx Hv Hd; cbn [richardson].
  - intros i Hi. rewrite (Hd i Hi). apply rsum_ext. intros. cbn [pow]. ring.
  - specialize (IH x u (fun i => y i + alpha * (x i - mat_vec N A y i)) v l (fun m => (1 - alpha * l m) * d m) n Hx Hv).
    intros i Hi. rewrite IH; [| | exact Hi].
    + apply rsum_ext. intros m _. cbn [pow]. ring.
    + intros r Hr. rewrite (Hx r Hr).
      assert (E : mat_vec N A y r = mat_vec N A u r + rsum n (fun m => d m * (l m * v m r))).
      { rewrite (mat_vec_ext N A y (fun q => u q + rsum n (fun m => d m * v m q)) r) by (intros q Hq; rewrite <- (Hd q Hq); ring).
        rewrite mat_vec_plus. f_equal. rewrite mat_vec_rsum. apply rsum_ext. intros m Hm. f_equal. exact (Hv m Hm r Hr). }
      rewrite E. transitivity (y r - u r - alpha * rsum n (fun m => d m * (l m * v m r))); [ring |].
      rewrite (Hd r Hr), <- rsum_scale, <- rsum_minus. apply rsum_ext. intros. ring.
Qed.
Theorem pc_apply_deflates : forall N ms A ed npost n c d v l x u, list_sum ms = N ->
  orthonormal N (ed_nev ed) (ed_Q ed) ->
  (forall j, (j < ed_nev ed)%nat -> ed_eigs ed j <> 0 /\ eigenvector N (mat_vec N A) (ed_eigs ed j) (ed_Q ed j)) ->
  (forall m, (m < n)%nat -> eigenvector N (mat_vec N A) (l m) (v m) /\ forall j, (j < ed_nev ed)%nat -> dot N (ed_Q ed j) (v m) = 0) ->
  (forall i, (i < N)%nat -> x i = mat_vec N A u i) ->
  (forall i, (i < N)%nat -> u i = rsum (ed_nev ed) (fun j => c j * ed_Q ed j i) + rsum n (fun m => d m * v m i)) ->
  combination N n (fun i => PCApply_eigdeflate N ms A (richardson N A (ed_alpha ed)) 0 npost ed x i - u i)
    (fun m => - ((1 - ed_alpha ed * l m) ^ npost * d m)) v.
Proof.
  intros N ms A ed npost n c d v l x u Hms Ho Hq Hv Hx Hu.
  set (y := PCApply_eigdeflate N ms A (richardson N A (ed_alpha ed)) 0 0 ed x).
  assert (Hy : combination N n (fun i => y i - u i) (fun m => - d m) v).
  { intros i Hi. unfold y. rewrite pc_apply_formula by assumption.
    rewrite (rsum_ext (ed_nev ed) _ (fun j => c j * ed_Q ed j i)).
    - rewrite (Hu i Hi). rewrite (rsum_ext n (fun m => - d m * v m i) (fun m => -1 * (d m * v m i))) by (intros; ring). rewrite rsum_scale. ring.
    - intros j Hj. f_equal. destruct (Hq j Hj) as (Hne & He).
      assert (E : forall r, (r < N)%nat -> x r = rsum (ed_nev ed) (fun k => (c k * ed_eigs ed k) * ed_Q ed k r) + rsum n (fun m => (d m * l m) * v m r)).
      { intros r Hr. rewrite (Hx r Hr). rewrite (mat_vec_ext N A u _ r Hu), mat_vec_plus, !mat_vec_rsum. f_equal; apply rsum_ext.
        - intros k Hk. rewrite (proj2 (Hq k Hk) r Hr). ring.
        - intros m Hm. rewrite (proj1 (Hv m Hm) r Hr). ring. }
      rewrite (dot_ext N (ed_Q ed j) x (ed_Q ed j) _ ltac:(reflexivity) E).
      rewrite (dot_plus_r N (ed_Q ed j) (fun r => rsum (ed_nev ed) (fun k => (c k * ed_eigs ed k) * ed_Q ed k r))), !dot_rsum_r.
      rewrite (rsum_zero n) by (intros m Hm; rewrite (proj2 (Hv m Hm) j Hj); ring).
      rewrite (rsum_single (ed_nev ed) j (fun k => c k * ed_eigs ed k * dot N (ed_Q ed j) (ed_Q ed k)) Hj).
      + rewrite Ho, Nat.eqb_refl by assumption. field. exact Hne.
      + intros k Hk Hne'. rewrite Ho by assumption. destruct (Nat.eqb_spec j k); [congruence | ring]. }
  pose proof (richardson_components N A (ed_alpha ed) npost x u y v l (fun m => - d m) n Hx (fun m Hm => proj1 (Hv m Hm)) Hy) as K.
  intros i Hi. destruct npost as [| t].
  - fold y. rewrite (Hy i Hi). apply rsum_ext. intros. cbn [pow]. ring.
  - assert (E : PCApply_eigdeflate N ms A (richardson N A (ed_alpha ed)) 0 (S t) ed x i = richardson N A (ed_alpha ed) (S t) x y i) by reflexivity.
    rewrite E. rewrite (K i Hi). apply rsum_ext. intros. ring.
Qed.
Print Assumptions pc_apply_deflates.

(** ** Set up *)
(** It succeeds exactly if there are enough unknowns for both computations: six are needed for the largest eigenvalue. *)
Theorem pc_setup_succeeds : forall N eigh A Sol nev oversample power_its factor X0 Y0,
  (exists ed, PCSetUp_eigdeflate N eigh A Sol nev oversample power_its factor X0 Y0 = Some ed) <-> (nev + oversample <= N /\ 6 <= N)%nat.
Proof.
  intros. unfold PCSetUp_eigdeflate, RandEigsMin, RandEigsMax. split.
  - intros (ed & H). destruct (Nat.ltb_spec N (nev + oversample)); [discriminate |].
    destruct (eigh (nev + oversample)%nat _) as (w, Z). destruct (Nat.ltb_spec N (1 + 5)); [discriminate | lia].
  - intros (Ha & Hb). destruct (Nat.ltb_spec N (nev + oversample)); [lia |].
    destruct (eigh (nev + oversample)%nat _) as (w, Z). destruct (Nat.ltb_spec N (1 + 5)); [lia |].
    destruct (eigh (1 + 5)%nat _) as (w', Z'). eexists. reflexivity.
Qed.
Print Assumptions pc_setup_succeeds.
(** The pairs it keeps are those of RandEigsMin; the damping factor of a post-smoothing step for the eigenvalue l is below one
    exactly if l is positive and below (e_min + e_max) / factor. *)
Theorem pc_setup_relaxation : forall N eigh A Sol nev oversample power_its factor X0 Y0 ed,
  PCSetUp_eigdeflate N eigh A Sol nev oversample power_its factor X0 Y0 = Some ed ->
  RandEigsMin N eigh Sol nev oversample power_its X0 = Some (ed_eigs ed, ed_Q ed) /\ ed_nev ed = nev /\ ed_e_min ed = ed_eigs ed 0%nat
  /\ (exists e V, RandEigsMax N eigh A 1 5 power_its Y0 = Some (e, V) /\ ed_e_max ed = e 0%nat)
  /\ (0 < factor -> 0 < ed_e_min ed + ed_e_max ed -> forall l, Rabs (1 - ed_alpha ed * l) < 1 <-> 0 < l /\ factor * l < ed_e_min ed + ed_e_max ed).
Proof.
  intros N eigh A Sol nev oversample p factor X0 Y0 ed H. unfold PCSetUp_eigdeflate in H.
  destruct (RandEigsMin N eigh Sol nev oversample p X0) as [(e, Q) |]; [| discriminate].
  destruct (RandEigsMax N eigh A 1 5 p Y0) as [(em, Qm) |]; [| discriminate]. injection H as <-. cbn [ed_eigs ed_Q ed_nev ed_e_min ed_e_max ed_alpha Nat.sub].
  repeat split; try reflexivity; [exists em, Qm; split; reflexivity | | |].
  - apply Rabs_def2 in H1. destruct H1 as (K & _).
    assert (P : 0 < 2 * factor / (e 0%nat + em 0%nat)) by (apply Rdiv_lt_0_compat; lra).
    destruct (Rlt_le_dec 0 l) as [L | L]; [exact L |]. exfalso.
    assert (0 <= 2 * factor / (e 0%nat + em 0%nat) * - l) by (apply Rmult_le_pos; lra). lra.
  - apply Rabs_def2 in H1. destruct H1 as (_ & K).
    assert (E : 2 * factor / (e 0%nat + em 0%nat) * l * (e 0%nat + em 0%nat) = 2 * (factor * l)) by (field; lra).
    assert (2 * factor / (e 0%nat + em 0%nat) * l < 2) by lra.
    pose proof (Rmult_lt_compat_r _ _ _ H0 H1). lra.
  - intros (L1 & L2).
    assert (P : 0 < 2 * factor / (e 0%nat + em 0%nat) * l) by (apply Rmult_lt_0_compat; [apply Rdiv_lt_0_compat; lra | exact L1]).
    assert (Q' : 2 * factor / (e 0%nat + em 0%nat) * l < 2).
    { apply (Rmult_lt_reg_r (e 0%nat + em 0%nat)); [exact H0 |].
      replace (2 * factor / (e 0%nat + em 0%nat) * l * (e 0%nat + em 0%nat)) with (2 * (factor * l)) by (field; lra). lra. }
    apply Rabs_def1; lra.
Qed.
Print Assumptions pc_setup_relaxation.

(** ** Defects *)
(** The coarse correction overwrites the result of pre-smoothing: after an exact pre-smoother the preconditioner returns zero. *)
Theorem pc_presmoothing_lost_refuted : exists N ms A smooth ed x, list_sum ms = N
  /\ (forall t b y i, (i < N)%nat -> mat_vec N A (smooth t b y) i = b i)
  /\ (forall i, (i < N)%nat -> x i <> 0) /\ (forall i, (i < N)%nat -> PCApply_eigdeflate N ms A smooth 1 0 ed x i = 0) /\ (0 < N)%nat.
Proof.
  exists 1%nat, [1%nat], (fun _ _ => 1), (fun _ b _ => b), {| ed_nev := 1; ed_eigs := fun _ => 1; ed_Q := fun _ _ => 1; ed_e_min := 1; ed_e_max := 1; ed_alpha := 1 |}, (fun _ => 1).
  split; [reflexivity |]. split; [intros t b y i Hi; unfold mat_vec; cbn [rsum]; assert (i = 0)%nat as -> by lia; ring |].
  split; [intros; lra |]. split; [| lia]. intros i Hi. assert (i = 0)%nat as -> by lia.
  unfold PCApply_eigdeflate, mat_vec. cbn. field.
Qed.
Print Assumptions pc_presmoothing_lost_refuted.
(** With post-smoothing and inexact vectors it is not symmetric, although the same function is registered as transpose. *)
Theorem pc_transpose_refuted : exists N ms A ed x x', list_sum ms = N /\ positive_definite N A /\ orthonormal N (ed_nev ed) (ed_Q ed) /\
  let P := PCApply_eigdeflate N ms A (richardson N A (ed_alpha ed)) 0 1 ed in dot N x' (P x) <> dot N x (P x').
Proof.
  exists 2%nat, [2%nat], diag12, {| ed_nev := 1; ed_eigs := fun _ => 1; ed_Q := fun _ i => if Nat.eqb i 0 then 3 / 5 else 4 / 5; ed_e_min := 1; ed_e_max := 1; ed_alpha := 1 |}, (ident 0), (ident 1).
  split; [reflexivity |]. split; [split |].
  - intros i j _ _. unfold diag12. destruct (Nat.eqb_spec i j) as [-> | E]; [now rewrite Nat.eqb_refl |]. destruct (Nat.eqb_spec j i); congruence.
  - intros v (i & Hi & Hv). unfold dot, mat_vec, diag12. cbn. destruct i as [| [| i]]; [| | lia].
    + pose proof (Rsqr_pos_lt (v 0%nat) Hv) as P. pose proof (Rle_0_sqr (v 1%nat)). unfold Rsqr in *. lra.
    + pose proof (Rsqr_pos_lt (v 1%nat) Hv) as P. pose proof (Rle_0_sqr (v 0%nat)). unfold Rsqr in *. lra.
  - split; [intros i j Hi Hj; cbn in Hi, Hj; assert (i = 0 /\ j = 0)%nat as (-> & ->) by lia; unfold dot; cbn; field |].
    cbv zeta. unfold dot, PCApply_eigdeflate, richardson, mat_vec, diag12, ident. cbn. lra.
Qed.
Print Assumptions pc_transpose_refuted.
(** After a reset the residual vector is not created again, so that an application with pre-smoothing fails. *)
Theorem pc_reset_refuted : ed_apply 1 (ed_setup (ed_reset (ed_setup ed_create))) = false
  /\ (forall npre, ed_apply npre (ed_setup ed_create) = true) /\ (forall npre, ed_apply npre (ed_setup (ed_setup ed_create)) = true).
Proof. split; [reflexivity |]. split; intros npre; unfold ed_apply; destruct npre; reflexivity. Qed.
Print Assumptions pc_reset_refuted.
