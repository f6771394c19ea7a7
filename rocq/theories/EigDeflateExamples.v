(** C72: the hypotheses are met. *)
Require Import List Arith Bool Lia Reals Lra.
Require Import Verif.LinAlg Verif.LsPolySpec Verif.LsPolyProps Verif.EigDeflateSpec Verif.EigDeflateModel Verif.EigDeflateProps.
Import ListNotations.
Local Open Scope R_scope.
(** An eigenvalue solver for two by two matrices, by the closed formula. *)
Definition val2 (a c s : R) (j : nat) : R := if Nat.eqb j 0 then (a + c) / 2 - s else (a + c) / 2 + s.
Definition eigh2 (n : nat) (M : nat -> nat -> R) : (nat -> R) * (nat -> nat -> R) :=
  let a := M 0%nat 0%nat in let b := M 0%nat 1%nat in let c := M 1%nat 1%nat in
  let s := sqrt ((a - c) / 2 * ((a - c) / 2) + b * b) in
  let w := val2 a c s in
  if Req_EM_T b 0 then
    if Rle_dec a c then (fun j => if Nat.eqb j 0 then a else c, fun i j => if Nat.eqb i j then 1 else 0)
    else (fun j => if Nat.eqb j 0 then c else a, fun i j => if Nat.eqb i j then 0 else 1)
  else (w, fun i j => (if Nat.eqb i 0 then b else w j - a) / sqrt (b * b + (w j - a) * (w j - a))).
Lemma two : forall i, (i < 2)%nat -> i = 0%nat \/ i = 1%nat.
Proof. lia. Qed.
Lemma eigh2_solves : eigen_solver 2 eigh2.
Proof.
  intros M HM. pose proof (HM 1%nat 0%nat ltac:(lia) ltac:(lia)) as E. unfold eigh2.
  set (a := M 0%nat 0%nat). set (b := M 0%nat 1%nat) in *. set (c := M 1%nat 1%nat).
  destruct (Req_EM_T b 0) as [Hb | Hb]; [destruct (Rle_dec a c) as [Hac | Hac] |]; cbn [fst snd].
  - repeat split.
    + intros i j Hij Hj. destruct (two j Hj) as [-> | ->]; [assert (i = 0)%nat as -> by lia; cbn; lra |].
      destruct (two i ltac:(lia)) as [-> | ->]; cbn; lra.
    + intros i j Hi Hj. destruct (two i Hi) as [-> | ->], (two j Hj) as [-> | ->]; unfold dot; cbn; ring.
    + intros j Hj i Hi. destruct (two i Hi) as [-> | ->], (two j Hj) as [-> | ->]; unfold mat_vec; cbn; rewrite ?E; fold a b c; rewrite ?Hb; ring.
  - repeat split.
    + intros i j Hij Hj. destruct (two j Hj) as [-> | ->]; [assert (i = 0)%nat as -> by lia; cbn; lra |].
      destruct (two i ltac:(lia)) as [-> | ->]; cbn; lra.
    + intros i j Hi Hj. destruct (two i Hi) as [-> | ->], (two j Hj) as [-> | ->]; unfold dot; cbn; ring.
    + intros j Hj i Hi. destruct (two i Hi) as [-> | ->], (two j Hj) as [-> | ->]; unfold mat_vec; cbn; rewrite ?E; fold a b c; rewrite ?Hb; ring.
  - set (s := sqrt ((a - c) / 2 * ((a - c) / 2) + b * b)).
    assert (Hs : s * s = (a - c) / 2 * ((a - c) / 2) + b * b) by (apply sqrt_sqrt; pose proof (Rle_0_sqr ((a - c) / 2)); pose proof (Rle_0_sqr b); unfold Rsqr in *; lra).
    assert (Hs0 : 0 <= s) by apply sqrt_pos.
    assert (Hr : forall t, 0 < b * b + t * t) by (intros t; pose proof (Rsqr_pos_lt b Hb); pose proof (Rle_0_sqr t); unfold Rsqr in *; lra).
    set (w := val2 a c s) in *.
    change (val2 a c (sqrt ((a - c) / 2 * ((a - c) / 2) + b * b))) with w.
    assert (Hq : forall j, (w j - a) * (w j - c) = b * b).
    { intros j. unfold w, val2. destruct (Nat.eqb j 0).
      - replace (((a + c) / 2 - s - a) * ((a + c) / 2 - s - c)) with (s * s - (a - c) / 2 * ((a - c) / 2)) by field. lra.
      - replace (((a + c) / 2 + s - a) * ((a + c) / 2 + s - c)) with (s * s - (a - c) / 2 * ((a - c) / 2)) by field. lra. }
    assert (Hx : (w 0%nat - a) * (w 1%nat - a) = - (b * b)).
    { unfold w, val2. cbn [Nat.eqb]. replace (((a + c) / 2 - s - a) * ((a + c) / 2 + s - a)) with ((a - c) / 2 * ((a - c) / 2) - s * s) by field. lra. }
    set (r := fun j => sqrt (b * b + (w j - a) * (w j - a))).
    assert (Hr0 : forall j, r j <> 0) by (intros j; pose proof (sqrt_lt_R0 _ (Hr (w j - a))); unfold r; lra).
    assert (Hrr : forall j, r j * r j = b * b + (w j - a) * (w j - a)) by (intros j; apply sqrt_sqrt; apply Rlt_le; apply Hr).
    repeat split.
    + intros i j Hij Hj. unfold w, val2. destruct (Nat.eqb_spec i 0), (Nat.eqb_spec j 0); try lia; lra.
    + intros i j Hi Hj. unfold dot. cbn [rsum Nat.eqb]. fold (r i). fold (r j).
      transitivity ((b * b + (w i - a) * (w j - a)) / (r i * r j)); [field; auto |].
      destruct (two i Hi) as [-> | ->], (two j Hj) as [-> | ->]; cbn [Nat.eqb].
      * rewrite Hrr. field. pose proof (Hr (w 0%nat - a)). lra.
      * rewrite Hx. field. auto.
      * rewrite (Rmult_comm (w 1%nat - a)), Hx. field. auto.
      * rewrite Hrr. field. pose proof (Hr (w 1%nat - a)). lra.
    + intros j Hj i Hi. unfold mat_vec. cbn [rsum Nat.eqb]. fold (r j). pose proof (Hq j) as Q.
      destruct (two i Hi) as [-> | ->]; cbn [Nat.eqb]; rewrite ?E; fold a b c.
      * field. apply Hr0.
      * transitivity ((b * b + c * (w j - a)) / r j); [field; apply Hr0 |]. rewrite <- Q. field. apply Hr0.
Qed.
(** Three unknowns, A = diag(1, 2, 4), one pair and one extra column. *)
Definition inv124 (i j : nat) : R := if Nat.eqb i j then (if Nat.eqb i 0 then 1 else if Nat.eqb i 1 then / 2 else / 4) else 0.
Definition cols (j i : nat) : R := if Nat.eqb j 0 then 1 else INR i.
Lemma inv124_positive : positive_definite 3 inv124.
Proof.
  split.
  - intros i j _ _. unfold inv124. destruct (Nat.eqb_spec i j) as [-> | E]; [now rewrite Nat.eqb_refl |]. destruct (Nat.eqb_spec j i); congruence.
  - intros v (i & Hi & Hv). unfold dot, mat_vec, inv124. cbn.
    pose proof (Rle_0_sqr (v 0%nat)). pose proof (Rle_0_sqr (v 1%nat)). pose proof (Rle_0_sqr (v 2%nat)). pose proof (Rsqr_pos_lt (v i) Hv).
    unfold Rsqr in *. destruct i as [| [| [| i]]]; [lra | lra | lra | lia].
Qed.
Example rand_eigs_case : exists e V, RandEigsMin 3 eigh2 inv124 1 1 1 cols = Some (e, V) /\ dot 3 (V 0%nat) (V 0%nat) = 1 /\ 1 <= e 0%nat.
Proof.
  destruct (rand_eigs_min 3 eigh2 inv124 1 1 1 cols) as (e & V & H & Ho & _ & He & Hd & _); [lia | exact inv124_positive | exact eigh2_solves | |].
  - intros c Hc j Hj. pose proof (Hc 0%nat ltac:(lia)) as A0. pose proof (Hc 1%nat ltac:(lia)) as A1. unfold cols in A0, A1. cbn in A0, A1.
    destruct (two j Hj) as [-> | ->]; lra.
  - exists e, V. split; [exact H |]. pose proof (Ho 0%nat 0%nat ltac:(lia) ltac:(lia)) as O. cbn [Nat.eqb] in O. split; [exact O |].
    destruct (He 0%nat 0%nat ltac:(lia) ltac:(lia)) as (P & _). pose proof (Hd 0%nat 0%nat ltac:(lia) ltac:(lia)) as D. cbn [Nat.eqb] in D.
    assert (L : / e 0%nat <= 1).
    { rewrite <- D, <- O. unfold dot, mat_vec, inv124. cbn. pose proof (Rle_0_sqr (V 0%nat 1%nat)). pose proof (Rle_0_sqr (V 0%nat 2%nat)). unfold Rsqr in *. lra. }
    apply (Rmult_le_compat_l (e 0%nat)) in L; [| lra]. rewrite Rinv_r in L by lra. lra.
Qed.
(** Two unknowns, both columns: the eigenvalues of diag(1, 1/2) are found exactly. *)
Definition inv12 (i j : nat) : R := if Nat.eqb i j then / INR (S i) else 0.
Example rand_eigs_exact_case : exists e V, RandEigsMin 2 eigh2 inv12 1 1 0 cols = Some (e, V) /\ eigenvector 2 (mat_vec 2 diag12) (e 0%nat) (V 0%nat).
Proof.
  destruct (rand_eigs_min_exact 2 eigh2 inv12 1 1 0 cols) as (e & V & H & Hx); [lia | | exact eigh2_solves | | right; reflexivity |].
  - split.
    + intros i j _ _. unfold inv12. destruct (Nat.eqb_spec i j) as [-> | E]; [now rewrite Nat.eqb_refl |]. destruct (Nat.eqb_spec j i); congruence.
    + intros v (i & Hi & Hv). unfold dot, mat_vec, inv12. cbn.
      pose proof (Rle_0_sqr (v 0%nat)). pose proof (Rle_0_sqr (v 1%nat)). pose proof (Rsqr_pos_lt (v i) Hv).
      unfold Rsqr in *. destruct i as [| [| i]]; [| | lia]; lra.
  - intros c Hc j Hj. pose proof (Hc 0%nat ltac:(lia)) as A0. pose proof (Hc 1%nat ltac:(lia)) as A1. unfold cols in A0, A1. cbn in A0, A1.
    destruct (two j Hj) as [-> | ->]; lra.
  - exists e, V. split; [exact H |]. apply (Hx 0%nat ltac:(lia)). intros v r Hr. unfold mat_vec, diag12, inv12.
    destruct (two r Hr) as [-> | ->]; cbn; field.
Qed.
(** Deflating the first of two eigenvectors, two post-smoothing steps, on two ranks. *)
Example deflation_case : forall i, (i < 2)%nat ->
  PCApply_eigdeflate 2 [1; 1]%nat diag12 (richardson 2 diag12 (2 / 3)) 0 2
    {| ed_nev := 1; ed_eigs := fun _ => 1; ed_Q := fun _ i => ident 0 i; ed_e_min := 1; ed_e_max := 2; ed_alpha := 2 / 3 |} (fun i => INR (S i)) i
  = if Nat.eqb i 0 then 1 else 1 - 1 / 9.
Proof.
  intros i Hi.
  pose proof (pc_apply_deflates 2 [1; 1]%nat diag12 {| ed_nev := 1; ed_eigs := fun _ => 1; ed_Q := fun _ i => ident 0 i; ed_e_min := 1; ed_e_max := 2; ed_alpha := 2 / 3 |}
    2 1 (fun _ => 1) (fun _ => 1) (fun _ => ident 1) (fun _ => 2) (fun i => INR (S i)) (fun _ => 1) eq_refl) as K.
  cbn [ed_nev ed_eigs ed_Q ed_alpha] in K.
  assert (K' : combination 2 1 (fun i => PCApply_eigdeflate 2 [1; 1]%nat diag12 (richardson 2 diag12 (2 / 3)) 0 2
    {| ed_nev := 1; ed_eigs := fun _ => 1; ed_Q := fun _ i => ident 0 i; ed_e_min := 1; ed_e_max := 2; ed_alpha := 2 / 3 |} (fun i => INR (S i)) i - 1)
    (fun _ => - ((1 - 2 / 3 * 2) ^ 2 * 1)) (fun _ => ident 1)).
  { apply K.
    - intros a b Ha Hb. assert (a = 0 /\ b = 0)%nat as (-> & ->) by lia. unfold dot, ident. cbn. ring.
    - intros j Hj. split; [lra |]. intros r Hr. unfold mat_vec, diag12, ident. destruct (two r Hr) as [-> | ->]; cbn; ring.
    - intros m Hm. split; [| intros j Hj; unfold dot, ident; cbn; ring]. intros r Hr. unfold mat_vec, diag12, ident. destruct (two r Hr) as [-> | ->]; cbn; ring.
    - intros r Hr. unfold mat_vec, diag12. destruct (two r Hr) as [-> | ->]; cbn; ring.
    - intros r Hr. unfold ident. destruct (two r Hr) as [-> | ->]; cbn; ring. }
  specialize (K' i Hi). cbn [rsum] in K'. cbv beta in K'.
  match type of K' with ?a - 1 = ?b => assert (E : a = 1 + b) by lra end. rewrite E. unfold ident.
  destruct (two i Hi) as [-> | ->]; cbn; field.
Qed.
