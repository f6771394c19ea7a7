(** Spans, the Gram-Schmidt loop, the projected eigenvalue problem. *)
Require Import List Arith Bool Lia Reals Lra.
Require Import Verif.LinAlg Verif.LsPolySpec Verif.LsPolyProofs Verif.LsPolyProps Verif.SpanProofs Verif.EigDeflateSpec Verif.EigDeflateModel.
Import ListNotations.
Local Open Scope R_scope.

(** ** Scalar products *)
Lemma dot_rsum_r : forall N n u (c : nat -> R) (X : nat -> nat -> R), dot N u (fun i => rsum n (fun j => c j * X j i)) = rsum n (fun j => c j * dot N u (X j)).
Proof.
  intros N n u c X. unfold dot. rewrite (rsum_ext N _ (fun i => rsum n (fun j => c j * (u i * X j i)))) by (intros; rewrite <- rsum_scale; apply rsum_ext; intros; ring).
  rewrite rsum_swap. apply rsum_ext. intros j _. apply rsum_scale.
Qed.
Lemma dot_rsum_l : forall N n u (c : nat -> R) (X : nat -> nat -> R), dot N (fun i => rsum n (fun j => c j * X j i)) u = rsum n (fun j => c j * dot N (X j) u).
Proof. intros. rewrite dot_comm, dot_rsum_r. apply rsum_ext. intros. now rewrite dot_comm. Qed.
Lemma dot_plus_r : forall N u v w, dot N u (fun i => v i + w i) = dot N u v + dot N u w.
Proof. intros. unfold dot. rewrite <- rsum_plus. apply rsum_ext. intros. ring. Qed.
Lemma dot_scale_r : forall N u s v, dot N u (fun i => s * v i) = s * dot N u v.
Proof. intros. unfold dot. rewrite <- rsum_scale. apply rsum_ext. intros. ring. Qed.
Lemma dot_scale_l : forall N u s v, dot N (fun i => s * v i) u = s * dot N v u.
Proof. intros. unfold dot. rewrite <- rsum_scale. apply rsum_ext. intros. ring. Qed.
Lemma dot_nonneg : forall N u, 0 <= dot N u u.
Proof. intros. apply rsum_nonneg. intros. apply Rle_0_sqr. Qed.
Lemma dot_zero : forall N u, dot N u u = 0 -> forall i, (i < N)%nat -> u i = 0.
Proof.
  intros N u H i Hi. pose proof (rsum_nonneg_zero N (fun i => u i * u i) ltac:(intros; apply Rle_0_sqr) H i Hi) as K.
  apply Rmult_integral in K. tauto.
Qed.

(** ** Spans *)
Lemma in_span_ext : forall N n X u v, (forall i, (i < N)%nat -> u i = v i) -> in_span N n X v -> in_span N n X u.
Proof. intros N n X u v H (c & Hc). exists c. intros i Hi. rewrite H by exact Hi. now apply Hc. Qed.
Lemma in_span_family : forall N n X Y v, (forall j i, (j < n)%nat -> (i < N)%nat -> X j i = Y j i) -> in_span N n X v -> in_span N n Y v.
Proof. intros N n X Y v H (c & Hc). exists c. intros i Hi. rewrite (Hc i Hi). apply rsum_ext. intros j Hj. now rewrite H. Qed.
Lemma in_span_member : forall N n X j, (j < n)%nat -> in_span N n X (X j).
Proof.
  intros N n X j Hj. exists (fun k => if Nat.eqb k j then 1 else 0). intros i Hi.
  rewrite (rsum_single n j (fun m => (if Nat.eqb m j then 1 else 0) * X m i) Hj).
  - rewrite Nat.eqb_refl. ring.
  - intros k _ Hk. destruct (Nat.eqb_spec k j); [contradiction | ring].
Qed.
Lemma in_span_plus : forall N n X u v, in_span N n X u -> in_span N n X v -> in_span N n X (fun i => u i + v i).
Proof.
  intros N n X u v (c & Hc) (d & Hd). exists (fun j => c j + d j). intros i Hi. rewrite (Hc i Hi), (Hd i Hi), <- rsum_plus.
  apply rsum_ext. intros. ring.
Qed.
Lemma in_span_scale : forall N n X s u, in_span N n X u -> in_span N n X (fun i => s * u i).
Proof. intros N n X s u (c & Hc). exists (fun j => s * c j). intros i Hi. rewrite (Hc i Hi), <- rsum_scale. apply rsum_ext. intros. ring. Qed.
Lemma in_span_mono : forall N n m X u, (n <= m)%nat -> in_span N n X u -> in_span N m X u.
Proof.
  intros N n m X u Hnm (c & Hc). exists (fun j => if (j <? n)%nat then c j else 0). intros i Hi. rewrite (Hc i Hi).
  induction Hnm as [| m Hnm IH].
  - apply rsum_ext. intros j Hj. destruct (Nat.ltb_spec j n); [reflexivity | lia].
  - cbn [rsum]. rewrite <- IH. destruct (Nat.ltb_spec m n); [lia | ring].
Qed.
Lemma in_span_zero : forall N n X, in_span N n X (fun _ => 0).
Proof. intros N n X. exists (fun _ => 0). intros i _. rewrite rsum_zero; [reflexivity | intros; ring]. Qed.
Lemma in_span_sum : forall N n X m (c : nat -> R) (Y : nat -> nat -> R), (forall j, (j < m)%nat -> in_span N n X (Y j)) ->
  in_span N n X (fun i => rsum m (fun j => c j * Y j i)).
Proof.
  intros N n X m c Y H. induction m as [| m IH]; [apply in_span_zero |]. cbn [rsum].
  apply in_span_plus; [apply IH; intros; apply H; lia |]. apply (in_span_scale N n X (c m) (Y m)). apply H. lia.
Qed.
Lemma in_span_trans : forall N n m X Y v, (forall j, (j < m)%nat -> in_span N n X (Y j)) -> in_span N m Y v -> in_span N n X v.
Proof. intros N n m X Y v H (c & Hc). apply (in_span_ext N n X v _ Hc). now apply in_span_sum. Qed.
Lemma in_span_map : forall N A n X v, in_span N n X v -> in_span N n (fun j => mat_vec N A (X j)) (mat_vec N A v).
Proof.
  intros N A n X v (c & Hc). exists c. intros i _. rewrite (mat_vec_ext N A v (fun i => rsum n (fun j => c j * X j i)) i Hc). apply mat_vec_rsum.
Qed.
Lemma same_span_refl : forall N n X, same_span N n X X.
Proof. intros. split; intros; now apply in_span_member. Qed.
Lemma same_span_trans : forall N n X Y Z, same_span N n X Y -> same_span N n Y Z -> same_span N n X Z.
Proof.
  intros N n X Y Z (H1 & H2) (H3 & H4). split; intros j Hj.
  - apply (in_span_trans N n n X Y); auto.
  - apply (in_span_trans N n n Z Y); auto.
Qed.
Lemma same_span_map : forall N A n X Y, same_span N n X Y -> same_span N n (fun j => mat_vec N A (X j)) (fun j => mat_vec N A (Y j)).
Proof. intros N A n X Y (H1 & H2). split; intros j Hj; apply in_span_map; auto. Qed.
Lemma same_span_ext : forall N n X Y, (forall j i, (j < n)%nat -> (i < N)%nat -> X j i = Y j i) -> same_span N n X Y.
Proof.
  intros N n X Y H. split; intros j Hj.
  - apply (in_span_ext N n X (Y j) (X j)); [intros; now rewrite H | now apply in_span_member].
  - apply (in_span_ext N n Y (X j) (Y j)); [intros; now rewrite H | now apply in_span_member].
Qed.
Lemma independent_ext : forall N n X Y, (forall j i, (j < n)%nat -> (i < N)%nat -> X j i = Y j i) -> independent N n X -> independent N n Y.
Proof. intros N n X Y H HX c Hc. apply HX. intros i Hi. rewrite <- (Hc i Hi). apply rsum_ext. intros. now rewrite H. Qed.
(** No vector of an independent family depends on those before it. *)
Lemma independent_not_before : forall N n X j, independent N n X -> (j < n)%nat -> ~ in_span N j X (X j).
Proof.
  intros N n X j H Hj (c & Hc).
  assert (K : 1 = 0); [| lra].
  pose proof (H (fun k => if (k <? j)%nat then - c k else if Nat.eqb k j then 1 else 0)) as K.
  specialize (K ltac:(
    intros i Hi; rewrite (rsum_ext n _ (fun k => (if (k <? j)%nat then - (c k * X k i) else 0) + (if Nat.eqb k j then 1 else 0) * X k i));
    [| intros k _; destruct (Nat.ltb_spec k j), (Nat.eqb_spec k j); try lia; ring];
    rewrite rsum_plus, (rsum_single n j (fun m => (if Nat.eqb m j then 1 else 0) * X m i) Hj);
      [| intros k _ Hk; destruct (Nat.eqb_spec k j); [contradiction | ring]];
    rewrite Nat.eqb_refl, (Hc i Hi);
    assert (E : forall m, (j <= m)%nat -> rsum m (fun k => if (k <? j)%nat then - (c k * X k i) else 0) = - rsum j (fun k => c k * X k i));
      [ | rewrite (E n); [ring | lia] ];
    intros m Hm; induction Hm as [| m Hm IH];
      [ rewrite (rsum_ext j _ (fun k => -1 * (c k * X k i))); [rewrite rsum_scale; ring | intros k Hk; destruct (Nat.ltb_spec k j); [ring | lia]]
      | cbn [rsum]; rewrite IH; destruct (Nat.ltb_spec m j); [lia | ring] ]) j Hj).
  cbv beta in K. destruct (Nat.ltb_spec j j); [lia |]. now rewrite Nat.eqb_refl in K.
Qed.
Lemma orthonormal_independent : forall N n X, orthonormal N n X -> independent N n X.
Proof.
  intros N n X H c Hc j Hj.
  assert (E : dot N (X j) (fun i => rsum n (fun k => c k * X k i)) = 0).
  { unfold dot. apply rsum_zero. intros i Hi. rewrite (Hc i Hi). ring. }
  rewrite dot_rsum_r, (rsum_single n j (fun k => c k * dot N (X j) (X k)) Hj) in E.
  - rewrite H, Nat.eqb_refl in E by assumption. lra.
  - intros k Hk Hne. rewrite H by assumption. destruct (Nat.eqb_spec j k); [congruence | ring].
Qed.
Lemma independent_map : forall N A n X, nonsingular N A -> independent N n X -> independent N n (fun j => mat_vec N A (X j)).
Proof.
  intros N A n X HA HX c Hc. apply HX. intros i Hi.
  apply (HA (fun i => rsum n (fun j => c j * X j i))); [| exact Hi]. intros i' Hi'. rewrite mat_vec_rsum. now apply Hc.
Qed.

(** ** Gram-Schmidt *)
Lemma mgs_inner_spec : forall N q cnt k X l, mgs_inner N q k cnt X l =
  if ((k <=? l) && (l <? k + cnt))%nat%bool then (fun i => X l i + - VecDot N q (X l) * q i) else X l.
Proof.
  intros N q cnt. induction cnt as [| cnt IH]; intros k X l; cbn [mgs_inner].
  - destruct (Nat.leb_spec k l), (Nat.ltb_spec l (k + 0)); try lia; reflexivity.
  - rewrite IH. unfold set_column. destruct (Nat.eqb_spec l k) as [-> | Hne].
    + destruct (Nat.leb_spec (S k) k); [lia |]. destruct (Nat.leb_spec k k), (Nat.ltb_spec k (k + S cnt)); try lia. reflexivity.
    + destruct (Nat.leb_spec (S k) l), (Nat.ltb_spec l (S k + cnt)), (Nat.leb_spec k l), (Nat.ltb_spec l (k + S cnt)); try lia; reflexivity.
Qed.
Section MGS.
Variables (N n : nat) (X0 : nat -> nat -> R).
Hypothesis HX0 : independent N n X0.
Definition mgs_inv (j : nat) (X : nat -> nat -> R) : Prop :=
  (forall a b, (a < j)%nat -> (b < j)%nat -> dot N (X a) (X b) = if Nat.eqb a b then 1 else 0)
  /\ (forall a b, (a < j)%nat -> (j <= b)%nat -> (b < n)%nat -> dot N (X a) (X b) = 0)
  /\ (forall l, (l < n)%nat -> in_span N (S l) X0 (X l) /\ in_span N (S l) X (X0 l)).
Definition mgs_step (j : nat) (X : nat -> nat -> R) : nat -> nat -> R :=
  let q := fun i => 1 / VecNorm N (X j) * X j i in mgs_inner N q (S j) (n - S j) (set_column X j q).
Lemma mgs_norm : forall j X, (j < n)%nat -> mgs_inv j X -> 0 < dot N (X j) (X j).
Proof.
  intros j X Hj (_ & _ & Hs). destruct (dot_nonneg N (X j)) as [H | H]; [exact H |]. exfalso. symmetry in H.
  pose proof (dot_zero N (X j) H) as Z. apply (independent_not_before N n X0 j HX0 Hj).
  destruct (proj2 (Hs j Hj)) as (c & Hc). apply (in_span_ext N j X0 _ (fun i => rsum j (fun k => c k * X k i))).
  - intros i Hi. rewrite (Hc i Hi). cbn [rsum]. rewrite (Z i Hi). ring.
  - apply in_span_sum. intros k Hk. apply (in_span_mono N (S k) j); [lia |]. apply Hs. lia.
Qed.
Lemma mgs_step_inv : forall j X, (j < n)%nat -> mgs_inv j X -> mgs_inv (S j) (mgs_step j X).
Proof.
  intros j X Hj HI. pose proof (mgs_norm j X Hj HI) as Hd. destruct HI as (H1 & H2 & Hs).
  set (nrm := VecNorm N (X j)). assert (Hn : nrm * nrm = dot N (X j) (X j)) by (unfold nrm, VecNorm; apply sqrt_sqrt; apply dot_nonneg).
  assert (Hn0 : nrm <> 0) by (intros E; rewrite E in Hn; lra).
  set (q := fun i => 1 / nrm * X j i).
  assert (Y : forall l, mgs_step j X l = if (l <? j)%nat then X l else if Nat.eqb l j then q else if (l <? n)%nat then (fun i => X l i + - dot N q (X l) * q i) else X l).
  { intros l. unfold mgs_step. fold nrm. fold q. rewrite mgs_inner_spec. unfold set_column.
    destruct (Nat.eqb_spec l j) as [-> | Hne].
    - destruct (Nat.leb_spec (S j) j); [lia |]. destruct (Nat.ltb_spec j j); [lia | reflexivity].
    - destruct (Nat.leb_spec (S j) l), (Nat.ltb_spec l (S j + (n - S j))), (Nat.ltb_spec l j), (Nat.ltb_spec l n); try lia; reflexivity. }
  set (Y' := mgs_step j X) in *.
  assert (Yj : Y' j = q) by (rewrite Y; destruct (Nat.ltb_spec j j); [lia | now rewrite Nat.eqb_refl]).
  assert (Ylt : forall l, (l < j)%nat -> Y' l = X l) by (intros l Hl; rewrite Y; destruct (Nat.ltb_spec l j); [reflexivity | lia]).
  assert (Ygt : forall l, (j < l)%nat -> (l < n)%nat -> Y' l = fun i => X l i + - dot N q (X l) * q i).
  { intros l Hl Hl'. rewrite Y. destruct (Nat.ltb_spec l j), (Nat.eqb_spec l j), (Nat.ltb_spec l n); try lia. reflexivity. }
  assert (Hqq : dot N q q = 1).
  { unfold q. rewrite (dot_scale_r N (fun i => 1 / nrm * X j i)), dot_scale_l, <- Hn. field. exact Hn0. }
  assert (Hqa : forall a, (a < j)%nat -> dot N (X a) q = 0).
  { intros a Ha. unfold q. rewrite dot_scale_r, H2 by lia. ring. }
  assert (Hqspan : in_span N (S j) X0 q) by (unfold q; apply in_span_scale; apply Hs; exact Hj).
  split; [| split].
  - intros a b Ha Hb. destruct (Nat.eq_dec a j) as [-> | Na], (Nat.eq_dec b j) as [-> | Nb].
    + rewrite Yj, Nat.eqb_refl. exact Hqq.
    + rewrite Yj, Ylt, dot_comm, Hqa by lia. destruct (Nat.eqb_spec j b); [lia | reflexivity].
    + rewrite Yj, Ylt, Hqa by lia. destruct (Nat.eqb_spec a j); [lia | reflexivity].
    + rewrite !Ylt by lia. apply H1; lia.
  - intros a b Ha Hb Hb'. rewrite (Ygt b) by lia. rewrite (dot_plus_r N (Y' a) (X b)), dot_scale_r.
    destruct (Nat.eq_dec a j) as [-> | Na].
    + rewrite Yj, Hqq. ring.
    + rewrite Ylt, Hqa, H2 by lia. ring.
  - intros l Hl. destruct (Hs l Hl) as (Hs1 & Hs2). destruct (lt_eq_lt_dec l j) as [[Hlj | ->] | Hlj].
    + rewrite Ylt by exact Hlj. split; [exact Hs1 |].
      apply (in_span_family N (S l) X); [| exact Hs2]. intros k i Hk _. rewrite Ylt by lia. reflexivity.
    + rewrite Yj. split; [exact Hqspan |].
      apply (in_span_trans N (S j) (S j) Y' X); [| exact Hs2]. intros k Hk. destruct (Nat.eq_dec k j) as [-> | Nk].
      * apply (in_span_ext N (S j) Y' _ (fun i => nrm * Y' j i)); [| apply in_span_scale; apply in_span_member; lia].
        intros i _. rewrite Yj. unfold q. field. exact Hn0.
      * rewrite <- (Ylt k) by lia. apply in_span_member. lia.
    + rewrite Ygt by assumption. split.
      * apply in_span_plus; [exact Hs1 |]. apply in_span_scale. apply (in_span_mono N (S j)); [lia | exact Hqspan].
      * apply (in_span_trans N (S l) (S l) Y' X); [| exact Hs2]. intros k Hk. destruct (lt_eq_lt_dec k j) as [[Hkj | ->] | Hkj].
        -- rewrite <- (Ylt k) by lia. apply in_span_member. lia.
        -- apply (in_span_ext N (S l) Y' _ (fun i => nrm * Y' j i)); [| apply in_span_scale; apply in_span_member; lia].
           intros i _. rewrite Yj. unfold q. field. exact Hn0.
        -- apply (in_span_ext N (S l) Y' _ (fun i => Y' k i + dot N q (X k) * Y' j i)).
           ++ intros i _. rewrite Yj, (Ygt k) by lia. ring.
           ++ apply in_span_plus; [apply in_span_member; lia |]. apply in_span_scale. apply in_span_member. lia.
Qed.
Lemma mgs_loop_inv : forall cnt j X, (j + cnt <= n)%nat -> mgs_inv j X -> mgs_inv (j + cnt) (mgs_loop N n j cnt X).
Proof.
  induction cnt as [| cnt IH]; intros j X Hj H; cbn [mgs_loop]; [now rewrite Nat.add_0_r |].
  rewrite <- Nat.add_succ_comm. apply IH; [lia |]. apply (mgs_step_inv j X); [lia | exact H].
Qed.
Lemma mgs_final : mgs_inv n (MatDenseOrthonormalize N n X0).
Proof.
  apply (mgs_loop_inv n 0 X0 (le_n _)). split; [intros; lia |]. split; [intros; lia |].
  intros l Hl. split; apply in_span_member; lia.
Qed.
End MGS.
Lemma mgs_orthonormal : forall N n X, independent N n X -> orthonormal N n (MatDenseOrthonormalize N n X).
Proof. intros N n X H. exact (proj1 (mgs_final N n X H)). Qed.
Lemma mgs_same_span : forall N n X, independent N n X -> same_span N n X (MatDenseOrthonormalize N n X).
Proof.
  intros N n X H. pose proof (proj2 (proj2 (mgs_final N n X H))) as K. split; intros j Hj; apply (in_span_mono N (S j) n); try lia; now apply K.
Qed.

(** ** The search space *)
Lemma MatMult_InPlace_spec : forall N Op cnt j X l, MatMult_InPlace N Op j cnt X l =
  if ((j <=? l) && (l <? j + cnt))%nat%bool then mat_vec N Op (X l) else X l.
Proof.
  intros N Op cnt. induction cnt as [| cnt IH]; intros j X l; cbn [MatMult_InPlace].
  - destruct (Nat.leb_spec j l), (Nat.ltb_spec l (j + 0)); try lia; reflexivity.
  - rewrite IH. unfold set_column. destruct (Nat.eqb_spec l j) as [-> | Hne].
    + destruct (Nat.leb_spec (S j) j); [lia |]. destruct (Nat.leb_spec j j), (Nat.ltb_spec j (j + S cnt)); try lia. reflexivity.
    + destruct (Nat.leb_spec (S j) l), (Nat.ltb_spec l (S j + cnt)), (Nat.leb_spec j l), (Nat.ltb_spec l (j + S cnt)); try lia; reflexivity.
Qed.
Lemma MatMult_columns : forall N Op n X l, (l < n)%nat -> MatMult_InPlace N Op 0 n X l = mat_vec N Op (X l).
Proof. intros N Op n X l Hl. rewrite MatMult_InPlace_spec. destruct (Nat.ltb_spec l (0 + n)); [reflexivity | lia]. Qed.
Section Search.
Variables (N n : nat) (Op : nat -> nat -> R).
Hypothesis HOp : nonsingular N Op.
Lemma mult_step : forall X Y, independent N n X -> same_span N n Y X ->
  independent N n (MatMult_InPlace N Op 0 n X) /\ same_span N n (fun j => mat_vec N Op (Y j)) (MatMult_InPlace N Op 0 n X).
Proof.
  intros X Y HX HY. split.
  - apply (independent_ext N n (fun j => mat_vec N Op (X j))); [intros; now rewrite MatMult_columns | now apply independent_map].
  - apply (same_span_trans N n _ (fun j => mat_vec N Op (X j))); [now apply same_span_map |].
    apply same_span_ext. intros. now rewrite MatMult_columns.
Qed.
Lemma ortho_step : forall X Y, independent N n X -> same_span N n Y X ->
  orthonormal N n (MatDenseOrthonormalize N n X) /\ independent N n (MatDenseOrthonormalize N n X) /\ same_span N n Y (MatDenseOrthonormalize N n X).
Proof.
  intros X Y HX HY. pose proof (mgs_orthonormal N n X HX) as Ho. split; [exact Ho |]. split; [now apply orthonormal_independent |].
  apply (same_span_trans N n Y X); [exact HY | now apply mgs_same_span].
Qed.
Lemma search_space_spec : forall power_its X0, independent N n X0 ->
  orthonormal N n (search_space N Op n power_its X0) /\ same_span N n (powers N Op (S power_its) X0) (search_space N Op n power_its X0).
Proof.
  intros p X0 H0. unfold search_space. destruct (mult_step X0 X0 H0 (same_span_refl N n X0)) as (H1 & H1').
  destruct (Nat.eqb_spec p 0) as [-> | Hp].
  - destruct (ortho_step _ _ H1 H1') as (K & _ & K'). split; [exact K |]. exact K'.
  - destruct p as [| p]; [lia |]. cbn [Nat.sub]. rewrite Nat.sub_0_r.
    assert (G : forall t, let X := Nat.iter t (fun X => MatDenseOrthonormalize N n (MatMult_InPlace N Op 0 n X)) (MatDenseOrthonormalize N n (MatMult_InPlace N Op 0 n (MatMult_InPlace N Op 0 n X0))) in
      orthonormal N n X /\ independent N n X /\ same_span N n (powers N Op (S (S t)) X0) X).
    { induction t as [| t IH]; intros X.
      - unfold X. cbn [Nat.iter nat_rect]. destruct (mult_step _ _ H1 H1') as (H2 & H2'). apply ortho_step; [exact H2 |]. exact H2'.
      - unfold X. change (Nat.iter (S t) ?f ?x) with (f (Nat.iter t f x)). cbv beta. cbv zeta in IH. destruct IH as (_ & K1 & K2).
        destruct (mult_step _ _ K1 K2) as (H2 & H2'). apply ortho_step; [exact H2 | exact H2']. }
    destruct (G p) as (K & _ & K'). split; [exact K | exact K'].
Qed.
End Search.

(** ** Symmetrization *)
Lemma symmetrize_row_spec : forall cnt i j A a b, (i <= j)%nat -> symmetrize_row i j cnt A a b =
  if ((Nat.eqb a i && (j <=? b) && (b <? j + cnt)) || (Nat.eqb b i && (j <=? a) && (a <? j + cnt)))%nat%bool then / 2 * (A a b + A b a) else A a b.
Proof.
  induction cnt as [| cnt IH]; intros i j A a b Hij; cbn [symmetrize_row].
  - destruct (Nat.eqb_spec a i), (Nat.leb_spec j b), (Nat.ltb_spec b (j + 0)), (Nat.eqb_spec b i), (Nat.leb_spec j a), (Nat.ltb_spec a (j + 0)); try lia; reflexivity.
  - rewrite IH by lia. unfold set_entry.
    destruct (Nat.eqb_spec a i), (Nat.eqb_spec b i), (Nat.eqb_spec a j), (Nat.eqb_spec b j), (Nat.leb_spec j b), (Nat.leb_spec (S j) b), (Nat.ltb_spec b (j + S cnt)), (Nat.ltb_spec b (S j + cnt)),
      (Nat.leb_spec j a), (Nat.leb_spec (S j) a), (Nat.ltb_spec a (j + S cnt)), (Nat.ltb_spec a (S j + cnt)); cbn [andb orb]; try lia; subst; try reflexivity; try field.
Qed.
