(** The check of a table's rules is sound (C85). *)
Require Import List Arith Bool ZArith Uint63 Lia Reals Lra.
Require Import Verif.LinAlg Verif.BasisModel Verif.BasisSpec Verif.JacobiProofs Verif.IntegralSpec Verif.QuadratureModel Verif.QuadratureSpec
  Verif.QuadTableModel Verif.QuadTableSpec Verif.QuadTableCheck.
Import ListNotations.
Local Open Scope R_scope.

Lemma Rabs_def2b : forall x a, Rabs x <= a -> - a <= x <= a.
Proof. intros x a H. pose proof (Rle_abs x). pose proof (Rle_abs (- x)) as N. rewrite Rabs_Ropp in N. lra. Qed.

Lemma wB_val : wB = 9223372036854775808%Z.
Proof. reflexivity. Qed.
Lemma S18_Z : to_Z S18 = (10 ^ 18)%Z.
Proof. reflexivity. Qed.
Lemma p18 : (10 ^ 18 = 1000000000000000000)%Z.
Proof. reflexivity. Qed.
Lemma ten18_Z : ten18 = IZR (10 ^ 18).
Proof. unfold ten18. rewrite (pow_IZR 10 18). reflexivity. Qed.
Lemma ten18_val : ten18 = 1000000000000000000.
Proof. now rewrite ten18_Z, p18. Qed.
Lemma to_Z_pos : forall a : int, (0 <= to_Z a)%Z.
Proof. intros a. pose proof (to_Z_bounded a). lia. Qed.

Lemma mulf_Z : forall a b, (to_Z a <= 10 ^ 18)%Z -> (to_Z b <= 10 ^ 18)%Z -> to_Z (mulf a b) = (to_Z a * to_Z b / 10 ^ 18)%Z.
Proof.
  intros a b Ha Hb. unfold mulf. pose proof (mulc_spec a b) as M. destruct (mulc a b) as [h l]. cbn [fst snd] in M.
  pose proof (diveucl_21_spec h l S18) as D. destruct (diveucl_21 h l S18) as [q r]. cbn [fst].
  pose proof (to_Z_pos a). pose proof (to_Z_pos b). pose proof (to_Z_bounded l) as Bl. pose proof (to_Z_bounded h) as Bh.
  unfold Z.div. rewrite M, <- S18_Z. destruct (Z.div_eucl (to_Z h * wB + to_Z l) (to_Z S18)) as [q' r'].
  destruct D as [D _]; [| exact D]. rewrite S18_Z. rewrite wB_val in *.
  assert (to_Z a * to_Z b <= 10 ^ 18 * 10 ^ 18)%Z by (apply Z.mul_le_mono_nonneg; assumption). rewrite p18 in *. lia.
Qed.
Lemma div_real : forall a b : Z, (0 < b)%Z -> (IZR (a / b) <= IZR a / IZR b < IZR (a / b) + 1)%R.
Proof.
  intros a b Hb. pose proof (Z.mul_div_le a b Hb) as L. pose proof (Z.mul_succ_div_gt a b Hb) as G.
  apply IZR_le in L. apply IZR_lt in G. rewrite mult_IZR in *. rewrite succ_IZR in G. apply IZR_lt in Hb. split.
  - apply (Rmult_le_reg_l (IZR b)); [exact Hb |]. replace (IZR b * (IZR a / IZR b)) with (IZR a) by (field; lra). exact L.
  - apply (Rmult_lt_reg_l (IZR b)); [exact Hb |]. replace (IZR b * (IZR a / IZR b)) with (IZR a) by (field; lra). exact G.
Qed.
Lemma mulf_le : forall a b, (to_Z a <= 10 ^ 18)%Z -> (to_Z b <= 10 ^ 18)%Z -> (to_Z (mulf a b) <= 10 ^ 18)%Z.
Proof.
  intros a b Ha Hb. rewrite mulf_Z by assumption. pose proof (to_Z_pos a). pose proof (to_Z_pos b).
  apply Z.div_le_upper_bound; [reflexivity |]. apply Z.mul_le_mono_nonneg; assumption.
Qed.
(** The error of a product. *)
Lemma mulf_err : forall a b x y e1 e2, (to_Z a <= 10 ^ 18)%Z -> (to_Z b <= 10 ^ 18)%Z -> 0 <= x -> 0 <= e1 ->
  Rabs (IZR (to_Z a) - ten18 * x) <= e1 -> Rabs (IZR (to_Z b) - ten18 * y) <= e2 ->
  Rabs (IZR (to_Z (mulf a b)) - ten18 * (x * y)) <= 1 + e1 + e2 * x.
Proof.
  intros a b x y e1 e2 Ha Hb Hx He1 E1 E2. rewrite mulf_Z by assumption.
  pose proof (div_real (to_Z a * to_Z b) (10 ^ 18) eq_refl) as Q. rewrite mult_IZR, <- ten18_Z in Q.
  set (q := IZR (to_Z a * to_Z b / 10 ^ 18)) in *. set (A := IZR (to_Z a)) in *. set (B := IZR (to_Z b)) in *.
  assert (B0 : 0 <= B) by (apply IZR_le, to_Z_pos). assert (B1 : B <= ten18) by (rewrite ten18_Z; now apply IZR_le).
  set (d1 := A - ten18 * x) in *. set (d2 := B - ten18 * y) in *.
  assert (T : 0 < ten18) by (rewrite ten18_val; lra).
  assert (P : A * B / ten18 - ten18 * (x * y) = x * d2 + B / ten18 * d1) by (unfold d1, d2; field; lra).
  assert (C0 : 0 <= B / ten18 <= 1).
  { split; [apply Rmult_le_pos; [exact B0 | left; now apply Rinv_0_lt_compat] |]. apply (Rmult_le_reg_r ten18); [exact T |]. unfold Rdiv. rewrite Rmult_assoc, Rinv_l by lra. lra. }
  assert (G1 : Rabs (x * d2) <= e2 * x).
  { rewrite Rabs_mult, (Rabs_pos_eq x) by lra. rewrite Rmult_comm. apply Rmult_le_compat_r; assumption. }
  assert (G2 : Rabs (B / ten18 * d1) <= e1).
  { rewrite Rabs_mult, (Rabs_pos_eq (B / ten18)) by lra. pose proof (Rabs_pos d1).
    apply Rle_trans with (1 * Rabs d1); [apply Rmult_le_compat_r; lra | lra]. }
  apply Rabs_def2b in G1. apply Rabs_def2b in G2. apply Rabs_le. lra.
Qed.
Lemma mulf_comm : forall a b, (to_Z a <= 10 ^ 18)%Z -> (to_Z b <= 10 ^ 18)%Z -> to_Z (mulf a b) = to_Z (mulf b a).
Proof. intros. rewrite !mulf_Z by assumption. f_equal. apply Z.mul_comm. Qed.

(** a is x in units of 10^-18, up to e units. *)
Definition cl (e : R) (a : int) (x : R) : Prop := Rabs (IZR (to_Z a) - ten18 * x) <= e /\ 0 <= x <= 1 /\ (to_Z a <= 10 ^ 18)%Z.
Lemma mulf_cl : forall e a b x y, 0 <= e -> cl e a x -> cl 1 b y -> cl (e + 2) (mulf a b) (x * y).
Proof.
  intros e a b x y He (A1 & A2 & A3) (B1 & B2 & B3). split; [| split].
  - rewrite mulf_comm, (Rmult_comm x y) by assumption. eapply Rle_trans; [apply (mulf_err b a y x 1 e); try assumption; lra |].
    assert (e * y <= e * 1) by (apply Rmult_le_compat_l; lra). lra.
  - split; [apply Rmult_le_pos; lra |]. rewrite <- (Rmult_1_l 1). apply Rmult_le_compat; lra.
  - now apply mulf_le.
Qed.

(** ** Rules *)
Notation rule := (list ((nat -> R) * R)).
Notation vals g := (map (fun pw : (nat -> R) * R => g (fst pw))).
Lemma mulv_cl : forall e (r : rule) g h v c, 0 <= e -> Forall2 (cl e) v (vals g r) -> Forall2 (cl 1) c (vals h r) ->
  Forall2 (cl (e + 2)) (mulv v c) (vals (fun x => g x * h x) r).
Proof.
  intros e r g h. induction r as [| p r IH]; intros v c He Hv Hc; cbn [map] in *; inversion Hv; inversion Hc; subst; cbn [mulv]; constructor.
  - now apply mulf_cl.
  - now apply IH.
Qed.
Lemma dot_err : forall e (r : rule) g w v s s', 0 <= e -> Forall2 (cl 1) w (map snd r) -> Forall2 (cl e) v (vals g r) ->
  (to_Z s <= 2 * 10 ^ 18)%Z -> dot s w v = Some s' ->
  (to_Z s' <= 2 * 10 ^ 18)%Z /\ Rabs (IZR (to_Z s') - IZR (to_Z s) - ten18 * rule_sum r g) <= 2 * INR (length r) + e * rule_sum r (fun _ => 1).
Proof.
  intros e r g. induction r as [| p r IH]; intros w v s s' He Hw Hv Hs E; cbn [map] in *; inversion Hw as [| a W w' Ws Ha Hw']; inversion Hv as [| b V v' Vs Hb Hv']; subst; cbn [dot] in E.
  - injection E as <-. split; [exact Hs |]. cbn. rewrite Rabs_right; lra.
  - destruct (PrimInt63.leb s S18) eqn:L; [| discriminate]. apply leb_spec in L. rewrite S18_Z in L.
    destruct Ha as (A1 & A2 & A3). destruct Hb as (B1 & B2 & B3).
    pose proof (mulf_le a b A3 B3) as Ml. pose proof (to_Z_pos (mulf a b)). pose proof (to_Z_pos s).
    assert (Es : to_Z (s + mulf a b)%uint63 = (to_Z s + to_Z (mulf a b))%Z).
    { rewrite add_spec. apply Z.mod_small. rewrite wB_val, p18 in *. lia. }
    apply IH in E; [| assumption | assumption | assumption | rewrite Es; lia]. destruct E as [E1 E2]. split; [exact E1 |].
    rewrite Es, plus_IZR in E2. pose proof (mulf_err a b _ _ 1 e A3 B3 (proj1 A2) ltac:(lra) A1 B1) as E3.
    cbn [length]. rewrite S_INR. unfold rule_sum in *. cbn [fold_right]. set (X := fold_right _ 0 r) in *. set (Y := fold_right _ 0 r) in *.
    apply Rabs_def2b in E2. apply Rabs_def2b in E3. apply Rabs_le. lra.
Qed.

(** ** Monomials, coordinate by coordinate *)
Fixpoint times (ds es : list nat) (g : (nat -> R) -> R) : (nat -> R) -> R := match ds, es with
  | d :: ds, e :: es => times ds es (fun x => g x * x d ^ e)
  | _, _ => g end.
(** E (j+1) / (t+1) (j+2) / (t+2) ... *)
Fixpoint rise (j t e : nat) (E : R) : R := match e with O => E | S e => rise (S j) (S t) e (E * INR (S j) / INR (S t)) end.
Fixpoint moment (es : list nat) (t : nat) (E : R) : R := match es with [] => E | e :: es => moment es (t + e) (rise 0 t e E) end.
Fixpoint total (es : list nat) : nat := match es with [] => O | e :: es => (e + total es)%nat end.

Lemma Forall2_ext : forall {A B} (P : A -> B -> Prop) l m m', m = m' -> Forall2 P l m -> Forall2 P l m'.
Proof. intros. now subst. Qed.
Lemma vals_ext : forall (r : rule) (g h : (nat -> R) -> R), (forall x, g x = h x) -> vals g r = vals h r.
Proof. intros r g h H. apply map_ext. intros p. apply H. Qed.

Lemma loop_sound : forall (r : rule) d c next n g v E Ex k j t tt e m, 0 <= e ->
  loop c next n k t v E = true -> Forall2 (cl 1) c (vals (fun x => x d) r) -> Forall2 (cl e) v (vals g r) ->
  Rabs (IZR (to_Z E) - ten18 * Ex) <= m -> to_Z k = Z.of_nat (S j) -> to_Z t = Z.of_nat tt -> (j <= tt)%nat -> (tt + n < 1000)%nat ->
  forall e0, (e0 <= n)%nat -> exists v' E' t', next (n - e0)%nat v' E' t' = true
    /\ Forall2 (cl (e + 2 * INR e0)) v' (vals (fun x => g x * x d ^ e0) r)
    /\ Rabs (IZR (to_Z E') - ten18 * rise j tt e0 Ex) <= m + INR e0 /\ to_Z t' = Z.of_nat (tt + e0).
Proof.
  intros r d c next n. induction n as [| n IH]; intros g v E Ex k j t tt e m He L Hc Hv HE Hk Ht Hjt Hn e0 H0;
    cbn [loop] in L; apply andb_prop in L; destruct L as [L1 L2].
  - assert (e0 = 0)%nat as -> by lia. exists v, E, t. rewrite Nat.sub_0_r, Nat.add_0_r. split; [exact L1 |]. cbn [rise INR].
    split; [| split; [lra | exact Ht]]. replace (e + 2 * 0) with e by ring. eapply Forall2_ext; [| exact Hv]. apply map_ext; intros; cbn; ring.
  - destruct e0 as [| e0].
    + exists v, E, t. rewrite Nat.sub_0_r, Nat.add_0_r. split; [exact L1 |]. cbn [rise INR].
      split; [| split; [lra | exact Ht]]. replace (e + 2 * 0) with e by ring. eapply Forall2_ext; [| exact Hv]. apply map_ext; intros; cbn; ring.
    + destruct (PrimInt63.leb E (S18 / k)%uint63) eqn:G; [| discriminate]. apply leb_spec in G. rewrite div_spec, S18_Z in G.
      pose proof (to_Z_pos E) as PE.
      assert (Tt : to_Z (t + 1)%uint63 = Z.of_nat (S tt)).
      { rewrite add_spec, Ht. change (to_Z 1) with 1%Z. rewrite Z.mod_small; [lia |]. rewrite wB_val. lia. }
      assert (Tk : to_Z (k + 1)%uint63 = Z.of_nat (S (S j))).
      { rewrite add_spec, Hk. change (to_Z 1) with 1%Z. rewrite Z.mod_small; [lia |]. rewrite wB_val. lia. }
      assert (TM : (to_Z E * to_Z k <= 10 ^ 18)%Z).
      { pose proof (Z.mul_div_le (10 ^ 18) (to_Z k) ltac:(lia)). assert (to_Z E * to_Z k <= (10 ^ 18 / to_Z k) * to_Z k)%Z by (apply Z.mul_le_mono_nonneg_r; lia). lia. }
      assert (TE : to_Z (E * k / (t + 1))%uint63 = (to_Z E * Z.of_nat (S j) / Z.of_nat (S tt))%Z).
      { rewrite div_spec, mul_spec, Tt, Z.mod_small; [now rewrite Hk |]. split; [apply Z.mul_nonneg_nonneg; [exact PE | lia] |].
        rewrite wB_val, p18 in *. lia. }
      destruct (IH (fun x => g x * x d) (mulv v c) (E * k / (t + 1))%uint63 (Ex * INR (S j) / INR (S tt)) (k + 1)%uint63 (S j) (t + 1)%uint63 (S tt) (e + 2) (m + 1))
        with (e0 := e0) as (v' & E' & t' & Q1 & Q2 & Q3 & Q4); try assumption; try lra; try lia.
      * now apply (mulv_cl e r g (fun x => x d)).

      * rewrite TE. pose proof (div_real (to_Z E * Z.of_nat (S j)) (Z.of_nat (S tt)) ltac:(lia)) as Dr.
        rewrite mult_IZR, <- !INR_IZR_INZ in Dr. set (q := IZR (to_Z E * Z.of_nat (S j) / Z.of_nat (S tt))) in *.
        assert (P0 : 0 < INR (S tt)) by (apply lt_0_INR; lia).
        assert (P1 : 0 <= INR (S j) / INR (S tt) <= 1).
        { split; [apply Rmult_le_pos; [apply pos_INR | left; now apply Rinv_0_lt_compat] |].
          apply (Rmult_le_reg_r (INR (S tt))); [exact P0 |]. unfold Rdiv. rewrite Rmult_assoc, Rinv_l by lra. rewrite Rmult_1_r, Rmult_1_l. apply le_INR. lia. }
        set (f := INR (S j) / INR (S tt)) in *.
        replace (IZR (to_Z E) * INR (S j) / INR (S tt)) with (IZR (to_Z E) * f) in Dr by (unfold f; field; lra).
        replace (ten18 * (Ex * INR (S j) / INR (S tt))) with (ten18 * Ex * f) by (unfold f; field; lra).
        assert (Rabs ((IZR (to_Z E) - ten18 * Ex) * f) <= m).
        { rewrite Rabs_mult, (Rabs_pos_eq f) by lra. pose proof (Rabs_pos (IZR (to_Z E) - ten18 * Ex)).
          apply Rle_trans with (Rabs (IZR (to_Z E) - ten18 * Ex) * 1); [apply Rmult_le_compat_l; lra | lra]. }
        apply Rabs_def2b in H. apply Rabs_le. lra.
      * exists v', E', t'. split; [exact Q1 |]. split; [| split].
        -- replace (e + 2 * INR (S e0)) with (e + 2 + 2 * INR e0) by (rewrite S_INR; ring).
           eapply Forall2_ext; [| exact Q2]. apply map_ext; intros x; cbn [pow]; ring.
        -- cbn [rise]. rewrite (S_INR e0). replace (m + (INR e0 + 1)) with (m + 1 + INR e0) by ring. exact Q3.
        -- rewrite Q4. f_equal. lia.
Qed.
Lemma near_sound : forall (r : rule) g w v E Ex e m, 0 <= e -> near w v E = true -> Forall2 (cl 1) w (map snd r) -> Forall2 (cl e) v (vals g r) ->
  rule_sum r (fun _ => 1) <= 1 -> (length r <= 500)%nat -> Rabs (IZR (to_Z E) - ten18 * Ex) <= m ->
  Rabs (ten18 * rule_sum r g - ten18 * Ex) <= 1500 + e + m.
Proof.
  intros r g w v E Ex e m He N Hw Hv Hs Hl HE. unfold near in N. destruct (dot 0 w v) as [s |] eqn:Ed; [| discriminate].
  apply andb_prop in N. destruct N as [N N3]. apply andb_prop in N. destruct N as [N1 N2].
  apply leb_spec in N1. apply leb_spec in N2. apply leb_spec in N3. rewrite S18_Z in N3.
  destruct (dot_err e r g w v 0%uint63 s He Hw Hv) as [D1 D2]; [change (to_Z 0) with 0%Z; lia | exact Ed |].
  change (to_Z 0) with 0%Z in D2. pose proof (to_Z_pos E). pose proof (to_Z_pos s).
  rewrite add_spec, Z.mod_small in N1 by (change (to_Z 500) with 500%Z; rewrite wB_val, p18 in *; lia).
  rewrite add_spec, Z.mod_small in N2 by (change (to_Z 500) with 500%Z; rewrite wB_val, p18 in *; lia).
  change (to_Z 500) with 500%Z in *. apply IZR_le in N1. apply IZR_le in N2. rewrite plus_IZR in *.
  assert (INR (length r) <= 500). { replace 500 with (INR 500) by (rewrite INR_IZR_INZ; reflexivity). now apply le_INR. }
  assert (e * rule_sum r (fun _ => 1) <= e * 1) by (apply Rmult_le_compat_l; lra).
  apply Rabs_def2b in D2. apply Rabs_def2b in HE. apply Rabs_le. lra.
Qed.
Lemma sweep_sound : forall (r : rule) w ds cs, Forall2 (cl 1) w (map snd r) -> rule_sum r (fun _ => 1) <= 1 -> (length r <= 500)%nat ->
  Forall2 (fun c d => Forall2 (cl 1) c (vals (fun x => x d) r)) cs ds ->
  forall n v E t g Ex tt e m, 0 <= e -> sweep w cs n v E t = true -> Forall2 (cl e) v (vals g r) ->
  Rabs (IZR (to_Z E) - ten18 * Ex) <= m -> to_Z t = Z.of_nat tt -> (tt + n < 1000)%nat ->
  forall es, length es = length ds -> (total es <= n)%nat ->
  Rabs (ten18 * rule_sum r (times ds es g) - ten18 * moment es tt Ex) <= 1500 + e + m + 3 * INR n.
Proof.
  intros r w ds cs Hw Hs Hl Hcs. induction Hcs as [| c d cs ds Hc Hcs IH]; intros n v E t g Ex tt e m He S Hv HE Ht Hn es Hes Hn'.
  - destruct es; [| discriminate]. cbn [times moment sweep] in *. pose proof (near_sound r g w v E Ex e m He S Hw Hv Hs Hl HE). pose proof (pos_INR n). lra.
  - destruct es as [| e0 es]; [discriminate |]. cbn [times moment sweep length total] in *.
    destruct (loop_sound r d c (sweep w cs) n g v E Ex 1%uint63 0 t tt e m He S Hc Hv HE eq_refl Ht ltac:(lia) Hn e0 ltac:(lia)) as (v' & E' & t' & Q1 & Q2 & Q3 & Q4).
    assert (Hs' : length es = length ds) by congruence.
    assert (He' : 0 <= e + 2 * INR e0) by (pose proof (pos_INR e0); lra).
    pose proof (IH (n - e0)%nat v' E' t' (fun x => g x * x d ^ e0) _ (tt + e0)%nat _ _ He' Q1 Q2 Q3 Q4 ltac:(lia) es Hs' ltac:(lia)) as Q.
    rewrite minus_INR in Q by lia. lra.
Qed.

(** ** The moments *)
Lemma rise_fact : forall e j t E, rise j t e E = E * factR (j + e) / factR j * factR t / factR (t + e).
Proof.
  induction e as [| e IH]; intros j t E; cbn [rise].
  - rewrite !Nat.add_0_r. field. split; apply factR_neq.
  - rewrite IH. replace (j + S e)%nat with (S j + e)%nat by lia. replace (t + S e)%nat with (S t + e)%nat by lia.
    rewrite (factR_S j), (factR_S t). field. repeat split; try apply factR_neq; apply not_0_INR; lia.
Qed.
Lemma moment2 : forall p q, moment [p; q] 2 (1 / 2) = factR p * factR q / factR (p + q + 2).
Proof.
  intros p q. cbn [moment]. rewrite !rise_fact. cbn [Nat.add]. replace (p + q + 2)%nat with (2 + p + q)%nat by lia.
  change (factR 0) with 1. change (factR 2) with (INR 2). cbn [Nat.add]. pose proof (factR_neq (S (S p))). pose proof (factR_neq (S (S (p + q)))). cbn [INR]. field. auto.
Qed.
Lemma moment3 : forall p q s, moment [p; q; s] 3 (1 / 6) = factR p * factR q * factR s / factR (p + q + s + 3).
Proof.
  intros p q s. cbn [moment]. rewrite !rise_fact. replace (p + q + s + 3)%nat with (3 + p + q + s)%nat by lia.
  change (factR 0) with 1. assert (E : factR 3 = 6) by (unfold factR; cbn; ring). rewrite E. cbn [Nat.add].
  pose proof (factR_neq (S (S (S p)))). pose proof (factR_neq (S (S (S (p + q))))). pose proof (factR_neq (S (S (S (p + q + s))))). field. auto.
Qed.

(** ** Decimals *)
Lemma groups_bounds : forall gs, forallb (fun g => PrimInt63.ltb g S18) gs = true ->
  0 <= groups_value gs < 1 /\ IZR (to_Z (head gs)) <= ten18 * groups_value gs < IZR (to_Z (head gs)) + 1.
Proof.
  assert (T := ten18_val).
  induction gs as [| g gs IH]; cbn [forallb]; intros H.
  - cbn [groups_value head]. change (to_Z 0) with 0%Z. rewrite T. lra.
  - apply andb_prop in H. destruct H as [Hg H]. apply ltb_spec in Hg. rewrite S18_Z in Hg. specialize (IH H). cbn [groups_value head].
    pose proof (to_Z_pos g) as P. assert (Hg' : (to_Z g <= 10 ^ 18 - 1)%Z) by lia. apply IZR_le in Hg'. apply IZR_le in P.
    change (10 ^ 18 - 1)%Z with 999999999999999999%Z in Hg'. rewrite T. lra.
Qed.
Lemma groups_zero : forall gs, forallb (fun g => PrimInt63.eqb g 0) gs = true -> groups_value gs = 0 /\ to_Z (head gs) = 0%Z.
Proof.
  induction gs as [| g gs IH]; cbn [forallb]; intros H; [split; reflexivity |].
  apply andb_prop in H. destruct H as [Hg H]. apply eqb_correct in Hg. subst. destruct (IH H) as [E _]. cbn [groups_value head]. rewrite E.
  change (to_Z 0) with 0%Z. split; [rewrite ten18_val; lra | reflexivity].
Qed.
Lemma div_between : forall N B (v : R), (0 < B)%Z -> IZR N - 1 <= v * IZR B <= IZR N + 1 -> (IZR N <= v * IZR B -> v * IZR B < IZR N + 1) ->
  Rabs (IZR (N / B) - v) <= 1.
Proof.
  intros N B v HB H1 H2. pose proof (Z.mul_div_le N B HB) as L. pose proof (Z.mul_succ_div_gt N B HB) as G.
  assert (G' : (N + 1 <= B * Z.succ (N / B))%Z) by lia. apply IZR_le in L. apply IZR_le in G'. rewrite !mult_IZR, plus_IZR, succ_IZR in *.
  set (q := IZR (N / B)) in *. assert (B1 : 1 <= IZR B) by (apply IZR_le; lia).
  apply Rabs_le. split.
  - apply Rnot_lt_le. intros C. assert (v > q + 1) by lra. assert (v * IZR B > (q + 1) * IZR B) by (apply Rmult_gt_compat_r; lra). lra.
  - apply Rnot_lt_le. intros C. assert (v < q - 1) by lra. assert (v * IZR B < (q - 1) * IZR B) by (apply Rmult_lt_compat_r; lra). lra.
Qed.
Lemma scaled_sound : forall a b d x, scaled a b d = Some x ->
  cl 1 x ((IZR (to_Z a) + decimal_value d) / IZR (to_Z b)).
Proof.
  intros a b [neg w gs] x E. unfold scaled in E.
  destruct (forallb (fun g => PrimInt63.ltb g S18) gs && PrimInt63.leb w 2 && PrimInt63.leb a 1 && PrimInt63.leb 1 b && PrimInt63.leb b 8)%bool eqn:G; [| discriminate].
  apply andb_prop in G. destruct G as [G Gb8]. apply andb_prop in G. destruct G as [G Gb1]. apply andb_prop in G. destruct G as [G Ga].
  apply andb_prop in G. destruct G as [Gg Gw]. apply leb_spec in Gb8, Gb1, Ga, Gw.
  change (to_Z 8) with 8%Z in *. change (to_Z 1) with 1%Z in *. change (to_Z 2) with 2%Z in *.
  destruct (groups_bounds gs Gg) as [Q1 Q2]. pose proof (to_Z_pos a) as Pa. pose proof (to_Z_pos w) as Pw. pose proof (to_Z_pos (head gs)) as Ph.
  assert (Hh : (to_Z (head gs) < 10 ^ 18)%Z).
  { destruct gs as [| g gs]; [reflexivity |]. cbn [forallb] in Gg. apply andb_prop in Gg. destruct Gg as [Gg _]. now apply ltb_spec in Gg. }
  assert (B1 : 1 <= IZR (to_Z b)) by (apply IZR_le; lia). assert (T := ten18_val).
  cbv zeta in E. destruct neg.
  - destruct (PrimInt63.eqb a 1 && (PrimInt63.eqb w 0 || PrimInt63.eqb w 1 && forallb (fun g => PrimInt63.eqb g 0) gs))%bool eqn:C; [| discriminate].
    apply andb_prop in C. destruct C as [Ca C]. apply eqb_correct in Ca. subst a.
    set (N := (10 ^ 18 - (to_Z w * 10 ^ 18 + to_Z (head gs)))%Z).
    assert (HN : (0 <= N)%Z /\ (to_Z w * 10 ^ 18 + to_Z (head gs) <= 10 ^ 18)%Z /\ IZR (to_Z w) + groups_value gs <= 1
       /\ IZR N - 1 <= ten18 * (1 - (IZR (to_Z w) + groups_value gs)) <= IZR N).
    { apply orb_prop in C. unfold N. destruct C as [C | C].
      - apply eqb_correct in C. subst w. change (to_Z 0) with 0%Z. rewrite Z.mul_0_l, Z.add_0_l, minus_IZR, <- ten18_Z. repeat split; try lia; lra.
      - apply andb_prop in C. destruct C as [C Cz]. apply eqb_correct in C. subst w. destruct (groups_zero gs Cz) as [-> ->].
        change (to_Z 1) with 1%Z. rewrite Z.mul_1_l, Z.add_0_r, Z.sub_diag. repeat split; try lia; lra. }
    destruct HN as (N0 & Ns & Nv & N1).
    assert (E1 : to_Z ((S18 - (w * S18 + head gs)) / b)%uint63 = (N / to_Z b)%Z).
    { rewrite div_spec, sub_spec, add_spec, mul_spec, S18_Z. unfold N in *.
      rewrite (Z.mod_small (to_Z w * 10 ^ 18)) by (rewrite wB_val, p18 in *; lia).
      rewrite (Z.mod_small (to_Z w * 10 ^ 18 + _)) by (rewrite wB_val, p18 in *; lia).
      rewrite Z.mod_small by (rewrite wB_val, p18 in *; lia). reflexivity. }
    destruct (PrimInt63.leb ((S18 - (w * S18 + head gs)) / b)%uint63 S18) eqn:Lx; [| discriminate]. injection E as <-. apply leb_spec in Lx.
    rewrite S18_Z in Lx. unfold cl. split; [| split; [| exact Lx]].
    + rewrite E1. apply div_between; [lia | |]; unfold decimal_value; change (to_Z 1) with 1%Z.
      * replace (ten18 * ((1 + -1 * (IZR (to_Z w) + groups_value gs)) / IZR (to_Z b)) * IZR (to_Z b)) with (ten18 * (1 - (IZR (to_Z w) + groups_value gs))) by (field; lra). lra.
      * replace (ten18 * ((1 + -1 * (IZR (to_Z w) + groups_value gs)) / IZR (to_Z b)) * IZR (to_Z b)) with (ten18 * (1 - (IZR (to_Z w) + groups_value gs))) by (field; lra). lra.
    + unfold decimal_value. change (to_Z 1) with 1%Z. assert (Pw' : 0 <= IZR (to_Z w)) by (apply IZR_le; lia).
      replace (1 + -1 * (IZR (to_Z w) + groups_value gs)) with (1 - (IZR (to_Z w) + groups_value gs)) by ring. split.
      * apply Rmult_le_pos; [lra | left; apply Rinv_0_lt_compat; lra].
      * apply (Rmult_le_reg_r (IZR (to_Z b))); [lra |]. unfold Rdiv. rewrite Rmult_assoc, Rinv_l by lra. lra.
  - destruct (PrimInt63.ltb (a + w)%uint63 b) eqn:C; [| discriminate]. apply ltb_spec in C. rewrite add_spec, Z.mod_small in C by (rewrite wB_val; lia).
    set (N := ((to_Z a + to_Z w) * 10 ^ 18 + to_Z (head gs))%Z).
    assert (E1 : to_Z (((a + w) * S18 + head gs) / b)%uint63 = (N / to_Z b)%Z).
    { rewrite div_spec, add_spec, mul_spec, add_spec, S18_Z. unfold N in *.
      rewrite (Z.mod_small (to_Z a + to_Z w)) by (rewrite wB_val, p18 in *; lia).
      rewrite (Z.mod_small ((to_Z a + to_Z w) * 10 ^ 18)) by (rewrite wB_val, p18 in *; lia).
      rewrite Z.mod_small by (rewrite wB_val, p18 in *; lia). reflexivity. }
    destruct (PrimInt63.leb (((a + w) * S18 + head gs) / b)%uint63 S18) eqn:Lx; [| discriminate]. injection E as <-. apply leb_spec in Lx.
    rewrite S18_Z in Lx.
    assert (EN : IZR N = (IZR (to_Z a) + IZR (to_Z w)) * ten18 + IZR (to_Z (head gs))).
    { unfold N. rewrite plus_IZR, mult_IZR, plus_IZR, <- ten18_Z. reflexivity. }
    unfold cl. split; [| split; [| exact Lx]].
    + rewrite E1. apply div_between; [lia | |]; unfold decimal_value;
        (replace (ten18 * ((IZR (to_Z a) + 1 * (IZR (to_Z w) + groups_value gs)) / IZR (to_Z b)) * IZR (to_Z b)) with (ten18 * (IZR (to_Z a) + (IZR (to_Z w) + groups_value gs))) by (field; lra)); rewrite EN; lra.
    + unfold decimal_value. assert (C' : (to_Z a + to_Z w + 1 <= to_Z b)%Z) by lia. apply IZR_le in C'. rewrite !plus_IZR in C'.
      apply IZR_le in Pa. apply IZR_le in Pw. split.
      * apply Rmult_le_pos; [lra | left; apply Rinv_0_lt_compat; lra].
      * apply (Rmult_le_reg_r (IZR (to_Z b))); [lra |]. unfold Rdiv. rewrite Rmult_assoc, Rinv_l by lra. lra.
Qed.
