(** A rule that passes the check is proper and nearly exact (C85). *)
Require Import List Arith Bool ZArith Uint63 Lia Reals Lra.
Require Import Verif.LinAlg Verif.BasisModel Verif.BasisSpec Verif.JacobiProofs Verif.IntegralSpec Verif.QuadratureModel Verif.QuadratureSpec
  Verif.QuadratureProps Verif.RootsProps Verif.QuadTableModel Verif.QuadTableSpec Verif.QuadTableCheck Verif.QuadTableProofs.
Import ListNotations.
Local Open Scope R_scope.

Definition eps15 : R := 2 / 10 ^ 15.

Lemma map_o_some : forall {A B} (f : A -> option B) l m, map_o f l = Some m -> Forall2 (fun x y => f x = Some y) l m.
Proof.
  intros A B f. induction l as [| x l IH]; intros m E; cbn [map_o] in E; [injection E as <-; constructor |].
  destruct (f x) as [y |] eqn:Ex; [| discriminate]. destruct (map_o f l) as [m' |] eqn:El; [| discriminate]. injection E as <-.
  constructor; [exact Ex | now apply IH].
Qed.
Lemma combine_fst : forall {A B} (l : list A) (m : list B), length l = length m -> map fst (combine l m) = l.
Proof. intros A B. induction l as [| x l IH]; intros [| y m] H; cbn in *; try discriminate; [reflexivity |]. now rewrite IH by congruence. Qed.
Lemma combine_snd : forall {A B} (l : list A) (m : list B), length l = length m -> map snd (combine l m) = m.
Proof. intros A B. induction l as [| x l IH]; intros [| y m] H; cbn in *; try discriminate; [reflexivity |]. now rewrite IH by congruence. Qed.
Lemma Forall2_in_r : forall {A B} (P : A -> B -> Prop) l m y, Forall2 P l m -> In y m -> exists x, In x l /\ P x y.
Proof. intros A B P l m y H. induction H as [| a b l m H1 H2 IH]; [intros [] |]. intros [<- | I]; [exists a; split; [left; reflexivity | assumption] |]. destruct (IH I) as (x & X1 & X2). exists x. split; [right |]; assumption. Qed.
Lemma Forall2_length : forall {A B} (P : A -> B -> Prop) l m, Forall2 P l m -> length l = length m.
Proof. intros A B P l m H. induction H; cbn; congruence. Qed.
Lemma rule_sum_ext : forall r f g, (forall x, f x = g x) -> rule_sum r f = rule_sum r g.
Proof. intros r f g E. unfold rule_sum. induction r as [| p r IH]; [reflexivity |]. cbn [fold_right]. now rewrite IH, E. Qed.
Lemma rule_sum_plus : forall r f g, rule_sum r (fun x => f x + g x) = rule_sum r f + rule_sum r g.
Proof. intros r f g. unfold rule_sum. induction r as [| p r IH]; cbn [fold_right]; [ring |]. rewrite IH. ring. Qed.
Lemma rule_sum_scale : forall r c f, rule_sum r (fun x => c * f x) = c * rule_sum r f.
Proof. intros r c f. unfold rule_sum. induction r as [| p r IH]; cbn [fold_right]; [ring |]. rewrite IH. ring. Qed.

(** A rule that is near for every monomial is near for every polynomial. *)
Lemma near_monos : forall eps D r d, (D = 1 \/ D = 2 \/ D = 3)%nat ->
  (forall p q s, expo D d (p, q, s) -> Rabs (rule_sum r (mono p q s) - factR p * factR q * factR s / factR (p + q + s + D)) <= eps) ->
  nearly_exact eps D r d.
Proof.
  intros eps D r d HD M l Hl I HI.
  assert (G : exists J, is_simplex_integral D (poly_value l) J /\ Rabs (rule_sum r (poly_value l) - J) <= eps * coef_sum l).
  { clear I HI. induction l as [| [c [[p q] s]] l IH].
    - exists (0 * (factR 0 * factR 0 * factR 0 / factR (0 + 0 + 0 + D))). split.
      + eapply simplex_ext; [| reflexivity | apply (simplex_scale D (mono 0 0 0) _ 0), (simplex_mono D 0); [lia | repeat split; lia]].
        intros. cbn [poly_value fold_right]. ring.
      + rewrite (rule_sum_ext r _ (fun _ => 0 * 0)), rule_sum_scale by (intros; cbn; ring). cbn [coef_sum fold_right].
        replace (0 * rule_sum r (fun _ => 0) - _) with 0 by ring. rewrite Rabs_R0. lra.
    - assert (El : terms_ok D d l) by (intros c' p' q' s' Hi; apply (Hl c'); right; exact Hi). destruct (IH El) as (J & J1 & J2).
      assert (Ee : expo D d (p, q, s)). { destruct (Hl c p q s (or_introl eq_refl)) as (A1 & A2 & A3). repeat split; assumption. }
      exists (c * (factR p * factR q * factR s / factR (p + q + s + D)) + J). split.
      + eapply simplex_ext; [| reflexivity | apply (simplex_plus D (fun xi => c * mono p q s xi) (poly_value l)); [apply simplex_scale, (simplex_mono D d); [lia | exact Ee] | exact J1]].
        intros. reflexivity.
      + rewrite (rule_sum_ext r _ (fun xi => c * mono p q s xi + poly_value l xi)) by reflexivity.
        rewrite rule_sum_plus, rule_sum_scale. specialize (M p q s Ee). cbn [coef_sum fold_right fst]. fold (coef_sum l).
        set (X := rule_sum r (mono p q s)) in *. set (Y := factR p * factR q * factR s / factR (p + q + s + D)) in *.
        replace (c * X + rule_sum r (poly_value l) - (c * Y + J)) with (c * (X - Y) + (rule_sum r (poly_value l) - J)) by ring.
        eapply Rle_trans; [apply Rabs_triang |]. rewrite Rabs_mult.
        assert (Rabs c * Rabs (X - Y) <= Rabs c * eps) by (apply Rmult_le_compat_l; [apply Rabs_pos | exact M]). lra. }
  destruct G as (J & J1 & J2). now rewrite (simplex_integral_unique D _ _ _ HD HI J1).
Qed.

Section Sound.
Variables (D : nat) (a b wb : int) (tr : (nat -> R) * R -> (nat -> R) * R).
Hypothesis HD : (D = 2 \/ D = 3)%nat.
Hypothesis Hw : forall p, snd (tr p) = snd p / IZR (to_Z wb).
Hypothesis Hx : forall p d, (d < D)%nat -> fst (tr p) d = (IZR (to_Z a) + fst p d) / IZR (to_Z b).

Lemma weights_close : forall raw w, length (fst raw) = length (snd raw) -> map_o (scaled 0 wb) (snd raw) = Some w ->
  Forall2 (cl 1) w (map snd (map tr (as_rule raw))).
Proof.
  intros raw w Hl E. apply map_o_some in E.
  assert (Q : map snd (map tr (as_rule raw)) = map (fun d => decimal_value d / IZR (to_Z wb)) (snd raw)).
  { transitivity (map (fun s => s / IZR (to_Z wb)) (map snd (as_rule raw))).
    - rewrite !map_map. apply map_ext. intros p. apply Hw.
    - unfold as_rule. rewrite combine_snd by (rewrite !map_length; exact Hl). now rewrite map_map. }
  rewrite Q. clear Q Hl. induction E as [| x y l m Exy E IH]; cbn [map]; constructor; [| exact IH].
  apply scaled_sound in Exy. change (to_Z 0) with 0%Z in Exy. now rewrite Rplus_0_l in Exy.
Qed.
Lemma nth_value : forall p d x, nth_error p d = Some x -> nth d (map decimal_value p) 0 = decimal_value x.
Proof. induction p as [| y p IH]; intros [| d] x E; cbn in *; try discriminate; [congruence | now apply IH]. Qed.
Lemma points_of : forall raw d, length (fst raw) = length (snd raw) -> (d < D)%nat ->
  map (fun pw : (nat -> R) * R => fst pw d) (map tr (as_rule raw)) = map (fun p => (IZR (to_Z a) + nth d (map decimal_value p) 0) / IZR (to_Z b)) (fst raw).
Proof.
  intros raw d Hl Hd. transitivity (map (fun x : nat -> R => (IZR (to_Z a) + x d) / IZR (to_Z b)) (map fst (as_rule raw))).
  - rewrite !map_map. apply map_ext. intros p. now apply Hx.
  - unfold as_rule. rewrite combine_fst by (rewrite !map_length; exact Hl). now rewrite map_map.
Qed.
Lemma column_close : forall raw d c, length (fst raw) = length (snd raw) -> (d < D)%nat -> column a b d (fst raw) = Some c ->
  Forall2 (cl 1) c (map (fun pw : (nat -> R) * R => fst pw d) (map tr (as_rule raw))).
Proof.
  intros raw d c Hl Hd E. rewrite points_of by assumption. apply map_o_some in E. clear Hl.
  induction E as [| p y l m Exy E IH]; cbn [map]; constructor; [| exact IH].
  unfold at_coord in Exy. destruct (nth_error p d) as [x |] eqn:En; [| discriminate]. rewrite (nth_value _ _ _ En). now apply scaled_sound.
Qed.
Lemma below_sound : forall p, length p = D -> below D a b p = true -> rsum D (fun d => (IZR (to_Z a) + nth d (map decimal_value p) 0) / IZR (to_Z b)) <= 1.
Proof.
  intros p Hp H. unfold below in H. apply orb_prop in H. destruct H as [H | H].
  - apply andb_prop in H. destruct H as [H Hn]. apply andb_prop in H. destruct H as [H Hb]. apply andb_prop in H. destruct H as [H Ha].
    apply Nat.eqb_eq in H. apply eqb_correct in Ha. apply eqb_correct in Hb. subst a b. rewrite H in *.
    destruct p as [| x [| y [| z p]]]; try discriminate. cbn [forallb] in Hn. apply andb_prop in Hn. destruct Hn as [Nx Ny].
    apply andb_prop in Ny. destruct Ny as [Ny _].
    assert (Ng : forall z, negative z = true -> decimal_value z <= 0).
    { intros [neg w gs] N. cbn in N. subst neg. unfold decimal_value.
      assert (0 <= groups_value gs). { induction gs as [| g gs IH]; cbn [groups_value]; [lra |]. apply Rmult_le_pos; [| left; apply Rinv_0_lt_compat; rewrite ten18_val; lra].
        assert (0 <= IZR (to_Z g)) by (apply IZR_le, to_Z_pos). lra. }
      assert (0 <= IZR (to_Z w)) by (apply IZR_le, to_Z_pos). lra. }
    pose proof (Ng x Nx). pose proof (Ng y Ny). cbn [rsum map nth]. change (to_Z 1) with 1%Z. change (to_Z 2) with 2%Z. lra.
  - destruct (map_o (at_coord a b scaled p) (seq 0 D)) as [l |] eqn:E; [| discriminate]. apply leb_spec in H. rewrite S18_Z in H. apply map_o_some in E.
    assert (K : forall d c, at_coord a b scaled p d = Some c -> cl 1 c ((IZR (to_Z a) + nth d (map decimal_value p) 0) / IZR (to_Z b))).
    { intros d c Ec. unfold at_coord in Ec. destruct (nth_error p d) as [x |] eqn:En; [| discriminate]. rewrite (nth_value _ _ _ En). now apply scaled_sound. }
    set (X := fun d => (IZR (to_Z a) + nth d (map decimal_value p) 0) / IZR (to_Z b)) in *. assert (T := ten18_val).
    assert (P18 := p18).
    destruct HD as [HD' | HD']; rewrite HD' in *; cbn [seq] in E.
    + inversion E as [| ? c0 ? l1 E0 F1]; subst. inversion F1 as [| ? c1 ? l2 E1 F2]; subst. inversion F2; subst. clear E F1 F2.
      destruct (K _ _ E0) as (A1 & A2 & A3). destruct (K _ _ E1) as (B1 & B2 & B3). fold (X 0%nat) in *. fold (X 1%nat) in *.
      pose proof (to_Z_pos c0). pose proof (to_Z_pos c1).
      cbn [fold_right] in H. rewrite add_spec, add_spec in H. change (to_Z 3) with 3%Z in H.
      rewrite (Z.mod_small (to_Z c1 + 3)) in H by (rewrite wB_val; lia). rewrite Z.mod_small in H by (rewrite wB_val; lia).
      apply IZR_le in H. rewrite <- ten18_Z, !plus_IZR in H. apply Rabs_def2b in A1. apply Rabs_def2b in B1. cbn [rsum]. rewrite T in *. lra.
    + inversion E as [| ? c0 ? l1 E0 F1]; subst. inversion F1 as [| ? c1 ? l2 E1 F2]; subst. inversion F2 as [| ? c2 ? l3 E2 F3]; subst. inversion F3; subst. clear E F1 F2 F3.
      destruct (K _ _ E0) as (A1 & A2 & A3). destruct (K _ _ E1) as (B1 & B2 & B3). destruct (K _ _ E2) as (C1 & C2 & C3). fold (X 0%nat) in *. fold (X 1%nat) in *. fold (X 2%nat) in *.
      pose proof (to_Z_pos c0). pose proof (to_Z_pos c1). pose proof (to_Z_pos c2).
      cbn [fold_right] in H. rewrite !add_spec in H. change (to_Z 3) with 3%Z in H.
      rewrite (Z.mod_small (to_Z c2 + 3)) in H by (rewrite wB_val; lia). rewrite (Z.mod_small (to_Z c1 + _)) in H by (rewrite wB_val; lia). rewrite Z.mod_small in H by (rewrite wB_val; lia).
      apply IZR_le in H. rewrite <- ten18_Z, !plus_IZR in H. apply Rabs_def2b in A1. apply Rabs_def2b in B1. apply Rabs_def2b in C1. cbn [rsum]. rewrite T in *. lra.
Qed.

Theorem check_rule_sound : forall k raw, check_rule D a b wb k raw = true ->
  let r := map tr (as_rule raw) in proper_rule D r /\ nearly_exact eps15 D r k.
Proof.
  intros k raw H r. unfold check_rule in H.
  apply andb_prop in H. destruct H as [H Hm]. apply andb_prop in H. destruct H as [H Hin]. apply andb_prop in H. destruct H as [H Hk].
  apply andb_prop in H. destruct H as [Hl Hn]. apply Nat.eqb_eq in Hl. apply Nat.leb_le in Hn. apply Nat.leb_le in Hk.
  destruct (map_o (fun d => column a b d (fst raw)) (seq 0 D)) as [cs |] eqn:Ec; [| discriminate].
  destruct (map_o (scaled 0 wb) (snd raw)) as [w |] eqn:Ew; [| discriminate].
  apply andb_prop in Hm. destruct Hm as [Hm Hs]. apply andb_prop in Hm. destruct Hm as [Hpos Hone].
  pose proof (weights_close raw w Hl Ew) as CW. fold r in CW.
  apply map_o_some in Ec.
  assert (CC : Forall2 (fun c d => Forall2 (cl 1) c (map (fun pw : (nat -> R) * R => fst pw d) r)) cs (seq 0 D)).
  { assert (Hd : forall d, In d (seq 0 D) -> (d < D)%nat) by (intros d Hi; apply in_seq in Hi; lia).
    clear Hs. induction Ec as [| d c ds cs Ed Ec IH]; constructor; [apply column_close; [exact Hl | apply Hd; left; reflexivity | exact Ed] | apply IH; intros; apply Hd; now right]. }
  assert (Lr : length r = length (snd raw)) by (unfold r, as_rule; rewrite map_length, combine_length, !map_length; lia).
  assert (Lw : length w = length r) by (rewrite (Forall2_length _ _ _ CW), map_length; reflexivity).
  assert (T := ten18_val).
  assert (ON : Forall2 (cl 0) (map (fun _ => S18) w) (vals (fun _ => 1) r)).
  { clear - Lw T. revert Lw. generalize r. clear r. induction w as [| x w IH]; intros [| p r] L; cbn in L; try discriminate; cbn [map]; constructor; [| apply IH; congruence].
    unfold cl. rewrite S18_Z, <- ten18_Z. split; [| split; [lra | lia]]. rewrite Rmult_1_r, Rminus_diag_eq by reflexivity. rewrite Rabs_R0. lra. }
  assert (Len : (length r <= 500)%nat) by (rewrite Lr; exact Hn).
  assert (S1 : rule_sum r (fun _ => 1) <= 1).
  { destruct (dot 0 w (map (fun _ => S18) w)) as [s |] eqn:Ed; [| discriminate]. apply leb_spec in Hone.
    destruct (dot_err 0 r (fun _ => 1) w _ 0%uint63 s (Rle_refl 0) CW ON) as [D1 D2]; [change (to_Z 0) with 0%Z; lia | exact Ed |].
    pose proof (to_Z_pos s). rewrite add_spec, S18_Z in Hone. change (to_Z 1000) with 1000%Z in Hone. rewrite Z.mod_small in Hone by (rewrite wB_val, p18 in *; lia).
    apply IZR_le in Hone. rewrite plus_IZR, <- ten18_Z in Hone. change (to_Z 0) with 0%Z in D2.
    assert (INR (length r) <= 500). { replace 500 with (INR 500) by (rewrite INR_IZR_INZ; reflexivity). now apply le_INR. }
    apply Rabs_def2b in D2. rewrite T in *. lra. }
  split.
  - intros x wt Hi. split; [split |].
    + intros d Hd.
      assert (Hc : exists c, In c cs /\ Forall2 (cl 1) c (map (fun pw : (nat -> R) * R => fst pw d) r)).
      { apply (Forall2_in_r _ _ _ d CC). apply in_seq. lia. }
      destruct Hc as (c & _ & Hc). destruct (Forall2_in_r _ _ _ (x d) Hc) as (y & _ & Q).
      { apply in_map_iff. exists (x, wt). split; [reflexivity | exact Hi]. }
      destruct Q as (_ & Q & _). lra.
    + unfold r, as_rule in Hi. apply in_map_iff in Hi. destruct Hi as ([y s] & Et & Hi).
      apply in_combine_l in Hi. apply in_map_iff in Hi. destruct Hi as (p & <- & Hi).
      rewrite forallb_forall in Hin. specialize (Hin p Hi). apply andb_prop in Hin. destruct Hin as [Hp Hb]. apply Nat.eqb_eq in Hp.
      pose proof (below_sound p Hp Hb) as B. erewrite rsum_ext; [exact B |]. intros d Hd. cbv beta.
      change x with (fst (x, wt)). rewrite <- Et, Hx by exact Hd. reflexivity.
    + destruct (Forall2_in_r _ _ _ wt CW) as (y & Hy & Q). { apply in_map_iff. exists (x, wt). split; [reflexivity | exact Hi]. }
      rewrite forallb_forall in Hpos. specialize (Hpos y Hy). apply leb_spec in Hpos. change (to_Z 2) with 2%Z in Hpos. apply IZR_le in Hpos.
      destruct Q as (Q & _ & _). apply Rabs_def2b in Q. rewrite T in Q. lra.
  - apply near_monos; [lia |]. intros p q s (E1 & E2 & E3).
    assert (KK : INR k <= 20). { replace 20 with (INR 20) by (rewrite INR_IZR_INZ; reflexivity). now apply le_INR. }
    assert (R0 : forall X Y m, m <= 1 -> Rabs (ten18 * X - ten18 * Y) <= 1500 + 0 + m + 3 * INR k -> Rabs (X - Y) <= eps15).
    { intros X Y m Hm' Q. rewrite <- Rmult_minus_distr_l, Rabs_mult, (Rabs_pos_eq ten18) in Q by (rewrite T; lra).
      apply (Rmult_le_reg_l ten18); [rewrite T; lra |]. eapply Rle_trans; [exact Q |]. unfold eps15. rewrite T.
      replace (10 ^ 15) with 1000000000000000 by (cbn [pow]; lra). lra. }
    destruct HD as [HD' | HD']; rewrite HD' in *.
    + assert (s = 0)%nat by (apply E3; lia). subst s.
      pose proof (sweep_sound r w (seq 0 2) cs CW S1 Len CC k _ _ _ (fun _ => 1) (1 / 2) 2 0 1 (Rle_refl 0) Hs ON) as Q.
      specialize (Q ltac:(change (to_Z (S18 / 2)%uint63) with 500000000000000000%Z; rewrite T; apply Rabs_le; lra) eq_refl ltac:(lia) [p; q] eq_refl ltac:(cbn [total]; lia)).
      rewrite moment2 in Q. apply R0 in Q; [| lra].
      rewrite (rule_sum_ext r _ (mono p q 0)) in Q by (intros x; cbn [seq times]; unfold mono; cbn [pow]; ring).
      change (factR 0) with 1. rewrite Rmult_1_r, Nat.add_0_r. exact Q.
    + pose proof (sweep_sound r w (seq 0 3) cs CW S1 Len CC k _ _ _ (fun _ => 1) (1 / 6) 3 0 1 (Rle_refl 0) Hs ON) as Q.
      specialize (Q ltac:(change (to_Z (S18 / 6)%uint63) with 166666666666666666%Z; rewrite T; apply Rabs_le; lra) eq_refl ltac:(lia) [p; q; s] eq_refl ltac:(cbn [total]; lia)).
      rewrite moment3 in Q. apply R0 in Q; [| lra].
      rewrite (rule_sum_ext r _ (mono p q s)) in Q by (intros x; cbn [seq times]; unfold mono; ring). exact Q.
Qed.
End Sound.
