Require Import List Arith Lia Bool Permutation.
Require Import Verif.Base Verif.CommProofs Verif.MultiIndexModel.
Import ListNotations.
Local Open Scope opt_scope.

Fixpoint flat (idx shape : list nat) : nat :=
  match idx, shape with i :: t, s :: ss => i + s * flat t ss | _, _ => 0 end.
Definition inrange (idx shape : list nat) : Prop := Forall2 lt idx shape.
Fixpoint prodl (l : list nat) : nat := match l with [] => 1 | a :: t => a * prodl t end.

Lemma flatten_flat idx : forall shape, length idx = length shape -> flatten idx shape = flat idx shape.
Proof.
  unfold flatten. induction idx as [|i t IH]; intros [|s ss] L; try discriminate; auto.
  cbn [combine rev flat]. rewrite fold_left_app. simpl in L. rewrite IH by lia. simpl. lia.
Qed.

Lemma flat_bound idx shape : inrange idx shape -> flat idx shape < prodl shape.
Proof.
  induction 1 as [|i s t ss H F IH]; simpl; auto.
  assert (s * (flat t ss + 1) <= s * prodl ss) by (apply Nat.mul_le_mono_l; lia). lia.
Qed.

Lemma flat_inj a shape : inrange a shape -> forall b, inrange b shape -> flat a shape = flat b shape -> a = b.
Proof.
  induction 1 as [|i s t ss H F IH]; intros b Hb E; inversion Hb as [|x s' l ss' Hx Hl]; subst; auto.
  simpl in E. assert (E' : s * flat t ss + i = s * flat l ss + x) by lia.
  destruct (Nat.div_mod_unique s (flat t ss) (flat l ss) i x H Hx E') as [E1 E2].
  f_equal; auto.
Qed.

Lemma unflatten_spec shape : forall n, n < prodl shape ->
  exists idx, unflatten n shape = Some idx /\ inrange idx shape /\ flat idx shape = n.
Proof.
  induction shape as [|s ss IH]; intros n H; simpl in H.
  - exists []. simpl. split; auto. split; [constructor|lia].
  - cbn [unflatten]. destruct (Nat.eqb_spec s 0) as [->|Hs]; [simpl in H; lia|].
    destruct (IH (n / s)) as (r & E & R & F).
    { apply Nat.div_lt_upper_bound; auto. }
    rewrite E. cbn [bind]. exists (n mod s :: r). split; auto. split.
    + constructor; auto. apply Nat.mod_upper_bound; auto.
    + simpl. rewrite F. pose proof (Nat.div_mod n s Hs). lia.
Qed.

Lemma inrange_length a s : inrange a s -> length a = length s.
Proof. induction 1; simpl; auto. Qed.

Lemma inrange_pos idx shape : inrange idx shape -> Forall (fun s => 0 < s) shape.
Proof. induction 1; constructor; auto; lia. Qed.

Lemma mi_incr_spec idx shape : inrange idx shape -> shape <> [] ->
  (flat idx shape + 1 < prodl shape -> inrange (mi_incr idx shape) shape /\
     flat (mi_incr idx shape) shape = flat idx shape + 1) /\
  (flat idx shape + 1 = prodl shape -> mi_incr idx shape = mi_end shape).
Proof.
  induction 1 as [|i s t ss H F IH]; intro Hne; [congruence|]. clear Hne.
  pose proof (inrange_length _ _ F) as L.
  cbn [mi_incr flat prodl].
  destruct ss as [|s2 ss].
  - destruct t; [|discriminate]. cbn [length Nat.eqb negb]. rewrite andb_false_r. simpl. split.
    + intro K. split; [constructor; [lia|constructor]|lia].
    + intro K. unfold mi_end. simpl. f_equal. lia.
  - destruct t as [|i2 t]; [discriminate|]. cbn [length Nat.eqb negb]. rewrite andb_true_r.
    specialize (IH ltac:(congruence)). destruct IH as [IH1 IH2].
    pose proof (flat_bound _ _ F) as B.
    destruct (Nat.leb_spec s (i + 1)) as [K|K].
    + assert (i = s - 1) by lia. split.
      * intro Q. assert (flat (i2 :: t) (s2 :: ss) + 1 < prodl (s2 :: ss)).
        { destruct (Nat.eq_dec (flat (i2 :: t) (s2 :: ss) + 1) (prodl (s2 :: ss))) as [E|E]; [|lia].
          rewrite <- E in Q. nia. }
        destruct (IH1 H1) as [R E]. split; [constructor; auto; lia|].
        cbn [flat]. cbn [flat] in E. rewrite E. nia.
      * intro Q. assert (flat (i2 :: t) (s2 :: ss) + 1 = prodl (s2 :: ss)).
        { destruct (lt_dec (flat (i2 :: t) (s2 :: ss) + 1) (prodl (s2 :: ss))) as [E|E]; [|lia].
          assert (s * (flat (i2 :: t) (s2 :: ss) + 2) <= s * prodl (s2 :: ss)) by (apply Nat.mul_le_mono_l; lia).
          nia. }
        rewrite (IH2 H1). unfold mi_end. cbn [length Nat.sub repeat app last].
        rewrite Nat.sub_0_r. reflexivity.
    + split.
      * intro Q. split; [constructor; auto; lia|]. cbn [flat]. lia.
      * intro Q. exfalso.
        assert (s * (flat (i2 :: t) (s2 :: ss) + 1) <= s * prodl (s2 :: ss)) by (apply Nat.mul_le_mono_l; lia).
        nia.
Qed.

Lemma prodl_pos shape : Forall (fun s => 0 < s) shape -> 0 < prodl shape.
Proof. induction 1; simpl; auto. nia. Qed.

Lemma prodl_snoc l x : prodl (l ++ [x]) = prodl l * x.
Proof. induction l; simpl; [lia|]. rewrite IHl. lia. Qed.

Lemma last_not_range idx shape : inrange idx shape -> shape <> [] -> last idx 0 < last shape 0.
Proof.
  induction 1 as [|i s t ss H F IH]; intro Hne; [congruence|].
  destruct F; [simpl; auto|]. apply IH. congruence.
Qed.
Lemma mi_end_last shape : last (mi_end shape) 0 = last shape 0.
Proof. apply last_last. Qed.

Lemma inrange_not_end idx shape : inrange idx shape -> shape <> [] -> idx <> mi_end shape.
Proof.
  intros R Hne E. pose proof (last_not_range _ _ R Hne). rewrite E, mi_end_last in H. lia.
Qed.

Lemma mi_loop_spec shape : shape <> [] -> forall fuel it, inrange it shape ->
  prodl shape - flat it shape <= fuel ->
  exists l, mi_loop fuel it (mi_end shape) shape = Some l /\
    Forall (fun i => inrange i shape) l /\
    map (fun i => flat i shape) l = seq (flat it shape) (prodl shape - flat it shape).
Proof.
  intros Hne. induction fuel as [|f IH]; intros it R Hf.
  - pose proof (flat_bound _ _ R). lia.
  - pose proof (flat_bound _ _ R) as B. cbn [mi_loop].
    destruct (list_eq_dec Nat.eq_dec it (mi_end shape)) as [E|_];
      [exfalso; eapply inrange_not_end; eauto|].
    destruct (mi_incr_spec it shape R Hne) as [H1 H2].
    destruct (Nat.eq_dec (flat it shape + 1) (prodl shape)) as [E|E].
    + rewrite (H2 E).
      assert (Z : mi_loop f (mi_end shape) (mi_end shape) shape = Some []).
      { destruct f; cbn [mi_loop]; destruct (list_eq_dec _ _ _); congruence. }
      rewrite Z. cbn [bind]. exists [it]. split; auto. split; [constructor; auto|].
      simpl. replace (prodl shape - flat it shape) with 1 by lia. reflexivity.
    + destruct (H1 ltac:(lia)) as [R' F'].
      destruct (IH _ R' ltac:(lia)) as (l & El & Fl & Ml). rewrite El. cbn [bind].
      exists (it :: l). split; auto. split; [constructor; auto|].
      cbn [map]. rewrite Ml, F'.
      replace (prodl shape - flat it shape) with (S (prodl shape - (flat it shape + 1))) by lia.
      cbn [seq]. f_equal. f_equal. lia.
Qed.

Lemma inrange_zero shape : Forall (fun s => 0 < s) shape -> inrange (mi_begin shape) shape.
Proof. induction 1; constructor; auto. Qed.
Lemma flat_zero shape : flat (mi_begin shape) shape = 0.
Proof. induction shape; simpl; auto. fold (mi_begin shape). rewrite IHshape. lia. Qed.

Lemma mi_loop_full shape : shape <> [] -> Forall (fun s => 0 < s) (removelast shape) ->
  exists l, mi_loop (prodl shape) (mi_begin shape) (mi_end shape) shape = Some l /\
    (forall i, In i l <-> inrange i shape) /\ NoDup l /\
    map (fun i => flat i shape) l = seq 0 (prodl shape).
Proof.
  intros Hne P.
  destruct (Nat.eq_dec (last shape 0) 0) as [Z|Z].
  - assert (Pz : prodl shape = 0).
    { rewrite (app_removelast_last 0 Hne), prodl_snoc, Z. lia. }
    rewrite Pz. exists []. assert (E : mi_begin shape = mi_end shape).
    { unfold mi_begin, mi_end. rewrite Z.
      assert (length shape = S (length shape - 1)) by (destruct shape; [congruence|simpl; lia]).
      rewrite H at 1. generalize (length shape - 1). induction n; simpl; auto. f_equal. auto. }
    rewrite E. split. { cbn [mi_loop]. destruct (list_eq_dec _ _ _); congruence. }
    split; [|split; [constructor|reflexivity]].
    intro i. split; [intros []|]. intro R. apply inrange_pos in R.
    apply prodl_pos in R. lia.
  - assert (P' : Forall (fun s => 0 < s) shape).
    { rewrite (app_removelast_last 0 Hne). apply Forall_app. split; auto. constructor; auto. lia. }
    pose proof (inrange_zero shape P') as R0.
    destruct (mi_loop_spec shape Hne (prodl shape) (mi_begin shape) R0 ltac:(lia)) as (l & E & F & M).
    rewrite flat_zero, Nat.sub_0_r in M. exists l. split; auto.
    rewrite Forall_forall in F. split; [|split; auto].
    + intro i. split; [apply F|]. intro R.
      assert (In (flat i shape) (map (fun i => flat i shape) l)).
      { rewrite M. apply in_seq. pose proof (flat_bound _ _ R). lia. }
      apply in_map_iff in H. destruct H as (j & Ej & Hj).
      apply flat_inj in Ej; auto. subst; auto.
    + apply (NoDup_map_inv (fun i => flat i shape)). rewrite M. apply seq_NoDup.
Qed.

Lemma permute_spec {U} (index : list U) : forall perm, (forall p, In p perm -> p < length index) ->
  exists r, permute perm index = Some r /\ length r = length perm /\
    forall d p, nth_error perm d = Some p -> nth_error r d = nth_error index p.
Proof.
  induction perm as [|p ps IH]; intro H.
  - exists []. simpl. repeat split; auto. intros [|d] p; discriminate.
  - destruct IH as (r & E & L & N); [intros; apply H; right; auto|].
    destruct (nth_error_lt index p) as [x Ex]; [apply H; left; auto|].
    cbn [permute]. rewrite Ex, E. cbn [bind]. exists (x :: r). split; auto. split; [simpl; lia|].
    intros [|d] q Hq; simpl in *.
    + congruence.
    + auto.
Qed.
