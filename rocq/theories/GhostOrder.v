(** Candidates, owners and the final order of the ghost elements. *)
Require Import List Arith Bool ZArith Lia Permutation Sorted.
Require Import Verif.Base Verif.CommModel Verif.CommProofs Verif.CommBlocks Verif.DistributeModel Verif.DistributeProofs
  Verif.DistributeProps Verif.SimplexModel
  Verif.SimplexProofs Verif.AlgorithmModel Verif.AlgorithmProps Verif.LocalMeshModel Verif.LocalMeshProofs Verif.LocalMeshProps
  Verif.PartitionModel Verif.PartitionProofs Verif.FacesModel Verif.FacesProofs Verif.FacesShared Verif.FacesProps
  Verif.GhostModel Verif.GhostSpec Verif.GhostProofs.
Import ListNotations.
Local Open Scope opt_scope.

(** * New elements *)
Definition cle (a b : option (nat * simplex)) : Prop := cand_leb a b = true.
Lemma lex_le_trans x y z : lex_ltb y x = false -> lex_ltb z y = false -> lex_ltb z x = false.
Proof.
  intros A B. destruct (lex_ltb z x) eqn:C; auto.
  destruct (lex_ltb y z) eqn:D.
  - assert (lex_lt y x) by (eapply lex_trans; [exact D|exact C]). unfold lex_lt in H. congruence.
  - assert (y = z) by (apply lex_total; auto). subst. congruence.
Qed.
Lemma cle_trans a b c : cle a b -> cle b c -> cle a c.
Proof.
  unfold cle, cand_leb. destruct a as [[? x]|], b as [[? y]|], c as [[? z]|]; auto; try discriminate.
  rewrite !negb_true_iff. apply lex_le_trans.
Qed.
Lemma cle_total a b : cand_leb a b = false -> cle b a.
Proof.
  unfold cle, cand_leb. destruct a as [[? x]|], b as [[? y]|]; auto; try discriminate.
  rewrite negb_false_iff, negb_true_iff. intro H. destruct (lex_ltb x y) eqn:E; auto.
  assert (lex_lt x x) by (eapply lex_trans; [exact E|exact H]). unfold lex_lt in H0. rewrite lex_irrefl in H0. discriminate.
Qed.
Lemma ins_cand_perm x l : Permutation (ins_cand x l) (x :: l).
Proof.
  induction l as [|y t IH]; cbn; auto. destruct (cand_leb x y); auto.
  rewrite IH. constructor.
Qed.
Lemma sort_cands_perm l : Permutation (sort_cands l) l.
Proof. induction l as [|x t IH]; cbn; auto. rewrite ins_cand_perm, IH. auto. Qed.
Lemma sort_cands_sorted l : StronglySorted cle (sort_cands l).
Proof.
  induction l as [|x t IH]; cbn [sort_cands fold_right]; [constructor|]. fold (sort_cands t).
  induction IH as [|y s S IHs F]; cbn [ins_cand]; [constructor; constructor|].
  destruct (cand_leb x y) eqn:E.
  - constructor; [constructor; auto|]. constructor; auto. rewrite Forall_forall in *. intros z Hz.
    eapply cle_trans; [exact E|auto].
  - constructor; auto. rewrite Forall_forall in *. intros z Hz. apply (Permutation_in _ (ins_cand_perm x s)) in Hz.
    destruct Hz as [<-|Hz]; [apply cle_total; auto|auto].
Qed.
Lemma until_invalid_spec l : StronglySorted cle l ->
  (forall x, In x (until_invalid l) <-> In (Some x) l) /\
  StronglySorted (fun a b => lex_ltb b a = false) (map snd (until_invalid l)).
Proof.
  induction 1 as [|a l S [I IS] F]; cbn; [split; [tauto|constructor]|].
  rewrite Forall_forall in F. destruct a as [x|].
  - split.
    + intro y. cbn. rewrite I. split; intros [H|H]; auto; [subst; auto|inversion H; auto].
    + cbn. constructor; auto. apply Forall_forall. intros e He. apply in_map_iff in He as (y & <- & Hy). apply I in Hy.
      specialize (F _ Hy). unfold cle, cand_leb in F. destruct x, y. cbn. apply negb_true_iff. auto.
  - split; [|constructor]. intro y. cbn. split; [tauto|]. intros [H|H]; [discriminate|]. specialize (F _ H).
    unfold cle, cand_leb in F. destruct y; discriminate.
Qed.

Lemma uniq_in {A} (eqb : A -> A -> bool) l : (forall a b, eqb a b = true <-> a = b) -> forall x, In x (uniq eqb l) <-> In x l.
Proof.
  intros HE. induction l as [|a [|b t] IH]; intro x; [tauto|tauto|].
  change (uniq eqb (a :: b :: t)) with (if eqb a b then uniq eqb (b :: t) else a :: uniq eqb (b :: t)).
  destruct (eqb a b) eqn:E.
  - rewrite IH. apply HE in E. subst. cbn [In]. tauto.
  - cbn [In]. rewrite IH. cbn [In]. tauto.
Qed.
Lemma uniq_sorted l : StronglySorted (fun a b => lex_ltb b a = false) l -> StronglySorted lex_lt (uniq simplex_eqb l).
Proof.
  induction l as [|a [|b t] IH]; intro S; [constructor|repeat constructor|].
  inversion S as [|? ? S' F]; subst. specialize (IH S').
  change (uniq simplex_eqb (a :: b :: t)) with (if simplex_eqb a b then uniq simplex_eqb (b :: t) else a :: uniq simplex_eqb (b :: t)).
  destruct (simplex_eqb a b) eqn:E; auto. constructor; auto. apply Forall_forall. intros x Hx.
  apply uniq_in in Hx; [|apply simplex_eqb_spec]. rewrite Forall_forall in F.
  inversion S' as [|? ? S2 F2]; subst. rewrite Forall_forall in F2.
  assert (AB : lex_lt a b).
  { unfold lex_lt. destruct (lex_ltb a b) eqn:L; auto. assert (a = b) by (apply lex_total; auto; apply F; left; auto).
    subst. rewrite (proj2 (simplex_eqb_spec b b) eq_refl) in E. discriminate. }
  destruct Hx as [<-|Hx]; auto. specialize (F2 x Hx). destruct (lex_ltb b x) eqn:L.
  - eapply lex_trans; [exact AB|exact L].
  - assert (b = x) by (apply lex_total; auto). subst; auto.
Qed.
Lemma uniq_map (g : simplex -> nat) l : (forall a b, In a l -> In b l -> g a = g b -> a = b) ->
  uniq Nat.eqb (map g l) = map g (uniq simplex_eqb l).
Proof.
  induction l as [|a [|b t] IH]; intro H; auto.
  change (uniq simplex_eqb (a :: b :: t)) with (if simplex_eqb a b then uniq simplex_eqb (b :: t) else a :: uniq simplex_eqb (b :: t)).
  change (map g (a :: b :: t)) with (g a :: g b :: map g t).
  change (uniq Nat.eqb (g a :: g b :: map g t)) with (if g a =? g b then uniq Nat.eqb (map g (b :: t)) else g a :: uniq Nat.eqb (map g (b :: t))).
  rewrite IH by (intros; apply H; auto; right; auto).
  destruct (Nat.eqb_spec (g a) (g b)) as [E|E].
  - assert (a = b) by (apply H; auto; [left; auto|right; left; auto]). subst.
    rewrite (proj2 (simplex_eqb_spec b b) eq_refl). auto.
  - destruct (simplex_eqb a b) eqn:E2; [apply simplex_eqb_spec in E2; subst; contradiction|]. auto.
Qed.

Lemma new_ghosts_spec cands gid :
  (forall g e, In (Some (g, e)) cands -> g = gid e) ->
  (forall g h e e', In (Some (g, e)) cands -> In (Some (h, e')) cands -> gid e = gid e' -> e = e') ->
  exists es, new_ghosts cands = Some (es, map gid es) /\ NoDup es /\
    forall e, In e es <-> In (Some (gid e, e)) cands.
Proof.
  intros HG HI. unfold new_ghosts.
  destruct (until_invalid_spec _ (sort_cands_sorted cands)) as [I S].
  set (l := until_invalid (sort_cands cands)) in *.
  assert (I' : forall x, In x l <-> In (Some x) cands).
  { intro x. rewrite I. split; apply Permutation_in; [|symmetry]; apply sort_cands_perm. }
  assert (E : map fst l = map gid (map snd l)).
  { rewrite map_map. apply map_ext_in. intros [g e] H. apply I' in H. cbn. eauto. }
  rewrite E, uniq_map.
  - rewrite map_length, Nat.eqb_refl. eexists. split; [reflexivity|]. split; [apply lex_sorted_NoDup, uniq_sorted; auto|].
    intro e. rewrite uniq_in by apply simplex_eqb_spec. rewrite in_map_iff. split.
    + intros ([g e'] & <- & H). cbn. apply I' in H. rewrite <- (HG g e') by auto. auto.
    + intro H. exists (gid e, e). split; auto. apply I'. auto.
  - intros a b Ha Hb. apply in_map_iff in Ha as ([g a'] & <- & Ha). apply in_map_iff in Hb as ([h b'] & <- & Hb).
    cbn. apply (HI g h); apply I'; auto.
Qed.

(** * Owners *)
Lemma elem_dist_spec procs elems :
  (Z.of_nat (sumn (fun q => length (elems q)) procs) < 2 ^ 64)%Z ->
  (forall p, p < procs -> nth_error (elem_dist procs elems) p = Some (Z.of_nat (sumn (fun q => length (elems q)) p))) /\
  (forall p i, p < procs -> i < length (elems p) ->
     rank_of (elem_dist procs elems) (Z.of_nat (sumn (fun q => length (elems q)) p + i)) = Some p).
Proof.
  intro HB. set (ln := fun q => length (elems q)) in *. unfold elem_dist.
  set (counts := map (fun q => Z.of_nat (length (elems q))) (seq 0 procs)) in *.
  assert (ZS : forall m, m <= procs -> fold_right Z.add 0%Z (firstn m counts) = Z.of_nat (sumn ln m)).
  { intros m Hm. unfold counts. rewrite firstn_map.
    replace (firstn m (seq 0 procs)) with (seq 0 m).
    2:{ replace procs with (m + (procs - m)) by lia. rewrite seq_app, firstn_app, seq_length, Nat.sub_diag.
        rewrite firstn_all2 by (rewrite seq_length; lia). rewrite app_nil_r. auto. }
    rewrite sumn_list. clear. induction (seq 0 m); auto. cbn [map fold_right list_sum]. unfold list_sum in *. cbn [map fold_right].
    rewrite Nat2Z.inj_add, IHl. auto. }
  assert (LC : length counts = procs) by (unfold counts; rewrite map_length, seq_length; auto).
  assert (NN : Forall (fun c => (0 <= c)%Z) counts).
  { apply Forall_forall. intros x Hx. apply in_map_iff in Hx. destruct Hx as (q & <- & _). lia. }
  assert (TOT : fold_right Z.add 0%Z counts = Z.of_nat (sumn ln procs)).
  { rewrite <- (ZS procs (le_n _)). rewrite <- LC, firstn_all. auto. }
  split.
  - intros p Hp. destruct (sorted_distribution_prefix_sums counts NN ltac:(lia)) as [_ PS].
    rewrite PS by lia. f_equal. apply ZS. lia.
  - intros p i Hp Hi.
    assert (sumn ln (S p) <= sumn ln procs) by (apply sumn_le; lia). cbn [sumn] in H. unfold ln in H at 2.
    destruct (sorted_lookup_correct counts (Z.of_nat (sumn ln p + i)) NN ltac:(lia) ltac:(lia)) as (r & E & _ & U).
    rewrite E. f_equal. symmetry. apply U. unfold owns. rewrite LC. split; [auto|].
    rewrite (ZS p) by lia. rewrite (ZS (S p)) by lia. cbn [sumn]. assert (ln p = length (elems p)) by reflexivity. lia.
Qed.

Lemma owners_of_spec dist (own : nat -> nat) gs : (forall g, In g gs -> rank_of dist (Z.of_nat g) = Some (own g)) ->
  owners_of dist gs = Some (map own gs).
Proof.
  induction gs as [|g t IH]; intro H; auto. cbn [owners_of]. rewrite H by (left; auto). cbn [bind].
  rewrite IH by (intros; apply H; right; auto). auto.
Qed.

(** * Final order *)
Lemma sort_cmp_key leb key l : (forall a b, In a l -> In b l -> leb a b = (key a <=? key b)) ->
  sort_cmp leb l = sort_by key l.
Proof.
  unfold sort_cmp, sort_by. induction l as [|a t IH]; intro H; auto. cbn [fold_right].
  rewrite IH by (intros; apply H; right; auto).
  assert (G : forall s, (forall b, In b s -> In b t) -> ins_cmp leb a s = ins_by key a s).
  { induction s as [|b s IHs]; intro Hs; auto. cbn [ins_cmp ins_by].
    rewrite (H a b); [|left; auto|right; apply Hs; left; auto].
    rewrite IHs by (intros; apply Hs; right; auto). auto. }
  apply G. intros b Hb. apply (Permutation_in _ (sort_by_perm key t)). auto.
Qed.

Lemma final_order q (own : nat -> nat) a n G :
  (forall g, In g (seq a n) -> own g = q) -> (forall g, In g G -> own g <> q) -> NoDup G ->
  (forall g h, In g G -> In h G -> g < h -> own g <= own h) ->
  exists P, sort_cmp (ghost_leb q (map own (seq a n ++ G)) (seq a n ++ G)) (seq 0 (n + length G)) = seq 0 n ++ map (fun i => n + i) P /\
    Permutation P (seq 0 (length G)) /\ StronglySorted lt (map (fun i => nth i G 0) P).
Proof.
  intros HO HG NG HM.
  set (gs := seq a n ++ G). set (T := S (list_max gs)).
  set (key := fun i => let g := nth i gs 0 in if own g =? q then g else T + g).
  assert (Lg : length gs = n + length G) by (unfold gs; rewrite app_length, seq_length; auto).
  assert (TG : forall g, In g gs -> g < T).
  { intros g Hg. unfold T. assert (g <= list_max gs); [|lia]. pose proof (proj1 (list_max_le gs (list_max gs)) (le_n _)) as F.
    rewrite Forall_forall in F. auto. }
  assert (LO : forall i, i < n -> nth i gs 0 = a + i).
  { intros i Hi. unfold gs. rewrite app_nth1 by (rewrite seq_length; auto). apply seq_nth. auto. }
  assert (HI : forall i, n <= i < n + length G -> nth i gs 0 = nth (i - n) G 0 /\ In (nth i gs 0) G).
  { intros i Hi. unfold gs. rewrite app_nth2 by (rewrite seq_length; lia). rewrite seq_length. split; auto. apply nth_In. lia. }
  assert (OWN : forall i, i < n -> own (nth i gs 0) = q).
  { intros i Hi. rewrite LO by auto. apply HO. apply in_seq. lia. }
  assert (NOT : forall i, n <= i < n + length G -> own (nth i gs 0) <> q).
  { intros i Hi. apply HG. apply HI. auto. }
  assert (KL : forall i, i < n -> key i = a + i).
  { intros i Hi. unfold key. rewrite OWN, Nat.eqb_refl by auto. apply LO. auto. }
  assert (KH : forall i, n <= i < n + length G -> key i = T + nth (i - n) G 0).
  { intros i Hi. unfold key. destruct (Nat.eqb_spec (own (nth i gs 0)) q) as [E|_]; [exfalso; revert E; apply NOT; auto|].
    f_equal. apply HI; auto. }
  rewrite (sort_cmp_key _ key).
  2:{ intros i j Hi Hj. apply in_seq in Hi. apply in_seq in Hj. unfold ghost_leb.
      assert (OM : forall i, i < n + length G -> nth i (map own gs) 0 = own (nth i gs 0)).
      { intros x Hx. rewrite (nth_indep _ 0 (own 0)) by (rewrite map_length; lia). apply map_nth. }
      rewrite !OM by lia. unfold key. cbv zeta.
      assert (Ti : nth i gs 0 < T) by (apply TG, nth_In; lia). assert (Tj : nth j gs 0 < T) by (apply TG, nth_In; lia).
      destruct (Nat.eqb_spec (own (nth i gs 0)) q) as [Ei|Ei], (Nat.eqb_spec (own (nth j gs 0)) q) as [Ej|Ej].
      - rewrite Nat.ltb_irrefl, Nat.eqb_refl. auto.
      - change (0 <? 1 + own (nth j gs 0)) with true. cbn [orb]. symmetry. apply Nat.leb_le. lia.
      - change (1 + own (nth i gs 0) <? 0) with false. change (1 + own (nth i gs 0) =? 0) with false. cbn [orb andb]. symmetry. apply Nat.leb_gt. lia.
      - assert (Hi' : n <= i < n + length G) by (split; [|lia]; destruct (le_lt_dec n i); auto; exfalso; apply Ei, OWN; auto).
        assert (Hj' : n <= j < n + length G) by (split; [|lia]; destruct (le_lt_dec n j); auto; exfalso; apply Ej, OWN; auto).
        pose proof (proj2 (HI i Hi')) as Gi. pose proof (proj2 (HI j Hj')) as Gj.
        set (g := nth i gs 0) in *. set (h := nth j gs 0) in *.
        destruct (lt_eq_lt_dec g h) as [[L|L]|L].
        + pose proof (HM g h Gi Gj L). rewrite (proj2 (Nat.leb_le (T + g) (T + h))) by lia.
          rewrite (proj2 (Nat.leb_le g h)) by lia. rewrite andb_true_r. apply orb_true_iff.
          destruct (Nat.eq_dec (own g) (own h)); [right; apply Nat.eqb_eq; lia|left; apply Nat.ltb_lt; lia].
        + rewrite L, !Nat.leb_refl, Nat.eqb_refl. apply orb_true_r.
        + pose proof (HM h g Gj Gi L). rewrite (proj2 (Nat.leb_gt (T + g) (T + h))) by lia.
          rewrite (proj2 (Nat.leb_gt g h)) by lia. rewrite andb_false_r, orb_false_r. apply Nat.ltb_ge. lia. }
  set (P := sort_by (fun i => nth i G 0) (seq 0 (length G))).
  assert (PP : Permutation P (seq 0 (length G))) by apply sort_by_perm.
  assert (IP : forall i, In i P -> i < length G).
  { intros i Hi. apply (Permutation_in _ PP) in Hi. apply in_seq in Hi. lia. }
  exists P. split; [|split; [exact PP|]].
  - apply (sorted_key_unique key).
    + eapply perm_trans; [apply sort_by_perm|]. rewrite seq_app. apply Permutation_app_head. symmetry.
      eapply perm_trans; [apply Permutation_map; exact PP|].
      assert (Q : forall b m, map (fun i => n + i) (seq b m) = seq (n + b) m).
      { intros b m. revert b. induction m as [|m IH]; intro b; cbn; auto. f_equal. rewrite IH. f_equal. lia. }
      rewrite Q. replace (n + 0) with (0 + n) by lia. auto.
    + intros i j Hi Hj. apply (Permutation_in _ (sort_by_perm key _)), in_seq in Hi.
      apply (Permutation_in _ (sort_by_perm key _)), in_seq in Hj.
      destruct (le_lt_dec n i), (le_lt_dec n j).
      * rewrite !KH by lia. intro E. assert (i - n = j - n); [|lia].
        apply (proj1 (NoDup_nth G 0) NG); lia.
      * rewrite (KH i), (KL j) by lia. intro E. assert (nth j gs 0 < T) by (apply TG, nth_In; lia). rewrite LO in H by auto. lia.
      * rewrite (KL i), (KH j) by lia. intro E. assert (nth i gs 0 < T) by (apply TG, nth_In; lia). rewrite LO in H by auto. lia.
      * rewrite !KL by lia. lia.
    + apply sort_by_sorted.
    + apply strongly_app.
      * assert (SQ : forall b m, StronglySorted lt (seq b m)).
        { intros b m. revert b. induction m as [|m IH]; intro b; cbn [seq]; constructor; auto.
          apply Forall_forall. intros x Hx. apply in_seq in Hx. lia. }
        eapply strongly_impl; [|apply SQ]. cbv beta. intros i j Hi Hj Hl. apply in_seq in Hi. apply in_seq in Hj.
        rewrite !KL by lia. lia.
      * assert (SM : forall l, (forall i, In i l -> i < length G) -> StronglySorted (fun a b => nth a G 0 <= nth b G 0) l ->
            StronglySorted (fun a b => key a <= key b) (map (fun i => n + i) l)).
        { intros l Hl Sl. induction Sl as [|x l Sl IH F]; cbn [map]; constructor.
          - apply IH. intros; apply Hl; right; auto.
          - rewrite Forall_forall in *. intros z Hz. apply in_map_iff in Hz as (y & <- & Hy).
            assert (x < length G) by (apply Hl; left; auto). assert (y < length G) by (apply Hl; right; auto).
            rewrite !KH by lia. replace (n + x - n) with x by lia. replace (n + y - n) with y by lia.
            specialize (F y Hy). lia. }
        apply SM; auto. apply sort_by_sorted.
      * intros i j Hi Hj. apply in_seq in Hi. apply in_map_iff in Hj as (y & <- & Hy). apply IP in Hy.
        rewrite (KL i), (KH (n + y)) by lia. assert (nth i gs 0 < T) by (apply TG, nth_In; lia). rewrite LO in H by lia. lia.
  - assert (SL : forall l, (forall i, In i l -> i < length G) -> NoDup l -> StronglySorted (fun a b => nth a G 0 <= nth b G 0) l ->
        StronglySorted lt (map (fun i => nth i G 0) l)).
    { intros l Hl Nl Sl. induction Sl as [|x l Sl IH F]; cbn [map]; constructor.
      - apply IH; [intros; apply Hl; right; auto|inversion Nl; auto].
      - rewrite Forall_forall in *. intros z Hz. apply in_map_iff in Hz as (y & <- & Hy).
        assert (x < length G) by (apply Hl; left; auto). assert (y < length G) by (apply Hl; right; auto).
        specialize (F y Hy). assert (nth x G 0 <> nth y G 0); [|lia].
        intro E. assert (x = y) by (apply (proj1 (NoDup_nth G 0) NG); auto). subst. inversion Nl; auto. }
    apply SL; auto; [|apply sort_by_sorted]. apply (Permutation_NoDup (Permutation_sym PP)), seq_NoDup.
Qed.

(** * setSharedRanksAndElementData *)
Lemma rank_perm_ok procs q : q < procs -> Permutation (rank_perm procs q) (seq 0 procs).
Proof.
  intro H. unfold rank_perm. rewrite (seq_split procs q H).
  replace (q + 1) with (S q) by lia. replace (procs - 1 - q) with (procs - S q) by lia. apply Permutation_middle.
Qed.
Lemma bkt_map_length {A} (rk : A -> nat) l p : length (filter (fun r => r =? p) (map rk l)) = length (bkt rk l p).
Proof. unfold bkt. induction l as [|a l IH]; auto. cbn [map filter]. destruct (rk a =? p); cbn [length]; auto. Qed.

Lemma set_shared_spec {A} (dA : A) procs dist elems0 data0 tags0 (lf : nat -> local_faces A) (gid own : simplex -> nat) o :
  0 < procs -> (forall i, Permutation (o i) (seq 0 procs)) ->
  (forall q, q < procs -> lf_l2cg (lf q) = map gid (lf_faces (lf q))) ->
  (forall q e, q < procs -> In e (lf_faces (lf q)) -> rank_of dist (Z.of_nat (gid e)) = Some (own e) /\ own e < procs) ->
  (forall q, q < procs -> NoDup (lf_faces (lf q))) ->
  (forall q, q < procs -> lf_faces (lf q) = layout (rank_perm procs q) (bkt own (lf_faces (lf q)))) ->
  (forall d0 q e, data0 = Some d0 \/ tags0 = Some d0 -> q < procs -> In e (lf_faces (lf q)) ->
     exists j x, map_at (makeG2LMap (elems0 (own e))) e = Some j /\ nth_error (d0 (own e)) j = Some x) ->
  exists res, setSharedRanksAndElementData dA procs dist elems0 data0 tags0 lf o = Some res /\
    forall q, q < procs ->
      lf_faces (res q) = lf_faces (lf q) /\ lf_owner (res q) = lf_owner (lf q) /\ lf_l2cg (res q) = lf_l2cg (lf q) /\
      lf_local_size (res q) = lf_local_size (lf q) /\ lf_g2l (res q) = lf_g2l (lf q) /\
      (forall i e, nth_error (lf_faces (lf q)) i = Some e ->
         shared_ranks (lf_ranks (res q)) (lf_displs (res q)) i
         = filter (fun s => negb (s =? q)) (filter (fun p => mem e (lf_faces (lf p))) (seq 0 procs))) /\
      lf_data (res q) = match data0 with None => None | Some d0 =>
         Some (map (fun e => get dA (do i <- map_at (makeG2LMap (elems0 (own e))) e; nth_error (d0 (own e)) i)) (lf_faces (lf q))) end /\
      lf_tags (res q) = match tags0 with None => None | Some d0 =>
         Some (map (fun e => get dA (do i <- map_at (makeG2LMap (elems0 (own e))) e; nth_error (d0 (own e)) i)) (lf_faces (lf q))) end /\
      (length (lf_owner (lf q)) = length (lf_faces (lf q)) -> faces_consistent (res q)).
Proof.
  intros H0 HO HG HR HN HL HD. unfold setSharedRanksAndElementData.
  set (fs := fun q => lf_faces (lf q)). set (F := fun q r => bkt own (fs q) r).
  assert (E1' : forall q, q < procs -> owners_of dist (lf_l2cg (lf q)) = Some (map own (fs q))).
  { intros q Hq. rewrite HG by auto. fold (fs q).
    assert (G : forall l, (forall e, In e l -> In e (fs q)) -> owners_of dist (map gid l) = Some (map own l)).
    { induction l as [|e l IH]; intro Hl; auto. cbn [map owners_of].
      rewrite (proj1 (HR q e Hq (Hl e (or_introl eq_refl)))). cbn [bind]. rewrite IH by (intros; apply Hl; right; auto). auto. }
    apply G. auto. }
  destruct (collective_ok [] procs (fun q => owners_of dist (lf_l2cg (lf q))) _ E1') as (ow & E1 & H1). cbv beta in H1.
  rewrite E1. cbn [bind].
  assert (R0 : repeat 0 procs = map (fun _ => 0) (seq 0 procs)).
  { clear. generalize 0 at 3. induction procs as [|n IH]; intro a; cbn; auto. f_equal. apply IH. }
  assert (E2' : forall q, q < procs -> count_ranks (fun r => r) (ow q) (repeat 0 procs) = Some (map (fun r => length (F q r)) (seq 0 procs))).
  { intros q Hq. rewrite R0, H1 by auto. rewrite count_ranks_spec.
    - f_equal. apply map_ext. intro p. cbn [Nat.add]. apply bkt_map_length.
    - intros a Ha. apply in_map_iff in Ha as (e & <- & He). apply (HR q e Hq He). }
  destruct (collective_ok [] procs _ _ E2') as (counts & E2 & H2). cbv beta in H2. rewrite E2. cbn [bind].
  destruct (mk_pat_blocks procs (fun p r => length (F p r)) H0) as (pb & Ep & PB).
  destruct (pat_blocks_setperm procs _ _ (rank_perm procs) pb H0 PB) as (pt & Et & PT).
  { intros q Hq. apply rank_perm_ok; auto. }
  assert (E3' : forall q, q < procs -> (do x <- mk_alltoallv procs counts q; setRankPermutation x (rank_perm procs q)) = Some (pt q)).
  { intros q Hq. rewrite <- Et by auto.
    replace (mk_alltoallv procs counts q) with (Some (pb q)); auto. rewrite <- Ep by auto. apply mk_all_ext; auto.
    intros p Hp. symmetry. auto. }
  destruct (collective_ok no_pattern procs _ _ E3') as (pat & E3 & H3). rewrite E3. cbn [bind].
  assert (PB0 : pat_blocks procs (fun p r => length (F p r)) (rank_perm procs) pat).
  { eapply pat_blocks_ext; [|exact PT]. intros; symmetry; auto. }
  assert (X1 : forall q, q < procs -> exchange [] pat (fun q => lf_faces (lf q)) (o 0) q = Some (layout (rank_perm procs q) (fun p => F p q))).
  { intros q Hq. apply (exchange_blocks [] procs _ _ pat F _ (o 0) q H0 PB0); auto. }
  destruct (collective_ok [] procs (exchange [] pat (fun q => lf_faces (lf q)) (o 0)) _ X1) as (req & E4 & H4). cbv beta in H4.
  change (fun q : nat => lf_faces (lf q)) with fs in E4. rewrite E4. cbn [bind]. cbv zeta.
  set (pat' := fun q => swap_pattern (pat q)).
  pose proof (pat_blocks_swap _ _ _ _ PB0) as PS. fold pat' in PS. cbv beta in PS.
  destruct (getSharedRanks_spec procs F (rank_perm procs) pat req (Some (rank_perm procs)) (o 1) (o 2) H0 PB0) as (sh & E5 & H5); auto.
  { intros p r Hp Hr. unfold F, bkt. apply NoDup_filter. apply HN. auto. }
  fold pat' in E5. rewrite E5. cbn [bind]. cbv zeta in H5.
  set (look := fun d0 e => get dA (do i <- map_at (makeG2LMap (elems0 (own e))) e; nth_error (d0 (own e)) i)).
  assert (DT : forall d0 oo, (d0 = data0 \/ d0 = tags0) -> Permutation oo (seq 0 procs) -> exists dat : nat -> option (list A),
     attach_data dA procs elems0 d0 pat' req oo = Some dat /\
     forall q, q < procs -> dat q = match d0 with None => None | Some d0 => Some (map (look d0) (fs q)) end).
  { intros [d0|] oo Hd0 Hoo; [|eexists; split; [reflexivity|auto]]. unfold attach_data.
    assert (D1 : forall q, q < procs -> lookup_data (fun f => do i <- map_at (makeG2LMap (elems0 q)) f; nth_error (d0 q) i) (req q)
        = Some (map (fun f => get dA (do i <- map_at (makeG2LMap (elems0 q)) f; nth_error (d0 q) i)) (req q))).
    { intros q Hq. apply lookup_data_spec. intros f Hf. rewrite H4 in Hf by auto.
      unfold layout in Hf. apply in_concat in Hf as (b & Hb & Hf). apply in_map_iff in Hb as (p & <- & Hp).
      apply (Permutation_in _ (rank_perm_ok procs q Hq)) in Hp. apply in_seq in Hp.
      apply filter_In in Hf as [Hf Eo]. apply Nat.eqb_eq in Eo.
      destruct (HD d0 p f) as (j & x & Ej & Ex); auto; [destruct Hd0; auto|lia|]. rewrite Eo in *. exists x. rewrite Ej. cbn [bind]. auto. }
    destruct (collective_ok [] procs _ _ D1) as (d & Ed & Hd). rewrite Ed. cbn [bind]. cbv beta in Hd.
    assert (D2 : forall q, q < procs -> exchange dA pat' d oo q = Some (layout (rank_perm procs q) (fun r => map (look d0) (F q r)))).
    { intros q Hq. apply (exchange_blocks dA procs _ _ pat' (fun r p => map (look d0) (F p r)) d oo q H0 PS); auto.
      - intros. apply map_length.
      - intros r Hr. rewrite Hd, H4, layout_map by auto. apply (layout_ext _ procs); [apply rank_perm_ok; auto|].
        intros p Hp. apply map_ext_in. intros e He. apply filter_In in He as [_ Eo]. apply Nat.eqb_eq in Eo. unfold look. rewrite Eo. auto. }
    destruct (collective_ok [] procs (exchange dA pat' d oo) _ D2) as (r & Er & Hr). cbv beta in Hr. rewrite Er. cbn [bind].
    eexists. split; [reflexivity|]. intros q Hq. cbv beta. rewrite Hr by auto. f_equal. rewrite <- layout_map.
    f_equal. symmetry. apply HL. auto. }
  destruct (DT data0 (o 3) (or_introl eq_refl) (HO 3)) as (dat & E6 & H6). rewrite E6. cbn [bind].
  destruct (DT tags0 (o 4) (or_intror eq_refl) (HO 4)) as (tag & E7 & H7). rewrite E7. cbn [bind]. clear E6 E7.
  eexists. split; [reflexivity|]. intros q Hq. cbn [lf_faces lf_owner lf_l2cg lf_local_size lf_g2l lf_ranks lf_displs lf_data lf_tags].
  set (bs := layout (rank_perm procs q) (fun r => map (fun f => filter (fun s => negb (s =? q)) (sharers procs F r f)) (F q r))).
  assert (EB : bs = map (fun e => filter (fun s => negb (s =? q)) (filter (fun p => mem e (lf_faces (lf p))) (seq 0 procs))) (fs q)).
  { unfold bs. replace (fs q) with (layout (rank_perm procs q) (F q)) by (symmetry; apply HL; auto). rewrite layout_map.
    apply (layout_ext _ procs); [apply rank_perm_ok; auto|]. intros r Hr. apply map_ext_in. intros e He.
    apply filter_In in He as [_ Eo]. unfold sharers. f_equal. apply filter_ext. intro p. unfold F, bkt, fs.
    destruct (mem e (lf_faces (lf p))) eqn:Em.
    - apply mem_spec. apply mem_spec in Em. apply filter_In. auto.
    - apply mem_false. apply mem_false in Em. intro H. apply filter_In in H as [H _]. auto. }
  rewrite (H5 q Hq). fold bs. cbn [fst snd].
  split; [auto|]. split; [auto|]. split; [auto|]. split; [auto|]. split; [auto|].
  split; [|split; [|split]].
  - intros i e Ei. assert (Li : i < length (fs q)) by (apply nth_error_Some; unfold fs; congruence).
    rewrite (blocks_shared bs); [|split; auto|rewrite EB, map_length; auto].
    rewrite EB. apply nth_of_nth_error. rewrite nth_error_map. unfold fs. rewrite Ei. auto.
  - rewrite H6 by auto. destruct data0; auto.
  - rewrite H7 by auto. destruct tags0; auto.
  - intro Lo. unfold faces_consistent. cbn [lf_faces lf_owner lf_l2cg lf_local_size lf_g2l lf_ranks lf_displs lf_data lf_tags]. split; [apply HN; auto|]. split; [auto|]. split; [rewrite HG, map_length; auto|].
    split.
    + intros d Ed. rewrite H6 in Ed by auto. destruct data0; inversion Ed. apply map_length.
    + exists (map (@length nat) bs). split; [rewrite map_length, EB, map_length; auto|]. split; auto.
      clear. induction bs; auto. cbn [concat map]. rewrite app_length. unfold list_sum in *. cbn [fold_right]. lia.
Qed.
