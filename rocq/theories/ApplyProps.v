(** Property theorems: overlapped operator application (C25). *)
Require Import List Arith Lia Bool Sorted Permutation.
Require Import Verif.Base Verif.LocalMeshModel Verif.LocalMeshProps Verif.TopoModel Verif.TopoSpec Verif.TopoProofs
  Verif.TopoProps Verif.TopoCheck Verif.CommModel Verif.ScatterModel Verif.ScatterProofs Verif.ScatterProps Verif.ApplyModel.
Import ListNotations.
Local Open Scope opt_scope.

(** * Specification *)
(** Rank q itself neither changes x nor starts another exchange. *)
Definition quiet {A} (q : nat) (evs : list (event A)) : Prop :=
  forall ev, In ev evs -> match ev with EWrite p _ => p <> q | EBegin p _ => p <> q | _ => True end.
(** The local meshes belong together: items as the ghost exchange needs them, and an element next to
    a ghost is known to the ghost's owner. *)
Record dist_mesh (k procs : nat) (m : nat -> topo_mesh) : Prop := {
  dm_mesh : forall p, p < procs -> topo_ok k (m p);
  dm_items : shared_items procs (fun p => tm_l2cg (m p)) (fun p => tm_owner (m p)) (fun p => tm_shared (m p))
    (fun p => tm_num_local (m p));
  dm_mutual : forall p e e' r g, p < procs -> e < tm_num_local (m p) -> adjacent (m p) e e' ->
    nth_error (tm_owner (m p)) e' = Some r -> nth_error (tm_l2cg (m p)) e = Some g -> In g (tm_l2cg (m r)) }.
(** The neighbour across facet d of element e, by global number; the element itself at the boundary. *)
Definition behind (k : nat) (m : topo_mesh) (e d g : nat) : Prop :=
  exists i e', facet_at k m e d i /\ (forall e2, contains m e2 i <-> e2 = e \/ e2 = e') /\
    nth_error (tm_l2cg m) e' = Some g.

(** * Lemmas *)
Lemma run_app {A} pl (a b : list (event A)) : forall s, run pl (a ++ b) s = do s' <- run pl a s; run pl b s'.
Proof.
  induction a as [|e t IH]; intro s; cbn [app run]; auto. destruct (step pl e s); cbn [bind]; auto.
Qed.
Lemma begins_app {A} pl p (a b : list (event A)) : forall s s', run pl a s = Some s' ->
  begins pl p (a ++ b) s = begins pl p a s ++ begins pl p b s'.
Proof.
  induction a as [|e t IH]; intros s s' R; cbn [app run begins] in *; [congruence|].
  destruct (step pl e s) as [s1|] eqn:E; [|discriminate]. cbn [bind] in R. rewrite (IH _ _ R), app_assoc. auto.
Qed.
Lemma quiet_app {A} q (a b : list (event A)) : quiet q (a ++ b) <-> quiet q a /\ quiet q b.
Proof.
  unfold quiet. split.
  - intro H. split; intros ev Hi; apply H; apply in_or_app; auto.
  - intros [H1 H2] ev Hi. apply in_app_or in Hi as [Hi|Hi]; [apply (H1 ev Hi)|apply (H2 ev Hi)].
Qed.
Lemma quiet_step {A} pl q (e : event A) s s' : quiet q [e] -> step pl e s = Some s' ->
  p_x (procs_of s' q) = p_x (procs_of s q) /\ (idle (procs_of s q) = true -> idle (procs_of s' q) = true) /\
  begins pl q [e] s = [].
Proof.
  intros Q H. specialize (Q e (or_introl eq_refl)). cbn [begins]. rewrite H.
  destruct e as [p x|p y|p r|p r]; cbn [step] in H.
  - destruct (_ =? _); [|discriminate]. injection H as <-. cbn. unfold set_fun. destruct (Nat.eqb_spec q p); [congruence|auto].
  - destruct (_ && _); [|discriminate]. destruct (pack _ _); [|discriminate]. cbn [bind] in H. injection H as <-. cbn.
    unfold set_fun. destruct (Nat.eqb_spec q p), (Nat.eqb_spec p q); try congruence. auto.
  - destruct (find_block r (p_send (procs_of s p))) as [b|] eqn:F; [|discriminate]. cbn [bind] in H.
    destruct (read_block _ _ _); [|discriminate]. cbn [bind] in H. injection H as <-. cbn. unfold set_fun.
    destruct (Nat.eqb_spec q p) as [Heq|]; auto. subst q. cbn. split; auto. split; auto.
    intro Id. apply idle_spec in Id as [_ Es]. rewrite Es in F. discriminate.
  - destruct (find_block p (p_recv (procs_of s r))) as [b|] eqn:F; [|discriminate]. cbn [bind] in H.
    destruct (chan s p r); [discriminate|]. destruct (_ =? _); [|discriminate]. destruct (write_block _ _ _); [|discriminate].
    cbn [bind] in H. injection H as <-. cbn. unfold set_fun.
    destruct (Nat.eqb_spec q r) as [Heq|]; auto. subst q. cbn. split; auto. split; auto.
    intro Id. apply idle_spec in Id as [Er _]. rewrite Er in F. discriminate.
Qed.
Lemma quiet_run {A} pl q (evs : list (event A)) : forall s s', quiet q evs -> run pl evs s = Some s' ->
  p_x (procs_of s' q) = p_x (procs_of s q) /\ (idle (procs_of s q) = true -> idle (procs_of s' q) = true) /\
  begins pl q evs s = [].
Proof.
  induction evs as [|e t IH]; intros s s' Q R; cbn [run] in R.
  - injection R as <-. auto.
  - destruct (step pl e s) as [s1|] eqn:E; [|discriminate]. cbn [bind] in R.
    destruct (quiet_step pl q e s s1) as (X1 & I1 & B1); auto.
    { intros ev [<-|[]]. apply (Q e). left; auto. }
    destruct (IH s1 s') as (X2 & I2 & B2); auto. { intros ev Hi. apply Q. right; auto. }
    split; [congruence|]. split; auto. cbn [begins] in *. rewrite E in *. rewrite B2. rewrite app_nil_r in *. auto.
Qed.

Section Phase.
Context {A : Type} (k : nat) (op : local_op A) (t : list side_info) (idx : list (option nat)) (pl : nat -> plan) (q : nat).
(** If the events are possible and every element's blocks are readable with the values [vx e],
    [vn e], a phase is defined and computes exactly its elements. *)
Lemma apply_phase_spec (vx : nat -> A) (vn : nat -> list A) (sl : nat -> list side_info) w : forall s y s',
  run pl (concat (map fst w)) s = Some s' ->
  NoDup (map snd w) -> (forall e, In e (map snd w) -> e < length y) ->
  (forall w1 evs e w2 s1, w = w1 ++ (evs, e) :: w2 -> run pl (concat (map fst w1) ++ evs) s = Some s1 ->
     view_get (p_x (procs_of s1 q)) idx (p_y (procs_of s1 q)) e = Some (vx e) /\
     map_opt (fun d => nth_error t (e * (k + 1) + d)) (seq 0 (k + 1)) = Some (sl e) /\
     map_opt (fun x => view_get (p_x (procs_of s1 q)) idx (p_y (procs_of s1 q)) (si_lid x)) (sl e) = Some (vn e)) ->
  exists y', apply_phase k op t idx pl q w s y = Some (s', y') /\ length y' = length y /\
    (forall e y0, In e (map snd w) -> nth_error y e = Some y0 -> nth_error y' e = Some (op e (sl e) (vx e) (vn e) y0)) /\
    (forall e, ~ In e (map snd w) -> nth_error y' e = nth_error y e).
Proof.
  induction w as [|[evs e] w IH]; intros s y s' R N B H; cbn [map fst snd concat apply_phase] in *.
  - injection R as <-. exists y. split; auto. split; auto. split; [intros ? ? []|auto].
  - rewrite run_app in R. destruct (run pl evs s) as [s1|] eqn:R1; [|discriminate]. cbn [bind] in R |- *.
    destruct (H [] evs e w s1 eq_refl R1) as (V1 & V2 & V3).
    destruct (nth_error_lt y e) as [y0 E0]; [apply B; left; auto|].
    unfold apply_one. rewrite E0. cbn [bind]. rewrite V1. cbn [bind]. rewrite V2. cbn [bind]. rewrite V3. cbn [bind].
    destruct (upd_ok y e (op e (sl e) (vx e) (vn e) y0)) as [y1 Ey]; [apply B; left; auto|]. rewrite Ey. cbn [bind].
    destruct (upd_spec _ _ _ _ Ey) as (L1 & _ & N1). inversion N; subst.
    destruct (IH s1 y1 s') as (y' & E' & L' & V' & O'); auto.
    { intros e' He'. rewrite L1. apply B. right; auto. }
    { intros w1 evs' e' w2 s2 -> R2. apply (H ((evs, e) :: w1) evs' e' w2 s2); auto.
      cbn [map fst concat]. rewrite <- app_assoc, run_app, R1. auto. }
    exists y'. split; auto. split; [lia|]. split.
    + intros e' z [<-|Hin] Ez.
      * rewrite O' by auto. rewrite N1, Nat.eqb_refl. congruence.
      * apply V'; auto. rewrite N1. destruct (Nat.eqb_spec e' e) as [->|]; [contradiction|auto].
    + intros e' Hn. cbn [In] in Hn. rewrite O' by tauto. rewrite N1. destruct (Nat.eqb_spec e' e) as [->|]; [exfalso; apply Hn; auto|auto].
Qed.
End Phase.

Lemma nth_map_opt {A B} (f : A -> option B) l r : map_opt f l = Some r -> forall i b, nth_error r i = Some b ->
  exists a, nth_error l i = Some a /\ f a = Some b.
Proof.
  intros E i b Eb. destruct (map_opt_some f l r E) as [L H].
  destruct (nth_error_lt l i) as [a Ea]; [rewrite <- L; apply nth_error_Some; congruence|].
  destruct (H i a Ea) as (b' & E1 & E2). exists a. split; congruence.
Qed.
Lemma map_opt_ext {A B} (f : A -> option B) l r : length r = length l ->
  (forall i a, nth_error l i = Some a -> f a = nth_error r i) -> map_opt f l = Some r.
Proof.
  revert r; induction l as [|a l IH]; intros [|b r] L H; cbn in L; try discriminate; auto.
  cbn. rewrite (H 0 a eq_refl). cbn. rewrite (IH r); auto. intros i x E. apply (H (S i)). auto.
Qed.

(** C25: however the messages of the exchange arrive between the steps of the loop over elements,
    the overlapped application is defined (it never needs a block it does not have), processes every
    local element exactly once, and each result block is the local operator applied to the element's
    block and its neighbours' blocks of the one global vector X that the ranks passed to this (the
    n-th) application. *)
Theorem apply_overlap_correct : forall {A} k procs m sm rm (x0 : nat -> list A) es0 s0 q fi wr t idx ni op g w1 evs w2 y (X : nat -> A) s1 s2 s3 s4,
  dist_mesh k procs m -> q < procs ->
  plans_of procs (fun p => tm_owner (m p)) (fun p => tm_shared (m p)) sm rm ->
  (forall p, p < procs -> length (x0 p) = tm_num_local (m p)) ->
  let pl p := setup (sm p) (rm p) in
  facet_table k (m q) = Some fi -> interleaving (all_side_writes k fi) wr -> do_writes (fresh_sides k (m q)) wr = Some t ->
  num_interior q (m q) = Some ni ->
  sparse_index (recv_indices (pl q)) = Some idx ->
  map snd w1 = seq 0 ni -> map snd w2 = seq ni (tm_num_local (m q) - ni) -> length y = tm_num_local (m q) ->
  (* the execution *)
  run pl es0 (start x0) = Some s0 -> step pl (EBegin q g) s0 = Some s1 ->
  run pl (concat (map fst w1)) s1 = Some s2 -> run pl evs s2 = Some s3 -> idle (procs_of s3 q) = true ->
  run pl (concat (map fst w2)) s3 = Some s4 ->
  quiet q (concat (map fst w1) ++ evs ++ concat (map fst w2)) ->
  (* all ranks start this exchange with their part of X *)
  let n := length (begins pl q es0 (start x0)) in
  let es := es0 ++ EBegin q g :: concat (map fst w1) ++ evs ++ concat (map fst w2) in
  (forall p x j gj, p < procs -> nth_error (begins pl p es (start x0)) n = Some x ->
     nth_error (tm_l2cg (m p)) j = Some gj -> j < tm_num_local (m p) -> nth_error x j = Some (X gj)) ->
  exists y', apply_run k op t idx pl q g w1 evs w2 s0 y = Some (s4, y') /\ length y' = length y /\
    forall e y0 ge, nth_error y e = Some y0 -> nth_error (tm_l2cg (m q)) e = Some ge ->
      exists sl xn, length sl = k + 1 /\ (forall d, d <= k -> nth_error sl d = nth_error t (e * (k + 1) + d)) /\ length xn = k + 1 /\
        (forall d gd, behind k (m q) e d gd -> nth_error xn d = Some (X gd)) /\
        nth_error y' e = Some (op e sl (X ge) xn y0).
Proof.
  intros A k procs m sm rm x0 es0 s0 q fi wr t idx ni op g w1 evs w2 y X s1 s2 s3 s4
    DM Hq PO LX pl Efi Iw Et Eni Eidx M1 M2 Ly R0 R1 R2 R3 Id R4 Qt n es HX.
  set (ev1 := concat (map fst w1)) in *. set (ev2 := concat (map fst w2)) in *.
  pose proof (dm_mesh _ _ _ DM q Hq) as O. pose proof (dm_items _ _ _ DM) as SI.
  apply quiet_app in Qt as [Q1 Qt]. apply quiet_app in Qt as [Q2 Q3].
  destruct (neighbour_table_correct k (m q) fi wr O Efi Iw) as (t' & Et' & Lt & HT).
  assert (t' = t) by congruence. subst t'. clear Et'.
  destruct (interior_elements_first k q (m q) O) as [Int _]. specialize (Int ni Eni).
  pose proof (to_local_le _ _ O) as Lloc.
  (* x on q during the application *)
  set (xq := p_x (procs_of s1 q)).
  assert (X1 : p_x (procs_of s0 q) = xq).
  { unfold xq. pose proof R1 as H. cbn [step] in H. destruct (_ && _); [|discriminate]. destruct (pack _ _); [|discriminate].
    cbn [bind] in H. injection H as <-. cbn. unfold set_fun. rewrite Nat.eqb_refl. auto. }
  assert (Lxq : length xq = tm_num_local (m q)).
  { rewrite <- X1, (run_x_length pl es0 _ _ q R0). cbn. apply LX; auto. }
  assert (Bq1 : begins pl q (es0 ++ [EBegin q g]) (start x0) = begins pl q es0 (start x0) ++ [xq]).
  { rewrite (begins_app pl q es0 _ _ _ R0). f_equal. cbn [begins]. rewrite R1, Nat.eqb_refl, X1. auto. }
  assert (Rb : run pl (es0 ++ [EBegin q g]) (start x0) = Some s1).
  { rewrite run_app, R0. cbn [bind run]. rewrite R1. auto. }
  assert (Xs : forall e ge, nth_error (tm_l2cg (m q)) e = Some ge -> e < tm_num_local (m q) -> nth_error xq e = Some (X ge)).
  { intros e ge Ege He. apply (HX q xq e ge Hq); auto. unfold es.
    replace (EBegin q g :: ev1 ++ evs ++ ev2) with ([EBegin q g] ++ ev1 ++ evs ++ ev2) by auto.
    rewrite app_assoc, (begins_app pl q _ _ _ _ Rb), Bq1. rewrite <- app_assoc, nth_error_app2 by (unfold n; auto).
    unfold n. rewrite Nat.sub_diag. auto. }
  (* slots *)
  set (gid e := nth e (tm_l2cg (m q)) 0).
  assert (Gid : forall e, e < length (tm_elems (m q)) -> nth_error (tm_l2cg (m q)) e = Some (gid e)).
  { intros e He. apply nth_error_nth'. rewrite (to_l2cg _ _ O). auto. }
  set (slots e := map (fun d => nth (e * (k + 1) + d) t no_side) (seq 0 (k + 1))).
  assert (Slots : forall e, e < tm_num_local (m q) -> forall d, d <= k ->
     exists s i, nth_error (slots e) d = Some s /\ nth_error t (e * (k + 1) + d) = Some s /\ facet_at k (m q) e d i /\ slot_ok k (m q) e d i s).
  { intros e He d Hd. destruct (HT e d He Hd) as (s & i & Es & F & Ok). exists s, i. split; auto.
    unfold slots. rewrite (map_nth_error _ d _ (d := d)).
    - f_equal. apply nth_error_nth; auto.
    - rewrite (nth_error_nth' _ 0) by (rewrite seq_length; lia). rewrite seq_nth by lia. auto. }
  assert (SlotsM : forall e, e < tm_num_local (m q) -> map_opt (fun d => nth_error t (e * (k + 1) + d)) (seq 0 (k + 1)) = Some (slots e)).
  { intros e He. apply map_opt_ext; [unfold slots; rewrite map_length; auto|].
    intros i a Ea. assert (i < k + 1) by (rewrite <- (seq_length (k + 1) 0); apply nth_error_Some; congruence).
    rewrite (nth_error_nth' _ 0) in Ea by (rewrite seq_length; lia). rewrite seq_nth in Ea by lia. injection Ea as <-. cbn [plus].
    destruct (Slots e He i ltac:(lia)) as (s & j & E1 & E2 & _). congruence. }
  assert (LenS : forall e, length (slots e) = k + 1) by (intro e; unfold slots; rewrite map_length, seq_length; auto).
  set (vx e := X (gid e)). set (vn e := map (fun s => X (gid (si_lid s))) (slots e)).
  (* phase 1 *)
  assert (Hint : forall e, e < ni -> e < tm_num_local (m q)).
  { intros e He. apply Int in He as [He _]. apply (si_first _ _ _ _ _ SI q e Hq); auto.
    rewrite (to_l2cg _ _ O), <- (to_owner _ _ O). apply nth_error_Some. congruence. }
  assert (Loc : forall e, e < ni -> forall d s i, nth_error (slots e) d = Some s -> facet_at k (m q) e d i -> slot_ok k (m q) e d i s ->
     si_lid s < tm_num_local (m q)).
  { intros e He d s i Es F Ok. destruct (Nat.lt_ge_cases (si_lid s) (tm_num_local (m q))) as [|Hge]; auto. exfalso.
    pose proof (Hint e He) as Hel. destruct Ok as [_ _ Oth Lc _].
    assert (C1 : contains (m q) e i) by (apply Oth; auto). assert (C2 : contains (m q) (si_lid s) i) by (apply Oth; auto).
    destruct (contains_lt _ _ _ C2) as [Hl _].
    destruct (nth_error_lt (tm_owner (m q)) (si_lid s)) as [r Er]; [rewrite (to_owner _ _ O); auto|].
    assert (Hr : r <> q).
    { intros ->. apply (si_first _ _ _ _ _ SI q (si_lid s) Hq) in Er; [lia|rewrite (to_l2cg _ _ O); auto]. }
    assert (Adj : adjacent (m q) e (si_lid s)) by (split; [lia|exists i; auto]).
    destruct (si_owner_has _ _ _ _ _ SI q (si_lid s) (gid (si_lid s)) r Hq (Gid _ Hl) Er) as [Hrp _].
    pose proof (dm_mutual _ _ _ DM q e (si_lid s) r (gid e) Hq Hel Adj Er (Gid e ltac:(lia))) as Hin.
    assert (Hsh : In r (nth e (tm_shared (m q)) [])).
    { apply (si_shared _ _ _ _ _ SI q e (gid e) r Hq (Gid e ltac:(lia))). auto. }
    apply Int in He as [_ He]. rewrite (nth_error_nth _ _ [] He) in Hsh. destruct Hsh. }
  assert (Vloc : forall (c : proc A) e, p_x c = xq -> e < tm_num_local (m q) -> view_get (p_x c) idx (p_y c) e = Some (X (gid e))).
  { intros c e Ec He. unfold view_get. rewrite Ec, Lxq, (proj2 (Nat.ltb_lt _ _) He). apply Xs; auto. apply Gid. lia. }
  destruct (apply_phase_spec k op t idx pl q vx vn slots w1 s1 y s2) as (y1 & E1 & L1 & V1 & O1); auto.
  { rewrite M1. apply seq_NoDup. }
  { intros e He. rewrite M1 in He. apply in_seq in He. rewrite Ly. apply Hint. lia. }
  { intros wa ea e wb s' Ew Rw. assert (He : e < ni).
    { assert (Hin : In e (map snd w1)) by (rewrite Ew, map_app; apply in_or_app; right; left; auto).
      rewrite M1 in Hin. apply in_seq in Hin. lia. }
    assert (Qw : quiet q (concat (map fst wa) ++ ea)).
    { unfold ev1 in Q1. rewrite Ew, map_app, concat_app in Q1. cbn [map fst concat] in Q1.
      apply quiet_app in Q1 as [Qa Qb]. apply quiet_app in Qb as [Qb _]. apply quiet_app; auto. }
    destruct (quiet_run pl q _ _ _ Qw Rw) as (Xw & _). split; [apply Vloc; auto|]. split; [apply SlotsM; auto|].
    apply map_opt_ext; [unfold vn; rewrite map_length; auto|]. intros d s Es.
    assert (Hd : d < k + 1) by (rewrite <- (LenS e); apply nth_error_Some; congruence).
    destruct (Slots e (Hint e He) d ltac:(lia)) as (s2' & i & Es2 & _ & F & Ok). assert (s2' = s) by congruence. subst s2'.
    unfold vn. rewrite (map_nth_error _ _ _ Es). apply Vloc; auto. eapply Loc; eauto. }
  (* phase 2 *)
  destruct (apply_phase_spec k op t idx pl q vx vn slots w2 s3 y1 s4) as (y2 & E2 & L2 & V2 & O2); auto.
  { rewrite M2. apply seq_NoDup. }
  { intros e He. rewrite M2 in He. apply in_seq in He. lia. }
  { intros wa ea e wb s' Ew Rw. assert (He : e < tm_num_local (m q)).
    { assert (Hin : In e (map snd w2)) by (rewrite Ew, map_app; apply in_or_app; right; left; auto).
      rewrite M2 in Hin. apply in_seq in Hin. lia. }
    assert (Qw : quiet q (concat (map fst wa) ++ ea)).
    { unfold ev2 in Q3. rewrite Ew, map_app, concat_app in Q3. cbn [map fst concat] in Q3.
      apply quiet_app in Q3 as [Qa Qb]. apply quiet_app in Qb as [Qb _]. apply quiet_app; auto. }
    destruct (quiet_run pl q _ _ _ Qw Rw) as (Xw & Iw2 & Bw).
    destruct (quiet_run pl q _ _ _ Q1 R2) as (X12 & _ & B12). destruct (quiet_run pl q _ _ _ Q2 R3) as (X23 & _ & B23).
    set (esw := (es0 ++ [EBegin q g]) ++ ev1 ++ evs ++ concat (map fst wa) ++ ea).
    assert (Rfull : run pl esw (start x0) = Some s').
    { unfold esw. rewrite run_app, Rb. cbn [bind]. rewrite run_app, R2. cbn [bind]. rewrite run_app, R3. cbn [bind]. auto. }
    assert (Bfull : begins pl q esw (start x0) = begins pl q es0 (start x0) ++ [xq]).
    { unfold esw. rewrite (begins_app pl q _ _ _ _ Rb), Bq1. rewrite (begins_app pl q _ _ _ _ R2), B12.
      rewrite (begins_app pl q _ _ _ _ R3), B23, Bw. rewrite !app_nil_r. auto. }
    assert (Len : length (begins pl q esw (start x0)) = n + 1) by (rewrite Bfull, app_length; auto).
    pose proof (ghost_exchange_correct procs _ _ _ _ sm rm x0 esw s' q SI PO LX Rfull Hq (Iw2 Id)) as GE.
    cbv zeta in GE. change (fun p => setup (sm p) (rm p)) with pl in GE. change (setup (sm q) (rm q)) with (pl q) in GE.
    rewrite Len in GE. destruct (GE ltac:(lia)) as (idx' & Ei & GV). clear GE.
    assert (idx' = idx) by congruence. subst idx'.
    replace (n + 1 - 1) with n in GV by lia.
    assert (Xq' : p_x (procs_of s' q) = xq) by (rewrite Xw, X23, X12; auto).
    assert (Pre : forall p x, nth_error (begins pl p esw (start x0)) n = Some x -> nth_error (begins pl p es (start x0)) n = Some x).
    { intros p x Hx. assert (Eq : es = esw ++ concat (map fst wb)).
      { unfold es, esw, ev2. rewrite Ew, map_app, concat_app. cbn [map fst concat]. rewrite <- !app_assoc. auto. }
      rewrite Eq, (begins_app pl p _ _ _ _ Rfull). rewrite nth_error_app1; auto. apply nth_error_Some. congruence. }
    assert (Vall : forall e', e' < length (tm_elems (m q)) ->
      view_get (p_x (procs_of s' q)) idx (p_y (procs_of s' q)) e' = Some (X (gid e'))).
    { intros e' He'. destruct (Nat.lt_ge_cases e' (tm_num_local (m q))) as [Hl|Hg]; [apply Vloc; auto|].
      destruct (GV e' (gid e') (Gid e' He')) as (_ & _ & GG).
      destruct (nth_error_lt (tm_owner (m q)) e') as [r Er]; [rewrite (to_owner _ _ O); auto|].
      assert (Hr : r <> q).
      { intros ->. apply (si_first _ _ _ _ _ SI q e' Hq) in Er; [lia|rewrite (to_l2cg _ _ O); auto]. }
      destruct (si_owner_has _ _ _ _ _ SI q e' (gid e') r Hq (Gid _ He') Er) as [Hrp Hin].
      apply In_nth_error in Hin as [j Ej]. destruct (GG r j Hr Er Ej) as (x & v & Ex & Ev & Eview).
      rewrite Eview. f_equal. apply Pre in Ex.
      assert (Hj : j < tm_num_local (m r)).
      { apply (si_first _ _ _ _ _ SI r j Hrp); [apply nth_error_Some; congruence|].
        rewrite <- Er. symmetry. apply (si_owner _ _ _ _ _ SI q r e' j (gid e') Hq Hrp); auto. }
      pose proof (HX r x j (gid e') Hrp Ex Ej Hj). congruence. }
    split; [apply Vloc; auto|]. split; [apply SlotsM; auto|].
    apply map_opt_ext; [unfold vn; rewrite map_length; auto|]. intros d s Es.
    assert (Hd : d < k + 1) by (rewrite <- (LenS e); apply nth_error_Some; congruence).
    destruct (Slots e He d ltac:(lia)) as (s2' & i & Es2 & _ & F & Ok). assert (s2' = s) by congruence. subst s2'.
    unfold vn. rewrite (map_nth_error _ _ _ Es). apply Vall.
    destruct Ok as [_ _ Oth _ _]. apply (contains_lt (m q) (si_lid s) i). apply Oth. auto. }
  exists y2. split.
  { unfold apply_run. rewrite R1. cbn [bind]. rewrite E1. cbn [bind fst snd]. rewrite R3. cbn [bind]. rewrite Id. auto. }
  split; [congruence|]. intros e y0 ge Ey Ege.
  assert (He : e < tm_num_local (m q)) by (rewrite <- Ly; apply nth_error_Some; congruence).
  assert (Egid : gid e = ge) by (unfold gid; apply nth_error_nth; auto).
  exists (slots e), (vn e). split; [apply LenS|]. split.
  { intros d Hd. destruct (Slots e He d Hd) as (s & i & A1 & A2 & _). congruence. }
  split; [unfold vn; rewrite map_length; auto|]. split.
  { intros d gd (i & e' & F & Oth & Eg'). destruct (facet_at_contains k (m q) O _ _ _ F) as [C Hd].
    destruct (Slots e He d Hd) as (s & i' & A1 & _ & F' & Ok). assert (i' = i) by (eapply facet_at_fun; eauto). subst i'.
    unfold vn. rewrite (map_nth_error _ _ _ A1). f_equal. f_equal.
    assert (si_lid s = e').
    { destruct Ok as [_ _ Oth2 _ _]. assert (C1 : contains (m q) (si_lid s) i) by (apply Oth2; auto).
      assert (C2 : contains (m q) e' i) by (apply Oth; auto). apply Oth in C1. apply Oth2 in C2. destruct C1, C2; congruence. }
    subst e'. unfold gid. apply nth_error_nth; auto. }
  assert (Final : nth_error y2 e = Some (op e (slots e) (vx e) (vn e) y0)).
  { destruct (Nat.lt_ge_cases e ni) as [Hi|Hi].
    - rewrite O2; [apply V1; auto; rewrite M1; apply in_seq; lia|]. rewrite M2, in_seq. lia.
    - apply V2; [rewrite M2; apply in_seq; lia|]. rewrite O1; auto. rewrite M1, in_seq. lia. }
  rewrite Final. unfold vx. rewrite Egid. auto.
Qed.
Print Assumptions apply_overlap_correct.

(** * A concrete case: three triangles on two ranks *)
Definition ex_dist (p : nat) : topo_mesh :=
  match p with
  | 0 => {| tm_elems := [[0;1;2]; [1;2;3]; [2;3;4]]; tm_num_local := 2;
            tm_facets := [[0;1]; [0;2]; [1;2]; [1;3]; [2;3]; [2;4]; [3;4]]; tm_num_local_facets := 5;
            tm_owner := [0;0;1]; tm_l2cg := [10;11;12]; tm_shared := [[]; [1]; [1]];
            tm_bc := Some [1;5;0;3;3;5;5] |}
  | _ => {| tm_elems := [[2;3;4]; [1;2;3]]; tm_num_local := 1;
            tm_facets := [[2;3]; [2;4]; [3;4]; [1;2]; [1;3]]; tm_num_local_facets := 3;
            tm_owner := [1;0]; tm_l2cg := [12;11]; tm_shared := [[0]; [0]];
            tm_bc := Some [3;5;5;0;3] |}
  end.

Lemma adjacentb_spec m e e' : adjacent m e e' <->
  e <> e' /\ e < length (tm_elems m) /\ e' < length (tm_elems m) /\
  existsb (fun i => containsb m e i && containsb m e' i) (seq 0 (length (tm_facets m))) = true.
Proof.
  unfold adjacent. rewrite existsb_exists. split.
  - intros (N & i & C1 & C2). apply containsb_spec in C1 as (? & ? & ?), C2 as (? & ? & ?). repeat split; auto.
    exists i. rewrite in_seq, andb_true_iff. repeat split; auto; lia.
  - intros (N & H1 & H2 & i & Hi & C). split; auto. exists i. apply in_seq in Hi. apply andb_true_iff in C as [? ?].
    split; apply containsb_spec; repeat split; auto; lia.
Qed.
Lemma ex_dist_mesh : dist_mesh 2 2 ex_dist.
Proof.
  constructor.
  - intros [|[|p]] Hp; try lia; apply topo_okb_spec; vm_compute; reflexivity.
  - split.
    + intros [|[|]] H; cbn; lia.
    + intros [|[|]] H; [| |lia]; repeat constructor; cbn; intuition discriminate.
    + intros [|[|p]] [|[|q]] [|[|[|[|i]]]] [|[|[|[|j]]]] g Hp Hq; try lia; cbn; congruence.
    + intros [|[|p]] [|[|[|[|i]]]] g o Hp; try lia; cbn; intros; try discriminate;
        repeat match goal with H : Some _ = Some _ |- _ => inversion H; clear H end; subst; cbn; intuition lia.
    + intros [|[|p]] [|[|[|i]]] Hp; try lia; cbn; intro; split; intro; auto; try lia; try discriminate.
    + intros [|[|p]] [|[|[|[|i]]]] g r Hp; try lia; cbn; intros E; try discriminate; inversion E; subst;
        (split; [intro H; repeat destruct H as [H|H]; subst; cbn; repeat split; auto; try lia; tauto|]);
        intros (Hr & N & H); destruct r as [|[|]]; try lia; cbn in H; auto; repeat destruct H as [H|H]; try discriminate; tauto.
    + intros [|[|p]] [|[|[|[|i]]]] Hp; try lia; repeat constructor; cbn; intuition discriminate.
    + intros [|[|p]] [|[|[|[|i]]]] [|[|[|[|j]]]] g h o Hp Hij; try lia; cbn; intros; try discriminate;
        repeat match goal with H : Some _ = Some _ |- _ => inversion H; clear H end; subst; try discriminate; lia.
  - intros [|[|p]] e e' r g Hp He A Er Eg; try lia; apply adjacentb_spec in A as (N & A1 & A2 & A3);
      cbn [ex_dist tm_num_local tm_elems length] in *.
    + destruct e as [|[|e]], e' as [|[|[|e']]]; try lia; cbn in Er, Eg; inversion Er; inversion Eg; subst; cbn; auto;
        vm_compute in A3; discriminate A3.
    + destruct e as [|e], e' as [|[|e']]; try lia; cbn in Er, Eg; inversion Er; inversion Eg; subst; cbn; auto.
Qed.

Lemma il_concat {A} (ps : list (list A)) : interleaving ps (concat ps).
Proof.
  enough (H : forall b a, (forall p, In p a -> p = []) -> interleaving (a ++ b) (concat b)) by (apply (H ps []); intros ? []).
  clear ps. induction b as [|p b IH]; intros a Ha; cbn [concat].
  - rewrite app_nil_r. constructor. auto.
  - induction p as [|x p IHp]; cbn [app].
    + replace (a ++ [] :: b) with ((a ++ [[]]) ++ b) by (rewrite <- app_assoc; auto). apply IH.
      intros q Hq. apply in_app_or in Hq as [?|[<-|[]]]; auto.
    + constructor. auto.
Qed.
(** One application on rank 0 while rank 1's message arrives after the first element: the local
    operator adds up its inputs.  X is 1 on element 10, 20 on 11 and 300 on 12. *)
Example apply_ex :
  let m := ex_dist in
  let sm p := fst (plan_maps p (combine (tm_owner (m p)) (tm_shared (m p)))) in
  let rm p := snd (plan_maps p (combine (tm_owner (m p)) (tm_shared (m p)))) in
  let pl p := setup (sm p) (rm p) in
  let x0 p := match p with 0 => [1; 20] | _ => [300] end in
  exists fi wr t idx s4, facet_table 2 (m 0) = Some fi /\ interleaving (all_side_writes 2 fi) wr /\
    do_writes (fresh_sides 2 (m 0)) wr = Some t /\ num_interior 0 (m 0) = Some 1 /\
    sparse_index (recv_indices (pl 0)) = Some idx /\
    apply_run 2 (fun _ _ x xn y => x + list_sum xn + y) t idx pl 0 [0]
      [([], 0)] [EBegin 1 [0]; EInject 1 0; EMatch 1 0; EInject 0 1] [([EMatch 0 1], 1)] (start x0) [0; 1000]
      = Some (s4, [1 + (1 + 1 + 20); 20 + (1 + 20 + 300) + 1000]).
Proof.
  cbv zeta. eexists. exists (concat (all_side_writes 2 (match facet_table 2 (ex_dist 0) with Some f => f | None => [] end))).
  eexists. eexists. eexists.
  split; [vm_compute; reflexivity|]. split; [|split; [vm_compute; reflexivity|split; [vm_compute; reflexivity|split; [vm_compute; reflexivity|vm_compute; reflexivity]]]].
  apply il_concat.
Qed.
