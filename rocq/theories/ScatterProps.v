(** C22: ghost exchange yields the owner's values. *)
Require Import List Arith Lia Bool Permutation Sorted.
Require Import Verif.Base Verif.CommModel Verif.CommProofs Verif.ScatterModel Verif.ScatterProofs Verif.CombinatoricsProofs.
Import ListNotations.
Local Open Scope opt_scope.

(** * Specification *)
(** The plans of the ranks fit together: p has a message for q exactly if q expects one from p, of
    the same length.  [sm p], [rm p] list, per partner, what p sends and receives. *)
Definition plans_match (procs : nat) (sm rm : nat -> umap) : Prop :=
  (forall p, p < procs -> NoDup (map fst (sm p)) /\ NoDup (map fst (rm p))) /\
  (forall p q, p < procs -> q < procs -> (In q (map fst (sm p)) <-> In p (map fst (rm q)))) /\
  (forall p q, p < procs -> q < procs -> length (umap_get (sm p) q) = length (umap_get (rm q) p)) /\
  (forall p k, p < procs -> In k (map fst (sm p)) \/ In k (map fst (rm p)) -> k < procs).

(** The values of x on rank p at its begin_scatter calls during the events [es] from [s]. *)
Fixpoint begins {A} (pl : nat -> plan) (p : nat) (es : list (event A)) (s : state A) : list (list A) :=
  match es with
  | [] => []
  | e :: t =>
      match step pl e s with
      | None => []
      | Some s' =>
          match e with EBegin p' _ => if p' =? p then [p_x (procs_of s p)] else [] | _ => [] end ++ begins pl p t s'
      end
  end.

Lemma run_inv {A} procs sm rm es (s s' : state A) h :
  plans_match procs sm rm -> inv procs sm rm s h -> run (fun p => setup (sm p) (rm p)) es s = Some s' ->
  inv procs sm rm s' (fun p => h p ++ begins (fun p => setup (sm p) (rm p)) p es s).
Proof.
  intros (N & K & L & B). revert s h; induction es as [|e t IH]; intros s h I R; cbn [run] in R.
  - inversion R; subst. cbn [begins]. destruct I as [I1 I2].
    split; [intros p Hp; destruct (I1 p Hp) as [X1 X2 X3 X4 X5 X6 X7]; split; rewrite ?app_nil_r; auto|].
    intros p q Hp Hq HK. destruct (I2 p q Hp Hq HK) as [X1 X2 X3 X4 X5].
    split; unfold inj, mat in *; rewrite ?app_nil_r; auto.
  - destruct (step _ e s) as [s1|] eqn:E; [|discriminate]. cbn [bind] in R.
    pose proof (step_inv procs sm rm K e s s1 h I E) as I1.
    specialize (IH s1 _ I1 R). cbn [begins]. rewrite E.
    destruct IH as [J1 J2]. unfold hist_step in *. split.
    + intros p Hp. destruct (J1 p Hp) as [X1 X2 X3 X4 X5 X6 X7]. split; rewrite ?app_assoc; auto.
    + intros p q Hp Hq HK. destruct (J2 p q Hp Hq HK) as [X1 X2 X3 X4 X5].
      split; unfold inj, mat in *; rewrite ?app_assoc; auto.
Qed.

(** C22: in every execution, when wait_scatter returns on rank q after its k-th begin_scatter, the
    slot of every index q receives from p holds the value that x had on p at p's k-th begin_scatter
    at the corresponding index, whatever was written to x since and however messages interleaved. *)
Theorem scatter_correct : forall {A} procs (sm rm : nat -> umap) (x0 : nat -> list A) es s q,
  plans_match procs sm rm ->
  let pl p := setup (sm p) (rm p) in
  run pl es (start x0) = Some s -> q < procs ->
  idle (procs_of s q) = true ->
  let k := length (begins pl q es (start x0)) in
  0 < k ->
  length (p_y (procs_of s q)) = length (recv_indices (pl q)) /\
  forall p, In p (map fst (rm q)) ->
  exists x, nth_error (begins pl p es (start x0)) (k - 1) = Some x /\
    forall j is ir, nth_error (umap_get (sm p) q) j = Some is -> nth_error (umap_get (rm q) p) j = Some ir ->
    exists slot, nth_error (recv_indices (pl q)) slot = Some ir /\
      nth_error (p_y (procs_of s q)) slot = nth_error x is /\ nth_error x is <> None.
Proof.
  intros A procs sm rm x0 es s q PM pl R Hq Id k Hk.
  pose proof (run_inv procs sm rm es _ s (fun _ => []) PM (inv_start procs sm rm x0) R) as [I1 I2].
  cbn [app] in I1, I2. destruct PM as (N & K & L & B).
  assert (Hn : begins pl q es (start x0) <> []) by (intro E; unfold k in Hk; rewrite E in Hk; cbn in Hk; lia).
  split; [apply (ri_y _ _ _ _ _ (I1 q Hq)); exact Hn|].
  intros p Hp. assert (Hpp : p < procs) by (eapply B; eauto).
  assert (HK : In q (map fst (sm p))) by (apply K; auto).
  destruct (I2 p q Hpp Hq HK) as [_ _ _ _ X5]. apply idle_spec in Id as [Ir Is].
  destruct X5 as (x & Ex & Px); [unfold pend_recv; rewrite Ir; auto|exact Hn|].
  exists x. split; [exact Ex|]. intros j is ir Hs Hr.
  assert (Hj : j < length (umap_get (rm q) p)) by (apply nth_error_Some; congruence).
  exists (offset_of (rm q) p + j). unfold pay in Px. split; [|].
  - unfold pl. cbn [recv_indices setup]. rewrite <- (slice_nth _ _ (length (umap_get (rm q) p)) j Hj).
    rewrite slice_indices; auto.
  - destruct (pack_nth _ _ _ Px j is Hs) as [E1 E2]. rewrite slice_nth in E1 by auto. auto.
Qed.
Print Assumptions scatter_correct.

(** No deadlock: if all ranks have called begin_scatter equally often and some request is not
    complete, then a pending send or a pending receive can complete. *)
Theorem scatter_progress : forall {A} procs (sm rm : nat -> umap) (x0 : nat -> list A) es s k r,
  plans_match procs sm rm ->
  let pl p := setup (sm p) (rm p) in
  run pl es (start x0) = Some s ->
  (forall p, p < procs -> length (begins pl p es (start x0)) = k) ->
  r < procs -> idle (procs_of s r) = false ->
  exists p q, p < procs /\ q < procs /\
    (step pl (EInject p q) s <> None \/ step pl (EMatch p q) s <> None).
Proof.
  intros A procs sm rm x0 es s k r PM pl R Hk Hr Id.
  pose proof (run_inv procs sm rm es _ s (fun _ => []) PM (inv_start procs sm rm x0) R) as [I1 I2].
  cbn [app] in I1, I2. destruct PM as (N & K & L & B). fold pl in I1, I2.
  assert (SEND : forall p b, p < procs -> In b (p_send (procs_of s p)) -> exists q, q < procs /\ step pl (EInject p q) s <> None).
  { intros p b Hp Hb. destruct (I1 p Hp) as [X1 X2 X3 X4 X5 X6 X7].
    pose proof (X4 b Hb) as Hb'. apply make_blocks_key in Hb'. exists (block_key b). split; [eapply B; eauto|].
    cbn [step]. destruct (find_block (block_key b) (p_send (procs_of s p))) as [b'|] eqn:F.
    2: { exfalso. eapply find_none_key; eauto. }
    cbn [bind]. apply X5 in F. rewrite make_blocks_find_in in F by auto. inversion F; subst b'. unfold block_off, block_cnt. cbn [fst snd].
    unfold read_block. rewrite X2.
    - rewrite (proj2 (Nat.leb_le _ _) (offset_bound _ _ Hb')). cbn [bind]. discriminate.
    - intro E. destruct (X3 E) as [E1 _]. rewrite E1 in Hb. destruct Hb. }
  destruct (existsb (fun p => match p_send (procs_of s p) with [] => false | _ => true end) (seq 0 procs)) eqn:EX.
  - apply existsb_exists in EX as (p & Hp & E). apply in_seq in Hp. destruct (p_send (procs_of s p)) as [|b t] eqn:Es; [discriminate|].
    destruct (SEND p b) as (q & Hq & H); [lia|rewrite Es; left; auto|]. exists p, q. split; [lia|]. auto.
  - assert (NS : forall p, p < procs -> p_send (procs_of s p) = []).
    { intros p Hp. destruct (p_send (procs_of s p)) as [|b t] eqn:Es; auto.
      assert (C : existsb (fun p => match p_send (procs_of s p) with [] => false | _ => true end) (seq 0 procs) = true).
      { apply existsb_exists. exists p. rewrite Es. split; [apply in_seq; lia|auto]. }
      congruence. }
    unfold idle in Id. rewrite (NS r Hr) in Id. destruct (p_recv (procs_of s r)) as [|b t] eqn:Er; [discriminate|].
    destruct (I1 r Hr) as [X1 X2 X3 X4 X5 X6 X7].
    assert (Hb : In b (p_recv (procs_of s r))) by (rewrite Er; left; auto).
    pose proof (make_blocks_key _ _ _ (X6 b Hb)) as Hkey. set (p := block_key b) in *.
    assert (Hp : p < procs) by (eapply B; eauto).
    assert (HK : In r (map fst (sm p))) by (apply K; auto).
    exists p, r. split; [auto|]. split; [auto|]. right.
    destruct (I2 p r Hp Hr HK) as [Y1 Y2 Y3 Y4 Y5].
    destruct (find_block p (p_recv (procs_of s r))) as [b'|] eqn:F; [|exfalso; eapply find_none_key; eauto].
    assert (HR : begins pl r es (start x0) <> []). { intro E. destruct (X3 E) as [_ E2]. rewrite E2 in Hb. destruct Hb. }
    assert (M : mat s (fun p => begins pl p es (start x0)) p r = k - 1).
    { unfold mat, pend_recv. rewrite F, Hk; auto. }
    assert (I : inj s (fun p => begins pl p es (start x0)) p r = k).
    { unfold inj, pend_send. rewrite NS, Hk by auto. cbn. lia. }
    assert (Kp : 0 < k) by (rewrite <- (Hk r Hr); apply nil_len; auto).
    rewrite M, I in *. cbn [step]. rewrite F. cbn [bind].
    destruct (chan s p r) as [|d rest] eqn:Ch; [cbn in Y2; lia|].
    destruct (Y3 0 d) as (x & Ex & Px); [auto|]. unfold pay in Px. apply pack_length in Px.
    apply X7 in F. rewrite make_blocks_find_in in F by auto. inversion F; subst b'. unfold block_off, block_cnt. cbn [fst snd].
    rewrite Px, L by auto. rewrite Nat.eqb_refl.
    destruct (write_block_spec (p_y (procs_of s r)) d (offset_of (rm r) p)) as (y' & W & _ & _).
    { rewrite X1, Px, L by auto. apply offset_bound. auto. }
    rewrite W. cbn [bind]. discriminate.
Qed.
Print Assumptions scatter_progress.

(** Every completion of a send or receive lowers the number of incomplete requests, so with
    scatter_progress wait_scatter returns on all ranks after finitely many completions. *)
Definition pending {A} (procs : nat) (s : state A) : nat :=
  list_sum (map (fun p => length (p_send (procs_of s p)) + length (p_recv (procs_of s p))) (seq 0 procs)).

Lemma filter_le {B} (f : B -> bool) l : length (filter f l) <= length l.
Proof. induction l as [|a t IH]; cbn; auto. destruct (f a); cbn; lia. Qed.
Lemma remove_block_less k bs b : find_block k bs = Some b -> length (remove_block k bs) < length bs.
Proof.
  unfold remove_block. induction bs as [|c t IH]; [discriminate|]. unfold find_block in *. cbn [find filter length].
  destruct (block_key c =? k); cbn [negb].
  - intros _. pose proof (filter_le (fun b => negb (block_key b =? k)) t). lia.
  - intro H. cbn [length]. apply IH in H. lia.
Qed.
Lemma sum_set_less procs (f g : nat -> nat) p : p < procs -> g p < f p -> (forall k, k <> p -> g k = f k) ->
  list_sum (map g (seq 0 procs)) < list_sum (map f (seq 0 procs)).
Proof.
  intros Hp Hg Ho. replace procs with (p + S (procs - p - 1)) by lia. rewrite seq_app. cbn [seq plus].
  rewrite !map_app, !list_sum_app. cbn [map list_sum fold_right]. fold (list_sum (map g (seq (S p) (procs - p - 1)))).
  fold (list_sum (map f (seq (S p) (procs - p - 1)))).
  rewrite (map_ext_in g f (seq 0 p)), (map_ext_in g f (seq (S p) _)).
  - lia.
  - intros a Ha. apply in_seq in Ha. apply Ho. lia.
  - intros a Ha. apply in_seq in Ha. apply Ho. lia.
Qed.
Theorem scatter_completions_finite : forall {A} procs (pl : nat -> plan) p q (s s' : state A),
  p < procs -> q < procs ->
  step pl (EInject p q) s = Some s' \/ step pl (EMatch p q) s = Some s' ->
  pending procs s' < pending procs s.
Proof.
  intros A procs pl p q s s' Hp Hq [H|H]; cbn [step] in H.
  - destruct (find_block q (p_send (procs_of s p))) as [b|] eqn:F; [|discriminate]. cbn [bind] in H.
    destruct (read_block _ _ _); [|discriminate]. cbn [bind] in H. inversion H; subst s'; clear H.
    apply (sum_set_less _ _ _ p); auto; cbn [procs_of]; unfold set_fun.
    + rewrite Nat.eqb_refl. cbn. pose proof (remove_block_less _ _ _ F). lia.
    + intros k N. destruct (Nat.eqb_spec k p); congruence.
  - destruct (find_block p (p_recv (procs_of s q))) as [b|] eqn:F; [|discriminate]. cbn [bind] in H.
    destruct (chan s p q) as [|d rest]; [discriminate|]. destruct (_ =? _); [|discriminate].
    destruct (write_block _ _ _); [|discriminate]. cbn [bind] in H. inversion H; subst s'; clear H.
    apply (sum_set_less _ _ _ q); auto; cbn [procs_of]; unfold set_fun.
    + rewrite Nat.eqb_refl. cbn. pose proof (remove_block_less _ _ _ F). lia.
    + intros k N. destruct (Nat.eqb_spec k q); congruence.
Qed.
Print Assumptions scatter_completions_finite.

(** * From shared faces to matching plans *)
(** A distributed family of items (elements) as the ranks see it: rank p lists global numbers
    [gid p], owners [own p] and shared ranks [sh p] of its items; the first [nl p] are its own. *)
Record shared_items (procs : nat) (gid own : nat -> list nat) (sh : nat -> list (list nat)) (nl : nat -> nat) : Prop := {
  si_len : forall p, p < procs -> length (own p) = length (gid p) /\ length (sh p) = length (gid p) /\ nl p <= length (gid p);
  si_nodup : forall p, p < procs -> NoDup (gid p);
  (* the owner of an item is the same everywhere and has the item *)
  si_owner : forall p q i j g, p < procs -> q < procs -> nth_error (gid p) i = Some g -> nth_error (gid q) j = Some g ->
     nth_error (own p) i = nth_error (own q) j;
  si_owner_has : forall p i g o, p < procs -> nth_error (gid p) i = Some g -> nth_error (own p) i = Some o ->
     o < procs /\ In g (gid o);
  si_first : forall p i, p < procs -> i < length (gid p) -> (i < nl p <-> nth_error (own p) i = Some p);
  (* shared ranks: the other ranks that have the item, each once *)
  si_shared : forall p i g r, p < procs -> nth_error (gid p) i = Some g ->
     (In r (nth i (sh p) []) <-> r < procs /\ r <> p /\ In g (gid r));
  si_shared_nodup : forall p i, p < procs -> NoDup (nth i (sh p) []);
  (* items with equal owner are listed in the order of their global numbers *)
  si_sorted : forall p i j g h o, p < procs -> i < j -> nth_error (gid p) i = Some g -> nth_error (gid p) j = Some h ->
     nth_error (own p) i = Some o -> nth_error (own p) j = Some o -> g < h }.

(** [m'] is an iteration order of the map [m]. *)
Definition plans_of (procs : nat) (own : nat -> list nat) (sh : nat -> list (list nat)) (sm rm : nat -> umap) : Prop :=
  forall p, p < procs -> Permutation (fst (plan_maps p (combine (own p) (sh p)))) (sm p) /\
                         Permutation (snd (plan_maps p (combine (own p) (sh p)))) (rm p).

(** ** Maps *)
Lemma umap_push_get m k v k' : umap_get (umap_push m k v) k' = umap_get m k' ++ (if k =? k' then [v] else []).
Proof.
  induction m as [|[c vs] t IH]; cbn [umap_push umap_get].
  - destruct (k =? k'); auto.
  - destruct (Nat.eqb_spec c k) as [->|N]; cbn [umap_get].
    + destruct (k =? k') eqn:E; auto. rewrite app_nil_r. auto.
    + destruct (Nat.eqb_spec c k') as [->|N']; auto. destruct (Nat.eqb_spec k k'); [congruence|]. rewrite app_nil_r. auto.
Qed.
Lemma umap_push_keys m k v k' : In k' (keys (umap_push m k v)) <-> k' = k \/ In k' (keys m).
Proof.
  unfold keys. induction m as [|[c vs] t IH]; cbn [umap_push map fst In]; [intuition|].
  destruct (Nat.eqb_spec c k) as [->|N]; cbn [map fst In]; [intuition|]. rewrite IH. intuition.
Qed.
Lemma umap_push_nodup m k v : NoDup (keys m) -> NoDup (keys (umap_push m k v)).
Proof.
  unfold keys. induction m as [|[c vs] t IH]; cbn [umap_push map fst]; intro H.
  - repeat constructor. auto.
  - inversion H; subst. destruct (Nat.eqb_spec c k) as [->|N]; cbn [map fst]; constructor; auto.
    intro Hc. apply (umap_push_keys t k v c) in Hc as [?|?]; auto.
Qed.
Definition full (m : umap) : Prop := forall k, In k (keys m) -> umap_get m k <> [].
Lemma umap_push_full m k v : full m -> full (umap_push m k v).
Proof.
  intros F k' H. rewrite umap_push_get. apply umap_push_keys in H as [->|H].
  - rewrite Nat.eqb_refl. intro E. destruct (umap_get m k); discriminate.
  - specialize (F k' H). destruct (umap_get m k'); [congruence|discriminate].
Qed.
Lemma umap_get_absent m k : ~ In k (keys m) -> umap_get m k = [].
Proof.
  unfold keys. induction m as [|[c vs] t IH]; cbn; auto. intro H. destruct (Nat.eqb_spec c k); [tauto|]. auto.
Qed.
Lemma full_keys m k : full m -> (In k (keys m) <-> umap_get m k <> []).
Proof.
  intro F. split; [apply F|]. intro H. destruct (in_dec Nat.eq_dec k (keys m)) as [Hi|Hn]; auto.
  rewrite umap_get_absent in H by auto. congruence.
Qed.
Lemma umap_get_in m k vs : NoDup (keys m) -> In (k, vs) m -> umap_get m k = vs.
Proof.
  unfold keys. induction m as [|[c ws] t IH]; cbn; [tauto|]. intros N H. inversion N; subst.
  destruct H as [E|H].
  - inversion E; subst. rewrite Nat.eqb_refl. auto.
  - destruct (Nat.eqb_spec c k) as [->|]; [|auto]. exfalso. apply H2. apply (in_map fst) in H. auto.
Qed.
Lemma umap_get_perm m m' k : Permutation m m' -> NoDup (keys m) -> umap_get m' k = umap_get m k.
Proof.
  intros P N. assert (N' : NoDup (keys m')) by (eapply Permutation_NoDup; [apply Permutation_map; eauto|auto]).
  destruct (in_dec Nat.eq_dec k (keys m)) as [H|H].
  - unfold keys in H. apply in_map_iff in H as ([k0 vs] & E & H). cbn in E. subst k0.
    rewrite (umap_get_in m k vs), (umap_get_in m' k vs); auto. eapply Permutation_in; eauto.
  - rewrite !umap_get_absent; auto. intro H'. apply H. unfold keys in *. eapply Permutation_in; [apply Permutation_map, Permutation_sym; eauto|auto].
Qed.

(** ** What the loop over the faces collects *)
Fixpoint send_list (rank f : nat) (faces : list (nat * list nat)) (k : nat) : list nat :=
  match faces with
  | [] => []
  | (o, s) :: t => (if (o =? rank) && existsb (Nat.eqb k) s then [f] else []) ++ send_list rank (f + 1) t k
  end.
Fixpoint recv_list (rank f : nat) (faces : list (nat * list nat)) (k : nat) : list nat :=
  match faces with
  | [] => []
  | (o, s) :: t => (if negb (o =? rank) && (o =? k) then [f] else []) ++ recv_list rank (f + 1) t k
  end.
Lemma push_fold_get (f : nat) s m k : NoDup s ->
  umap_get (fold_left (fun m r => umap_push m r f) s m) k = umap_get m k ++ (if existsb (Nat.eqb k) s then [f] else []).
Proof.
  revert m; induction s as [|r t IH]; intros m N; cbn [fold_left existsb]; [rewrite app_nil_r; auto|].
  inversion N; subst. rewrite IH by auto. rewrite umap_push_get. rewrite (Nat.eqb_sym k r).
  destruct (Nat.eqb_spec r k) as [->|Nk]; cbn [orb].
  - assert (E : existsb (Nat.eqb k) t = false).
    { destruct (existsb (Nat.eqb k) t) eqn:E; auto. apply existsb_keys in E. contradiction. }
    rewrite E, app_nil_r. auto.
  - rewrite app_nil_r. auto.
Qed.
Lemma push_fold_inv (f : nat) s m : NoDup (keys m) /\ full m ->
  NoDup (keys (fold_left (fun m r => umap_push m r f) s m)) /\ full (fold_left (fun m r => umap_push m r f) s m).
Proof.
  revert m; induction s as [|r t IH]; intros m H; cbn [fold_left]; auto. apply IH.
  split; [apply umap_push_nodup|apply umap_push_full]; tauto.
Qed.
Lemma plan_loop_spec rank faces : forall f sm rm, (forall o s, In (o, s) faces -> NoDup s) ->
  NoDup (keys sm) /\ full sm -> NoDup (keys rm) /\ full rm ->
  let r := plan_loop rank f faces sm rm in
  (NoDup (keys (fst r)) /\ full (fst r)) /\ (NoDup (keys (snd r)) /\ full (snd r)) /\
  forall k, umap_get (fst r) k = umap_get sm k ++ send_list rank f faces k /\
            umap_get (snd r) k = umap_get rm k ++ recv_list rank f faces k.
Proof.
  induction faces as [|[o s] t IH]; intros f sm rm N I1 I2; cbn [plan_loop].
  - cbn. split; auto. split; auto. intro k. rewrite !app_nil_r. auto.
  - destruct (Nat.eqb_spec o rank) as [->|No].
    + destruct (IH (f + 1) (fold_left (fun m r => umap_push m r f) s sm) rm) as (J1 & J2 & J3); auto.
      { intros o' s' H. apply (N o' s'). right. auto. }
      { apply push_fold_inv. auto. }
      cbv zeta. split; auto. split; auto. intro k. destruct (J3 k) as [-> ->]. split.
      * rewrite push_fold_get by (apply (N rank s); left; auto). cbn [send_list]. rewrite Nat.eqb_refl. cbn [andb]. rewrite app_assoc. auto.
      * cbn [recv_list]. rewrite Nat.eqb_refl. auto.
    + destruct (IH (f + 1) sm (umap_push rm o f)) as (J1 & J2 & J3); auto.
      { intros o' s' H. apply (N o' s'). right. auto. }
      { split; [apply umap_push_nodup|apply umap_push_full]; tauto. }
      cbv zeta. split; auto. split; auto. intro k. destruct (J3 k) as [-> ->]. cbn [send_list recv_list].
      destruct (Nat.eqb_spec o rank); [congruence|]. cbn [andb negb app]. split; auto.
      rewrite umap_push_get, <- app_assoc. auto.
Qed.

Lemma send_list_in rank faces k : forall f i, In i (send_list rank f faces k) <->
  exists s, f <= i /\ nth_error faces (i - f) = Some (rank, s) /\ In k s.
Proof.
  induction faces as [|[o s] t IH]; intros f i; cbn [send_list].
  - split; [intros []|]. intros (s & _ & H & _). destruct (i - f); discriminate.
  - rewrite in_app_iff, IH. split.
    + intros [H|(s' & H1 & H2 & H3)].
      * destruct (Nat.eqb_spec o rank) as [->|]; [|destruct H]. destruct (existsb (Nat.eqb k) s) eqn:E; [|destruct H].
        destruct H as [<-|[]]. exists s. rewrite Nat.sub_diag. split; auto. split; auto. apply existsb_keys. auto.
      * exists s'. split; [lia|]. replace (i - f) with (S (i - (f + 1))) by lia. auto.
    + intros (s' & H1 & H2 & H3). destruct (i - f) as [|d] eqn:E.
      * cbn in H2. inversion H2; subst. left. rewrite Nat.eqb_refl, (proj2 (existsb_keys _ _)) by auto. left. lia.
      * right. exists s'. split; [lia|]. replace (i - (f + 1)) with d by lia. auto.
Qed.
Lemma recv_list_in rank faces k : forall f i, In i (recv_list rank f faces k) <->
  exists s, f <= i /\ nth_error faces (i - f) = Some (k, s) /\ k <> rank.
Proof.
  induction faces as [|[o s] t IH]; intros f i; cbn [recv_list].
  - split; [intros []|]. intros (s & _ & H & _). destruct (i - f); discriminate.
  - rewrite in_app_iff, IH. split.
    + intros [H|(s' & H1 & H2 & H3)].
      * destruct (Nat.eqb_spec o rank) as [->|]; [destruct H|]. destruct (Nat.eqb_spec o k) as [->|]; [|destruct H].
        destruct H as [<-|[]]. exists s. rewrite Nat.sub_diag. auto.
      * exists s'. split; [lia|]. replace (i - f) with (S (i - (f + 1))) by lia. auto.
    + intros (s' & H1 & H2 & H3). destruct (i - f) as [|d] eqn:E.
      * cbn in H2. inversion H2; subst. left. destruct (Nat.eqb_spec k rank); [congruence|]. rewrite Nat.eqb_refl. left. lia.
      * right. exists s'. split; [lia|]. replace (i - (f + 1)) with d by lia. auto.
Qed.
Lemma send_list_sorted rank faces k : forall f, StronglySorted lt (send_list rank f faces k).
Proof.
  induction faces as [|[o s] t IH]; intro f; cbn [send_list]; [constructor|].
  destruct (_ && _); cbn [app]; auto. constructor; auto. apply Forall_forall. intros i Hi.
  apply send_list_in in Hi as (s' & H & _). lia.
Qed.
Lemma recv_list_sorted rank faces k : forall f, StronglySorted lt (recv_list rank f faces k).
Proof.
  induction faces as [|[o s] t IH]; intro f; cbn [recv_list]; [constructor|].
  destruct (_ && _); cbn [app]; auto. constructor; auto. apply Forall_forall. intros i Hi.
  apply recv_list_in in Hi as (s' & H & _). lia.
Qed.

(** Strictly increasing lists with equal members are equal. *)
Lemma sorted_unique (l m : list nat) : StronglySorted lt l -> StronglySorted lt m ->
  (forall x, In x l <-> In x m) -> l = m.
Proof.
  revert m; induction l as [|a l IH]; intros [|b m] Hl Hm E; auto.
  - destruct (proj2 (E b)); left; auto.
  - destruct (proj1 (E a)); left; auto.
  - inversion Hl as [|? ? Sl Fl]; inversion Hm as [|? ? Sm Fm]; subst. rewrite Forall_forall in Fl, Fm.
    assert (a = b).
    { destruct (proj1 (E a)) as [|Ha]; [left; auto|congruence|]. destruct (proj2 (E b)) as [|Hb]; [left; auto|congruence|].
      specialize (Fl b Hb). specialize (Fm a Ha). lia. }
    subst b. f_equal. apply IH; auto. intro x. split; intro H.
    + destruct (proj1 (E x)) as [<-|]; [right; auto| |auto]. specialize (Fl a H). lia.
    + destruct (proj2 (E x)) as [<-|]; [right; auto| |auto]. specialize (Fm a H). lia.
Qed.
Lemma map_sorted (f : nat -> nat) l : StronglySorted lt l ->
  (forall i j, In i l -> In j l -> i < j -> f i < f j) -> StronglySorted lt (map f l).
Proof.
  induction l as [|a t IH]; intros Hs H; cbn; [constructor|]. inversion Hs as [|? ? St Ft]; subst. constructor.
  - apply IH; auto. intros; apply H; auto; right; auto.
  - rewrite Forall_forall in *. intros y Hy. apply in_map_iff in Hy as (x & <- & Hx). apply H; auto; [left; auto|right; auto].
Qed.

Lemma nth_error_combine {A B} (a : list A) (b : list B) i x y : nth_error (combine a b) i = Some (x, y) <->
  nth_error a i = Some x /\ nth_error b i = Some y.
Proof.
  revert b i; induction a as [|u a IH]; intros [|v b] [|i]; cbn; try (split; [discriminate|intros [? ?]; discriminate]).
  - split; [intros [= -> ->]; auto|intros [[= ->] [= ->]]; auto].
  - apply IH.
Qed.

Section Plans.
  Context (procs : nat) (gid own : nat -> list nat) (sh : nat -> list (list nat)) (nl : nat -> nat) (sm rm : nat -> umap).
  Hypothesis SI : shared_items procs gid own sh nl.
  Hypothesis PO : plans_of procs own sh sm rm.

  Lemma maps_spec p : p < procs ->
    (NoDup (keys (sm p)) /\ full (sm p)) /\ (NoDup (keys (rm p)) /\ full (rm p)) /\
    forall k, umap_get (sm p) k = send_list p 0 (combine (own p) (sh p)) k /\
              umap_get (rm p) k = recv_list p 0 (combine (own p) (sh p)) k.
  Proof.
    intro Hp. destruct (PO p Hp) as [P1 P2]. unfold plan_maps in *.
    destruct (plan_loop_spec p (combine (own p) (sh p)) 0 [] []) as (J1 & J2 & J3).
    - intros o s H. apply In_nth_error in H as [i H]. apply nth_error_combine in H as [_ H].
      rewrite <- (nth_error_nth _ _ [] H). apply (si_shared_nodup _ _ _ _ _ SI). auto.
    - split; [constructor|]. intros k [].
    - split; [constructor|]. intros k [].
    - set (r := plan_loop _ _ _ _ _) in *.
      assert (T : forall m m', Permutation m m' -> NoDup (keys m) /\ full m -> NoDup (keys m') /\ full m').
      { intros m m' P [N F]. split.
        - eapply Permutation_NoDup; [apply Permutation_map; eauto|auto].
        - intros k H. rewrite (umap_get_perm m m') by auto. apply F. unfold keys in *.
          eapply Permutation_in; [apply Permutation_map, Permutation_sym; eauto|auto]. }
      split; [eapply T; eauto|]. split; [eapply T; eauto|]. intro k.
      rewrite (umap_get_perm (fst r) (sm p)), (umap_get_perm (snd r) (rm p)) by tauto.
      destruct (J3 k) as [-> ->]. auto.
  Qed.

  (** What p sends to q, by local number. *)
  Lemma sent p q i : p < procs -> q < procs -> (In i (umap_get (sm p) q) <->
    exists g, nth_error (gid p) i = Some g /\ nth_error (own p) i = Some p /\ q <> p /\ In g (gid q)).
  Proof.
    intros Hp Hq. destruct (maps_spec p Hp) as (_ & _ & E). rewrite (proj1 (E q)), send_list_in.
    destruct (si_len _ _ _ _ _ SI p Hp) as (L1 & L2 & _). rewrite Nat.sub_0_r. split.
    - intros (s & _ & H & Hk). apply nth_error_combine in H as [H1 H2].
      destruct (nth_error_lt (gid p) i) as [g Hg]; [rewrite <- L1; apply nth_error_Some; congruence|].
      exists g. split; auto. split; auto. apply (si_shared _ _ _ _ _ SI p i g q Hp Hg).
      rewrite (nth_error_nth _ _ [] H2). auto.
    - intros (g & Hg & Ho & N & Hgq).
      destruct (nth_error_lt (sh p) i) as [s Hs]; [rewrite L2; apply nth_error_Some; congruence|].
      exists s. split; [lia|]. split; [apply nth_error_combine; auto|].
      rewrite <- (nth_error_nth _ _ [] Hs). apply (si_shared _ _ _ _ _ SI p i g q Hp Hg). auto.
  Qed.
  Lemma received p q i : p < procs -> q < procs -> (In i (umap_get (rm q) p) <->
    i < length (gid q) /\ nth_error (own q) i = Some p /\ p <> q).
  Proof.
    intros Hp Hq. destruct (maps_spec q Hq) as (_ & _ & E). rewrite (proj2 (E p)), recv_list_in.
    destruct (si_len _ _ _ _ _ SI q Hq) as (L1 & L2 & _). rewrite Nat.sub_0_r. split.
    - intros (s & _ & H & Hk). apply nth_error_combine in H as [H1 H2]. split; auto.
      rewrite <- L1. apply nth_error_Some. congruence.
    - intros (Hi & Ho & N). destruct (nth_error_lt (sh q) i) as [s Hs]; [lia|].
      exists s. split; [lia|]. split; auto. apply nth_error_combine. auto.
  Qed.
  (** Sender and receiver list the same items in the same order. *)
  Lemma same_items p q : p < procs -> q < procs ->
    map (fun i => nth i (gid p) 0) (umap_get (sm p) q) = map (fun i => nth i (gid q) 0) (umap_get (rm q) p).
  Proof.
    intros Hp Hq. apply sorted_unique.
    - apply map_sorted.
      + destruct (maps_spec p Hp) as (_ & _ & E). rewrite (proj1 (E q)). apply send_list_sorted.
      + intros i j Hi Hj Hij. apply sent in Hi as (g & G1 & O1 & _); auto. apply sent in Hj as (h & G2 & O2 & _); auto.
        rewrite (nth_error_nth _ _ 0 G1), (nth_error_nth _ _ 0 G2). eapply (si_sorted _ _ _ _ _ SI p i j); eauto.
    - apply map_sorted.
      + destruct (maps_spec q Hq) as (_ & _ & E). rewrite (proj2 (E p)). apply recv_list_sorted.
      + intros i j Hi Hj Hij. apply received in Hi as (L1 & O1 & _); auto. apply received in Hj as (L2 & O2 & _); auto.
        destruct (nth_error_lt (gid q) i L1) as [g G1]. destruct (nth_error_lt (gid q) j L2) as [h G2].
        rewrite (nth_error_nth _ _ 0 G1), (nth_error_nth _ _ 0 G2). eapply (si_sorted _ _ _ _ _ SI q i j); eauto.
    - intro x. rewrite !in_map_iff. split.
      + intros (i & <- & Hi). apply sent in Hi as (g & G1 & O1 & N & Hg); auto. rewrite (nth_error_nth _ _ 0 G1).
        apply In_nth_error in Hg as [j Hj]. exists j. rewrite (nth_error_nth _ _ 0 Hj). split; auto. apply received; auto.
        split; [apply nth_error_Some; congruence|]. split; auto.
        rewrite <- O1. symmetry. eapply (si_owner _ _ _ _ _ SI p q i j); eauto.
      + intros (i & <- & Hi). apply received in Hi as (L & O & N); auto.
        destruct (nth_error_lt (gid q) i L) as [g G]. rewrite (nth_error_nth _ _ 0 G).
        destruct (si_owner_has _ _ _ _ _ SI q i g p Hq G O) as [_ Hg]. apply In_nth_error in Hg as [j Hj].
        exists j. rewrite (nth_error_nth _ _ 0 Hj). split; auto. apply sent; auto. exists g. split; auto.
        split; [|split; auto; eapply nth_error_In; eauto].
        rewrite <- O. eapply (si_owner _ _ _ _ _ SI p q j i); eauto.
  Qed.

  Lemma plans_match_of : plans_match procs sm rm.
  Proof.
    split; [|split; [|split]].
    - intros p Hp. destruct (maps_spec p Hp) as ([? _] & [? _] & _). auto.
    - intros p q Hp Hq. destruct (maps_spec p Hp) as ([_ F1] & _). destruct (maps_spec q Hq) as (_ & [_ F2] & _).
      fold (keys (sm p)) (keys (rm q)). rewrite (full_keys _ _ F1), (full_keys _ _ F2).
      pose proof (same_items p q Hp Hq) as E. destruct (umap_get (sm p) q), (umap_get (rm q) p); try discriminate; intuition congruence.
    - intros p q Hp Hq. pose proof (same_items p q Hp Hq) as E. apply (f_equal (@length nat)) in E. rewrite !map_length in E. auto.
    - intros p k Hp [H|H].
      + destruct (maps_spec p Hp) as ([_ F1] & _ & E). apply F1 in H.
        rewrite (proj1 (E k)) in H. destruct (send_list p 0 (combine (own p) (sh p)) k) as [|i t] eqn:El; [congruence|].
        assert (Hi : In i (send_list p 0 (combine (own p) (sh p)) k)) by (rewrite El; left; auto).
        apply send_list_in in Hi as (s & _ & Hn & Hk). rewrite Nat.sub_0_r in Hn. apply nth_error_combine in Hn as [H1 H2].
        destruct (si_len _ _ _ _ _ SI p Hp) as (L1 & L2 & _).
        destruct (nth_error_lt (gid p) i) as [g Hg]; [rewrite <- L1; apply nth_error_Some; congruence|].
        eapply (si_shared _ _ _ _ _ SI p i g k Hp Hg). rewrite (nth_error_nth _ _ [] H2). auto.
      + destruct (maps_spec p Hp) as (_ & [_ F2] & E). apply F2 in H.
        rewrite (proj2 (E k)) in H. destruct (recv_list p 0 (combine (own p) (sh p)) k) as [|i t] eqn:El; [congruence|].
        assert (Hi : In i (recv_list p 0 (combine (own p) (sh p)) k)) by (rewrite El; left; auto).
        apply recv_list_in in Hi as (s & _ & Hn & Hk). rewrite Nat.sub_0_r in Hn. apply nth_error_combine in Hn as [H1 H2].
        destruct (si_len _ _ _ _ _ SI p Hp) as (L1 & L2 & _).
        destruct (nth_error_lt (gid p) i) as [g Hg]; [rewrite <- L1; apply nth_error_Some; congruence|].
        apply (si_owner_has _ _ _ _ _ SI p i g k Hp Hg H1).
  Qed.
End Plans.

(** ** SparseBlockVector *)
Lemma g2l_fill_spec l2g : forall n m, NoDup l2g -> (forall i, In i l2g -> i < length m) ->
  exists m', g2l_fill n l2g m = Some m' /\
    (forall j i, nth_error l2g j = Some i -> nth_error m' i = Some (Some (n + j))) /\
    (forall i, ~ In i l2g -> nth_error m' i = nth_error m i).
Proof.
  induction l2g as [|a t IH]; intros n m N B; cbn [g2l_fill].
  - exists m. split; auto. split; auto. intros [|j] i H; discriminate.
  - inversion N; subst. destruct (upd_ok m a (Some n)) as [m1 E]; [apply B; left; auto|]. rewrite E. cbn [bind].
    pose proof (upd_spec _ _ _ _ E) as (L & Ha & S).
    destruct (IH (n + 1) m1) as (m' & E' & G & O); auto.
    { intros i Hi. rewrite L. apply B. right. auto. }
    exists m'. split; auto. split.
    + intros [|j] i Hj; cbn in Hj.
      * inversion Hj; subst. rewrite O by auto. rewrite S, Nat.eqb_refl. f_equal. f_equal. lia.
      * rewrite (G j i Hj). f_equal. f_equal. lia.
    + intros i Hi. rewrite O by (intro; apply Hi; right; auto). rewrite S.
      destruct (Nat.eqb_spec i a) as [->|]; auto. exfalso. apply Hi. left. auto.
Qed.
Lemma list_max_ge l i : In i l -> i < list_max l + 1.
Proof.
  intro H. pose proof (proj1 (list_max_le l (list_max l)) (le_n _)) as F. rewrite Forall_forall in F.
  specialize (F i H). lia.
Qed.
Lemma sparse_index_spec l2g : NoDup l2g -> exists m, sparse_index l2g = Some m /\
  (forall j i, nth_error l2g j = Some i -> nth_error m i = Some (Some j)) /\
  (forall i, sparse_has m i = true <-> In i l2g).
Proof.
  intro N. unfold sparse_index. destruct l2g as [|a t] eqn:El.
  - exists []. split; auto. split; [intros [|j] i H; discriminate|]. intro i. unfold sparse_has. destruct i; cbn; split; try discriminate; tauto.
  - rewrite <- El in *. destruct (g2l_fill_spec l2g 0 (repeat None (list_max l2g + 1)) N) as (m & E & G & O).
    { intros i Hi. rewrite repeat_length. apply list_max_ge. auto. }
    exists m. split; [auto|]. split; [intros j i H; rewrite (G j i H); auto|].
    intro i. unfold sparse_has. destruct (in_dec Nat.eq_dec i l2g) as [Hi|Hn].
    + apply In_nth_error in Hi as [j Hj]. rewrite (G j i Hj). split; auto. intros _. eapply nth_error_In; eauto.
    + rewrite O by auto. split; [|tauto]. destruct (nth_error (repeat None (list_max l2g + 1)) i) as [o|] eqn:Er; [|discriminate].
      apply nth_error_In, repeat_spec in Er. subst o. discriminate.
Qed.

Lemma make_indices_in m i : NoDup (keys m) -> (In i (make_indices m) <-> exists k, In k (keys m) /\ In i (umap_get m k)).
Proof.
  intro N. unfold make_indices. rewrite in_concat. split.
  - intros (l & Hl & Hi). apply in_map_iff in Hl as ([k vs] & E & H). cbn in E. subst vs.
    exists k. split; [apply (in_map fst) in H; auto|]. rewrite (umap_get_in m k l); auto.
  - intros (k & Hk & Hi). unfold keys in Hk. apply in_map_iff in Hk as ([k0 vs] & E & H). cbn in E. subst k0.
    exists vs. split; [apply in_map_iff; exists (k, vs); auto|]. rewrite (umap_get_in m k vs) in Hi; auto.
Qed.
Lemma make_indices_nodup m : NoDup (keys m) -> (forall k, NoDup (umap_get m k)) ->
  (forall k k' i, In i (umap_get m k) -> In i (umap_get m k') -> k = k') -> NoDup (make_indices m).
Proof.
  unfold make_indices. induction m as [|[k vs] t IH]; intros N V D; cbn [map snd concat]; [constructor|].
  unfold keys in N. cbn [map fst] in N. inversion N; subst.
  assert (G : forall k', In k' (keys t) -> umap_get ((k, vs) :: t) k' = umap_get t k').
  { intros k' Hk'. cbn. destruct (Nat.eqb_spec k k') as [->|]; auto. contradiction. }
  assert (G0 : umap_get ((k, vs) :: t) k = vs) by (cbn; rewrite Nat.eqb_refl; auto).
  apply NoDup_app_intro.
  - rewrite <- G0. apply V.
  - apply IH; auto.
    + intro k'. destruct (in_dec Nat.eq_dec k' (keys t)) as [Hi|Hn]; [rewrite <- G by auto; apply V|rewrite umap_get_absent by auto; constructor].
    + intros k1 k2 i H1' H2'.
      assert (K1 : In k1 (keys t)). { destruct (in_dec Nat.eq_dec k1 (keys t)); auto. rewrite umap_get_absent in H1' by auto. destruct H1'. }
      assert (K2 : In k2 (keys t)). { destruct (in_dec Nat.eq_dec k2 (keys t)); auto. rewrite umap_get_absent in H2' by auto. destruct H2'. }
      apply (D k1 k2 i); rewrite G; auto.
  - intros i Hi Hc. fold (make_indices t) in Hc. apply make_indices_in in Hc as (k' & Hk' & Hi'); [|auto].
    assert (k = k') by (apply (D k k' i); [rewrite G0; auto|rewrite G; auto]). subst k'. contradiction.
Qed.

Lemma step_x_length {A} pl (e : event A) s s' p : step pl e s = Some s' -> length (p_x (procs_of s' p)) = length (p_x (procs_of s p)).
Proof.
  intro H. destruct e as [r x|r y|r q|r q]; cbn [step] in H.
  - destruct (Nat.eqb_spec (length x) (length (p_x (procs_of s r)))); [|discriminate]. inversion H; subst. cbn. unfold set_fun.
    destruct (Nat.eqb_spec p r); subst; auto.
  - destruct (_ && _); [|discriminate]. destruct (pack _ _); [|discriminate]. cbn [bind] in H. inversion H; subst. cbn. unfold set_fun.
    destruct (Nat.eqb_spec p r); subst; auto.
  - destruct (find_block _ _); [|discriminate]. cbn [bind] in H. destruct (read_block _ _ _); [|discriminate]. cbn [bind] in H.
    inversion H; subst. cbn. unfold set_fun. destruct (Nat.eqb_spec p r); subst; auto.
  - destruct (find_block _ _); [|discriminate]. cbn [bind] in H. destruct (chan s r q); [discriminate|]. destruct (_ =? _); [|discriminate].
    destruct (write_block _ _ _); [|discriminate]. cbn [bind] in H. inversion H; subst. cbn. unfold set_fun. destruct (Nat.eqb_spec p q); subst; auto.
Qed.
Lemma run_x_length {A} pl es : forall (s s' : state A) p, run pl es s = Some s' -> length (p_x (procs_of s' p)) = length (p_x (procs_of s p)).
Proof.
  induction es as [|e t IH]; intros s s' p H; cbn [run] in H; [inversion H; auto|].
  destruct (step pl e s) as [s1|] eqn:E; [|discriminate]. cbn [bind] in H. rewrite (IH _ _ _ H). eapply step_x_length; eauto.
Qed.

(** C22, main statement.  Each rank holds its own items in x and builds its plan from owners and
    shared ranks; maps are iterated in any order.  In every execution, once wait_scatter has returned
    on rank q after its k-th begin_scatter, the composite view of q shows for its own items the
    current x, and for every ghost item the value its owner had in x at its k-th begin_scatter. *)
Theorem ghost_exchange_correct : forall {A} procs gid own sh nl sm rm (x0 : nat -> list A) es s q,
  shared_items procs gid own sh nl ->
  plans_of procs own sh sm rm ->
  (forall p, p < procs -> length (x0 p) = nl p) ->
  let pl p := setup (sm p) (rm p) in
  run pl es (start x0) = Some s -> q < procs -> idle (procs_of s q) = true ->
  let k := length (begins pl q es (start x0)) in
  0 < k ->
  exists m, sparse_index (recv_indices (pl q)) = Some m /\
  forall i g, nth_error (gid q) i = Some g ->
    view_has (p_x (procs_of s q)) m i = true /\
    (nth_error (own q) i = Some q ->
       view_get (p_x (procs_of s q)) m (p_y (procs_of s q)) i = nth_error (p_x (procs_of s q)) i) /\
    (forall p j, p <> q -> nth_error (own q) i = Some p -> nth_error (gid p) j = Some g ->
       exists x v, nth_error (begins pl p es (start x0)) (k - 1) = Some x /\ nth_error x j = Some v /\
         view_get (p_x (procs_of s q)) m (p_y (procs_of s q)) i = Some v).
Proof.
  intros A procs gid own sh nl sm rm x0 es s q SI PO LX pl R Hq Id k Hk.
  pose proof (plans_match_of procs gid own sh nl sm rm SI PO) as PM.
  destruct (scatter_correct procs sm rm x0 es s q PM R Hq Id Hk) as [Ly SC]. fold pl k in SC, Ly.
  destruct (maps_spec procs gid own sh nl sm rm SI PO q Hq) as (_ & [NK FL] & EL).
  assert (OWN : forall p i, In i (umap_get (rm q) p) -> p < procs /\ nth_error (own q) i = Some p).
  { intros p i Hi. assert (Hp : p < procs).
    { destruct PM as (_ & _ & _ & B). apply (B q p Hq). right. fold (keys (rm q)). apply (full_keys _ _ FL).
      intro E. rewrite E in Hi. destruct Hi. }
    split; auto. apply (received procs gid own sh nl sm rm SI PO p q i Hp Hq) in Hi. tauto. }
  assert (ND : NoDup (make_indices (rm q))).
  { apply make_indices_nodup; auto.
    - intro p. rewrite (proj2 (EL p)). assert (Ss := recv_list_sorted q (combine (own q) (sh q)) p 0).
      revert Ss. generalize (recv_list q 0 (combine (own q) (sh q)) p). induction l as [|a t IHl]; intro Ss; constructor; inversion Ss; subst; auto.
      rewrite Forall_forall in H2. intro Ha. specialize (H2 a Ha). lia.
    - intros p p' i H1 H2. apply OWN in H1 as [_ H1]. apply OWN in H2 as [_ H2]. congruence. }
  destruct (sparse_index_spec _ ND) as (m & Em & G & Hh). exists m. split; [exact Em|].
  assert (LXq : length (p_x (procs_of s q)) = nl q).
  { rewrite (run_x_length _ _ _ _ q R). apply LX. auto. }
  intros i g Hg. assert (Li : i < length (gid q)) by (apply nth_error_Some; congruence).
  pose proof (si_first _ _ _ _ _ SI q i Hq Li) as F.
  destruct (nth_error_lt (own q) i) as [o Ho]; [destruct (si_len _ _ _ _ _ SI q Hq); lia|].
  assert (GH : forall p, p <> q -> nth_error (own q) i = Some p ->
     p < procs /\ In i (umap_get (rm q) p) /\ In p (map fst (rm q)) /\ length (p_x (procs_of s q)) <= i).
  { intros p N Hop. destruct (si_owner_has _ _ _ _ _ SI q i g p Hq Hg Hop) as [Hp Hgp].
    assert (Hi : In i (umap_get (rm q) p)) by (apply (received procs gid own sh nl sm rm SI PO p q i Hp Hq); auto).
    split; auto. split; auto. split.
    - apply (full_keys _ _ FL). intro E. rewrite E in Hi. destruct Hi.
    - rewrite LXq. destruct (Nat.lt_ge_cases i (nl q)) as [H|H]; auto. apply F in H. congruence. }
  split; [|split].
  - unfold view_has. destruct (Nat.ltb_spec i (length (p_x (procs_of s q)))) as [|H]; auto.
    apply Hh. destruct (Nat.eq_dec o q) as [->|N].
    + apply F in Ho. lia.
    + destruct (GH o N Ho) as (Hp & Hi & Hkey & _). apply make_indices_in; auto. exists o. auto.
  - intro Hoq. apply F in Hoq. unfold view_get. rewrite (proj2 (Nat.ltb_lt _ _)); auto. lia.
  - intros p j N Hop Hj. destruct (GH p N Hop) as (Hp & Hi & Hkey & Hlen).
    destruct (SC p Hkey) as (x & Ex & Sx). apply In_nth_error in Hi as [t Ht].
    pose proof (same_items procs gid own sh nl sm rm SI PO p q Hp Hq) as SE.
    assert (Lt : t < length (umap_get (sm p) q)).
    { destruct PM as (_ & _ & L & _). rewrite L by auto. apply nth_error_Some. congruence. }
    destruct (nth_error_lt _ _ Lt) as [js Hjs].
    assert (Ejs : js = j).
    { apply (f_equal (fun l => nth_error l t)) in SE. rewrite !nth_error_map, Ht, Hjs in SE. cbn in SE. inversion SE as [SE'].
      rewrite (nth_error_nth _ _ 0 Hg) in SE'. assert (Hin : In js (umap_get (sm p) q)) by (eapply nth_error_In; eauto).
      apply (sent procs gid own sh nl sm rm SI PO p q js Hp Hq) in Hin as (g' & Hg' & _).
      rewrite (nth_error_nth _ _ 0 Hg') in SE'. subst g'.
      apply (proj1 (NoDup_nth_error (gid p)) (si_nodup _ _ _ _ _ SI p Hp)); [apply nth_error_Some; congruence|congruence]. }
    subst js. destruct (Sx t j i Hjs Ht) as (slot & S1 & S2 & S3).
    destruct (nth_error x j) as [v|] eqn:Ev; [|congruence]. exists x, v. split; auto. split; auto.
    unfold view_get. rewrite (proj2 (Nat.ltb_ge _ _)) by auto. unfold sparse_get. rewrite (G slot i S1). auto.
Qed.
Print Assumptions ghost_exchange_correct.

(** begin_scatter is defined on every idle rank. *)
Theorem ghost_begin_defined : forall {A} procs gid own sh nl sm rm (x0 : nat -> list A) es s q y,
  shared_items procs gid own sh nl -> plans_of procs own sh sm rm ->
  (forall p, p < procs -> length (x0 p) = nl p) ->
  let pl p := setup (sm p) (rm p) in
  run pl es (start x0) = Some s -> q < procs -> idle (procs_of s q) = true ->
  length y = length (recv_indices (pl q)) ->
  step pl (EBegin q y) s <> None.
Proof.
  intros A procs gid own sh nl sm rm x0 es s q y SI PO LX pl R Hq Id Ly. cbn [step]. rewrite Id, Ly, Nat.eqb_refl. cbn [andb].
  destruct (pack_ok (p_x (procs_of s q)) (send_indices (pl q))) as [b Hb]; [|rewrite Hb; cbn; discriminate].
  intros i Hi. cbn in Hi. destruct (maps_spec procs gid own sh nl sm rm SI PO q Hq) as ([NK FL] & _ & EL).
  apply make_indices_in in Hi as (k & Hk & Hi); auto. rewrite (proj1 (EL k)) in Hi.
  apply send_list_in in Hi as (s' & _ & Hn & _). rewrite Nat.sub_0_r in Hn. apply nth_error_combine in Hn as [Ho _].
  rewrite (run_x_length _ _ _ _ q R). cbn. rewrite LX by auto.
  apply (si_first _ _ _ _ _ SI q i Hq); auto. destruct (si_len _ _ _ _ _ SI q Hq) as [L _]. rewrite <- L. apply nth_error_Some. congruence.
Qed.
Print Assumptions ghost_begin_defined.

(** SimpleScatter: after the exchange the received values are stored at recv_indices, everything
    else is unchanged. *)
Theorem simple_scatter_unpack : forall {A} idx (buf data : list A),
  NoDup idx -> length buf = length idx -> (forall i, In i idx -> i < length data) ->
  exists d, unpack data buf idx = Some d /\ length d = length data /\
    (forall j i, nth_error idx j = Some i -> nth_error d i = nth_error buf j) /\
    (forall i, ~ In i idx -> nth_error d i = nth_error data i).
Proof.
  intros A idx; induction idx as [|a t IH]; intros buf data N L B; cbn [unpack].
  - exists data. split; [destruct buf; auto|]. split; auto. split; auto. intros [|j] i H; discriminate.
  - destruct buf as [|v b]; [discriminate|]. inversion N; subst.
    cbn [unpack]. destruct (upd_ok data a v) as [d1 E]; [apply B; left; auto|]. rewrite E. cbn [bind].
    pose proof (upd_spec _ _ _ _ E) as (Ld & Ha & Sd).
    destruct (IH b d1) as (d & Ed & Ll & G & O); auto.
    { intros i Hi. rewrite Ld. apply B. right. auto. }
    exists d. split; auto. split; [lia|]. split.
    + intros [|j] i Hj; cbn in Hj |- *; [|auto]. inversion Hj; subst. rewrite O by auto. rewrite Sd, Nat.eqb_refl. auto.
    + intros i Hi. rewrite O by (intro; apply Hi; right; auto). rewrite Sd. destruct (Nat.eqb_spec i a) as [->|]; auto.
      exfalso. apply Hi. left. auto.
Qed.
Print Assumptions simple_scatter_unpack.

(** Two ranks, two rounds; rank 0 owns items 0,1,2, rank 1 owns 3,4; 1 and 2 are ghosts on rank 1,
    3 on rank 0. *)
Example ghost_ex :
  let own p := match p with 0 => [0; 0; 0; 1] | _ => [1; 1; 0; 0] end in
  let sh p := match p with 0 => [[]; [1]; [1]; [1]] | _ => [[0]; []; [0]; [0]] end in
  let sm p := fst (plan_maps p (combine (own p) (sh p))) in
  let rm p := snd (plan_maps p (combine (own p) (sh p))) in
  let pl p := setup (sm p) (rm p) in
  let es := [EBegin 0 [0]; EWrite 0 [11; 21; 31]; EInject 0 1; EBegin 1 [0; 0]; EMatch 0 1; EInject 1 0; EMatch 1 0;
             EBegin 0 [7]; EInject 0 1; EWrite 1 [41; 51]; EBegin 1 [7; 7]; EMatch 0 1] in
  match run pl es (start (fun p => match p with 0 => [10; 20; 30] | _ => [40; 50] end)) with
  | Some s => p_y (procs_of s 1) = [21; 31] /\ recv_indices (pl 1) = [2; 3] /\ idle (procs_of s 1) = false /\
              begins pl 0 es (start (fun p => match p with 0 => [10; 20; 30] | _ => [40; 50] end)) = [[10; 20; 30]; [11; 21; 31]]
  | None => False
  end.
Proof. vm_compute. repeat split; reflexivity. Qed.
Example ghost_ex_items :
  let gid p := match p with 0 => [0; 1; 2; 3] | _ => [3; 4; 1; 2] end in
  let own p := match p with 0 => [0; 0; 0; 1] | _ => [1; 1; 0; 0] end in
  let sh p := match p with 0 => [[]; [1]; [1]; [1]] | _ => [[0]; []; [0]; [0]] end in
  shared_items 2 gid own sh (fun p => match p with 0 => 3 | _ => 2 end).
Proof.
  cbv zeta. split.
  - intros [|[|]] H; cbn; lia.
  - intros [|[|]] H; [| |lia]; repeat constructor; cbn; intuition discriminate.
  - intros [|[|p]] [|[|q]] [|[|[|[|[|i]]]]] [|[|[|[|[|j]]]]] g Hp Hq; try lia; cbn; congruence.
  - intros [|[|p]] [|[|[|[|[|i]]]]] g o Hp; try lia; cbn; intros; try discriminate;
      repeat match goal with H : Some _ = Some _ |- _ => inversion H; clear H end; subst; cbn; intuition lia.
  - intros [|[|p]] [|[|[|[|i]]]] Hp; try lia; cbn; intro; split; intro; auto; try lia; try discriminate.
  - intros [|[|p]] [|[|[|[|[|i]]]]] g r Hp; try lia; cbn; intros E; try discriminate; inversion E; subst;
      (split; [intro H; repeat destruct H as [H|H]; subst; cbn; repeat split; auto; try lia; tauto|]);
      intros (Hr & N & H); destruct r as [|[|]]; try lia; cbn in H; auto; repeat destruct H as [H|H]; try discriminate; tauto.
  - intros [|[|p]] [|[|[|[|[|i]]]]] Hp; try lia; repeat constructor; cbn; intuition discriminate.
  - intros [|[|p]] [|[|[|[|[|i]]]]] [|[|[|[|[|j]]]]] g h o Hp Hij; try lia; cbn; intros; try discriminate;
      repeat match goal with H : Some _ = Some _ |- _ => inversion H; clear H end; subst; try discriminate; lia.
Qed.
