(** Property theorems: numbering of the facets of a boundary across ranks (C24). *)
Require Import List Arith Lia Bool Sorted Permutation.
Require Import Verif.Base Verif.LocalMeshModel Verif.LocalMeshProps Verif.TopoModel Verif.TopoSpec Verif.TopoProofs Verif.TopoCheck
  Verif.ScatterModel Verif.ScatterProofs Verif.ScatterProps Verif.BoundaryMapModel.
Import ListNotations.
Local Open Scope opt_scope.

(** * Specification *)
(** Rank r owns an element at facet i. *)
Definition meets (m : topo_mesh) (i r : nat) : Prop :=
  exists e, contains m e i /\ nth_error (tm_owner m) e = Some r.
Definition has_bc (m : topo_mesh) (bc i : nat) : Prop :=
  exists b, tm_bc m = Some b /\ nth_error b i = Some bc.
(** Local meshes of all ranks that belong together: on each rank the elements it owns are the local
    ones and facets have distinct global numbers; a local facet where rank q owns an element is a
    local facet of q, too, with the same global number and the same boundary condition, and q knows
    the other half's owner. *)
Record facet_ranks (k procs : nat) (m : nat -> topo_mesh) (fgid : nat -> list nat) : Prop := {
  fk_mesh : forall p, p < procs -> topo_ok k (m p);
  fk_own : forall p e o, p < procs -> nth_error (tm_owner (m p)) e = Some o -> (o = p <-> e < tm_num_local (m p));
  fk_gid_len : forall p, p < procs -> length (fgid p) = length (tm_facets (m p));
  fk_gid : forall p, p < procs -> NoDup (fgid p);
  fk_halves : forall p i q, p < procs -> i < tm_num_local_facets (m p) -> meets (m p) i q ->
    q < procs /\
    exists j, j < tm_num_local_facets (m q) /\ nth j (fgid q) 0 = nth i (fgid p) 0 /\ meets (m q) j p /\
      forall bc, has_bc (m p) bc i <-> has_bc (m q) bc j }.

(** * Sorting *)
Lemma key_lt_spec a b : key_lt a b = true <->
  fst (fst a) < fst (fst b) \/ fst (fst a) = fst (fst b) /\ (snd (fst a) < snd (fst b) \/ snd (fst a) = snd (fst b) /\ snd a < snd b).
Proof.
  destruct a as [[a0 a1] a2], b as [[b0 b1] b2]. unfold key_lt. cbn [fst snd].
  rewrite !orb_true_iff, !andb_true_iff, !orb_true_iff, !andb_true_iff, !Nat.ltb_lt, !Nat.eqb_eq. tauto.
Qed.
Lemma key_ge_spec a b : key_lt a b = false <->
  ~ (fst (fst a) < fst (fst b) \/ fst (fst a) = fst (fst b) /\ (snd (fst a) < snd (fst b) \/ snd (fst a) = snd (fst b) /\ snd a < snd b)).
Proof. rewrite <- key_lt_spec. destruct (key_lt a b); split; congruence || tauto. Qed.

Fixpoint insert_by {A} (lt : A -> A -> bool) (x : A) (l : list A) : list A :=
  match l with [] => [x] | y :: t => if lt y x then y :: insert_by lt x t else x :: l end.
Lemma insert_by_perm {A} (lt : A -> A -> bool) x l : Permutation (x :: l) (insert_by lt x l).
Proof. induction l as [|y t IH]; cbn; auto. destruct (lt y x); auto. rewrite perm_swap. auto. Qed.
Lemma std_sorted_exists {A} (f : A -> nat * nat * nat) l :
  exists s, std_sorted (fun x y => key_lt (f x) (f y)) l s.
Proof.
  induction l as [|x t (s & P & S)].
  - exists []. split; constructor.
  - exists (insert_by (fun x y => key_lt (f x) (f y)) x s). split.
    + rewrite <- insert_by_perm. auto.
    + clear P t. induction s as [|y s IH]; cbn; [repeat constructor|].
      inversion S as [|? ? Ss Fs]; subst. rewrite Forall_forall in Fs.
      destruct (key_lt (f y) (f x)) eqn:E.
      * constructor; auto. apply Forall_forall. intros z Hz.
        eapply Permutation_in in Hz; [|symmetry; apply insert_by_perm]. destruct Hz as [<-|Hz]; auto.
        apply key_lt_spec in E. apply key_ge_spec. lia.
      * constructor; auto. apply Forall_forall. intros z [<-|Hz]; auto.
        specialize (Fs z Hz). apply key_ge_spec in E, Fs. apply key_ge_spec. lia.
Qed.

(** * Positions *)
Fixpoint pos_list {A} (P : A -> bool) (n : nat) (l : list A) : list nat :=
  match l with [] => [] | a :: t => (if P a then [n] else []) ++ pos_list P (n + 1) t end.
Lemma pos_list_snoc {A} (P : A -> bool) l a : forall n,
  pos_list P n (l ++ [a]) = pos_list P n l ++ (if P a then [n + length l] else []).
Proof.
  induction l as [|b t IH]; intro n; cbn; [rewrite Nat.add_0_r, app_nil_r; auto|].
  rewrite IH, app_assoc. replace (n + 1 + length t) with (n + S (length t)) by lia. auto.
Qed.
Lemma pos_list_in {A} (P : A -> bool) l : forall n i, In i (pos_list P n l) <->
  exists a, n <= i /\ nth_error l (i - n) = Some a /\ P a = true.
Proof.
  induction l as [|b t IH]; intros n i; cbn [pos_list].
  - split; [intros []|]. intros (a & _ & E & _). destruct (i - n); discriminate.
  - rewrite in_app_iff, IH. split.
    + intros [H|(a & H1 & H2 & H3)].
      * destruct (P b) eqn:Q; [|destruct H]. destruct H as [<-|[]]. exists b. rewrite Nat.sub_diag. auto.
      * exists a. split; [lia|]. replace (i - n) with (S (i - (n + 1))) by lia. auto.
    + intros (a & H1 & H2 & H3). destruct (Nat.eq_dec i n) as [->|Hn].
      * rewrite Nat.sub_diag in H2. injection H2 as ->. left. rewrite H3. left; auto.
      * right. exists a. replace (i - n) with (S (i - (n + 1))) in H2 by lia. split; [lia|auto].
Qed.
Lemma pos_list_sorted {A} (P : A -> bool) l : forall n, StronglySorted lt (pos_list P n l).
Proof.
  induction l as [|b t IH]; intro n; cbn [pos_list]; [constructor|].
  destruct (P b); cbn [app]; auto. constructor; auto. apply Forall_forall. intros i Hi.
  apply pos_list_in in Hi as (a & H & _). lia.
Qed.

(** * Collecting the facets *)
(** o is the owner across facet f: this rank and o own all elements there. *)
Definition other_of (m : topo_mesh) (rank f o : nat) : Prop :=
  meets m f rank /\ meets m f o /\ forall r, meets m f r -> r = rank \/ r = o.

Lemma other_rank_spec rank ows : In rank ows -> length ows <= 2 ->
  exists o, other_rank_loop rank ows 0 ows None = Some o /\ In o ows /\ forall r, In r ows -> r = rank \/ r = o.
Proof.
  intros H L. destruct ows as [|a [|b [|]]]; cbn in L; try lia; [destruct H| |].
  - destruct H as [->|[]]. cbn. rewrite Nat.eqb_refl. exists rank. cbn. intuition.
  - cbn. destruct (Nat.eqb_spec a rank) as [Ha|Ha], (Nat.eqb_spec b rank) as [Hb|Hb].
    + exists a. cbn. intuition.
    + exists b. cbn. intuition.
    + exists a. cbn. intuition.
    + cbn in H. intuition congruence.
Qed.

Definition has_bcb (m : topo_mesh) (bc i : nat) : bool :=
  match tm_bc m with Some b => match nth_error b i with Some x => x =? bc | None => false end | None => false end.
Lemma has_bcb_spec m bc i : has_bcb m bc i = true <-> has_bc m bc i.
Proof.
  unfold has_bcb, has_bc. destruct (tm_bc m) as [b|].
  - destruct (nth_error b i) as [x|] eqn:E.
    + rewrite Nat.eqb_eq. split; [intros ->; eauto|]. intros (b' & [= <-] & E'). congruence.
    + split; [discriminate|]. intros (b' & [= <-] & E'). congruence.
  - split; [discriminate|]. intros (b' & E & _). discriminate.
Qed.

Lemma bnd_collect_spec k rank bc m um : topo_ok k m -> facet_upward k m = Some um ->
  (forall e o, nth_error (tm_owner m) e = Some o -> (o = rank <-> e < tm_num_local m)) ->
  forall fcts, (forall f, In f fcts -> f < tm_num_local_facets m) ->
  exists l, bnd_collect rank bc m um fcts = Some l /\ map snd l = filter (has_bcb m bc) fcts /\
    forall o f, In (o, f) l -> other_of m rank f o.
Proof.
  intros O Eum Own. destruct (facet_upward_spec k m O) as (um' & E' & Lum & Hum). assert (um' = um) by congruence. subst um'.
  induction fcts as [|f t IH]; intro H; cbn [bnd_collect].
  - exists []. cbn. split; auto. split; auto. intros o f [].
  - destruct IH as (l & El & Ml & Hl); [intros; apply H; right; auto|].
    assert (Hf : f < tm_num_local_facets m) by (apply H; left; auto).
    destruct (to_bc _ _ O) as (b & Eb & Lb). pose proof (to_facets_le _ _ O).
    destruct (nth_error_lt b f) as [x Ex]; [lia|]. rewrite Eb. cbn [bind]. rewrite Ex. cbn [bind filter].
    unfold has_bcb at 1. rewrite Eb, Ex. destruct (x =? bc).
    + destruct (Hum f) as (u & Eu & Su & Hu); [lia|]. rewrite Eu. cbn [bind].
      destruct (map_opt_spec (nth_error (tm_owner m)) u) as (ows & Eo & Lo & Ho).
      { intros e He. apply nth_error_lt. rewrite (to_owner _ _ O). apply (contains_lt m e f). apply Hu; auto. }
      rewrite Eo. cbn [bind].
      assert (Iff : forall r, In r ows <-> meets m f r).
      { intro r. split.
        - intro Hr. apply In_nth_error in Hr as [i Ei]. destruct (nth_error_lt u i) as [e Ee].
          { rewrite <- Lo. apply nth_error_Some. congruence. }
          destruct (Ho i e Ee) as (o & E1 & E2). exists e. split; [apply Hu; eapply nth_error_In; eauto|congruence].
        - intros (e & C & Er). apply Hu in C. apply In_nth_error in C as [i Ei].
          destruct (Ho i e Ei) as (o & E1 & E2). assert (o = r) by congruence. subst. eapply nth_error_In; eauto. }
      assert (Lu : length u <= 2).
      { destruct u as [|e0 [|e1 [|e2 u]]]; cbn; try lia. exfalso.
        inversion Su as [|? ? S1 F1]; subst. inversion S1 as [|? ? S2 F2]; subst. inversion F1; subst. inversion F2; subst.
        destruct (to_two _ _ O f e0 e1 e2); try (apply Hu; cbn; auto); lia. }
      destruct (other_rank_spec rank ows) as (o & Eor & Io & Ro); [|lia|].
      { apply Iff. apply (to_local_facets _ _ O) in Hf as (e & He & C); [|lia].
        destruct (nth_error_lt (tm_owner m) e) as [r Er]; [rewrite (to_owner _ _ O); apply (contains_lt m e f C)|].
        exists e. split; auto. rewrite Er. f_equal. apply (Own e); auto. }
      rewrite Eor. cbn [bind]. rewrite El. cbn [bind]. eexists. split; [reflexivity|]. split; [cbn; congruence|].
      intros o' f' [E|Hin]; auto. injection E as <- <-. split; [|split].
      * apply Iff. apply (to_local_facets _ _ O) in Hf as (e & He & C); [|lia].
        destruct (nth_error_lt (tm_owner m) e) as [r Er]; [rewrite (to_owner _ _ O); apply (contains_lt m e f C)|].
        apply Iff. exists e. split; auto. rewrite Er. f_equal. apply (Own e); auto.
      * apply Iff; auto.
      * intros r Hr. apply Ro. apply Iff; auto.
    + exists l. auto.
Qed.

(** * The loop *)
Record filled (rank nlf : nat) (done : list (nat * nat)) (b : bnd_map) : Prop := {
  fd_fct : bm_fct b = map snd done;
  fd_len : length (bm_bnd b) = nlf;
  fd_bnd : forall i n, nth_error (bm_bnd b) i = Some (Some n) <-> nth_error (map snd done) n = Some i;
  fd_loc : bm_local b = length (filter (fun a => rank <=? fst a) done);
  fd_send : forall q, umap_get (bm_send b) q = pos_list (fun a => (rank <? fst a) && (fst a =? q)) 0 done;
  fd_recv : forall q, umap_get (bm_recv b) q = pos_list (fun a => (fst a <? rank) && (fst a =? q)) 0 done;
  fd_sk : NoDup (keys (bm_send b)) /\ full (bm_send b);
  fd_rk : NoDup (keys (bm_recv b)) /\ full (bm_recv b) }.

Lemma filter_all {A} (f : A -> bool) l : (forall a, In a l -> f a = true) -> filter f l = l.
Proof. induction l as [|a t IH]; cbn; intro H; auto. rewrite H by auto. f_equal. apply IH. intros; apply H; auto. Qed.

Lemma bnd_fill_spec rank nlf : forall l done b, filled rank nlf done b ->
  NoDup (map snd (done ++ l)) -> (forall o f, In (o, f) l -> f < nlf) ->
  (forall d1 o f d2, done ++ l = d1 ++ (o, f) :: d2 -> rank <= o -> forall a, In a d1 -> rank <= fst a) ->
  exists b', bnd_fill rank l b = Some b' /\ filled rank nlf (done ++ l) b'.
Proof.
  induction l as [|[o f] t IH]; intros done b F N B Sd; cbn [bnd_fill].
  - rewrite app_nil_r. eauto.
  - destruct F as [F1 F2 F3 F4 F5 F6 F7 F8].
    destruct (upd_ok (bm_bnd b) f (Some (length (bm_fct b)))) as [bnd Eb]; [rewrite F2; eapply B; left; eauto|].
    rewrite Eb. cbn [bind]. destruct (upd_spec _ _ _ _ Eb) as (L1 & Lf & N1).
    assert (Hl : (if rank <=? o then if length (bm_fct b ++ [f]) =? bm_local b + 1 then Some (bm_local b + 1) else None
       else Some (bm_local b)) = Some (length (filter (fun a => rank <=? fst a) (done ++ [(o, f)])))).
    { rewrite filter_app, app_length, F4. cbn [filter fst]. destruct (Nat.leb_spec rank o) as [Hr|Hr].
      - rewrite F1, app_length, map_length. cbn [length].
        rewrite (filter_all _ done).
        + rewrite Nat.eqb_refl. auto.
        + intros a Ha. apply Nat.leb_le. eapply Sd; eauto.
      - rewrite app_nil_r. auto. }
    rewrite Hl. cbn [bind].
    rewrite F1, map_length in *.
    replace (done ++ (o, f) :: t) with ((done ++ [(o, f)]) ++ t) in * by (rewrite <- app_assoc; auto).
    assert (Bnd : forall i n, nth_error bnd i = Some (Some n) <-> nth_error (map snd (done ++ [(o, f)])) n = Some i).
    { intros i n. rewrite N1, map_app. cbn [map snd].
      assert (Nf : ~ In f (map snd done)).
      { rewrite !map_app in N. cbn [map snd] in N. rewrite <- app_assoc in N. apply NoDup_remove_2 in N.
        intro Hc. apply N. apply in_or_app. auto. }
      destruct (Nat.eqb_spec i f) as [->|Hi].
      - split.
        + intros [= <-]. rewrite nth_error_app2, map_length, Nat.sub_diag by (rewrite map_length; auto). auto.
        + intro E. f_equal. f_equal. destruct (Nat.lt_ge_cases n (length done)) as [Hn|Hn].
          * rewrite nth_error_app1 in E by (rewrite map_length; auto). exfalso. apply Nf. eapply nth_error_In; eauto.
          * assert (n < length (map snd done ++ [f])) by (apply nth_error_Some; congruence).
            rewrite app_length, map_length in H. cbn in H. lia.
      - rewrite F3. destruct (Nat.lt_ge_cases n (length done)) as [Hn|Hn].
        + rewrite nth_error_app1 by (rewrite map_length; auto). tauto.
        + rewrite nth_error_app2 by (rewrite map_length; auto). rewrite (proj2 (nth_error_None _ _)) by (rewrite map_length; auto).
          rewrite map_length. destruct (n - length done) as [|x]; cbn; [split; congruence|destruct x; split; discriminate]. }
    destruct (negb (rank =? o)) eqn:Q.
    + apply negb_true_iff, Nat.eqb_neq in Q. destruct (Nat.ltb_spec rank o) as [Hr|Hr].
      * apply IH; auto.
        -- constructor; cbn [bm_fct bm_bnd bm_local bm_send bm_recv]; auto.
           ++ rewrite map_app. auto.
           ++ congruence.
           ++ intro q. rewrite umap_push_get, F5, pos_list_snoc. cbn [fst]. f_equal.
              destruct (Nat.ltb_spec rank o); [|lia]. auto.
           ++ intro q. rewrite F6, pos_list_snoc. cbn [fst]. destruct (Nat.ltb_spec o rank); [lia|]. cbn [andb]. rewrite app_nil_r. auto.
           ++ split; [apply umap_push_nodup|apply umap_push_full]; tauto.
        -- intros; eapply B; right; eauto.
      * apply IH; auto.
        -- constructor; cbn [bm_fct bm_bnd bm_local bm_send bm_recv]; auto.
           ++ rewrite map_app. auto.
           ++ congruence.
           ++ intro q. rewrite F5, pos_list_snoc. cbn [fst]. destruct (Nat.ltb_spec rank o); [lia|]. cbn [andb]. rewrite app_nil_r. auto.
           ++ intro q. rewrite umap_push_get, F6, pos_list_snoc. cbn [fst]. f_equal.
              destruct (Nat.ltb_spec o rank); [|lia]. auto.
           ++ split; [apply umap_push_nodup|apply umap_push_full]; tauto.
        -- intros; eapply B; right; eauto.
    + apply negb_false_iff, Nat.eqb_eq in Q. apply IH; auto.
      * constructor; cbn [bm_fct bm_bnd bm_local bm_send bm_recv]; auto.
        -- rewrite map_app. auto.
        -- congruence.
        -- intro q. rewrite F5, pos_list_snoc. cbn [fst]. destruct (Nat.ltb_spec rank o); [lia|]. cbn [andb]. rewrite app_nil_r. auto.
        -- intro q. rewrite F6, pos_list_snoc. cbn [fst]. destruct (Nat.ltb_spec o rank); [lia|]. cbn [andb]. rewrite app_nil_r. auto.
      * intros; eapply B; right; eauto.
Qed.

(** * One rank *)
Lemma map_filter_seq_nodup (f : nat -> bool) n : NoDup (filter f (seq 0 n)).
Proof. apply NoDup_filter, seq_NoDup. Qed.

Lemma boundary_map_filled k rank bc m fgid : topo_ok k m ->
  (forall e o, nth_error (tm_owner m) e = Some o -> (o = rank <-> e < tm_num_local m)) ->
  (forall s um l, facet_upward k m = Some um ->
     bnd_collect rank bc m um (seq 0 (tm_num_local_facets m)) = Some l ->
     std_sorted (fun x y => key_lt (bnd_key rank fgid x) (bnd_key rank fgid y)) l s ->
     exists b, bnd_fill rank s (bnd_start m) = Some b /\ filled rank (tm_num_local_facets m) s b) /\
  (forall s um l, facet_upward k m = Some um ->
     bnd_collect rank bc m um (seq 0 (tm_num_local_facets m)) = Some l ->
     std_sorted (fun x y => key_lt (bnd_key rank fgid x) (bnd_key rank fgid y)) l s ->
     NoDup (map snd s) /\ (forall f, In f (map snd s) <-> f < tm_num_local_facets m /\ has_bc m bc f) /\
     (forall o f, In (o, f) s -> other_of m rank f o)) /\
  exists um l, facet_upward k m = Some um /\ bnd_collect rank bc m um (seq 0 (tm_num_local_facets m)) = Some l.
Proof.
  intros O Own. destruct (facet_upward_spec k m O) as (um & Eum & _).
  destruct (bnd_collect_spec k rank bc m um O Eum Own (seq 0 (tm_num_local_facets m))) as (l & El & Ml & Hl).
  { intros f Hf. apply in_seq in Hf. lia. }
  assert (G : forall s um' l', facet_upward k m = Some um' ->
     bnd_collect rank bc m um' (seq 0 (tm_num_local_facets m)) = Some l' ->
     std_sorted (fun x y => key_lt (bnd_key rank fgid x) (bnd_key rank fgid y)) l' s ->
     NoDup (map snd s) /\ (forall f, In f (map snd s) <-> f < tm_num_local_facets m /\ has_bc m bc f) /\
     (forall o f, In (o, f) s -> other_of m rank f o)).
  { intros s um' l' E1 E2 [P _]. assert (um' = um) by congruence. subst. assert (l' = l) by congruence. subst.
    split; [|split].
    - eapply Permutation_NoDup; [apply Permutation_map; exact P|]. rewrite Ml. apply map_filter_seq_nodup.
    - intro f. split.
      + intro H. eapply Permutation_in in H; [|apply Permutation_map; symmetry; exact P]. rewrite Ml in H.
        apply filter_In in H as [H1 H2]. apply in_seq in H1. apply has_bcb_spec in H2. split; [lia|auto].
      + intros [H1 H2]. eapply Permutation_in; [apply Permutation_map; exact P|]. rewrite Ml. apply filter_In.
        split; [apply in_seq; lia|apply has_bcb_spec; auto].
    - intros o f H. apply Hl. eapply Permutation_in; [symmetry; exact P|auto]. }
  split; [|split; [exact G|eauto]].
  intros s um' l' E1 E2 E3. destruct (G s um' l' E1 E2 E3) as (G1 & G2 & G3).
  destruct (bnd_fill_spec rank (tm_num_local_facets m) s [] (bnd_start m)) as (b & Eb & Fb); auto.
  - constructor; cbn; auto.
    + apply repeat_length.
    + intros i n. split.
      * intro H. apply nth_error_In, repeat_spec in H. discriminate.
      * destruct n; discriminate.
    + split; [constructor|]. intros ? [].
    + split; [constructor|]. intros ? [].
  - intros o f H. apply (G2 f). apply (in_map snd) in H. auto.
  - cbn [app]. intros d1 o f d2 Es Ho a Ha. subst s. destruct E3 as [_ Sd].
    destruct (Nat.le_gt_cases rank (fst a)) as [|Hlt]; auto. exfalso.
    apply in_split in Ha as (x1 & x2 & ->). rewrite <- app_assoc in Sd. cbn [app] in Sd.
    assert (K : key_lt (bnd_key rank fgid (o, f)) (bnd_key rank fgid a) = false).
    { clear - Sd. induction x1 as [|y x1 IH]; cbn [app] in Sd; inversion Sd as [|? ? S1 F1]; subst; auto.
      rewrite Forall_forall in F1. apply F1. apply in_or_app. right; left; auto. }
    apply key_ge_spec in K. apply K. left. unfold bnd_key. cbn [fst].
    destruct (Nat.leb_spec rank o); [|lia]. destruct (Nat.leb_spec rank (fst a)); lia.
  - eauto.
Qed.

(** C24a: the numbering exists; it does not depend on the sort algorithm. *)
Theorem boundary_map_total : forall k rank bc m fgid, topo_ok k m ->
  (forall e o, nth_error (tm_owner m) e = Some o -> (o = rank <-> e < tm_num_local m)) ->
  exists b, boundary_map k rank bc m fgid b.
Proof.
  intros k rank bc m fgid O Own. destruct (boundary_map_filled k rank bc m fgid O Own) as (H1 & _ & um & l & E1 & E2).
  destruct (std_sorted_exists (bnd_key rank fgid) l) as [s Es]. destruct (H1 s um l E1 E2 Es) as (b & Eb & _).
  exists b, um, l, s. auto.
Qed.
Print Assumptions boundary_map_total.

(** C24b: on each rank the numbering contains exactly the local facets with the boundary condition,
    each once; facet and boundary numbers are mutually inverse; numbers below local_size are those of
    the facets where no lower rank owns an element. *)
Theorem boundary_map_numbers : forall k rank bc m fgid b, topo_ok k m ->
  (forall e o, nth_error (tm_owner m) e = Some o -> (o = rank <-> e < tm_num_local m)) ->
  boundary_map k rank bc m fgid b ->
  NoDup (bm_fct b) /\
  (forall f, In f (bm_fct b) <-> f < tm_num_local_facets m /\ has_bc m bc f) /\
  length (bm_bnd b) = tm_num_local_facets m /\
  (forall f n, nth_error (bm_bnd b) f = Some (Some n) <-> nth_error (bm_fct b) n = Some f) /\
  (forall f n, nth_error (bm_fct b) n = Some f ->
     (n < bm_local b <-> forall r, meets m f r -> rank <= r)).
Proof.
  intros k rank bc m fgid b O Own (um & l & s & E1 & E2 & E3 & E4).
  destruct (boundary_map_filled k rank bc m fgid O Own) as (H1 & H2 & _).
  destruct (H1 s um l E1 E2 E3) as (b' & Eb & F). assert (b' = b) by congruence. subst b'.
  destruct (H2 s um l E1 E2 E3) as (N & In_s & Oth). destruct F as [F1 F2 F3 F4 _ _ _ _]. rewrite F1.
  split; auto. split; auto. split; auto. split; auto.
  intros f n En. assert (Ln : n < length s).
  { rewrite <- (map_length snd). apply nth_error_Some. congruence. }
  destruct (nth_error_lt s n Ln) as [[o f'] Es]. assert (f' = f).
  { apply (map_nth_error snd) in Es. cbn in Es. congruence. } subst f'.
  destruct (Oth o f) as (M1 & M2 & M3); [eapply nth_error_In; eauto|].
  assert (Loc : n < bm_local b <-> rank <= o).
  { rewrite F4. destruct E3 as [_ Sd]. clear - Sd Es. revert n Es.
    induction s as [|a s IH]; intros n Es; [destruct n; discriminate|].
    inversion Sd as [|? ? S1 F1]; subst. rewrite Forall_forall in F1. cbn [filter].
    destruct (Nat.leb_spec rank (fst a)) as [Ha|Ha].
    - cbn [length]. destruct n as [|n]; cbn in Es.
      + injection Es as ->. cbn in Ha. split; auto. lia.
      + rewrite <- (IH S1 n Es). lia.
    - assert (Z : forall x, In x s -> fst x < rank).
      { intros x Hx. specialize (F1 x Hx). apply key_ge_spec in F1. unfold bnd_key in F1. cbn [fst snd] in F1.
        destruct (Nat.leb_spec rank (fst x)), (Nat.leb_spec rank (fst a)); lia. }
      assert (Ho : o < rank).
      { destruct n as [|n]; cbn in Es; [injection Es as ->; auto|]. apply (Z (o, f)). eapply nth_error_In; eauto. }
      assert (E0 : filter (fun x => rank <=? fst x) s = []).
      { clear - Z. induction s as [|x s IH]; cbn; auto. pose proof (Z x ltac:(left; auto)).
        destruct (Nat.leb_spec rank (fst x)); [lia|]. apply IH. intros; apply Z; right; auto. }
      rewrite E0. cbn. lia. }
  rewrite Loc. split.
  - intros Ho r Hr. destruct (M3 r Hr); lia.
  - intro H. apply H; auto.
Qed.
Print Assumptions boundary_map_numbers.

(** * All ranks *)
Section Ranks.
Variables (k procs bc : nat) (m : nat -> topo_mesh) (fgid : nat -> list nat) (b : nat -> bnd_map).
Hypothesis FK : facet_ranks k procs m fgid.
Hypothesis BM : forall p, p < procs -> boundary_map k p bc (m p) (fgid p) (b p).

Lemma rank_sorted p : p < procs -> exists s, filled p (tm_num_local_facets (m p)) s (b p) /\
  NoDup (map snd s) /\ (forall f, In f (map snd s) <-> f < tm_num_local_facets (m p) /\ has_bc (m p) bc f) /\
  (forall o f, In (o, f) s -> other_of (m p) p f o) /\
  StronglySorted (fun x y => key_lt (bnd_key p (fgid p) y) (bnd_key p (fgid p) x) = false) s.
Proof.
  intro Hp. destruct (BM p Hp) as (um & l & s & E1 & E2 & E3 & E4).
  destruct (boundary_map_filled k p bc (m p) (fgid p) (fk_mesh _ _ _ _ FK p Hp) (fun e o => fk_own _ _ _ _ FK p e o Hp)) as (H1 & H2 & _).
  destruct (H1 s um l E1 E2 E3) as (b' & Eb & F). assert (b' = b p) by congruence. subst b'.
  destruct (H2 s um l E1 E2 E3) as (N & I & Oth). exists s. split; auto. split; auto. split; auto. split; auto. apply E3.
Qed.

(** global facet numbers behind boundary numbers *)
Definition gids (p : nat) (ns : list nat) : list nat := map (fun n => nth (nth n (bm_fct (b p)) 0) (fgid p) 0) ns.

Lemma gids_sorted p s (P : nat -> bool) q : p < procs -> filled p (tm_num_local_facets (m p)) s (b p) ->
  NoDup (map snd s) -> (forall f, In f (map snd s) -> f < tm_num_local_facets (m p)) ->
  StronglySorted (fun x y => key_lt (bnd_key p (fgid p) y) (bnd_key p (fgid p) x) = false) s ->
  StronglySorted lt (gids p (pos_list (fun a => P (fst a) && (fst a =? q)) 0 s)).
Proof.
  intros Hp F N I Sd. unfold gids. apply map_sorted; [apply pos_list_sorted|].
  intros i j Hi Hj Hij. apply pos_list_in in Hi as ([oi fi] & _ & Ei & Qi), Hj as ([oj fj] & _ & Ej & Qj).
  rewrite Nat.sub_0_r in *. apply andb_true_iff in Qi as [_ Qi], Qj as [_ Qj]. cbn [fst] in *.
  apply Nat.eqb_eq in Qi, Qj. subst oi oj.
  rewrite (fd_fct _ _ _ _ F).
  assert (Fi : nth_error (map snd s) i = Some fi) by (apply (map_nth_error snd) in Ei; auto).
  assert (Fj : nth_error (map snd s) j = Some fj) by (apply (map_nth_error snd) in Ej; auto).
  rewrite (nth_error_nth _ _ 0 Fi), (nth_error_nth _ _ 0 Fj).
  assert (K : key_lt (bnd_key p (fgid p) (q, fj)) (bnd_key p (fgid p) (q, fi)) = false).
  { clear - Sd Ei Ej Hij. revert i j Ei Ej Hij. induction s as [|a s IH]; intros i j Ei Ej Hij; [destruct i; discriminate|].
    inversion Sd as [|? ? S1 F1]; subst. rewrite Forall_forall in F1.
    destruct j as [|j]; [lia|]. cbn in Ej. destruct i as [|i]; cbn in Ei.
    - injection Ei as ->. apply F1. eapply nth_error_In; eauto.
    - apply (IH S1 i j); auto. lia. }
  apply key_ge_spec in K. unfold bnd_key in K. cbn [fst snd] in K.
  assert (nth fi (fgid p) 0 <> nth fj (fgid p) 0).
  { intro E. assert (fi = fj).
    { pose proof (I fi (nth_error_In _ _ Fi)). pose proof (I fj (nth_error_In _ _ Fj)).
      pose proof (to_facets_le _ _ (fk_mesh _ _ _ _ FK p Hp)). pose proof (fk_gid_len _ _ _ _ FK p Hp).
      apply (proj1 (NoDup_nth (fgid p) 0) (fk_gid _ _ _ _ FK p Hp)); auto; lia. }
    subst. assert (i = j); [|lia]. apply (proj1 (NoDup_nth_error _) N); [apply nth_error_Some|]; congruence. }
  lia.
Qed.

Lemma send_in p q g : p < procs -> p < q ->
  (In g (gids p (umap_get (bm_send (b p)) q)) <->
   exists i, i < tm_num_local_facets (m p) /\ has_bc (m p) bc i /\ meets (m p) i q /\ nth i (fgid p) 0 = g).
Proof.
  intros Hp Hpq. destruct (rank_sorted p Hp) as (s & F & N & I & Oth & Sd). rewrite (fd_send _ _ _ _ F).
  unfold gids. rewrite in_map_iff. rewrite (fd_fct _ _ _ _ F). split.
  - intros (n & <- & Hn). apply pos_list_in in Hn as ([o f] & _ & En & Q). rewrite Nat.sub_0_r in En.
    apply andb_true_iff in Q as [_ Q]. cbn in Q. apply Nat.eqb_eq in Q. subst o.
    assert (Ef : nth_error (map snd s) n = Some f) by (apply (map_nth_error snd) in En; auto).
    rewrite (nth_error_nth _ _ 0 Ef). destruct (proj1 (I f) (nth_error_In _ _ Ef)) as [I1 I2]. exists f.
    destruct (Oth q f) as (_ & M2 & _); [eapply nth_error_In; eauto|]. auto.
  - intros (f & H1 & H2 & H3 & <-). assert (Hf : In f (map snd s)) by (apply I; auto).
    apply in_map_iff in Hf as ([o f'] & E & Hin). cbn in E. subst f'.
    destruct (Oth o f Hin) as (_ & _ & M3). assert (o = q) by (destruct (M3 q H3); [lia|auto]). subst o.
    apply In_nth_error in Hin as [n En].
    assert (Ef : nth_error (map snd s) n = Some f) by (apply (map_nth_error snd) in En; auto).
    exists n. split; [rewrite (nth_error_nth _ _ 0 Ef); auto|]. apply pos_list_in. exists (q, f). rewrite Nat.sub_0_r.
    split; [lia|]. split; auto. cbn [fst]. rewrite Nat.eqb_refl, (proj2 (Nat.ltb_lt p q)); auto.
Qed.
Lemma recv_in p q g : p < procs -> q < p ->
  (In g (gids p (umap_get (bm_recv (b p)) q)) <->
   exists i, i < tm_num_local_facets (m p) /\ has_bc (m p) bc i /\ meets (m p) i q /\ nth i (fgid p) 0 = g).
Proof.
  intros Hp Hpq. destruct (rank_sorted p Hp) as (s & F & N & I & Oth & Sd). rewrite (fd_recv _ _ _ _ F).
  unfold gids. rewrite in_map_iff. rewrite (fd_fct _ _ _ _ F). split.
  - intros (n & <- & Hn). apply pos_list_in in Hn as ([o f] & _ & En & Q). rewrite Nat.sub_0_r in En.
    apply andb_true_iff in Q as [_ Q]. cbn in Q. apply Nat.eqb_eq in Q. subst o.
    assert (Ef : nth_error (map snd s) n = Some f) by (apply (map_nth_error snd) in En; auto).
    rewrite (nth_error_nth _ _ 0 Ef). destruct (proj1 (I f) (nth_error_In _ _ Ef)) as [I1 I2]. exists f.
    destruct (Oth q f) as (_ & M2 & _); [eapply nth_error_In; eauto|]. auto.
  - intros (f & H1 & H2 & H3 & <-). assert (Hf : In f (map snd s)) by (apply I; auto).
    apply in_map_iff in Hf as ([o f'] & E & Hin). cbn in E. subst f'.
    destruct (Oth o f Hin) as (_ & _ & M3). assert (o = q) by (destruct (M3 q H3); [lia|auto]). subst o.
    apply In_nth_error in Hin as [n En].
    assert (Ef : nth_error (map snd s) n = Some f) by (apply (map_nth_error snd) in En; auto).
    exists n. split; [rewrite (nth_error_nth _ _ 0 Ef); auto|]. apply pos_list_in. exists (q, f). rewrite Nat.sub_0_r.
    split; [lia|]. split; auto. cbn [fst]. rewrite Nat.eqb_refl, (proj2 (Nat.ltb_lt q p)); auto.
Qed.

Lemma send_high p q : p < procs -> q <= p -> umap_get (bm_send (b p)) q = [].
Proof.
  intros Hp H. destruct (rank_sorted p Hp) as (s & F & _). rewrite (fd_send _ _ _ _ F).
  destruct (pos_list _ 0 s) as [|n l] eqn:E; auto. exfalso.
  assert (Hn : In n (pos_list (fun a => (p <? fst a) && (fst a =? q)) 0 s)) by (rewrite E; left; auto).
  apply pos_list_in in Hn as (a & _ & _ & Q). apply andb_true_iff in Q as [Q1 Q2].
  apply Nat.ltb_lt in Q1. apply Nat.eqb_eq in Q2. lia.
Qed.
Lemma recv_low p q : p < procs -> p <= q -> umap_get (bm_recv (b p)) q = [].
Proof.
  intros Hp H. destruct (rank_sorted p Hp) as (s & F & _). rewrite (fd_recv _ _ _ _ F).
  destruct (pos_list _ 0 s) as [|n l] eqn:E; auto. exfalso.
  assert (Hn : In n (pos_list (fun a => (fst a <? p) && (fst a =? q)) 0 s)) by (rewrite E; left; auto).
  apply pos_list_in in Hn as (a & _ & _ & Q). apply andb_true_iff in Q as [Q1 Q2].
  apply Nat.ltb_lt in Q1. apply Nat.eqb_eq in Q2. lia.
Qed.

Lemma gids_agree p q : p < procs -> q < procs ->
  gids p (umap_get (bm_send (b p)) q) = gids q (umap_get (bm_recv (b q)) p).
Proof.
  intros Hp Hq. destruct (Nat.lt_ge_cases p q) as [H|H].
  - destruct (rank_sorted p Hp) as (s & F & N & I & Oth & Sd). destruct (rank_sorted q Hq) as (s' & F' & N' & I' & Oth' & Sd').
    apply sorted_unique.
    + rewrite (fd_send _ _ _ _ F). apply (gids_sorted p s (fun x => p <? x) q); auto. intros f Hf. apply I; auto.
    + rewrite (fd_recv _ _ _ _ F'). apply (gids_sorted q s' (fun x => x <? q) p); auto. intros f Hf. apply I'; auto.
    + intro g. rewrite (send_in p q g Hp H), (recv_in q p g Hq H). split; intros (i & H1 & H2 & H3 & H4).
      * destruct (fk_halves _ _ _ _ FK p i q Hp H1 H3) as (_ & j & J1 & J2 & J3 & J4). exists j.
        split; auto. split; [apply J4; auto|]. split; auto. congruence.
      * destruct (fk_halves _ _ _ _ FK q i p Hq H1 H3) as (_ & j & J1 & J2 & J3 & J4). exists j.
        split; auto. split; [apply J4; auto|]. split; auto. congruence.
  - rewrite send_high, recv_low; auto.
Qed.
End Ranks.

(** C24c: for every pair of ranks the sender's list and the receiver's list name the same facets, by
    global number, in the same order; the maps fit together as the ghost exchange requires (C22). *)
Theorem boundary_map_agrees : forall k procs bc m fgid b sm rm, facet_ranks k procs m fgid ->
  (forall p, p < procs -> boundary_map k p bc (m p) (fgid p) (b p)) ->
  (forall p, p < procs -> Permutation (bm_send (b p)) (sm p) /\ Permutation (bm_recv (b p)) (rm p)) ->
  plans_match procs sm rm /\
  forall p q, p < procs -> q < procs ->
    map (fun n => nth (nth n (bm_fct (b p)) 0) (fgid p) 0) (umap_get (sm p) q) =
    map (fun n => nth (nth n (bm_fct (b q)) 0) (fgid q) 0) (umap_get (rm q) p).
Proof.
  intros k procs bc m fgid b sm rm FK BM PM.
  assert (Keys : forall p, p < procs -> (NoDup (keys (bm_send (b p))) /\ full (bm_send (b p))) /\ (NoDup (keys (bm_recv (b p))) /\ full (bm_recv (b p)))).
  { intros p Hp. destruct (rank_sorted k procs bc m fgid b FK BM p Hp) as (s & F & _). split; [apply (fd_sk _ _ _ _ F)|apply (fd_rk _ _ _ _ F)]. }
  assert (GS : forall p q, p < procs -> umap_get (sm p) q = umap_get (bm_send (b p)) q).
  { intros p q Hp. apply umap_get_perm; [apply PM; auto|apply Keys; auto]. }
  assert (GR : forall p q, p < procs -> umap_get (rm p) q = umap_get (bm_recv (b p)) q).
  { intros p q Hp. apply umap_get_perm; [apply PM; auto|apply Keys; auto]. }
  assert (KS : forall p q, p < procs -> (In q (map fst (sm p)) <-> umap_get (bm_send (b p)) q <> [])).
  { intros p q Hp. rewrite <- (full_keys _ q (proj2 (proj1 (Keys p Hp)))). unfold keys.
    split; apply Permutation_in; apply Permutation_map; [symmetry|]; apply PM; auto. }
  assert (KR : forall p q, p < procs -> (In q (map fst (rm p)) <-> umap_get (bm_recv (b p)) q <> [])).
  { intros p q Hp. rewrite <- (full_keys _ q (proj2 (proj2 (Keys p Hp)))). unfold keys.
    split; apply Permutation_in; apply Permutation_map; [symmetry|]; apply PM; auto. }
  assert (GA : forall p q, p < procs -> q < procs -> gids fgid b p (umap_get (bm_send (b p)) q) = gids fgid b q (umap_get (bm_recv (b q)) p)).
  { intros p q Hp Hq. apply (gids_agree k procs bc m fgid b FK BM p q Hp Hq). }
  assert (LA : forall p q, p < procs -> q < procs -> length (umap_get (bm_send (b p)) q) = length (umap_get (bm_recv (b q)) p)).
  { intros p q Hp Hq. specialize (GA p q Hp Hq). apply (f_equal (@length nat)) in GA. unfold gids in GA. rewrite !map_length in GA. auto. }
  split; [|intros p q Hp Hq; rewrite GS, GR by auto; apply GA; auto].
  split; [|split; [|split]].
  - intros p Hp. destruct (Keys p Hp) as [[K1 _] [K2 _]]. destruct (PM p Hp) as [P1 P2].
    split; eapply Permutation_NoDup; try (apply Permutation_map; eassumption); auto.
  - intros p q Hp Hq. rewrite KS, KR by auto. specialize (LA p q Hp Hq).
    destruct (umap_get (bm_send (b p)) q), (umap_get (bm_recv (b q)) p); cbn in LA; try discriminate; split; congruence.
  - intros p q Hp Hq. rewrite GS, GR by auto. apply LA; auto.
  - intros p q Hp [H|H].
    + apply KS in H; auto. destruct (umap_get (bm_send (b p)) q) as [|n l] eqn:E; [congruence|].
      destruct (rank_sorted k procs bc m fgid b FK BM p Hp) as (s & F & N & I & Oth & Sd).
      assert (Hn : In n (umap_get (bm_send (b p)) q)) by (rewrite E; left; auto).
      rewrite (fd_send _ _ _ _ F) in Hn. apply pos_list_in in Hn as ([o f] & _ & En & Q).
      apply andb_true_iff in Q as [_ Q]. cbn in Q. apply Nat.eqb_eq in Q. subst o.
      destruct (Oth q f) as (_ & M2 & _); [eapply nth_error_In; eauto|].
      assert (Hf : In f (map snd s)) by (apply nth_error_In in En; apply (in_map snd) in En; auto).
      apply I in Hf as [Hf _]. apply (fk_halves _ _ _ _ FK p f q Hp Hf M2).
    + apply KR in H; auto. destruct (umap_get (bm_recv (b p)) q) as [|n l] eqn:E; [congruence|].
      destruct (rank_sorted k procs bc m fgid b FK BM p Hp) as (s & F & N & I & Oth & Sd).
      assert (Hn : In n (umap_get (bm_recv (b p)) q)) by (rewrite E; left; auto).
      rewrite (fd_recv _ _ _ _ F) in Hn. apply pos_list_in in Hn as ([o f] & _ & En & Q).
      apply andb_true_iff in Q as [_ Q]. cbn in Q. apply Nat.eqb_eq in Q. subst o.
      destruct (Oth q f) as (_ & M2 & _); [eapply nth_error_In; eauto|].
      assert (Hf : In f (map snd s)) by (apply nth_error_In in En; apply (in_map snd) in En; auto).
      apply I in Hf as [Hf _]. apply (fk_halves _ _ _ _ FK p f q Hp Hf M2).
Qed.
Print Assumptions boundary_map_agrees.

(** C24d: each facet with the boundary condition is local on exactly one rank: among the ranks that
    own an element there, the lowest. *)
Theorem boundary_facet_local_once : forall k procs bc m fgid b, facet_ranks k procs m fgid ->
  (forall p, p < procs -> boundary_map k p bc (m p) (fgid p) (b p)) ->
  forall p i, p < procs -> i < tm_num_local_facets (m p) -> has_bc (m p) bc i ->
  exists r, r < procs /\ forall q j n, q < procs -> j < tm_num_local_facets (m q) -> meets (m p) i q ->
    nth j (fgid q) 0 = nth i (fgid p) 0 -> nth_error (bm_bnd (b q)) j = Some (Some n) ->
    (n < bm_local (b q) <-> q = r).
Proof.
  intros k procs bc m fgid b FK BM p i Hp Hi Hb.
  destruct (rank_sorted k procs bc m fgid b FK BM p Hp) as (s & F & N & I & Oth & Sd).
  assert (Hf : In i (map snd s)) by (apply I; auto). apply in_map_iff in Hf as ([o i'] & E & Hin). cbn in E. subst i'.
  destruct (Oth o i Hin) as (M1 & M2 & M3). destruct (fk_halves _ _ _ _ FK p i o Hp Hi M2) as (Ho & _).
  exists (Nat.min p o). split; [lia|]. intros q j n Hq Hj Mq Eg Ej.
  destruct (boundary_map_numbers k q bc (m q) (fgid q) (b q) (fk_mesh _ _ _ _ FK q Hq)
     (fun e o' => fk_own _ _ _ _ FK q e o' Hq) (BM q Hq)) as (_ & _ & _ & Inv & Loc).
  rewrite (Loc j n) by (apply Inv; auto).
  assert (Other : forall q' r', q' < procs -> meets (m p) i q' -> meets (m p) i r' -> forall j', j' < tm_num_local_facets (m q') ->
     nth j' (fgid q') 0 = nth i (fgid p) 0 -> q' <> p -> meets (m q') j' p).
  { intros q' r' Hq' Mq' _ j' Hj' Eg' _. destruct (fk_halves _ _ _ _ FK p i q' Hp Hi Mq') as (_ & j2 & J1 & J2 & J3 & _).
    assert (j2 = j').
    { pose proof (to_facets_le _ _ (fk_mesh _ _ _ _ FK q' Hq')). pose proof (fk_gid_len _ _ _ _ FK q' Hq').
      apply (proj1 (NoDup_nth (fgid q') 0) (fk_gid _ _ _ _ FK q' Hq')); try lia; try congruence. }
    subst; auto. }
  destruct (Nat.eq_dec q p) as [Heq|Hne].
  - subst q. assert (j = i).
    { pose proof (to_facets_le _ _ (fk_mesh _ _ _ _ FK p Hp)). pose proof (fk_gid_len _ _ _ _ FK p Hp).
      apply (proj1 (NoDup_nth (fgid p) 0) (fk_gid _ _ _ _ FK p Hp)); try lia; try congruence. }
    subst j. split.
    + intro H. specialize (H o M2). lia.
    + intros H r Hr. destruct (M3 r Hr); lia.
  - destruct (M3 q Mq); [congruence|]. subst o.
    assert (Mj : meets (m q) j p) by (apply (Other q q); auto).
    destruct (fk_halves _ _ _ _ FK q j p Hq Hj Mj) as (_ & i2 & J1 & J2 & J3 & _).
    assert (Own : forall r, meets (m q) j r -> r = p \/ r = q).
    { intros r Hr. destruct (rank_sorted k procs bc m fgid b FK BM q Hq) as (s' & F' & N' & I' & Oth' & _).
      apply Inv in Ej. apply nth_error_In in Ej. rewrite (fd_fct _ _ _ _ F') in Ej.
      apply in_map_iff in Ej as ([o' j'] & E' & Hin'). cbn in E'. subst j'. destruct (Oth' o' j Hin') as (_ & _ & M3').
      destruct (M3' p Mj), (M3' r Hr); subst; auto; congruence. }
    split.
    + intro H. specialize (H p Mj). lia.
    + intros H r Hr. destruct (Own r Hr); lia.
Qed.
Print Assumptions boundary_facet_local_once.

(** C24e: in every execution of the exchange built from these maps, once wait_scatter has returned on
    rank q after its k-th begin_scatter, every slot received for a boundary number of q holds the value
    that the lower rank at that facet had for the same facet. *)
Theorem boundary_exchange_correct : forall {A} k procs bc m fgid b sm rm (x0 : nat -> list A) es s q,
  facet_ranks k procs m fgid ->
  (forall p, p < procs -> boundary_map k p bc (m p) (fgid p) (b p)) ->
  (forall p, p < procs -> Permutation (bm_send (b p)) (sm p) /\ Permutation (bm_recv (b p)) (rm p)) ->
  let pl p := setup (sm p) (rm p) in
  run pl es (start x0) = Some s -> q < procs -> idle (procs_of s q) = true ->
  let n := length (begins pl q es (start x0)) in 0 < n ->
  forall nb f, nth_error (bm_fct (b q)) nb = Some f -> bm_local (b q) <= nb ->
  exists p np x slot, p < q /\ np < bm_local (b p) /\
    nth (nth np (bm_fct (b p)) 0) (fgid p) 0 = nth f (fgid q) 0 /\
    nth_error (begins pl p es (start x0)) (n - 1) = Some x /\
    nth_error (recv_indices (pl q)) slot = Some nb /\
    nth_error (p_y (procs_of s q)) slot = nth_error x np /\ nth_error x np <> None.
Proof.
  intros A k procs bc m fgid b sm rm x0 es s q FK BM PM pl R Hq Id n Hn nb f Ef Hl.
  destruct (boundary_map_agrees k procs bc m fgid b sm rm FK BM PM) as [PMt GA].
  destruct (scatter_correct procs sm rm x0 es s q PMt R Hq Id Hn) as [_ SC].
  destruct (rank_sorted k procs bc m fgid b FK BM q Hq) as (t & F & N & I & Oth & Sd).
  destruct (boundary_map_numbers k q bc (m q) (fgid q) (b q) (fk_mesh _ _ _ _ FK q Hq)
     (fun e o' => fk_own _ _ _ _ FK q e o' Hq) (BM q Hq)) as (_ & Inb & _ & Inv & Loc).
  assert (Ef' := Ef). rewrite (fd_fct _ _ _ _ F) in Ef'.
  assert (Lt : nb < length t) by (rewrite <- (map_length snd); apply nth_error_Some; congruence).
  destruct (nth_error_lt t nb Lt) as [[o f'] Et]. assert (f' = f).
  { apply (map_nth_error snd) in Et. cbn in Et. congruence. } subst f'.
  destruct (Oth o f) as (M1 & M2 & M3); [eapply nth_error_In; eauto|].
  assert (Ho : o < q).
  { destruct (Nat.lt_ge_cases o q); auto. exfalso. assert (nb < bm_local (b q)); [|lia].
    apply (Loc f nb Ef). intros r Hr. destruct (M3 r Hr); lia. }
  assert (Hin : In nb (umap_get (rm q) o)).
  { rewrite (umap_get_perm (bm_recv (b q))); [|apply PM; auto|apply (fd_rk _ _ _ _ F)].
    rewrite (fd_recv _ _ _ _ F). apply pos_list_in. exists (o, f). rewrite Nat.sub_0_r. split; [lia|]. split; auto.
    cbn [fst]. rewrite Nat.eqb_refl, (proj2 (Nat.ltb_lt o q)); auto. }
  apply In_nth_error in Hin as [j Ej].
  assert (Ko : In o (map fst (rm q))).
  { destruct (in_dec Nat.eq_dec o (map fst (rm q))) as [|C]; auto. rewrite (umap_get_absent (rm q) o) in Ej; auto. destruct j; discriminate. }
  destruct (SC o Ko) as (x & Ex & Hx). assert (Hop : o < procs) by lia.
  specialize (GA o q Hop Hq).
  assert (Lj : j < length (umap_get (sm o) q)).
  { apply (f_equal (@length nat)) in GA. rewrite !map_length in GA. rewrite GA. apply nth_error_Some. congruence. }
  destruct (nth_error_lt _ _ Lj) as [np Enp].
  destruct (Hx j np nb Enp Ej) as (slot & S1 & S2 & S3).
  exists o, np, x, slot. split; auto. split; [|split; [|split; [auto|split; [auto|split; auto]]]].
  - destruct (rank_sorted k procs bc m fgid b FK BM o Hop) as (t' & F' & N' & I' & Oth' & Sd').
    rewrite (umap_get_perm (bm_send (b o))) in Enp; [|apply PM; auto|apply (fd_sk _ _ _ _ F')].
    rewrite (fd_send _ _ _ _ F') in Enp. apply nth_error_In, pos_list_in in Enp as ([o' f'] & _ & Et' & Q).
    rewrite Nat.sub_0_r in Et'. apply andb_true_iff in Q as [Q1 Q2]. cbn [fst] in *. apply Nat.ltb_lt in Q1. apply Nat.eqb_eq in Q2. subst o'.
    destruct (boundary_map_numbers k o bc (m o) (fgid o) (b o) (fk_mesh _ _ _ _ FK o Hop)
      (fun e o' => fk_own _ _ _ _ FK o e o' Hop) (BM o Hop)) as (_ & _ & _ & _ & Loc').
    apply (Loc' f'). { rewrite (fd_fct _ _ _ _ F'). apply (map_nth_error snd) in Et'. auto. }
    destruct (Oth' q f') as (_ & _ & M3'); [eapply nth_error_In; eauto|]. intros r Hr. destruct (M3' r Hr); lia.
  - apply (map_nth_error (fun n => nth (nth n (bm_fct (b o)) 0) (fgid o) 0)) in Enp. rewrite GA in Enp.
    apply (map_nth_error (fun n => nth (nth n (bm_fct (b q)) 0) (fgid q) 0)) in Ej. rewrite Ej in Enp.
    injection Enp as Enp. rewrite <- Enp. rewrite (nth_error_nth _ _ 0 Ef). auto.
Qed.
Print Assumptions boundary_exchange_correct.

(** Two ranks: rank 0 owns triangles 0 and 1, rank 1 owns triangle 2; the edge {2,3} between
    them and the boundary edge {1,3} are on the fault. *)
Definition ex_ranks (p : nat) : topo_mesh :=
  match p with
  | 0 => {| tm_elems := [[0;1;2]; [1;2;3]; [2;3;4]]; tm_num_local := 2;
            tm_facets := [[0;1]; [0;2]; [1;2]; [1;3]; [2;3]; [2;4]; [3;4]]; tm_num_local_facets := 5;
            tm_owner := [0;0;1]; tm_l2cg := [10;11;12]; tm_shared := [[]; [1]; [0]];
            tm_bc := Some [1;5;0;3;3;5;5] |}
  | _ => {| tm_elems := [[2;3;4]; [1;2;3]]; tm_num_local := 1;
            tm_facets := [[2;3]; [2;4]; [3;4]; [1;2]; [1;3]]; tm_num_local_facets := 3;
            tm_owner := [1;0]; tm_l2cg := [12;11]; tm_shared := [[0]; [1]];
            tm_bc := Some [3;5;5;0;3] |}
  end.
Definition ex_fgid (p : nat) : list nat := match p with 0 => [0;1;2;3;4;5;6] | _ => [4;5;6;2;3] end.

Lemma meetsb_spec m i r : meets m i r <->
  existsb (fun e => containsb m e i && match nth_error (tm_owner m) e with Some o => o =? r | None => false end)
    (seq 0 (length (tm_elems m))) && (i <? length (tm_facets m)) = true.
Proof.
  rewrite andb_true_iff, existsb_exists, Nat.ltb_lt. split.
  - intros (e & C & E). apply containsb_spec in C as (H1 & H2 & H3). split; auto. exists e. split; [apply in_seq; lia|].
    rewrite H3, E, Nat.eqb_refl. auto.
  - intros [(e & He & C) Hi]. apply in_seq in He. apply andb_true_iff in C as [C1 C2]. exists e. split.
    + apply containsb_spec. repeat split; auto; lia.
    + destruct (nth_error (tm_owner m) e); [|discriminate]. apply Nat.eqb_eq in C2. congruence.
Qed.

Lemma ex_facet_ranks : facet_ranks 2 2 ex_ranks ex_fgid.
Proof.
  constructor.
  - intros [|[|p]] Hp; try lia; apply topo_okb_spec; vm_compute; reflexivity.
  - intros [|[|p]] e o Hp; try lia; destruct e as [|[|[|[|e]]]]; cbn; try discriminate; intros [= <-]; lia.
  - intros [|[|p]] Hp; try lia; reflexivity.
  - intros [|[|p]] Hp; try lia; apply (nodupb_spec Nat.eqb); try (intros; apply Nat.eqb_eq); reflexivity.
  - assert (G : forall p i q, p < 2 -> i < tm_num_local_facets (ex_ranks p) -> meets (ex_ranks p) i q -> q < 2).
    { intros [|[|p]] i q Hp Hi (e & _ & E); try lia; destruct e as [|[|[|[|e]]]]; cbn in E; try discriminate; injection E as <-; lia. }
    assert (HB : forall m bc i b, tm_bc m = Some b -> (has_bc m bc i <-> nth_error b i = Some bc)).
    { intros m bc i b E. unfold has_bc. split; [intros (b' & E' & H); congruence|eauto]. }
    intros p i q Hp Hi M. pose proof (G p i q Hp Hi M) as Hq. split; auto.
    destruct (Nat.eq_dec q p) as [->|Hn].
    + exists i. split; auto. split; auto. split; auto. tauto.
    + apply meetsb_spec in M.
      destruct p as [|[|p]], q as [|[|q]]; try lia; cbn [ex_ranks tm_num_local_facets] in Hi;
        destruct i as [|[|[|[|[|i]]]]]; try lia; try (vm_compute in M; discriminate M).
      * exists 0. split; [cbn; lia|]. split; [reflexivity|]. split; [apply meetsb_spec; reflexivity|].
        intro bc. rewrite (HB (ex_ranks 0) _ _ _ eq_refl), (HB (ex_ranks 1) _ _ _ eq_refl). cbn. tauto.
      * exists 4. split; [cbn; lia|]. split; [reflexivity|]. split; [apply meetsb_spec; reflexivity|].
        intro bc. rewrite (HB (ex_ranks 0) _ _ _ eq_refl), (HB (ex_ranks 1) _ _ _ eq_refl). cbn. tauto.
Qed.
Example boundary_ex : exists b0 b1, boundary_map 2 0 3 (ex_ranks 0) (ex_fgid 0) b0 /\ boundary_map 2 1 3 (ex_ranks 1) (ex_fgid 1) b1 /\
  bm_fct b0 = [3; 4] /\ bm_local b0 = 2 /\ bm_send b0 = [(1, [1])] /\
  bm_fct b1 = [0] /\ bm_local b1 = 0 /\ bm_recv b1 = [(0, [0])].
Proof.
  eexists. eexists. split; [|split].
  - eexists. eexists. eexists. split; [vm_compute; reflexivity|]. split; [vm_compute; reflexivity|].
    split; [split; [apply Permutation_refl|]|vm_compute; reflexivity].
    repeat constructor.
  - eexists. eexists. eexists. split; [vm_compute; reflexivity|]. split; [vm_compute; reflexivity|].
    split; [split; [apply Permutation_refl|]|vm_compute; reflexivity].
    repeat constructor.
  - repeat split.
Qed.
