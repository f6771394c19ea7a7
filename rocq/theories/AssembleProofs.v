(** Lemmas about assembly. *)
Require Import List Arith Lia Bool Sorted Permutation.
Require Import Verif.Base Verif.LocalMeshModel Verif.LocalMeshProps Verif.TopoModel Verif.TopoSpec Verif.TopoProofs
  Verif.TopoProps Verif.CombinatoricsProofs Verif.ScatterProps Verif.AssembleModel Verif.AssembleSpec.
Import ListNotations.
Local Open Scope opt_scope.

(** * Lists *)
Lemma map_opt_app {A B} (f : A -> option B) l1 l2 r1 r2 : map_opt f l1 = Some r1 -> map_opt f l2 = Some r2 ->
  map_opt f (l1 ++ l2) = Some (r1 ++ r2).
Proof.
  revert r1. induction l1 as [|a l1 IH]; cbn; intros r1 E1 E2; [injection E1 as <-; auto|].
  destruct (f a); [|discriminate]. cbn in *. destruct (map_opt f l1) as [t|]; [|discriminate]. cbn in *. injection E1 as <-.
  rewrite (IH t); auto.
Qed.
Lemma map_opt_flat_map {A B C} (g : B -> option C) (f : A -> list B) (h : A -> list C) l :
  (forall a, In a l -> map_opt g (f a) = Some (h a)) -> map_opt g (flat_map f l) = Some (flat_map h l).
Proof.
  induction l as [|a l IH]; cbn [flat_map]; intro H; auto. apply map_opt_app; [apply H; left; auto|].
  apply IH. intros; apply H; right; auto.
Qed.
Lemma NoDup_flat_map {A B} (f : A -> list B) l : NoDup l -> (forall a, In a l -> NoDup (f a)) ->
  (forall a a' b, In a l -> In a' l -> In b (f a) -> In b (f a') -> a = a') -> NoDup (flat_map f l).
Proof.
  induction l as [|a l IH]; cbn [flat_map]; intros N H D; [constructor|]. inversion N; subst.
  apply CombinatoricsProofs.NoDup_app_intro.
  - apply H; left; auto.
  - apply IH; auto. intros; apply H; right; auto. intros x y b Hx Hy. apply D; right; auto.
  - intros b Hb Hb'. apply in_flat_map in Hb' as (a' & Ha' & Hb'). assert (a = a') by (eapply D; [left|right| |]; eauto). subst. auto.
Qed.
Lemma Permutation_flat_map {A B} (f : A -> list B) l l' : Permutation l l' -> Permutation (flat_map f l) (flat_map f l').
Proof.
  induction 1; cbn [flat_map]; auto.
  - apply Permutation_app_head; auto.
  - rewrite !app_assoc. apply Permutation_app_tail, Permutation_app_comm.
  - etransitivity; eauto.
Qed.
Lemma Permutation_flat_map_app {A B} (f g : A -> list B) l :
  Permutation (flat_map (fun a => f a ++ g a) l) (flat_map f l ++ flat_map g l).
Proof.
  induction l as [|a l IH]; cbn [flat_map]; auto. rewrite <- !app_assoc. apply Permutation_app_head.
  etransitivity; [apply Permutation_app_head, IH|]. rewrite !app_assoc. apply Permutation_app_tail, Permutation_app_comm.
Qed.
Lemma flat_map_flat_map {A B C} (f : A -> list B) (g : B -> list C) l :
  flat_map g (flat_map f l) = flat_map (fun a => flat_map g (f a)) l.
Proof. induction l as [|a l IH]; cbn [flat_map]; auto. rewrite flat_map_app. congruence. Qed.
Lemma flat_map_map {A B C} (f : A -> B) (g : B -> list C) l : flat_map g (map f l) = flat_map (fun a => g (f a)) l.
Proof. induction l; cbn; congruence. Qed.
Lemma flat_map_ext_in {A B} (f g : A -> list B) l : (forall a, In a l -> f a = g a) -> flat_map f l = flat_map g l.
Proof. induction l as [|a l IH]; cbn; intro H; auto. rewrite (H a), IH; auto. Qed.

Lemma Permutation_flat_map_pt {A B} (f g : A -> list B) l : (forall a, In a l -> Permutation (f a) (g a)) ->
  Permutation (flat_map f l) (flat_map g l).
Proof.
  induction l as [|a l IH]; cbn [flat_map]; intro H; auto. apply Permutation_app; [apply H; left; auto|].
  apply IH. intros; apply H; right; auto.
Qed.

Lemma sorted_pair l a b : StronglySorted lt l -> (forall x, In x l <-> x = a \/ x = b) ->
  l = if a =? b then [a] else if a <? b then [a; b] else [b; a].
Proof.
  intros Ss M. apply (ScatterProps.sorted_unique l); auto.
  - destruct (Nat.eqb_spec a b); [repeat constructor|].
    destruct (Nat.ltb_spec a b); (constructor; [repeat constructor|constructor; [lia|constructor]]).
  - intro x. rewrite M. destruct (Nat.eqb_spec a b), (Nat.ltb_spec a b); cbn; subst; intuition.
Qed.

Section Parts.
Variables (k procs : nat) (elems facets : list (list nat)) (bc : list nat -> nat) (m : nat -> topo_mesh).
Hypothesis MP : mesh_parts k procs elems facets bc m.

Lemma elements_of_spec f g : In g (elements_of elems f) <-> exists plex, nth_error elems g = Some plex /\ incl f plex.
Proof.
  unfold elements_of. rewrite filter_In, in_seq, forallb_forall. split.
  - intros [Hg H]. destruct (nth_error_lt elems g) as [plex E]; [lia|]. exists plex. split; auto. intros v Hv.
    specialize (H v Hv). rewrite (nth_error_nth _ _ [] E) in H. apply existsb_exists in H as (w & Hw & Ew).
    apply Nat.eqb_eq in Ew. subst. auto.
  - intros (plex & E & I). assert (g < length elems) by (apply nth_error_Some; congruence). split; [lia|].
    intros v Hv. rewrite (nth_error_nth _ _ [] E). apply existsb_exists. exists v. rewrite Nat.eqb_refl. auto.
Qed.
Lemma elements_of_sorted f : StronglySorted lt (elements_of elems f).
Proof.
  unfold elements_of. generalize (length elems) as n, 0 as s. intro n. induction n as [|n IH]; intro s; cbn [seq filter]; [constructor|].
  destruct (forallb _ _); auto. constructor; auto. apply Forall_forall. intros x Hx. apply filter_In in Hx as [Hx _].
  apply in_seq in Hx. lia.
Qed.

(** A local facet with its record: the elements of the whole mesh that contain it. *)
Lemma facet_elements p i x f : p < procs -> i < tm_num_local_facets (m p) -> facet_record_ok k (m p) i x ->
  nth_error (tm_facets (m p)) i = Some f ->
  elements_of elems f = if fi_up0 x =? fi_up1 x then [fi_g0 x]
    else if fi_g0 x <? fi_g1 x then [fi_g0 x; fi_g1 x] else [fi_g1 x; fi_g0 x].
Proof.
  intros Hp Hi R Ef. pose proof (mp_mesh _ _ _ _ _ _ MP p Hp) as O.
  assert (HG : forall g, In g (elements_of elems f) <-> g = fi_g0 x \/ g = fi_g1 x).
  { intro g. rewrite elements_of_spec. split.
    - intros (plex & E & I).
      apply (to_local_facets _ _ O i) in Hi as (e & He & C); [|apply nth_error_Some; congruence].
      pose proof (mp_halo _ _ _ _ _ _ MP p e i f g plex Hp He C Ef E I) as Hin. apply In_nth_error in Hin as [e' Ee'].
      destruct (mp_elem _ _ _ _ _ _ MP p e' g Hp Ee') as [_ Eq].
      assert (C' : contains (m p) e' i) by (exists plex, f; repeat split; auto; congruence).
      apply (fr_up _ _ _ _ R) in C' as [->| ->]; [left|right]; pose proof (fr_g0 _ _ _ _ R); pose proof (fr_g1 _ _ _ _ R); congruence.
    - intros H. assert (H' : exists e, contains (m p) e i /\ nth_error (tm_l2cg (m p)) e = Some g).
      { destruct H as [-> | ->]; [exists (fi_up0 x)|exists (fi_up1 x)]; split; try apply (fr_up _ _ _ _ R); auto;
          [apply (fr_g0 _ _ _ _ R)|apply (fr_g1 _ _ _ _ R)]. }
      destruct H' as (e & (plex & f' & E1 & E2 & I) & Eg). destruct (mp_elem _ _ _ _ _ _ MP p e g Hp Eg) as [_ Eq].
      assert (f' = f) by congruence. subst f'. exists plex. split; auto. congruence. }
  rewrite (sorted_pair _ (fi_g0 x) (fi_g1 x) (elements_of_sorted f) HG).
  pose proof (fr_g0 _ _ _ _ R) as G0. pose proof (fr_g1 _ _ _ _ R) as G1.
  destruct (Nat.eqb_spec (fi_up0 x) (fi_up1 x)) as [Eu|Nu].
  - assert (fi_g0 x = fi_g1 x) by congruence. rewrite H, Nat.eqb_refl. auto.
  - destruct (Nat.eqb_spec (fi_g0 x) (fi_g1 x)) as [Eg|]; auto. exfalso. apply Nu.
    apply (NoDup_nth_error (tm_l2cg (m p))).
    + apply (mp_nodup _ _ _ _ _ _ MP p Hp).
    + apply nth_error_Some. congruence.
    + congruence.
Qed.

(** Global numbers of the local elements at a facet, by its record. *)
Definition inside_gids (x : facet_info) : list nat :=
  (if fi_inside0 x then [fi_g0 x] else []) ++
  (if negb (fi_up0 x =? fi_up1 x) && fi_inside1 x then [fi_g1 x] else []).
Lemma inside_gids_spec p i x : p < procs -> facet_record_ok k (m p) i x ->
  NoDup (inside_gids x) /\
  forall g, In g (inside_gids x) <-> exists e, e < tm_num_local (m p) /\ contains (m p) e i /\ nth_error (tm_l2cg (m p)) e = Some g.
Proof.
  intros Hp R. pose proof (fr_g0 _ _ _ _ R) as G0. pose proof (fr_g1 _ _ _ _ R) as G1. unfold inside_gids.
  rewrite (fr_inside0 _ _ _ _ R), (fr_inside1 _ _ _ _ R).
  assert (Inj : fi_up0 x <> fi_up1 x -> fi_g0 x <> fi_g1 x).
  { intros Nu Eg. apply Nu. apply (NoDup_nth_error (tm_l2cg (m p))); [apply (mp_nodup _ _ _ _ _ _ MP p Hp)| |congruence].
    apply nth_error_Some. congruence. }
  split.
  - destruct (_ <? _), (Nat.eqb_spec (fi_up0 x) (fi_up1 x)), (_ <? _); cbn; repeat constructor; cbn; intuition.
  - intro g. split.
    + intro H. apply in_app_or in H as [H|H].
      * destruct (Nat.ltb_spec (fi_up0 x) (tm_num_local (m p))); [|destruct H]. destruct H as [<-|[]]. exists (fi_up0 x).
        split; auto. split; auto. apply (fr_up _ _ _ _ R). auto.
      * destruct (Nat.ltb_spec (fi_up1 x) (tm_num_local (m p))); [|rewrite andb_false_r in H; destruct H].
        destruct (negb _ && true); [|destruct H]. destruct H as [<-|[]]. exists (fi_up1 x).
        split; auto. split; auto. apply (fr_up _ _ _ _ R). auto.
    + intros (e & He & C & E). apply in_or_app. apply (fr_up _ _ _ _ R) in C. destruct (Nat.eqb_spec (fi_up0 x) (fi_up1 x)) as [Eu|Nu].
      * assert (e = fi_up0 x) by (destruct C; congruence). subst e. left. rewrite (proj2 (Nat.ltb_lt _ _) He). left. congruence.
      * destruct C as [-> | ->]; rewrite (proj2 (Nat.ltb_lt _ _) He); [left|right]; left; congruence.
Qed.

Section Generic.
Context {C : Type} (half : list nat -> nat -> list C).
(** Facets with the local elements that contain them, on one rank; and all facets with all elements. *)
Definition rank_pairs (p : nat) (fi : list facet_info) : list (list nat * nat) :=
  flat_map (fun i => if_some (nth_error fi i) (fun x => map (pair (nth i (tm_facets (m p)) [])) (inside_gids x)))
    (seq 0 (tm_num_local_facets (m p))).
Definition all_pairs : list (list nat * nat) := flat_map (fun f => map (pair f) (elements_of elems f)) facets.

Variable fi : nat -> list facet_info.
Hypothesis FI : forall p, p < procs -> facet_table k (m p) = Some (fi p).
Lemma records p : p < procs -> length (fi p) = tm_num_local_facets (m p) /\
  forall i, i < tm_num_local_facets (m p) -> exists x f, nth_error (fi p) i = Some x /\ facet_record_ok k (m p) i x /\
    nth_error (tm_facets (m p)) i = Some f.
Proof.
  intro Hp. pose proof (mp_mesh _ _ _ _ _ _ MP p Hp) as O. destruct (facet_table_correct k (m p) O) as (fi' & E & L & H).
  assert (fi' = fi p) by (specialize (FI p Hp); congruence). subst fi'. split; auto. intros i Hi. destruct (H i Hi) as (x & Ex & Rx).
  destruct (nth_error_lt (tm_facets (m p)) i) as [f Ef]; [pose proof (to_facets_le _ _ O); lia|]. exists x, f. auto.
Qed.

Lemma rank_pairs_spec p : p < procs -> NoDup (rank_pairs p (fi p)) /\
  forall f g, In (f, g) (rank_pairs p (fi p)) <->
    In f facets /\ In g (elements_of elems f) /\ exists e, e < tm_num_local (m p) /\ nth_error (tm_l2cg (m p)) e = Some g.
Proof.
  intro Hp. pose proof (mp_mesh _ _ _ _ _ _ MP p Hp) as O. destruct (records p Hp) as [_ RS]. split.
  - apply NoDup_flat_map.
    + apply seq_NoDup.
    + intros i Hi. apply in_seq in Hi. destruct (RS i ltac:(lia)) as (x & f & Ex & Rx & _). rewrite Ex. cbn [if_some].
      apply FinFun.Injective_map_NoDup; [intros a b E; congruence|]. apply (inside_gids_spec p i x Hp Rx).
    + intros i j b Hi Hj Bi Bj. apply in_seq in Hi, Hj.
      destruct (RS i ltac:(lia)) as (x & f & Ex & Rx & Ef). destruct (RS j ltac:(lia)) as (x' & f' & Ex' & Rx' & Ef').
      rewrite Ex in Bi. rewrite Ex' in Bj. cbn [if_some] in *. rewrite (nth_error_nth _ _ [] Ef) in Bi. rewrite (nth_error_nth _ _ [] Ef') in Bj.
      apply in_map_iff in Bi as (g & <- & _), Bj as (g' & E & _). injection E as -> _.
      apply (NoDup_nth_error (tm_facets (m p))); [apply (to_facets _ _ O)|apply nth_error_Some; congruence|congruence].
  - intros f g. unfold rank_pairs. rewrite in_flat_map. split.
    + intros (i & Hi & B). apply in_seq in Hi. destruct (RS i ltac:(lia)) as (x & f' & Ex & Rx & Ef).
      rewrite Ex in B. cbn [if_some] in B. rewrite (nth_error_nth _ _ [] Ef) in B. apply in_map_iff in B as (g' & E & B).
      injection E as -> ->. apply (inside_gids_spec p i x Hp Rx) in B as (e & He & Cn & Eg).
      pose proof Cn as (plex & f2 & E1 & E2 & I). assert (f2 = f) by congruence. subst f2.
      destruct (mp_elem _ _ _ _ _ _ MP p e g Hp Eg) as [_ Eq].
      destruct (to_facets _ _ O) as [_ HF]. destruct (HF f (nth_error_In _ _ Ef)) as [Lf Sf].
      split; [|split].
      * apply (mp_facets_all _ _ _ _ _ _ MP). split; auto. split; auto. exists plex. split; auto.
        apply nth_error_In with g. congruence.
      * apply elements_of_spec. exists plex. split; auto. congruence.
      * exists e. auto.
    + intros (Hf & Hg & e & He & Eg). apply (mp_facets_all _ _ _ _ _ _ MP) in Hf as (Lf & Sf & _).
      apply elements_of_spec in Hg as (plex & E & I). destruct (mp_elem _ _ _ _ _ _ MP p e g Hp Eg) as [_ Eq].
      assert (Hin : In f (tm_facets (m p))).
      { apply (to_all _ _ O plex f); auto. apply nth_error_In with e. congruence. }
      apply In_nth_error in Hin as [i Ei].
      assert (Cn : contains (m p) e i) by (exists plex, f; repeat split; auto; congruence).
      assert (Hi : i < tm_num_local_facets (m p)).
      { apply (to_local_facets _ _ O i); [apply nth_error_Some; congruence|]. exists e. auto. }
      destruct (RS i Hi) as (x & f' & Ex & Rx & Ef). assert (f' = f) by congruence. subst f'.
      exists i. split; [apply in_seq; lia|]. rewrite Ex. cbn [if_some]. rewrite (nth_error_nth _ _ [] Ef).
      apply in_map. apply (inside_gids_spec p i x Hp Rx). exists e. auto.
Qed.

Lemma pairs_perm : Permutation (flat_map (fun p => rank_pairs p (fi p)) (seq 0 procs)) all_pairs.
Proof.
  apply NoDup_Permutation.
  - apply NoDup_flat_map; [apply seq_NoDup| |].
    + intros p Hp. apply in_seq in Hp. apply rank_pairs_spec. lia.
    + intros p q [f g] Hp Hq Bp Bq. apply in_seq in Hp, Hq.
      apply rank_pairs_spec in Bp as (_ & _ & e & He & Ee); [|lia]. apply rank_pairs_spec in Bq as (_ & _ & e' & He' & Ee'); [|lia].
      eapply (mp_once _ _ _ _ _ _ MP p q e e' g); eauto; lia.
  - apply NoDup_flat_map.
    + apply (mp_facets _ _ _ _ _ _ MP).
    + intros f _. apply FinFun.Injective_map_NoDup; [intros a b E; congruence|].
      apply NoDup_filter, seq_NoDup.
    + intros f f' b _ _ H1 H2. apply in_map_iff in H1 as (g & <- & _), H2 as (g' & E & _). congruence.
  - intros [f g]. unfold all_pairs. rewrite !in_flat_map. split.
    + intros (p & Hp & B). apply in_seq in Hp. apply rank_pairs_spec in B as (Hf & Hg & _); [|lia].
      exists f. split; auto. apply in_map. auto.
    + intros (f' & Hf & B). apply in_map_iff in B as (g' & E & Hg). injection E as -> ->.
      assert (Hl : g < length elems) by (apply elements_of_spec in Hg as (plex & E & _); apply nth_error_Some; congruence).
      destruct (mp_owned _ _ _ _ _ _ MP g Hl) as (p & e & Hp & He & Ee). exists p. split; [apply in_seq; lia|].
      apply rank_pairs_spec; auto. split; auto. split; auto. exists e. auto.
Qed.

(** The facet loop, over all ranks. *)
Lemma facet_sum : 
  Permutation (flat_map (fun p => flat_map (fun i => if_some (nth_error (fi p) i)
      (fun x => flat_map (half (nth i (tm_facets (m p)) [])) (inside_gids x))) (seq 0 (tm_num_local_facets (m p)))) (seq 0 procs))
    (flat_map (fun f => flat_map (half f) (elements_of elems f)) facets).
Proof.
  pose proof (Permutation_flat_map (fun q => half (fst q) (snd q)) _ _ pairs_perm) as P.
  unfold all_pairs, rank_pairs in P. rewrite !flat_map_flat_map in P.
  etransitivity; [|etransitivity; [exact P|]].
  - apply Permutation_refl'. apply flat_map_ext_in. intros p _. rewrite flat_map_flat_map. apply flat_map_ext_in.
    intros i _. destruct (nth_error (fi p) i) as [x|]; cbn [if_some]; auto. rewrite flat_map_map. auto.
  - apply Permutation_refl'. apply flat_map_ext_in. intros f _. rewrite flat_map_map. auto.
Qed.
End Generic.

(** The element loops, over all ranks. *)
Lemma element_sum {C} (vol : nat -> list C) :
  Permutation (flat_map (fun p => flat_map (fun e => vol (nth e (tm_l2cg (m p)) 0)) (seq 0 (tm_num_local (m p)))) (seq 0 procs))
    (flat_map vol (seq 0 (length elems))).
Proof.
  assert (GN : forall p e, p < procs -> e < tm_num_local (m p) -> nth_error (tm_l2cg (m p)) e = Some (nth e (tm_l2cg (m p)) 0)).
  { intros p e Hp He. pose proof (mp_mesh _ _ _ _ _ _ MP p Hp) as O. apply nth_error_nth'. rewrite (to_l2cg _ _ O).
    pose proof (to_local_le _ _ O). lia. }
  assert (P : Permutation (flat_map (fun p => map (fun e => nth e (tm_l2cg (m p)) 0) (seq 0 (tm_num_local (m p)))) (seq 0 procs))
    (seq 0 (length elems))).
  { apply NoDup_Permutation.
    - apply NoDup_flat_map; [apply seq_NoDup| |].
      + intros p Hp. apply in_seq in Hp. apply NoDup_nth_error. intros i j Hi Heq. rewrite map_length, seq_length in Hi.
        assert (Hj : j < tm_num_local (m p)).
        { rewrite <- (seq_length (tm_num_local (m p)) 0), <- (map_length (fun e => nth e (tm_l2cg (m p)) 0)).
          apply nth_error_Some. rewrite <- Heq. apply nth_error_Some. rewrite map_length, seq_length. auto. }
        assert (Q : forall a, a < tm_num_local (m p) ->
          nth_error (map (fun e => nth e (tm_l2cg (m p)) 0) (seq 0 (tm_num_local (m p)))) a = nth_error (tm_l2cg (m p)) a).
        { intros a Ha. rewrite (map_nth_error _ a _ (d := a)); [symmetry; apply GN; lia|].
          rewrite (nth_error_nth' _ 0) by (rewrite seq_length; auto). rewrite seq_nth; auto. }
        rewrite !Q in Heq by auto. apply (NoDup_nth_error (tm_l2cg (m p))); auto.
        * apply (mp_nodup _ _ _ _ _ _ MP). lia.
        * apply nth_error_Some. rewrite GN by lia. discriminate.
      + intros p q g Hp Hq Bp Bq. apply in_seq in Hp, Hq.
        apply in_map_iff in Bp as (e & <- & He), Bq as (e' & E & He'). apply in_seq in He, He'.
        eapply (mp_once _ _ _ _ _ _ MP p q e e'); try lia; [apply GN; lia|]. rewrite GN by lia. congruence.
    - apply seq_NoDup.
    - intro g. rewrite in_flat_map, in_seq. split.
      + intros (p & Hp & B). apply in_seq in Hp. apply in_map_iff in B as (e & <- & He). apply in_seq in He.
        pose proof (GN p e ltac:(lia) ltac:(lia)) as G. destruct (mp_elem _ _ _ _ _ _ MP p e _ ltac:(lia) G) as [H _]. lia.
      + intros Hg. destruct (mp_owned _ _ _ _ _ _ MP g ltac:(lia)) as (p & e & Hp & He & Ee). exists p.
        split; [apply in_seq; lia|]. apply in_map_iff. exists e. split; [|apply in_seq; lia]. apply nth_error_nth. auto. }
  apply (Permutation_flat_map vol) in P. rewrite flat_map_flat_map in P. etransitivity; [|exact P].
  apply Permutation_refl'. apply flat_map_ext_in. intros p _. rewrite flat_map_map. auto.
Qed.
End Parts.
