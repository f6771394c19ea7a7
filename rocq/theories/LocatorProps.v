(** C30: point location and the assignment of probes to ranks.  C51: point location in affine meshes. *)
Require Import Arith Bool Reals Lra Lia List Permutation.
From Verif Require Import Base LinAlg PlexModel PlexSpec PlexProofs PlexProps LocatorModel.
Import ListNotations.
Local Open Scope R_scope.

(** ** Assignment of probes *)
Lemma reduce_R_spec : forall procs f, (0 < procs)%nat ->
  (exists q, (q < procs)%nat /\ reduce_R procs f = f q) /\ forall q, (q < procs)%nat -> reduce_R procs f <= f q.
Proof.
  intros procs f Hp. unfold reduce_R.
  assert (G : forall n, (S n <= procs)%nat ->
    (exists q, (q < S n)%nat /\ fold_left (fun m q => Rmin m (f q)) (seq 1 n) (f 0%nat) = f q) /\
    forall q, (q < S n)%nat -> fold_left (fun m q => Rmin m (f q)) (seq 1 n) (f 0%nat) <= f q).
  { induction n as [| n IH]; intros Hn.
    - split; [exists 0%nat; split; [lia | reflexivity] |]. intros q Hq. replace q with 0%nat by lia. cbn. lra.
    - destruct IH as [(q & Hq & E) A]; [lia |]. rewrite seq_S, fold_left_app. cbn [fold_left].
      set (m := fold_left _ (seq 1 n) (f 0%nat)) in *. clearbody m. unfold Rmin. destruct (Rle_dec m (f (1 + n)%nat)) as [C | C].
      + split; [exists q; split; [lia | auto] |]. intros p Hpp. destruct (Nat.eq_dec p (1 + n)) as [-> | K]; [auto | apply A; lia].
      + split; [exists (1 + n)%nat; split; [lia | auto] |]. intros p Hpp.
        destruct (Nat.eq_dec p (1 + n)) as [-> | K]; [lra |]. specialize (A p ltac:(lia)). lra. }
  specialize (G (procs - 1)%nat). replace (S (procs - 1)) with procs in G by lia. apply G. lia.
Qed.
Lemma reduce_nat_spec : forall procs f, (0 < procs)%nat ->
  (exists q, (q < procs)%nat /\ reduce_nat procs f = f q) /\ forall q, (q < procs)%nat -> (reduce_nat procs f <= f q)%nat.
Proof.
  intros procs f Hp. unfold reduce_nat.
  assert (G : forall n, (S n <= procs)%nat ->
    (exists q, (q < S n)%nat /\ fold_left (fun m q => Nat.min m (f q)) (seq 1 n) (f 0%nat) = f q) /\
    forall q, (q < S n)%nat -> (fold_left (fun m q => Nat.min m (f q)) (seq 1 n) (f 0%nat) <= f q)%nat).
  { induction n as [| n IH]; intros Hn.
    - split; [exists 0%nat; split; [lia | reflexivity] |]. intros q Hq. replace q with 0%nat by lia. cbn. lia.
    - destruct IH as [(q & Hq & E) A]; [lia |]. rewrite seq_S, fold_left_app. cbn [fold_left].
      set (m := fold_left _ (seq 1 n) (f 0%nat)) in *. clearbody m.
      destruct (Nat.min_spec m (f (1 + n)%nat)) as [[C ->] | [C ->]].
      + split; [exists q; split; [lia | auto] |]. intros p Hpp. destruct (Nat.eq_dec p (1 + n)) as [-> | K]; [lia | apply A; lia].
      + split; [exists (1 + n)%nat; split; [lia | auto] |]. intros p Hpp.
        destruct (Nat.eq_dec p (1 + n)) as [-> | K]; [lia |]. specialize (A p ltac:(lia)). lia. }
  specialize (G (procs - 1)%nat). replace (S (procs - 1)) with procs in G by lia. apply G. lia.
Qed.

Section Probes.
Variable A : Type.
Variable dist_of : A -> R.
Variable huge : R.
Variables imax procs n : nat.
(** f q i: what rank q found for probe i. *)
Variable f : nat -> nat -> A.
Hypothesis Hprocs : (0 < procs <= imax)%nat.
Notation loc := (fun q => map (fun i => (i, f q i)) (seq 0 n)).

Lemma min_dist_spec : forall i, (i < n)%nat ->
  (exists q, (q < procs)%nat /\ min_dist A dist_of procs loc i = dist_of (f q i)) /\
  forall q, (q < procs)%nat -> min_dist A dist_of procs loc i <= dist_of (f q i).
Proof.
  intros i Hi.
  assert (E : forall q, nth i (map (fun p => dist_of (snd p)) (map (fun i => (i, f q i)) (seq 0 n))) 0 = dist_of (f q i)).
  { intros q. rewrite map_map. cbn [snd].
    rewrite nth_indep with (d' := dist_of (f q 0%nat)) by (rewrite map_length, seq_length; auto).
    rewrite (map_nth (fun i => dist_of (f q i))). rewrite seq_nth by auto. reflexivity. }
  unfold min_dist. destruct (reduce_R_spec procs (fun q => nth i (map (fun p => dist_of (snd p)) (loc q)) 0)) as [(q & Hq & Eq) Hle]; [lia |].
  split.
  - exists q. split; auto. rewrite Eq. apply E.
  - intros p Hp. rewrite <- E. apply Hle. auto.
Qed.
Lemma my_min_rank_spec : forall q i, (i < n)%nat ->
  my_min_rank A dist_of imax procs loc q i =
  if Req_EM_T (dist_of (f q i)) (min_dist A dist_of procs loc i) then q else imax.
Proof.
  intros q i Hi. unfold my_min_rank.
  assert (G : forall m, (m <= n)%nat -> (i < m)%nat ->
    fold_left (fun v p => fun i => if (i =? fst p)%nat
      then (if Req_EM_T (dist_of (snd p)) (min_dist A dist_of procs loc (fst p)) then q else imax) else v i)
      (map (fun i => (i, f q i)) (seq 0 m)) (fun _ => 0%nat) i =
    if Req_EM_T (dist_of (f q i)) (min_dist A dist_of procs loc i) then q else imax).
  { induction m as [| m IH]; intros Hm Him; [lia |]. rewrite seq_S, map_app, fold_left_app. cbn [map fold_left fst snd].
    destruct (Nat.eqb_spec i (0 + m)) as [-> | K]; [reflexivity |]. apply IH; lia. }
  apply G; lia.
Qed.
(** The rank with the least distance; of several the lowest. *)
Definition owns (q i : nat) : Prop :=
  (q < procs)%nat /\ (forall p, (p < procs)%nat -> dist_of (f q i) <= dist_of (f p i)) /\
  forall p, (p < q)%nat -> dist_of (f q i) < dist_of (f p i).
Lemma min_rank_owns : forall i, (i < n)%nat -> owns (min_rank A dist_of imax procs loc i) i.
Proof.
  intros i Hi. destruct (min_dist_spec i Hi) as [(q0 & Hq0 & E0) Hle]. unfold min_rank.
  destruct (reduce_nat_spec procs (fun q => my_min_rank A dist_of imax procs loc q i)) as [(q & Hq & Eq) Hleq]; [lia |].
  cbn beta in Eq. rewrite my_min_rank_spec in Eq by auto.
  assert (Hm : forall p, (p < procs)%nat -> dist_of (f p i) = min_dist A dist_of procs loc i ->
    (reduce_nat procs (fun q => my_min_rank A dist_of imax procs loc q i) <= p)%nat).
  { intros p Hp E. specialize (Hleq p Hp). cbn beta in Hleq. rewrite my_min_rank_spec in Hleq by auto.
    destruct (Req_EM_T (dist_of (f p i)) (min_dist A dist_of procs loc i)); [auto | contradiction]. }
  set (m := reduce_nat _ _) in *. clearbody m.
  destruct (Req_EM_T (dist_of (f q i)) (min_dist A dist_of procs loc i)) as [C | C].
  - subst m. split; [auto |]. rewrite C. split; [apply Hle |].
    intros p Hp. destruct (Rle_lt_or_eq_dec _ _ (Hle p ltac:(lia))) as [| B]; auto.
    symmetry in B. apply Hm in B; lia.
  - specialize (Hm q0 Hq0 (eq_sym E0)). lia.
Qed.
End Probes.

(** C30a: all ranks pass the same n probes; f q i is what rank q found for probe i, with a distance of
    [huge] (the largest double) if it found nothing.  If every probe is found by some rank, then no
    rank throws, and rank q keeps, in their order, exactly the probes for which it is the rank of least
    distance, the lowest one in case of a tie. *)
Theorem duplicates_removed : forall A (dist_of : A -> R) huge imax procs n f,
  (0 < procs <= imax)%nat ->
  (forall i, (i < n)%nat -> exists q, (q < procs)%nat /\ dist_of (f q i) < huge) ->
  exists owner : nat -> nat,
    (forall i, (i < n)%nat ->
       (owner i < procs)%nat /\
       (forall p, (p < procs)%nat -> dist_of (f (owner i) i) <= dist_of (f p i)) /\
       (forall p, (p < owner i)%nat -> dist_of (f (owner i) i) < dist_of (f p i))) /\
    (forall q, (q < procs)%nat ->
       clean_duplicate_probes A dist_of huge imax procs (fun q => map (fun i => (i, f q i)) (seq 0 n)) q =
       Some (map (fun i => (i, f q i)) (filter (fun i => (owner i =? q)%nat) (seq 0 n)))).
Proof.
  intros A dist_of huge imax procs n f Hp Hfound.
  exists (min_rank A dist_of imax procs (fun q => map (fun i => (i, f q i)) (seq 0 n))).
  pose proof (min_rank_owns A dist_of imax procs n f Hp) as Hown. split; [exact Hown |].
  intros q Hq. unfold clean_duplicate_probes.
  set (mr := min_rank A dist_of imax procs (fun q => map (fun i => (i, f q i)) (seq 0 n))) in *.
  replace (missing A dist_of huge imax procs (fun q => map (fun i => (i, f q i)) (seq 0 n)) q) with false.
  - f_equal. clear Hown Hfound. clearbody mr. induction (seq 0 n) as [| i l IH]; [reflexivity |]. cbn [map filter fst].
    rewrite Nat.eqb_sym. destruct (mr i =? q)%nat; cbn [map]; rewrite IH; reflexivity.
  - symmetry. unfold missing. rewrite map_length, seq_length.
    destruct (existsb _ (seq 0 n)) eqn:E; auto. apply existsb_exists in E. destruct E as (i & Hi & E).
    apply in_seq in Hi. assert (Hi' : (i < n)%nat) by lia. fold mr in E. destruct (Hown i Hi') as (Hlt & _).
    destruct (Nat.eqb_spec (mr i) imax) as [K | K]; [lia |]. rewrite orb_false_r in E.
    destruct (Hfound i Hi') as (p & Hpp & Hh).
    destruct (min_dist_spec A dist_of imax procs n f Hp i Hi') as [_ Hle]. specialize (Hle p Hpp).
    destruct (Req_EM_T _ huge) as [C | C]; [lra | discriminate].
Qed.
Print Assumptions duplicates_removed.

(** C30b: if some probe is found by no rank, every rank throws. *)
Theorem missing_probe_error : forall A (dist_of : A -> R) huge imax procs n f i,
  (0 < procs <= imax)%nat -> (i < n)%nat -> (forall q, (q < procs)%nat -> dist_of (f q i) = huge) ->
  forall q, (q < procs)%nat ->
  clean_duplicate_probes A dist_of huge imax procs (fun q => map (fun i => (i, f q i)) (seq 0 n)) q = None.
Proof.
  intros A dist_of huge imax procs n f i Hp Hi Hnone q Hq. unfold clean_duplicate_probes.
  replace (missing _ _ _ _ _ _ q) with true; [reflexivity |]. symmetry. unfold missing.
  rewrite map_length, seq_length. apply existsb_exists. exists i. split; [apply in_seq; lia |].
  destruct (min_dist_spec A dist_of imax procs n f Hp i Hi) as [(p & Hpp & E) _]. rewrite E, Hnone by auto.
  destruct (Req_EM_T huge huge); [reflexivity | contradiction].
Qed.
Print Assumptions missing_probe_error.

(** Three ranks, two probes: a tie between ranks 1 and 2 for the first. *)
Example duplicates_ex : exists owner : nat -> nat,
  owner 0%nat = 1%nat /\ owner 1%nat = 2%nat /\
  forall q, (q < 3)%nat ->
  clean_duplicate_probes R (fun d => d) 1000 10 3
    (fun q => map (fun i => (i, match q, i with 0%nat, _ => 1000 | 1%nat, 0%nat => 5 | 2%nat, 0%nat => 5 | 1%nat, _ => 8 | _, _ => 3 end)) (seq 0 2)) q =
  Some (map (fun i => (i, match q, i with 0%nat, _ => 1000 | 1%nat, 0%nat => 5 | 2%nat, 0%nat => 5 | 1%nat, _ => 8 | _, _ => 3 end))
         (filter (fun i => (owner i =? q)%nat) (seq 0 2))).
Proof.
  destruct (duplicates_removed R (fun d => d) 1000 10 3 2
    (fun q i => match q, i with 0%nat, _ => 1000 | 1%nat, 0%nat => 5 | 2%nat, 0%nat => 5 | 1%nat, _ => 8 | _, _ => 3 end))
    as (owner & Ho & Hc).
  - lia.
  - intros i Hi. exists 2%nat. split; [lia |]. destruct i as [| i]; lra.
  - exists owner. split; [| split; [| exact Hc]].
    + destruct (Ho 0%nat ltac:(lia)) as (A & B & C). specialize (B 1%nat ltac:(lia)).
      destruct (owner 0%nat) as [| [| [| k]]]; [lra | reflexivity | specialize (C 1%nat ltac:(lia)); lra | lia].
    + destruct (Ho 1%nat ltac:(lia)) as (A & B & _). specialize (B 2%nat ltac:(lia)).
      destruct (owner 1%nat) as [| [| [| k]]]; [lra | lra | reflexivity | lia].
Qed.

Lemma locate_all_spec : forall A (dflt : A) (locate1 : pt -> option A) probes p l,
  locate_all locate1 p probes = Some l -> exists f, l = map (fun i => (i, f i)) (seq p (length probes)) /\
    forall i x, nth_error probes i = Some x -> locate1 x = Some (f (p + i)%nat).
Proof.
  intros A dflt locate1 probes. induction probes as [| x t IH]; intros p l E; cbn in E.
  - exists (fun _ => dflt). split; [cbn; congruence |]. intros [|i]; discriminate.
  - destruct (locate1 x) as [r |] eqn:Er; [| discriminate]. cbn in E.
    destruct (locate_all locate1 (S p) t) as [rest |] eqn:Et; [| discriminate]. cbn in E.
    destruct (IH (S p) rest Et) as (f & Hl & Hf). exists (fun i => if (i =? p)%nat then r else f i). split.
    + injection E as <-. cbn [length seq map]. rewrite Nat.eqb_refl. f_equal. rewrite Hl.
      apply map_ext_in. intros i Hi. apply in_seq in Hi. destruct (Nat.eqb_spec i p); [lia | reflexivity].
    + intros [| i] y Hy; cbn in Hy.
      * injection Hy as <-. rewrite Nat.add_0_r, Nat.eqb_refl. auto.
      * destruct (Nat.eqb_spec (p + S i) p); [lia |]. rewrite (Hf i y Hy). f_equal. f_equal. lia.
Qed.
Lemma clean_ext : forall A (dist_of : A -> R) huge imax procs loc loc' q, (q < procs)%nat ->
  (forall q, (q < procs)%nat -> loc q = loc' q) ->
  clean_duplicate_probes A dist_of huge imax procs loc q = clean_duplicate_probes A dist_of huge imax procs loc' q.
Proof.
  intros A dist_of huge imax procs loc loc' q Hq E.
  assert (Efold : forall {B} (g : B -> nat -> B) (h : B -> nat -> B) l b, (forall b x, In x l -> g b x = h b x) ->
    fold_left g l b = fold_left h l b).
  { intros B g h l. induction l as [| x l IH]; intros b H; cbn; auto. rewrite H by (left; auto). apply IH.
    intros; apply H; right; auto. }
  assert (Emd : forall i, min_dist A dist_of procs loc i = min_dist A dist_of procs loc' i).
  { intros i. unfold min_dist, reduce_R. rewrite (E 0%nat) by lia. apply Efold. intros b x Hx. apply in_seq in Hx.
    rewrite E by lia. reflexivity. }
  assert (Emm : forall r i, (r < procs)%nat -> my_min_rank A dist_of imax procs loc r i = my_min_rank A dist_of imax procs loc' r i).
  { intros r i Hr. unfold my_min_rank. rewrite E by auto. generalize (fun _ : nat => 0%nat).
    induction (loc' r) as [| p l IH]; intros g; cbn [fold_left]; auto. rewrite Emd. apply IH. }
  assert (Emr : forall i, min_rank A dist_of imax procs loc i = min_rank A dist_of imax procs loc' i).
  { intros i. unfold min_rank, reduce_nat. rewrite (Emm 0%nat) by lia. apply Efold. intros b x Hx. apply in_seq in Hx.
    rewrite Emm by lia. reflexivity. }
  unfold clean_duplicate_probes, missing. rewrite E by auto.
  replace (existsb (fun i => (if Req_EM_T (min_dist A dist_of procs loc i) huge then true else false) || (min_rank A dist_of imax procs loc i =? imax)%nat)
      (seq 0 (length (loc' q)))) with
    (existsb (fun i => (if Req_EM_T (min_dist A dist_of procs loc' i) huge then true else false) || (min_rank A dist_of imax procs loc' i =? imax)%nat)
      (seq 0 (length (loc' q)))).
  - destruct (existsb _ _); auto. f_equal. apply filter_ext. intros p. rewrite Emr. reflexivity.
  - induction (seq 0 (length (loc' q))) as [| i l IH]; cbn; auto. rewrite IH, Emd, Emr. reflexivity.
Qed.

(** C30d: the probes of the writers.  Every rank q locates the same probes with its own locator, without
    exception.  If each probe is found by some rank, every probe is written by exactly one rank, with
    the result of that rank's locator; no rank found it closer, and no lower rank equally close. *)
Theorem probes_assigned : forall A (dflt : A) (dist_of : A -> R) huge imax procs probes
    (locate1 : nat -> pt -> option A) loc,
  (0 < procs <= imax)%nat ->
  (forall q, (q < procs)%nat -> locate_all (locate1 q) 0 probes = Some (loc q)) ->
  (forall x, In x probes -> exists q r, (q < procs)%nat /\ locate1 q x = Some r /\ dist_of r < huge) ->
  exists written : nat -> list (nat * A),
    (forall q, (q < procs)%nat -> clean_duplicate_probes A dist_of huge imax procs loc q = Some (written q)) /\
    forall i x, nth_error probes i = Some x ->
      exists q r, (q < procs)%nat /\ locate1 q x = Some r /\
        (forall p s, (p < procs)%nat -> locate1 p x = Some s -> dist_of r <= dist_of s /\ ((p < q)%nat -> dist_of r < dist_of s)) /\
        forall p s, (p < procs)%nat -> (In (i, s) (written p) <-> p = q /\ s = r).
Proof.
  intros A dflt dist_of huge imax procs probes locate1 loc Hp Hloc Hfound.
  assert (Hf : exists f : nat -> nat -> A, forall q, (q < procs)%nat ->
    loc q = map (fun i => (i, f q i)) (seq 0 (length probes)) /\
    forall i x, nth_error probes i = Some x -> locate1 q x = Some (f q i)).
  { exists (fun q i => snd (nth i (loc q) (0%nat, dflt))). intros q Hq.
    destruct (locate_all_spec A dflt (locate1 q) probes 0 (loc q) (Hloc q Hq)) as (f & Hl & Hx).
    assert (En : forall i, (i < length probes)%nat -> snd (nth i (loc q) (0%nat, dflt)) = f i).
    { intros i Hi. rewrite Hl. rewrite nth_indep with (d' := (0%nat, f 0%nat)) by (rewrite map_length, seq_length; auto).
      rewrite (map_nth (fun i => (i, f i))). rewrite seq_nth by auto. reflexivity. }
    split.
    - rewrite Hl at 1. apply map_ext_in. intros i Hi. apply in_seq in Hi. rewrite En by lia. reflexivity.
    - intros i x Hi. rewrite (Hx i x Hi). f_equal. rewrite En; [reflexivity |]. apply nth_error_Some. congruence. }
  destruct Hf as (f & Hf).
  destruct (duplicates_removed A dist_of huge imax procs (length probes) f Hp) as (owner & Ho & Hc).
  { intros i Hi. destruct (nth_error probes i) as [x |] eqn:Ex; [| apply nth_error_Some in Hi; contradiction].
    destruct (Hfound x (nth_error_In _ _ Ex)) as (q & r & Hq & Er & Hr). exists q. split; auto.
    destruct (Hf q Hq) as [_ Hx]. rewrite (Hx i x Ex) in Er. congruence. }
  exists (fun q => map (fun i => (i, f q i)) (filter (fun i => (owner i =? q)%nat) (seq 0 (length probes)))).
  split.
  - intros q Hq. rewrite <- Hc by auto. apply clean_ext; auto. intros r Hr. apply Hf; auto.
  - intros i x Ex. assert (Hi : (i < length probes)%nat) by (apply nth_error_Some; congruence).
    destruct (Ho i Hi) as (Hown & Hmin & Hlow). exists (owner i), (f (owner i) i). split; auto.
    split; [apply Hf; auto |]. split.
    + intros p s Hpp Es. rewrite (proj2 (Hf p Hpp) i x Ex) in Es. injection Es as <-. split; auto.
    + intros p s Hpp. rewrite in_map_iff. split.
      * intros (j & Ej & Hj). injection Ej as -> <-. apply filter_In in Hj. destruct Hj as [_ Hj].
        apply Nat.eqb_eq in Hj. subst p. auto.
      * intros [-> ->]. exists i. split; auto. apply filter_In. split; [apply in_seq; lia |]. apply Nat.eqb_refl.
Qed.
Print Assumptions probes_assigned.

(** C30c: whatever the order of iteration over the set of elements, the stored position of a probe's
    element leads to the element found for this probe. *)
Theorem probe_positions : forall A (no_of : A -> nat) (l : list (nat * A)) order,
  Permutation order (nodup Nat.eq_dec (map (fun p => no_of (snd p)) l)) ->
  Forall2 (fun m p => fst m = fst p /\ (snd m < length order)%nat /\ nth (snd m) order 0%nat = no_of (snd p))
    (probe_meta no_of order l) l.
Proof.
  intros A no_of l order HP. unfold probe_meta.
  assert (Hin : forall p, In p l -> In (no_of (snd p)) order).
  { intros p Hp. eapply Permutation_in; [apply Permutation_sym; exact HP |]. apply nodup_In.
    apply (in_map (fun p => no_of (snd p))). auto. }
  assert (Hidx : forall e, In e order -> (out_no order e < length order)%nat /\ nth (out_no order e) order 0%nat = e).
  { clear. induction order as [| a t IH]; intros e; [intros [] |]. intros Hin. cbn.
    destruct (Nat.eqb_spec a e) as [-> | K]; [split; [lia | reflexivity] |].
    destruct Hin as [-> | Hin]; [contradiction |]. destruct (IH e Hin). split; [lia | auto]. }
  clear HP. induction l as [| p l IH]; cbn [map]; constructor.
  - cbn. split; auto. apply Hidx, Hin. left. auto.
  - apply IH. intros; apply Hin; right; auto.
Qed.
Print Assumptions probe_positions.
