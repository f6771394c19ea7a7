(** Facets of box meshes. *)
Require Import List Arith Bool ZArith Lia Permutation Sorted.
Require Import Verif.Base Verif.CommProofs Verif.MultiIndexModel Verif.MultiIndexProofs Verif.SimplexModel Verif.SimplexProofs
  Verif.GenMeshModel Verif.GenMeshSpec Verif.GenMeshProofs Verif.GhostSpec.
Import ListNotations.
Local Open Scope opt_scope.

(** Corners of the unit cube and vertices of an element. *)
Definition corner (D v : nat) : list nat := match unflatten v (repeat 2 D) with Some c => c | None => [] end.
Definition corners (D : nat) (odd : bool) (s : nat) : list (list nat) := map (corner D) (nth s (tess_table D odd) []).
Definition is_odd (e : list nat) : bool := Nat.odd (list_sum e).
Definition elem (N e : list nat) (cs : list (list nat)) : list nat := mk_simplex (map (fun c => flatten (vadd e c) (np1 N)) cs).
Definition cube_elems (D : nat) (N e : list nat) : list (list nat) := map (fun s => elem N e (corners D (is_odd e) s)) (seq 0 (num_simplices D)).

Lemma fold_odd e : forall b, fold_left (fun b ee => xorb b (ee mod 2 =? 1)) e b = xorb b (is_odd e).
Proof.
  unfold is_odd. induction e as [|x e IH]; intro b; cbn [fold_left list_sum fold_right]; [rewrite xorb_false_r; auto|].
  change (fold_right Nat.add 0 e) with (list_sum e). rewrite IH, Nat.odd_add, xorb_assoc. f_equal. f_equal.
  rewrite <- Nat.bit0_mod. destruct (Nat.odd x) eqn:E.
  - apply Nat.odd_spec in E as [m ->]. replace (2 * m + 1) with (1 + 2 * m) by lia. rewrite Nat.bit0_mod, Nat.add_mod, (Nat.mul_comm 2), Nat.mod_mul by lia. auto.
  - rewrite <- Nat.negb_even in E. apply negb_false_iff, Nat.even_spec in E as [m ->]. rewrite Nat.bit0_mod, (Nat.mul_comm 2), Nat.mod_mul by lia. auto.
Qed.
Lemma cube_simplices_spec D N c : (D = 2 \/ D = 3) -> c < prodl N ->
  exists e, unflatten c N = Some e /\ inrange e N /\ flat e N = c /\ cube_simplices D N c = Some (cube_elems D N e).
Proof.
  intros HD Hc. destruct (unflatten_spec N c Hc) as (e & E & R & F). exists e. split; auto. split; auto. split; auto.
  unfold cube_simplices. rewrite E. cbn [bind]. rewrite fold_odd. cbn [xorb]. unfold cube_elems, corners, elem.
  destruct HD as [-> | ->]; destruct (is_odd e); reflexivity.
Qed.
Lemma cube_elems_length D N e : length (cube_elems D N e) = num_simplices D.
Proof. unfold cube_elems. rewrite map_length, seq_length. auto. Qed.

(** Vectors. *)
Definition bits (c : list nat) : Prop := Forall (fun x => x <= 1) c.
Lemma vadd_length a : forall b, length a = length b -> length (vadd a b) = length a.
Proof. induction a as [|x a IH]; intros [|y b] L; cbn in *; auto; try lia. Qed.
Lemma vadd_sum a : forall b, length a = length b -> list_sum (vadd a b) = list_sum a + list_sum b.
Proof. unfold list_sum. induction a as [|x a IH]; intros [|y b] L; cbn in *; auto; try lia. rewrite IH; lia. Qed.
Lemma vadd_nth a : forall b d, length a = length b -> nth d (vadd a b) 0 = nth d a 0 + nth d b 0.
Proof. induction a as [|x a IH]; intros [|y b] d L; cbn in *; try lia; destruct d; auto. Qed.
Lemma vadd_range e : forall N c, inrange e N -> length c = length e -> bits c -> inrange (vadd e c) (np1 N).
Proof.
  induction e as [|x e IH]; intros N c R L B; inversion R; subst; destruct c as [|z c]; try discriminate; cbn [vadd np1 map]; constructor.
  - inversion B; subst. lia.
  - inversion B; subst. apply IH; auto.
Qed.
(** Relation of neighbouring cells: e' = e + t - 1. *)
Lemma vadd_shift e : forall e' c c', length e = length e' -> length c = length e -> length c' = length e -> bits c -> bits c' ->
  vadd e c = vadd e' c' -> exists t, length t = length e /\ Forall (fun x => x <= 2) t /\ vadd e' (repeat 1 (length e)) = vadd e t.
Proof.
  induction e as [|x e IH]; intros [|x' e'] [|y c] [|y' c'] L1 L2 L3 B B' H; try discriminate; [exists []; repeat split; constructor|].
  cbn in H. inversion H as [[H1 H2]]. inversion B; inversion B'; subst. cbn in L1, L2, L3.
  destruct (IH e' c c') as (t & Lt & Ft & E); auto. exists (x' + 1 - x :: t). split; [cbn; lia|]. split; [constructor; auto; lia|].
  cbn [length repeat vadd]. rewrite E. f_equal. lia.
Qed.
Lemma vadd_cancel e : forall e' t c c', length e' = length e -> length t = length e -> length c = length e -> length c' = length e ->
  vadd e' (repeat 1 (length e)) = vadd e t -> (vadd e c = vadd e' c' <-> vadd c (repeat 1 (length e)) = vadd t c').
Proof.
  induction e as [|x e IH]; intros [|x' e'] [|a t] [|y c] [|y' c'] L1 L2 L3 L4 H; try discriminate; [tauto|].
  cbn in *. inversion H as [[H1 H2]]. specialize (IH e' t c c' ltac:(lia) ltac:(lia) ltac:(lia) ltac:(lia) H2).
  split; intro E; inversion E as [[E1 E2]]; f_equal; try lia; apply IH; auto.
Qed.
Lemma vadd_ones_inj a : forall b, length a = length b -> vadd a (repeat 1 (length a)) = vadd b (repeat 1 (length a)) -> a = b.
Proof. induction a as [|x a IH]; intros [|y b] L H; try discriminate; auto. cbn in *. inversion H. f_equal; [lia|]. apply IH; auto. Qed.
Lemma vadd_ones_inj' (e : list nat) : forall a b, length a = length e -> length b = length e -> vadd a (repeat 1 (length e)) = vadd b (repeat 1 (length e)) -> a = b.
Proof. intros a b L1 L2 H. apply vadd_ones_inj; [lia|]. rewrite L1. auto. Qed.

(** What is near a simplex: cells e + t - 1, t in {0,1,2}^D, and the simplex in it. *)
Fixpoint tuples (D : nat) : list (list nat) :=
  match D with 0 => [[]] | S D' => flat_map (fun t => [0 :: t; 1 :: t; 2 :: t]) (tuples D') end.
Definition near (D : nat) : list (list nat * nat) := flat_map (fun t => map (pair t) (seq 0 (num_simplices D))) (tuples D).
Definition veqb (a b : list nat) : bool := if list_eq_dec Nat.eq_dec a b then true else false.
Definition has_corners (D : nat) (odd : bool) (cs : list (list nat)) (x : list nat * nat) : bool :=
  let (t, s) := x in
  forallb (fun c => existsb (fun c' => veqb (vadd c (repeat 1 D)) (vadd t c')) (corners D (xorb odd (Nat.odd (list_sum t + D))) s)) cs.
Definition const_at (d v : nat) (cs : list (list nat)) : bool := forallb (fun c => nth d c 0 =? v) cs.
Fixpoint remove_nth {A} (n : nat) (l : list A) : list A :=
  match n, l with _, [] => [] | 0, _ :: t => t | S n', x :: t => x :: remove_nth n' t end.
(** The neighbour behind a facet: in the same cell and then the facet in no coordinate plane, or in the
    neighbouring cell in direction d and then the facet in the plane between. *)
Definition neighbour_ok (D : nat) (cs : list (list nat)) (t : list nat) : bool :=
  if veqb t (repeat 1 D) then forallb (fun d => negb (const_at d 0 cs) && negb (const_at d 1 cs)) (seq 0 D)
  else existsb (fun d => forallb (fun d' => if d' =? d then
                    ((nth d t 0 =? 0) && const_at d 0 cs && negb (const_at d 1 cs)) || ((nth d t 0 =? 2) && const_at d 1 cs && negb (const_at d 0 cs))
                  else (nth d' t 0 =? 1) && negb (const_at d' 0 cs) && negb (const_at d' 1 cs)) (seq 0 D)) (seq 0 D).
Definition facet_ok (D : nat) (odd : bool) (s m : nat) : bool :=
  let cs := remove_nth m (corners D odd s) in
  match filter (has_corners D odd cs) (near D) with
  | [(t1, s1); (t2, s2)] =>
      (veqb t1 (repeat 1 D) && (s1 =? s) && neighbour_ok D cs t2 || veqb t2 (repeat 1 D) && (s2 =? s) && neighbour_ok D cs t1)
  | _ => false
  end.
Definition elem_ok (D : nat) (odd : bool) (s : nat) : bool :=
  match filter (has_corners D odd (corners D odd s)) (near D) with
  | [(t1, s1)] => veqb t1 (repeat 1 D) && (s1 =? s)
  | _ => false
  end.
Definition table_ok (D : nat) : bool :=
  forallb (fun odd => forallb (fun s =>
     elem_ok D odd s && (length (corners D odd s) =? D + 1) && forallb (fun m => facet_ok D odd s m) (seq 0 (D + 1)) &&
     forallb (fun c => (length c =? D) && forallb (fun x => x <=? 1) c) (corners D odd s) &&
     (if list_eq_dec (list_eq_dec Nat.eq_dec) (nodup (list_eq_dec Nat.eq_dec) (corners D odd s)) (corners D odd s) then true else false))
   (seq 0 (num_simplices D))) [false; true].
Lemma table_ok_2 : table_ok 2 = true. Proof. vm_compute. reflexivity. Qed.
Lemma table_ok_3 : table_ok 3 = true. Proof. vm_compute. reflexivity. Qed.

Definition pair_dec (a b : list nat * nat) : {a = b} + {a <> b}.
Proof. decide equality; [apply Nat.eq_dec|apply (list_eq_dec Nat.eq_dec)]. Defined.
Lemma near_nodup D : D = 2 \/ D = 3 -> NoDup (near D).
Proof.
  intro H. assert (X : nodup pair_dec (near D) = near D) by (destruct H as [-> | ->]; vm_compute; reflexivity). rewrite <- X. apply NoDup_nodup.
Qed.
Lemma veqb_spec a b : veqb a b = true <-> a = b.
Proof. unfold veqb. destruct (list_eq_dec Nat.eq_dec a b); split; intro; auto; discriminate. Qed.
Record facts (D : nat) (odd : bool) (s : nat) : Prop := {
  fa_elem : elem_ok D odd s = true;
  fa_len : length (corners D odd s) = D + 1;
  fa_facet : forall m, m <= D -> facet_ok D odd s m = true;
  fa_bits : forall c, In c (corners D odd s) -> length c = D /\ bits c;
  fa_nodup : NoDup (corners D odd s) }.
Lemma table_facts D odd s : D = 2 \/ D = 3 -> s < num_simplices D -> facts D odd s.
Proof.
  intros HD Hs. assert (T : table_ok D = true) by (destruct HD as [-> | ->]; [apply table_ok_2|apply table_ok_3]).
  unfold table_ok in T. rewrite forallb_forall in T. assert (I : In odd [false; true]) by (destruct odd; cbn; auto). specialize (T odd I).
  rewrite forallb_forall in T. specialize (T s). rewrite in_seq in T. specialize (T ltac:(lia)).
  apply andb_true_iff in T as [T T5]. apply andb_true_iff in T as [T T4]. apply andb_true_iff in T as [T T3]. apply andb_true_iff in T as [T1 T2].
  split; auto.
  - apply Nat.eqb_eq. auto.
  - intros m Hm. rewrite forallb_forall in T3. apply T3. apply in_seq. lia.
  - intros c Hc. rewrite forallb_forall in T4. specialize (T4 c Hc). apply andb_true_iff in T4 as [A B]. apply Nat.eqb_eq in A. split; auto.
    apply Forall_forall. intros x Hx. rewrite forallb_forall in B. apply Nat.leb_le. auto.
  - destruct (list_eq_dec _ _ _) as [E|]; [|discriminate]. rewrite <- E. apply NoDup_nodup.
Qed.

Lemma id_inj N p q : inrange p (np1 N) -> inrange q (np1 N) -> flatten p (np1 N) = flatten q (np1 N) -> p = q.
Proof.
  intros P Q E. rewrite !flatten_flat in E by (apply inrange_length; auto). eapply flat_inj; eauto.
Qed.
Lemma in_elem N e cs v : In v (elem N e cs) <-> exists c, In c cs /\ v = flatten (vadd e c) (np1 N).
Proof.
  unfold elem, mk_simplex. split.
  - intro H. apply (Permutation_in _ (Permutation_sym (sort_perm _))) in H. apply in_map_iff in H as (c & <- & Hc). eauto.
  - intros (c & Hc & ->). apply (Permutation_in _ (sort_perm _)). apply in_map_iff. eauto.
Qed.
Lemma vadd_inj e : forall c c', length c = length e -> length c' = length e -> vadd e c = vadd e c' -> c = c'.
Proof.
  induction e as [|x e IH]; intros [|y c] [|z c'] L1 L2 H; try discriminate; auto. cbn in *. inversion H. f_equal; [lia|]. apply IH; auto.
Qed.
Lemma nodup_map_inj {A B} (f : A -> B) l : (forall x y, In x l -> In y l -> f x = f y -> x = y) -> NoDup l -> NoDup (map f l).
Proof.
  intros I N. induction N as [|a l H N IH]; cbn; constructor.
  - intro X. apply in_map_iff in X as (y & E & Hy). apply H. rewrite (I a y); auto; cbn; auto.
  - apply IH. intros x y Hx Hy. apply I; cbn; auto.
Qed.
Lemma remove_nth_in {A} (l : list A) : forall m x, In x (remove_nth m l) -> In x l.
Proof. induction l as [|a l IH]; intros [|m] x H; cbn in *; auto. destruct H as [H|H]; eauto. Qed.
Lemma remove_nth_length {A} (l : list A) : forall m, m < length l -> length (remove_nth m l) + 1 = length l.
Proof. induction l as [|a l IH]; intros [|m] H; cbn in *; try lia. specialize (IH m ltac:(lia)). lia. Qed.
Lemma remove_nth_other {A} (l : list A) : forall m x y, nth_error l m = Some x -> In y l -> y <> x -> In y (remove_nth m l).
Proof.
  induction l as [|a l IH]; intros [|m] x y E H Hn; cbn in *; try discriminate; try contradiction.
  - inversion E; subst. destruct H; congruence.
  - destruct H as [H|H]; auto. right. eapply IH; eauto.
Qed.
Lemma remove_nth_map {A B} (f : A -> B) l : forall m, remove_nth m (map f l) = map f (remove_nth m l).
Proof. induction l as [|a l IH]; intros [|m]; cbn; auto. f_equal. auto. Qed.

Lemma nth_repeat1 n d : d < n -> nth d (repeat 1 n) 0 = 1.
Proof. revert d. induction n as [|n IH]; intros d H; [lia|]. destruct d; cbn; auto. apply IH. lia. Qed.

Section Box.
  Variables (D : nat) (N : list nat).
  Hypothesis HB : box D N.
  Let HD : D = 2 \/ D = 3 := proj1 HB.
  Let LN : length N = D := proj1 (proj2 HB).
  Definition E (e : list nat) (s : nat) : list nat := elem N e (corners D (is_odd e) s).
  Definition valid (e : list nat) (s : nat) : Prop := inrange e N /\ s < num_simplices D.

  Lemma valid_len e s : valid e s -> length e = D.
  Proof. intros [R _]. apply inrange_length in R. congruence. Qed.
  Lemma corner_in e s c : valid e s -> In c (corners D (is_odd e) s) -> inrange (vadd e c) (np1 N).
  Proof.
    intros V Hc. destruct (fa_bits _ _ _ (table_facts D (is_odd e) s HD (proj2 V)) c Hc) as [L B].
    apply vadd_range; auto; [apply V|]. rewrite (valid_len e s V). auto.
  Qed.
  Lemma E_good e s : valid e s -> length (E e s) = D + 1 /\ StronglySorted lt (E e s).
  Proof.
    intro V. pose proof (table_facts D (is_odd e) s HD (proj2 V)) as [_ FL _ FB FN]. unfold E, elem, mk_simplex. split.
    - rewrite <- (Permutation_length (sort_perm _)), map_length. auto.
    - apply sorted_le_NoDup_lt; [apply sort_sorted|]. apply (Permutation_NoDup (sort_perm _)). apply nodup_map_inj; auto.
      intros x y Hx Hy H. apply id_inj in H; [|eapply corner_in; eauto|eapply corner_in; eauto].
      apply (vadd_inj e); [rewrite (valid_len e s V); apply FB; auto|rewrite (valid_len e s V); apply FB; auto|auto].
  Qed.

  (** Which elements contain given corners. *)
  Lemma contains_iff e s cs e' s' : valid e s -> valid e' s' -> (forall c, In c cs -> length c = D /\ bits c) -> cs <> [] ->
    ((forall c, In c cs -> In (flatten (vadd e c) (np1 N)) (E e' s')) <->
     exists t, In (t, s') (near D) /\ vadd e' (repeat 1 D) = vadd e t /\ has_corners D (is_odd e) cs (t, s') = true).
  Proof.
    intros V V' HC Hne. pose proof (valid_len _ _ V) as L. pose proof (valid_len _ _ V') as L'.
    pose proof (fa_bits _ _ _ (table_facts D (is_odd e') s' HD (proj2 V'))) as FB'.
    assert (TR : forall t, length t = D -> vadd e' (repeat 1 D) = vadd e t -> is_odd e' = xorb (is_odd e) (Nat.odd (list_sum t + D))).
    { intros t Lt H. assert (S : list_sum e' + D = list_sum e + list_sum t).
      { apply (f_equal list_sum) in H. rewrite !vadd_sum in H by (rewrite ?repeat_length; congruence).
        assert (R : list_sum (repeat 1 D) = D) by (clear; unfold list_sum; induction D as [|n IH]; cbn; auto). lia. }
      unfold is_odd. rewrite <- Nat.odd_add. replace (list_sum e + (list_sum t + D)) with (list_sum e' + 2 * D) by lia.
      rewrite Nat.odd_add_mul_2. auto. }
    assert (EQ : forall t c, length t = D -> vadd e' (repeat 1 D) = vadd e t -> In c cs ->
       (In (flatten (vadd e c) (np1 N)) (E e' s') <-> existsb (fun c' => veqb (vadd c (repeat 1 D)) (vadd t c')) (corners D (is_odd e') s') = true)).
    { intros t c Lt H Hc. destruct (HC c Hc) as [Lc Bc]. unfold E. rewrite in_elem, existsb_exists.
      assert (R : inrange (vadd e c) (np1 N)) by (apply vadd_range; auto; [apply V|congruence]).
      split; intros (c' & Hc' & X); exists c'; split; auto; destruct (FB' c' Hc') as [Lc' Bc'].
      - apply veqb_spec. apply id_inj in X; auto; [|eapply corner_in; eauto]. rewrite <- L. rewrite <- L in H. apply (vadd_cancel e e' t c c'); auto; congruence.
      - apply veqb_spec in X. f_equal. rewrite <- L in X, H. apply (vadd_cancel e e' t c c'); auto; congruence. }
    split.
    - intro H. destruct cs as [|c0 cs0]; [congruence|]. destruct (HC c0 (or_introl eq_refl)) as [L0 B0].
      pose proof (H c0 (or_introl eq_refl)) as H0. unfold E in H0. apply in_elem in H0 as (c' & Hc' & X). destruct (FB' c' Hc') as [Lc' Bc'].
      apply id_inj in X; [|apply vadd_range; auto; [apply V|congruence]|eapply corner_in; eauto].
      destruct (vadd_shift e e' c0 c') as (t & Lt & Ft & T); auto; try congruence.
      rewrite L in T, Lt. exists t. split; [|split; auto].
      + unfold near. apply in_flat_map. exists t. split; [|apply in_map, in_seq; destruct V'; lia].
        clear -Lt Ft. revert t Lt Ft. induction D as [|n IH]; intros [|x t] Lt Ft; try discriminate; [left; auto|].
        cbn [tuples]. apply in_flat_map. exists t. inversion Ft; subst. split; [apply IH; auto|].
        destruct x as [|[|[|x]]]; cbn; auto; lia.
      + cbn [has_corners]. rewrite <- (TR t Lt T). apply forallb_forall. intros c Hc. apply (EQ t c Lt T Hc). auto.
    - intros (t & Hn & T & Hh) c Hc.
      assert (Lt : length t = D).
      { apply in_flat_map in Hn as (t' & Ht & Hp). apply in_map_iff in Hp as (? & Ep & _). inversion Ep; subst t'.
        clear -Ht. revert t Ht. induction D as [|n IH]; intros t Ht; cbn [tuples] in Ht.
        - destruct Ht as [<-|[]]. auto.
        - apply in_flat_map in Ht as (t' & Ht' & [<-|[<-|[<-|[]]]]); cbn; rewrite (IH t'); auto. }
      apply (EQ t c Lt T Hc). cbn [has_corners] in Hh. rewrite <- (TR t Lt T) in Hh. rewrite forallb_forall in Hh. auto.
  Qed.

  Lemma vertex_number_flat M : forall p, length p = length M -> vertex_number M p = flat p (np1 M).
  Proof. induction M as [|n M IH]; intros [|x p] L; try discriminate; auto. cbn in *. rewrite IH by lia. auto. Qed.
  Lemma vertex_at_iff v p : vertex_at N v p <-> inrange p (np1 N) /\ flatten p (np1 N) = v.
  Proof.
    assert (R : Forall2 (fun x n => x <= n) p N <-> inrange p (np1 N)).
    { clear. unfold inrange, np1. revert p. induction N as [|n M IH]; intro p; split; intro H; inversion H; subst; cbn; constructor; try lia; apply IH; auto. }
    unfold vertex_at. rewrite R. split; intros [A B]; split; auto.
    - rewrite flatten_flat by (apply inrange_length; auto). rewrite <- vertex_number_flat; auto. apply inrange_length in A. unfold np1 in A. rewrite map_length in A. auto.
    - rewrite <- B, flatten_flat by (apply inrange_length; auto). apply vertex_number_flat. apply inrange_length in A. unfold np1 in A. rewrite map_length in A. auto.
  Qed.

  (** A facet leaves out one corner. *)
  Lemma facet_corners e s f : valid e s -> facet_of D f (E e s) ->
    exists m, m <= D /\ forall v, In v f <-> exists c, In c (remove_nth m (corners D (is_odd e) s)) /\ v = flatten (vadd e c) (np1 N).
  Proof.
    intros V (Lf & Sf & If). pose proof (table_facts D (is_odd e) s HD (proj2 V)) as [_ FL _ FB FN].
    set (C := corners D (is_odd e) s) in *. set (id := fun c => flatten (vadd e c) (np1 N)).
    assert (NC : NoDup (map id C)).
    { apply nodup_map_inj; auto. intros x y Hx Hy H. apply id_inj in H; [|eapply corner_in; eauto|eapply corner_in; eauto].
      apply (vadd_inj e); [rewrite (valid_len e s V); apply FB; auto|rewrite (valid_len e s V); apply FB; auto|auto]. }
    assert (M : exists m, m < length (map id C) /\ ~ In (nth m (map id C) 0) f).
    { destruct (existsb (fun v => negb (existsb (Nat.eqb v) f)) (map id C)) eqn:X.
      - apply existsb_exists in X as (v & Hv & Hn). apply In_nth_error in Hv as (m & Hm). exists m. split; [apply nth_error_Some; congruence|].
        rewrite (nth_of_nth_error _ _ _ _ Hm). intro Hin. apply negb_true_iff in Hn. assert (existsb (Nat.eqb v) f = true); [|congruence].
        apply existsb_exists. exists v. split; auto. apply Nat.eqb_refl.
      - exfalso. assert (I : incl (map id C) f).
        { intros v Hv. destruct (existsb (Nat.eqb v) f) eqn:Y; [apply existsb_exists in Y as (w & Hw & Hq); apply Nat.eqb_eq in Hq; subst; auto|].
          assert (existsb (fun v => negb (existsb (Nat.eqb v) f)) (map id C) = true); [|congruence]. apply existsb_exists. exists v. rewrite Y. auto. }
        apply NoDup_incl_length in I; auto. rewrite map_length in I. lia. }
    destruct M as (m & Hm & Hn). rewrite map_length in Hm. exists m. split; [lia|].
    assert (I1 : incl f (remove_nth m (map id C))).
    { intros v Hv. apply remove_nth_other with (x := nth m (map id C) 0).
      - apply nth_error_nth'. rewrite map_length. auto.
      - specialize (If v Hv). unfold E in If. apply in_elem in If as (c & Hc & ->). apply in_map_iff. exists c. auto.
      - intros ->. auto. }
    assert (I2 : incl (remove_nth m (map id C)) f).
    { apply NoDup_length_incl; auto; [apply sorted_lt_NoDup; auto|]. pose proof (remove_nth_length (map id C) m). rewrite map_length in H. lia. }
    intro v. split.
    - intro Hv. apply I1 in Hv. rewrite remove_nth_map in Hv. apply in_map_iff in Hv as (c & <- & Hc). exists c. auto.
    - intros (c & Hc & ->). apply I2. rewrite remove_nth_map. apply in_map_iff. exists c. auto.
  Qed.

  Lemma E_inj e s e' s' : valid e s -> valid e' s' -> E e s = E e' s' -> e = e' /\ s = s'.
  Proof.
    intros V V' H. pose proof (table_facts D (is_odd e) s HD (proj2 V)) as [FE FL _ FB _].
    assert (X : exists t, In (t, s') (near D) /\ vadd e' (repeat 1 D) = vadd e t /\ has_corners D (is_odd e) (corners D (is_odd e) s) (t, s') = true).
    { apply (contains_iff e s); auto.
      - destruct (corners D (is_odd e) s); [cbn in FL; lia|congruence].
      - intros c Hc. rewrite <- H. apply in_elem. eauto. }
    destruct X as (t & Hn & T & Hc). unfold elem_ok in FE.
    assert (I : In (t, s') (filter (has_corners D (is_odd e) (corners D (is_odd e) s)) (near D))) by (apply filter_In; auto).
    destruct (filter _ _) as [|[t1 s1] [|]]; try discriminate. destruct I as [I|[]]. inversion I; subst.
    apply andb_true_iff in FE as [A B]. apply veqb_spec in A. apply Nat.eqb_eq in B. subst. split; auto.
    pose proof (valid_len _ _ V). pose proof (valid_len _ _ V'). symmetry. apply vadd_ones_inj; [congruence|]. rewrite H1. auto.
  Qed.

  Lemma shift_exists e t : inrange e N -> length t = length e ->
    ((forall d, d < length e -> 1 <= nth d e 0 + nth d t 0 /\ nth d e 0 + nth d t 0 < nth d N 0 + 1) <->
     exists e2, inrange e2 N /\ vadd e2 (repeat 1 (length e)) = vadd e t).
  Proof.
    clear. intro R. revert t. induction R as [|x n e M Hx R IH]; intros t L.
    - split; intro H; [exists []; split; [constructor|auto]|intros d Hd; cbn in Hd; lia].
    - destruct t as [|y t]; [discriminate|]. specialize (IH t ltac:(cbn in L; lia)). split.
      + intro H. assert (H' : exists e2, inrange e2 M /\ vadd e2 (repeat 1 (length e)) = vadd e t).
        { apply IH. intros d Hd. apply (H (S d)). cbn. lia. }
        destruct H' as (e2 & R2 & V2). specialize (H 0 ltac:(cbn; lia)). cbn in H. exists (x + y - 1 :: e2). split; [constructor; auto; lia|].
        cbn [length repeat vadd]. rewrite V2. f_equal. lia.
      + intros (e2 & R2 & V2) d Hd. inversion R2 as [|x2 ? e2' ? Hx2 R2']; subst. cbn in V2. inversion V2 as [[A B]].
        destruct d as [|d]; [cbn; lia|]. cbn [nth]. apply (proj2 IH); [exists e2'; auto|cbn in Hd; lia].
  Qed.

  Lemma const_at_spec d v cs : const_at d v cs = true <-> forall c, In c cs -> nth d c 0 = v.
  Proof. unfold const_at. rewrite forallb_forall. split; intros H c Hc; apply Nat.eqb_eq; auto. Qed.
  Lemma range_nth e d : inrange e N -> d < D -> nth d e 0 < nth d N 0.
  Proof.
    intros R Hd. rewrite <- LN in Hd. clear -R Hd. revert d Hd. induction R as [|x n e M Hx R IH]; intros d Hd; cbn in Hd; [lia|].
    destruct d; cbn; auto. apply IH. lia.
  Qed.

  Theorem facet_neighbours e s f : valid e s -> facet_of D f (E e s) ->
    (on_boundary N f /\ forall e' s', valid e' s' -> facet_of D f (E e' s') -> E e' s' = E e s) \/
    (~ on_boundary N f /\ exists e2 s2, valid e2 s2 /\ E e2 s2 <> E e s /\ facet_of D f (E e2 s2) /\
       forall e' s', valid e' s' -> facet_of D f (E e' s') -> E e' s' = E e s \/ E e' s' = E e2 s2).
  Proof.
    intros V F. destruct (facet_corners e s f V F) as (m & Hm & M).
    pose proof (table_facts D (is_odd e) s HD (proj2 V)) as [FE FL FF FB FN]. specialize (FF m Hm). unfold facet_ok in FF.
    set (cs := remove_nth m (corners D (is_odd e) s)) in *. pose proof (valid_len _ _ V) as Le.
    assert (CB : forall c, In c cs -> length c = D /\ bits c) by (intros c Hc; apply FB; eapply remove_nth_in; eauto).
    assert (CL : length cs = D) by (pose proof (remove_nth_length (corners D (is_odd e) s) m ltac:(lia)); unfold cs; lia).
    assert (CN : cs <> []) by (destruct cs; [cbn in CL; destruct HD; lia|congruence]).
    assert (FI : forall e' s', valid e' s' -> (facet_of D f (E e' s') <->
       exists t, In (t, s') (filter (has_corners D (is_odd e) cs) (near D)) /\ vadd e' (repeat 1 D) = vadd e t)).
    { intros e' s' V'. pose proof (contains_iff e s cs e' s' V V' CB CN) as CI. destruct F as (F1 & F2 & F3). split.
      - intros (_ & _ & I). destruct (proj1 CI) as (t & A & B & C); [intros c Hc; apply I, M; eauto|]. exists t. split; auto. apply filter_In; auto.
      - intros (t & A & B). apply filter_In in A as [A C]. split; auto. split; auto. intros v Hv. apply M in Hv as (c & Hc & ->).
        revert c Hc. apply (proj2 CI). eauto. }
    assert (VA : forall c p, In c cs -> vertex_at N (flatten (vadd e c) (np1 N)) p -> p = vadd e c).
    { intros c p Hc Hp. apply vertex_at_iff in Hp as [Rp Ep]. apply id_inj in Ep; auto. apply (corner_in e s); auto. eapply remove_nth_in; eauto. }
    assert (VE : forall c, In c cs -> vertex_at N (flatten (vadd e c) (np1 N)) (vadd e c)).
    { intros c Hc. apply vertex_at_iff. split; auto. apply (corner_in e s); auto. eapply remove_nth_in; eauto. }
    assert (CO : forall c d, In c cs -> nth d (vadd e c) 0 = nth d e 0 + nth d c 0 /\ nth d c 0 <= 1).
    { intros c d Hc. destruct (CB c Hc) as [Lc Bc]. split; [apply vadd_nth; congruence|]. unfold bits in Bc. rewrite Forall_forall in Bc.
      destruct (lt_dec d (length c)); [apply Bc, nth_In; auto|rewrite nth_overflow by lia; lia]. }
    assert (OB : on_boundary N f <-> exists d, d < D /\ ((nth d e 0 = 0 /\ const_at d 0 cs = true) \/ (nth d e 0 + 1 = nth d N 0 /\ const_at d 1 cs = true))).
    { unfold on_boundary. rewrite LN. split; intros (d & Hd & X); exists d; split; auto; pose proof (range_nth e d (proj1 V) Hd) as RD.
      - destruct X as [X|X]; [left|right].
        + assert (Y : forall c, In c cs -> nth d e 0 = 0 /\ nth d c 0 = 0).
          { intros c Hc. specialize (X _ _ (proj2 (M _) (ex_intro _ c (conj Hc eq_refl))) (VE c Hc)). destruct (CO c d Hc) as [A B]. lia. }
          destruct cs as [|c0 cs0]; [congruence|]. split; [apply (Y c0); left; auto|]. apply const_at_spec. intros c Hc. apply Y; auto.
        + assert (Y : forall c, In c cs -> nth d e 0 + 1 = nth d N 0 /\ nth d c 0 = 1).
          { intros c Hc. specialize (X _ _ (proj2 (M _) (ex_intro _ c (conj Hc eq_refl))) (VE c Hc)). destruct (CO c d Hc) as [A B]. lia. }
          destruct cs as [|c0 cs0]; [congruence|]. split; [apply (Y c0); left; auto|]. apply const_at_spec. intros c Hc. apply Y; auto.
      - destruct X as [[X1 X2]|[X1 X2]]; [left|right]; intros v p Hv Hp; apply M in Hv as (c & Hc & ->); rewrite (VA c p Hc Hp);
          destruct (CO c d Hc) as [A B]; rewrite A; rewrite const_at_spec in X2; rewrite (X2 c Hc); lia. }
    (* the two cells *)
    assert (K : exists t2 s2, (forall t s', In (t, s') (filter (has_corners D (is_odd e) cs) (near D)) <-> (t = repeat 1 D /\ s' = s) \/ (t = t2 /\ s' = s2)) /\
       (t2, s2) <> (repeat 1 D, s) /\ neighbour_ok D cs t2 = true).
    { pose proof (NoDup_filter (has_corners D (is_odd e) cs) (near_nodup D HD)) as ND.
      destruct (filter _ _) as [|[t1 s1] [|[t2 s2] [|]]]; try discriminate.
      assert (DI : (t1, s1) <> (t2, s2)) by (inversion ND as [|? ? NN _]; subst; intro X; apply NN; rewrite X; left; auto).
      apply orb_true_iff in FF as [FF|FF]; apply andb_true_iff in FF as [FF1 FF3]; apply andb_true_iff in FF1 as [FF1 FF2]; apply veqb_spec in FF1; apply Nat.eqb_eq in FF2; subst.
      - exists t2, s2. split; [|split; auto]. intros t s'. cbn [In]. split; [intros [X|[X|[]]]; inversion X; auto|intros [[-> ->]|[-> ->]]; auto].
      - exists t1, s1. split; [|split; auto]. intros t s'. cbn [In]. split; [intros [X|[X|[]]]; inversion X; auto|intros [[-> ->]|[-> ->]]; auto]. }
    destruct K as (t2 & s2 & K1 & K2 & K3).
    assert (N2 : In (t2, s2) (near D)) by (apply (filter_In (has_corners D (is_odd e) cs)); apply K1; auto).
    assert (L2 : length t2 = D /\ s2 < num_simplices D).
    { apply in_flat_map in N2 as (t' & Ht & Hp). apply in_map_iff in Hp as (? & Ep & Hs). inversion Ep; subst. apply in_seq in Hs. split; [|lia].
      clear -Ht. revert t2 Ht. induction D as [|n IH]; intros t Ht; cbn [tuples] in Ht.
      - destruct Ht as [<-|[]]. auto.
      - apply in_flat_map in Ht as (t' & Ht' & [<-|[<-|[<-|[]]]]); cbn; rewrite (IH t'); auto. }
    destruct L2 as [L2 S2].
    assert (SAME : forall e' s', valid e' s' -> vadd e' (repeat 1 D) = vadd e (repeat 1 D) -> e' = e).
    { intros e' s' V' H. apply (vadd_ones_inj' e); rewrite ?Le; auto. apply (valid_len e' s'); auto. }
    pose proof (shift_exists e t2 (proj1 V) ltac:(congruence)) as SE. rewrite Le in SE.
    assert (OUT : (on_boundary N f /\ ~ exists e2, inrange e2 N /\ vadd e2 (repeat 1 D) = vadd e t2) \/
                  (~ on_boundary N f /\ exists e2, inrange e2 N /\ vadd e2 (repeat 1 D) = vadd e t2)).
    { rewrite OB, <- SE. unfold neighbour_ok in K3. destruct (veqb t2 (repeat 1 D)) eqn:Et.
      - apply veqb_spec in Et. rewrite forallb_forall in K3. right. split.
        + intros (d & Hd & X). specialize (K3 d ltac:(apply in_seq; lia)). apply andb_true_iff in K3 as [A B]. apply negb_true_iff in A. apply negb_true_iff in B.
          destruct X as [[_ X]|[_ X]]; congruence.
        + intros d Hd. subst t2. pose proof (range_nth e d (proj1 V) Hd). rewrite (nth_repeat1 D d Hd). lia.
      - apply existsb_exists in K3 as (d & Hd & K3). apply in_seq in Hd. rewrite forallb_forall in K3.
        assert (KO : forall d', d' < D -> d' <> d -> nth d' t2 0 = 1 /\ const_at d' 0 cs = false /\ const_at d' 1 cs = false).
        { intros d' Hd' Hn. specialize (K3 d' ltac:(apply in_seq; lia)). destruct (Nat.eqb_spec d' d); [congruence|].
          apply andb_true_iff in K3 as [K3 C]. apply andb_true_iff in K3 as [A B]. apply Nat.eqb_eq in A. apply negb_true_iff in B. apply negb_true_iff in C. auto. }
        specialize (K3 d ltac:(apply in_seq; lia)). rewrite Nat.eqb_refl in K3. pose proof (range_nth e d (proj1 V) ltac:(lia)) as RD.
        assert (REST : forall d', d' < D -> d' <> d -> 1 <= nth d' e 0 + nth d' t2 0 /\ nth d' e 0 + nth d' t2 0 < nth d' N 0 + 1).
        { intros d' Hd' Hn. destruct (KO d' Hd' Hn) as (-> & _). pose proof (range_nth e d' (proj1 V) Hd'). lia. }
        apply orb_true_iff in K3 as [K3|K3]; apply andb_true_iff in K3 as [K3 C]; apply andb_true_iff in K3 as [A B]; apply Nat.eqb_eq in A; apply negb_true_iff in C.
        + destruct (Nat.eq_dec (nth d e 0) 0) as [Z|Z]; [left|right].
          * split; [exists d; split; [lia|]; auto|]. intro H. specialize (H d ltac:(lia)). lia.
          * split.
            -- intros (d' & Hd' & X). destruct (Nat.eq_dec d' d) as [->|Hn]; [destruct X as [[X _]|[_ X]]; [lia|congruence]|].
               destruct (KO d' Hd' Hn) as (_ & X1 & X2). destruct X as [[_ X]|[_ X]]; congruence.
            -- intros d' Hd'. destruct (Nat.eq_dec d' d) as [->|Hn]; [lia|apply REST; auto].
        + destruct (Nat.eq_dec (nth d e 0 + 1) (nth d N 0)) as [Z|Z]; [left|right].
          * split; [exists d; split; [lia|]; auto|]. intro H. specialize (H d ltac:(lia)). lia.
          * split.
            -- intros (d' & Hd' & X). destruct (Nat.eq_dec d' d) as [->|Hn]; [destruct X as [[_ X]|[X _]]; [congruence|lia]|].
               destruct (KO d' Hd' Hn) as (_ & X1 & X2). destruct X as [[_ X]|[_ X]]; congruence.
            -- intros d' Hd'. destruct (Nat.eq_dec d' d) as [->|Hn]; [lia|apply REST; auto]. }
    destruct OUT as [[O1 O2]|[O1 (e2 & R2 & T2)]]; [left|right]; split; auto.
    - intros e' s' V' F'. apply FI in F' as (t & Ht & T); auto. apply K1 in Ht as [[-> ->]|[-> ->]].
      + rewrite (SAME e' s V' T). auto.
      + exfalso. apply O2. exists e'. split; auto. apply V'.
    - assert (V2 : valid e2 s2) by (split; auto). exists e2, s2. split; auto. split; [|split].
      + intro H. apply E_inj in H as [-> ->]; auto. apply K2. f_equal. apply (vadd_inj e); rewrite ?repeat_length; congruence.
      + apply FI; auto. exists t2. split; auto. apply K1. auto.
      + intros e' s' V' F'. apply FI in F' as (t & Ht & T); auto. apply K1 in Ht as [[-> ->]|[-> ->]].
        * left. rewrite (SAME e' s V' T). auto.
        * right. f_equal. apply (vadd_ones_inj' e); rewrite Le; [apply (valid_len e' s2); auto|apply (valid_len e2 s2); auto|congruence].
  Qed.
End Box.
