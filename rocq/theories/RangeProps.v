(** Property theorems: loops over ranges and enumerated loops (C100). *)
Require Import List ZArith Bool Arith Lia.
Require Import Verif.Base Verif.RangeModel.
Import ListNotations.
Local Open Scope Z_scope.
Local Open Scope opt_scope.

Lemma range_loop_spec : forall n a b, is_size_t a -> is_size_t b -> (b - a) mod modulus = Z.of_nat n ->
  for_loop increment (fun p : Z => p) (fun p q => negb (p =? q)) n a b =
    Some (map (fun i => (a + Z.of_nat i) mod modulus) (seq 0 n)).
Proof.
  assert (M : 0 < modulus) by (unfold modulus; lia).
  induction n as [|n IH]; intros a b A B H; cbn [for_loop].
  - assert (a = b).
    { apply Z.mod_divide in H; [|lia]. destruct H as [q H]. unfold is_size_t in *.
      assert (q = 0) by nia. subst. lia. }
    subst. rewrite Z.eqb_refl. reflexivity.
  - destruct (Z.eqb_spec a b) as [->|N].
    + exfalso. rewrite Z.sub_diag, Zmod_0_l in H. lia.
    + cbn [negb]. rewrite IH; auto; unfold increment.
      * cbn [bind seq map]. f_equal. f_equal; [rewrite Z.add_0_r, Z.mod_small; auto|].
        rewrite <- seq_shift, map_map. apply map_ext. intro i.
        rewrite Zplus_mod_idemp_l. f_equal. lia.
      * unfold is_size_t. apply Z.mod_pos_bound. auto.
      * rewrite Zminus_mod_idemp_r. replace (b - (a + 1)) with (b - a - 1) by ring.
        pose proof (Z.mod_pos_bound (b - a) modulus M) as P. rewrite H in P.
        rewrite <- Zminus_mod_idemp_l, H. rewrite Z.mod_small by lia. lia.
Qed.

(** C100a: a loop over a range whose end is not before its begin visits from, from + 1, ..., to - 1, in this order and
    each once; size() is their number, and isElement() holds for them only. *)
Theorem range_visits_elements : forall r, is_size_t (from r) -> is_size_t (to r) -> from r <= to r ->
  exists l, range_loop (Z.to_nat (to r - from r)) r = Some l /\
    size r = to r - from r /\ Z.of_nat (length l) = size r /\
    (forall i, (i < length l)%nat -> nth_error l i = Some (from r + Z.of_nat i)) /\
    NoDup l /\ forall x, In x l <-> isElement r x = true.
Proof.
  intros r A B L. assert (M : 0 < modulus) by (unfold modulus; lia).
  set (n := Z.to_nat (to r - from r)).
  assert (S : (to r - from r) mod modulus = to r - from r) by (apply Z.mod_small; unfold is_size_t in *; lia).
  exists (map (fun i => from r + Z.of_nat i) (seq 0 n)).
  assert (Ln : Z.of_nat n = to r - from r) by (unfold n; lia).
  split.
  { unfold range_loop. rewrite range_loop_spec by (auto; lia). f_equal. apply map_ext_in. intros i Hi.
    apply in_seq in Hi. apply Z.mod_small. unfold is_size_t in *. lia. }
  unfold size. rewrite S, map_length, seq_length. split; [reflexivity|]. split; [exact Ln|]. split; [|split].
  - intros i Hi. rewrite nth_error_map, (nth_error_nth' _ 0%nat) by (rewrite seq_length; auto).
    rewrite seq_nth by auto. reflexivity.
  - apply FinFun.Injective_map_NoDup; [|apply seq_NoDup]. intros i j E. lia.
  - intro x. unfold isElement. rewrite andb_true_iff, Z.leb_le, Z.ltb_lt, in_map_iff. split.
    + intros (i & <- & Hi). apply in_seq in Hi. lia.
    + intro Hx. exists (Z.to_nat (x - from r)). split; [lia|]. apply in_seq. lia.
Qed.
Print Assumptions range_visits_elements.
Example range_ex : range_loop 3 {| from := 4; to := 7 |} = Some [4; 5; 6].
Proof. reflexivity. Qed.

(** C100b: if the end is before the begin, the loop does not end at once: it runs through the numbers above the begin
    up to the largest one and from zero to the end, none of which is an element. *)
Theorem reversed_range_wraps : forall r, is_size_t (from r) -> is_size_t (to r) -> to r < from r ->
  let n := Z.to_nat (modulus - (from r - to r)) in
  exists l, range_loop n r = Some l /\ length l = n /\ (0 < length l)%nat /\
    (forall i, (i < n)%nat -> nth_error l i =
       Some (if from r + Z.of_nat i <? modulus then from r + Z.of_nat i else from r + Z.of_nat i - modulus)) /\
    forall x, isElement r x = false.
Proof.
  intros r A B L n. assert (M : 0 < modulus) by (unfold modulus; lia).
  exists (map (fun i => (from r + Z.of_nat i) mod modulus) (seq 0 n)). unfold range_loop.
  split.
  { apply range_loop_spec; auto. unfold n. rewrite Z2Nat.id by (unfold is_size_t in *; lia).
    symmetry. apply Z.mod_unique with (-1); unfold is_size_t in *; lia. }
  rewrite map_length, seq_length. split; [reflexivity|]. split; [unfold n, is_size_t in *; lia|]. split.
  { intros i Hi. rewrite nth_error_map, (nth_error_nth' _ 0%nat) by (rewrite seq_length; auto).
    rewrite seq_nth by auto. cbn [option_map Nat.add]. f_equal. unfold n in Hi. unfold is_size_t in *.
    destruct (Z.ltb_spec (from r + Z.of_nat i) modulus) as [H|H]; [apply Z.mod_small; lia|].
    symmetry. apply Z.mod_unique with 1; lia. }
  intro x. unfold isElement. apply andb_false_iff. rewrite Z.leb_gt, Z.ltb_ge. lia.
Qed.
Print Assumptions reversed_range_wraps.

Example reversed_range_ex : is_size_t 5 /\ is_size_t 3 /\ range_loop 4 {| from := modulus - 2; to := 2 |} = Some [modulus - 2; modulus - 1; 0; 1].
Proof. unfold is_size_t, modulus. repeat split; try lia. Qed.

(** C100c: an enumerated loop visits what the loop visits, with consecutive numbers. *)
Theorem enumerate_counts : forall It V (next : It -> It) (deref : It -> V) differs fuel i stop k,
  enumerate_loop next deref differs fuel i stop k =
    do l <- for_loop next deref differs fuel i stop; Some (combine (seq k (length l)) l).
Proof.
  intros It V next deref differs. unfold enumerate_loop. induction fuel as [|n IH]; intros i stop k; cbn [for_loop fst snd].
  - destruct (differs i stop); reflexivity.
  - destruct (differs i stop); [|reflexivity]. rewrite IH.
    destruct (for_loop next deref differs n (next i) stop) as [l|]; reflexivity.
Qed.
Print Assumptions enumerate_counts.
Example enumerate_ex :
  enumerate_loop increment (fun p : Z => p) (fun p q => negb (p =? q)) 2 8 10 0 = Some [(0%nat, 8); (1%nat, 9)].
Proof. reflexivity. Qed.

(** C100d: iterators move by differences, back and forth. *)
Theorem advance_back : forall p n m, is_size_t p ->
  advance p 0 = p /\ advance (advance p n) m = advance p (n + m) /\ advance (advance p n) (- n) = p /\ increment p = advance p 1.
Proof.
  intros p n m P. assert (M : 0 < modulus) by (unfold modulus; lia). unfold advance, increment.
  rewrite Z.add_0_r, Z.mod_small by exact P. split; [reflexivity|].
  rewrite !Zplus_mod_idemp_l. split; [f_equal; lia|]. split; [|reflexivity].
  replace (p + n + - n) with p by lia. apply Z.mod_small. exact P.
Qed.
Print Assumptions advance_back.
