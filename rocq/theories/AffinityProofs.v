(** Proofs about the printed masks of CPUs (C92). *)
Require Import Ascii List Arith NArith ZArith Lia Bool ZifyNat.
Require Import Verif.AffinityModel Verif.AffinitySpec.
Import ListNotations.
Local Open Scope nat_scope.
Ltac Zify.zify_post_hook ::= Z.div_mod_to_equations.

(** * Storing *)
Lemma store_length {A} (a : list A) i x : length (store a i x) = length a.
Proof. revert i. induction a as [|y a IH]; intros [|i]; cbn; auto. Qed.
Lemma store_same {A} (a : list A) i x : i < length a -> nth_error (store a i x) i = Some x.
Proof. revert i. induction a as [|y a IH]; intros [|i] H; cbn in *; try lia; auto. apply IH. lia. Qed.
Lemma store_other {A} (a : list A) i j x : i <> j -> nth_error (store a i x) j = nth_error a j.
Proof. revert i j. induction a as [|y a IH]; intros [|i] [|j] H; cbn; auto; congruence. Qed.
Lemma store_nth {A} (a : list A) i j x d : nth j (store a i x) d = if (i =? j) && (i <? length a) then x else nth j a d.
Proof.
  revert i j. induction a as [|y a IH]; intros [|i] [|j]; cbn [store nth length]; auto; try rewrite andb_false_r; auto.
  rewrite IH. change (S i =? S j) with (i =? j). change (S i <? S (length a)) with (i <? length a). reflexivity.
Qed.

(** * The text of a mask *)
Section Text.
Variables (np : nat) (set : cpu_set).
Hypothesis Hnp : 0 < np.
Let total := np + (np - 1) / 10.
(** After the first k CPUs. *)
Record written (k : nat) (mask : list ascii) (pos : nat) : Prop := {
  wr_length : length mask = total;
  wr_pos : pos = k + (k - 1) / 10;
  wr_cpu : forall c, c < k -> nth_error mask (c + c / 10) = Some (cell set c);
  wr_bar : forall p, 11 * p + 10 < pos -> nth_error mask (11 * p + 10) = Some "|"%char;
  wr_rest : forall p, pos <= p -> p < total -> nth_error mask p = Some "-"%char
}.
Lemma write_ok mask pos c : pos < length mask -> write mask pos c = Some (store mask pos c).
Proof. intro H. unfold write. apply Nat.ltb_lt in H. rewrite H. reflexivity. Qed.
(** Writing, or leaving, the character of a CPU. *)
Lemma written_cell mask pos k : length mask = total -> pos < total -> nth_error mask pos = Some "-"%char ->
  exists mask', (if set k then write mask pos (digit (k mod 10)) else Some mask) = Some mask' /\ length mask' = total /\
    nth_error mask' pos = Some (cell set k) /\ (forall p, p <> pos -> nth_error mask' p = nth_error mask p).
Proof.
  intros HL Hp Hd. unfold cell. destruct (set k).
  - rewrite write_ok by lia. eexists. split; [reflexivity|]. rewrite store_length. split; [exact HL|]. split.
    + rewrite store_same by lia. reflexivity.
    + intros p Hn. apply store_other. congruence.
  - eexists. split; [reflexivity|]. split; [exact HL|]. split; [exact Hd|]. reflexivity.
Qed.
Lemma step_ok k mask pos : k < np -> (k mod 10 <> 0 \/ k = 0 \/ k <> np - 1) -> written k mask pos ->
  exists mask' pos', to_string_step np set k (mask, pos) = Some (mask', pos') /\ written (S k) mask' pos'.
Proof.
  intros Hk Hc [L P C B R]. unfold to_string_step.
  assert (K : exists mask1, (if (k mod 10 =? 0) && negb (k =? 0) && negb (k =? np - 1)
         then match write mask pos "|"%char with Some m => Some (m, S pos) | None => None end
         else Some (mask, pos)) = Some (mask1, k + k / 10) /\ length mask1 = total /\ nth_error mask1 (k + k / 10) = Some "-"%char /\
         (forall p, 11 * p + 10 < k + k / 10 -> nth_error mask1 (11 * p + 10) = Some "|"%char) /\
         (forall c, c < k -> nth_error mask1 (c + c / 10) = Some (cell set c)) /\ (forall p, k + k / 10 <= p -> p < total -> nth_error mask1 p = Some "-"%char)).
  { destruct ((k mod 10 =? 0) && negb (k =? 0) && negb (k =? np - 1)) eqn:T.
    - apply andb_prop in T as [T T3]. apply andb_prop in T as [T1 T2]. apply Nat.eqb_eq in T1. apply negb_true_iff, Nat.eqb_neq in T2, T3.
      assert (EP : S pos = k + k / 10) by lia. assert (LT : pos < total) by (unfold total; lia). rewrite write_ok by lia. eexists. split; [rewrite EP; reflexivity|].
      split; [rewrite store_length; exact L|]. split; [rewrite store_other by lia; apply R; unfold total; lia|]. split; [|split].
      + intros p Hp. destruct (Nat.eq_dec pos (11 * p + 10)) as [<-|N]; [apply store_same; lia|]. rewrite store_other by exact N. apply B. lia.
      + intros c Hcc. rewrite store_other by lia. apply C. exact Hcc.
      + intros p H1 H2. rewrite store_other by lia. apply R; lia.
    - assert (EP : pos = k + k / 10).
      { apply andb_false_iff in T as [T|T]; [apply andb_false_iff in T as [T|T]|]; [apply Nat.eqb_neq in T|apply negb_false_iff, Nat.eqb_eq in T|apply negb_false_iff, Nat.eqb_eq in T]; lia. }
      exists mask. rewrite <- EP. split; [reflexivity|]. split; [exact L|]. split; [apply R; unfold total; lia|]. split; [exact B|]. split; [exact C|exact R]. }
  destruct K as (mask1 & E & L1 & D1 & B1 & C1 & R1). rewrite E.
  destruct (written_cell mask1 (k + k / 10) k L1 ltac:(unfold total; lia) D1) as (mask2 & E2 & L2 & N2 & O2). rewrite E2. eexists _, _. split; [reflexivity|].
  constructor; [exact L2|lia| | |].
  - intros c Hcc. destruct (Nat.eq_dec c k) as [->|N]; [exact N2|]. rewrite O2 by lia. apply C1. lia.
  - intros p Hp. rewrite O2 by lia. apply B1. lia.
  - intros p H1 H2. rewrite O2 by lia. apply R1; lia.
Qed.
Lemma loop_app a b st : to_string_loop np set (a ++ b) st = match to_string_loop np set a st with Some st => to_string_loop np set b st | None => None end.
Proof. revert st. induction a as [|c a IH]; intro st; cbn; [reflexivity|]. destruct (to_string_step np set c st); [apply IH|reflexivity]. Qed.
Lemma loop_ok k : k <= np -> (k < np \/ np mod 10 <> 1 \/ np = 1) ->
  exists mask pos, to_string_loop np set (seq 0 k) (repeat "-"%char total, 0) = Some (mask, pos) /\ written k mask pos.
Proof.
  induction k as [|k IH]; intros Hk Hc.
  - eexists _, _. split; [reflexivity|]. constructor; [apply repeat_length|reflexivity|lia|lia|].
    intros p _ Hp. rewrite nth_error_nth' with (d := "-"%char) by (rewrite repeat_length; exact Hp). f_equal. apply nth_repeat.
  - destruct IH as (mask & pos & E & W); [lia|lia|]. rewrite seq_S, loop_app, E. cbn [Nat.add].
    destruct (step_ok k mask pos ltac:(lia) ltac:(lia) W) as (mask' & pos' & E' & W'). exists mask', pos'. split; [|exact W']. cbn [to_string_loop]. rewrite E'. reflexivity.
Qed.
Lemma to_string_shows : np mod 10 <> 1 \/ np = 1 -> exists str, to_string np set = Some str /\ shows np set str.
Proof.
  intro H. destruct (loop_ok np (Nat.le_refl _) (or_intror H)) as (mask & pos & E & [L P C B R]). exists mask. unfold to_string. fold total. rewrite E. split; [reflexivity|].
  constructor; [exact L|exact C|]. intros p Hp. apply B. rewrite P. unfold total in L. lia.
Qed.
(** Without a separator before the last CPU. *)
Lemma to_string_last : np mod 10 = 1 -> np <> 1 -> exists str, to_string np set = Some str /\ length str = total /\
  (forall c, c < np - 1 -> nth_error str (c + c / 10) = Some (cell set c)) /\ nth_error str (total - 2) = Some (cell set (np - 1)) /\ nth_error str (total - 1) = Some "-"%char.
Proof.
  intros H N1. destruct (loop_ok (np - 1) ltac:(lia) ltac:(lia)) as (mask & pos & E & [L P C B R]). unfold to_string. fold total. replace (seq 0 np) with (seq 0 (np - 1) ++ [np - 1]).
  2:{ transitivity (seq 0 (S (np - 1))); [rewrite seq_S; reflexivity|]. f_equal. lia. }
  rewrite loop_app, E. cbn [to_string_loop]. unfold to_string_step. rewrite Nat.eqb_refl, andb_false_r.
  destruct (written_cell mask pos (np - 1) L ltac:(unfold total; lia) (R pos (Nat.le_refl _) ltac:(unfold total; lia))) as (mask' & E' & L' & N' & O'). rewrite E'. exists mask'. split; [reflexivity|].
  split; [exact L'|]. split; [|split].
  - intros c Hc. rewrite O' by lia. apply C. lia.
  - replace (total - 2) with pos by (unfold total; lia). exact N'.
  - rewrite O' by (unfold total; lia). apply R; unfold total; lia.
Qed.
End Text.

(** * Sets of CPUs as bits *)
Lemma worker_has threads c : worker_mask threads c = true <-> exists t, In t threads /\ t c = true.
Proof.
  unfold worker_mask. assert (K : forall l z, fold_left CPU_OR l z c = true <-> z c = true \/ exists t, In t l /\ t c = true).
  { induction l as [|t l IH]; intro z; cbn.
    - split; [auto|]. intros [H|(t & [] & _)]. exact H.
    - rewrite IH. unfold CPU_OR. rewrite orb_true_iff. split.
      + intros [[H|H]|(u & H1 & H2)]; [auto|right; exists t; auto|right; exists u; auto].
      + intros [H|(u & [<-|H1] & H2)]; [auto|auto|right; exists u; auto]. }
  rewrite K. unfold CPU_ZERO. split; [intros [H|H]; [discriminate|exact H]|auto].
Qed.
Section Bits.
Variable shl : nat -> N.
(** Bit [b] of unit [u]. *)
Lemma packed_bit set u b : u < units -> N.testbit (nth u (cpu_set_to_my_set shl set) 0%N) b = true <->
  exists c, c < bits_per_unit * units /\ set c = true /\ c / bits_per_unit = u /\ N.testbit (shl (c mod bits_per_unit)) b = true.
Proof.
  intro Hu. unfold cpu_set_to_my_set. remember (bits_per_unit * units) as n.
  assert (K : forall n z, length z = units -> let r := fold_left (fun result cpu => if set cpu
      then store result (cpu / bits_per_unit) (N.lor (nth (cpu / bits_per_unit) result 0%N) (shl (cpu mod bits_per_unit))) else result) (seq 0 n) z in
      length r = units /\ (N.testbit (nth u r 0%N) b = true <-> N.testbit (nth u z 0%N) b = true \/
        exists c, c < n /\ set c = true /\ c / bits_per_unit = u /\ N.testbit (shl (c mod bits_per_unit)) b = true)).
  { clear n Heqn. intros n z Hz. induction n as [|n [IH1 IH2]]; cbv zeta in *.
    - split; [exact Hz|]. cbn. split; [auto|]. intros [H|(c & H & _)]; [exact H|lia].
    - rewrite seq_S, fold_left_app. cbn [fold_left Nat.add]. set (r := fold_left _ (seq 0 n) z) in *. destruct (set n) eqn:Sn.
      + split; [rewrite store_length; exact IH1|]. rewrite store_nth, IH1. destruct (Nat.eq_dec (n / bits_per_unit) u) as [E|E].
        * rewrite E, Nat.eqb_refl. replace (u <? units) with true by (symmetry; apply Nat.ltb_lt; exact Hu). cbn [andb]. rewrite N.lor_spec, orb_true_iff, IH2. split.
          -- intros [[H|(c & H1 & H2)]|H]; [auto|right; exists c; split; [lia|exact H2]|right; exists n; split; [lia|auto]].
          -- intros [H|(c & H1 & H2 & H3 & H4)]; [auto|]. destruct (Nat.eq_dec c n) as [->|Nn]; [auto|]. left. right. exists c. split; [lia|auto].
        * replace (n / bits_per_unit =? u) with false by (symmetry; apply Nat.eqb_neq; exact E). cbn [andb]. rewrite IH2. split.
          -- intros [H|(c & H1 & H2)]; [auto|right; exists c; split; [lia|exact H2]].
          -- intros [H|(c & H1 & H2 & H3 & H4)]; [auto|]. right. exists c. split; [|auto]. assert (c <> n) by (intros ->; contradiction). lia.
      + split; [exact IH1|]. rewrite IH2. split.
        -- intros [H|(c & H1 & H2)]; [auto|right; exists c; split; [lia|exact H2]].
        -- intros [H|(c & H1 & H2 & H3 & H4)]; [auto|]. right. exists c. split; [|auto]. assert (c <> n) by (intros ->; congruence). lia. }
  destruct (K n (repeat 0%N units) (repeat_length _ _)) as [_ H]. rewrite H.
  assert (Z : nth u (repeat 0%N units) 0%N = 0%N) by apply nth_repeat. rewrite Z, N.bits_0. split; [intros [C|C]; [discriminate|exact C]|auto].
Qed.
Lemma packed_length set : length (cpu_set_to_my_set shl set) = units.
Proof.
  unfold cpu_set_to_my_set. generalize (seq 0 (bits_per_unit * units)). assert (Z : length (repeat 0%N units) = units) by apply repeat_length. revert Z. generalize (repeat 0%N units).
  intros z Z l. revert z Z. induction l as [|c l IH]; intros z Z; cbn; [exact Z|]. apply IH. destruct (set c); [rewrite store_length|]; exact Z.
Qed.
(** Reading. *)
Lemma unpacked ws c : my_set_to_cpu_set shl ws c = true <->
  c < bits_per_unit * units /\ N.land (nth (c / bits_per_unit) ws 0%N) (shl (c mod bits_per_unit)) <> 0%N.
Proof.
  unfold my_set_to_cpu_set. generalize (bits_per_unit * units). intro n. induction n as [|n IH].
  - split; [discriminate|]. intros [H _]. lia.
  - rewrite seq_S, fold_left_app. cbn [fold_left Nat.add]. set (r := fold_left _ (seq 0 n) CPU_ZERO) in *.
    destruct (N.eqb_spec (N.land (nth (n / bits_per_unit) ws 0%N) (shl (n mod bits_per_unit))) 0) as [E|E]; cbn [negb].
    + rewrite IH. split; [intros [H1 H2]; split; [lia|exact H2]|]. intros [H1 H2]. split; [|exact H2]. assert (c <> n) by (intros ->; contradiction). lia.
    + unfold CPU_SET. rewrite orb_true_iff, Nat.eqb_eq, IH. split.
      * intros [->|[H1 H2]]; [split; [lia|exact E]|split; [lia|exact H2]].
      * intros [H1 H2]. destruct (Nat.eq_dec c n); [auto|]. right. split; [lia|exact H2].
Qed.
(** The union over the ranks. *)
Lemma reduced_bit rs z u b : length z = units -> (forall r, In r rs -> length r = units) -> u < units ->
  let w := fold_left (fun a b => map (fun x => N.lor (fst x) (snd x)) (combine a b)) rs z in
  N.testbit (nth u w 0%N) b = true <-> N.testbit (nth u z 0%N) b = true \/ exists r, In r rs /\ N.testbit (nth u r 0%N) b = true.
Proof.
  revert z. induction rs as [|r rs IH]; intros z Hz Hr Hu; cbv zeta in *; cbn [fold_left].
  - split; [auto|]. intros [H|(x & [] & _)]. exact H.
  - assert (Lr : length r = units) by (apply Hr; left; reflexivity).
    rewrite IH; [|rewrite map_length, combine_length; lia|intros; apply Hr; right; assumption|exact Hu].
    assert (E : nth u (map (fun x => N.lor (fst x) (snd x)) (combine z r)) 0%N = N.lor (nth u z 0%N) (nth u r 0%N)).
    { rewrite (nth_indep _ 0%N ((fun x => N.lor (fst x) (snd x)) (0%N, 0%N))) by (rewrite map_length, combine_length; lia). pose proof (map_nth (fun x => N.lor (fst x) (snd x)) (combine z r) (0%N, 0%N) u) as MN. cbn beta in MN. rewrite MN, combine_nth by lia. reflexivity. }
    rewrite E, N.lor_spec, orb_true_iff. split.
    + intros [[H|H]|(x & H1 & H2)]; [auto|right; exists r; split; [left; reflexivity|exact H]|right; exists x; split; [right; exact H1|exact H2]].
    + intros [H|(x & [<-|H1] & H2)]; [auto|auto|right; exists x; auto].
Qed.
Lemma node_bit ranks u b : u < units ->
  N.testbit (nth u (fold_left (fun a b => map (fun x => N.lor (fst x) (snd x)) (combine a b)) (map (fun threads => cpu_set_to_my_set shl (worker_mask threads)) ranks) (repeat 0%N units)) 0%N) b = true <->
  exists threads t c, In threads ranks /\ In t threads /\ t c = true /\ c < bits_per_unit * units /\ c / bits_per_unit = u /\ N.testbit (shl (c mod bits_per_unit)) b = true.
Proof.
  intro Hu. rewrite reduced_bit; [|apply repeat_length|intros r Hr; apply in_map_iff in Hr as (x & <- & _); apply packed_length|exact Hu].
  assert (Z : nth u (repeat 0%N units) 0%N = 0%N) by apply nth_repeat. rewrite Z, N.bits_0. split.
  - intros [C|(r & Hr & Hb)]; [discriminate|]. apply in_map_iff in Hr as (x & <- & Hx). apply packed_bit in Hb as (c & Hc & Hs & E & B); [|exact Hu].
    apply worker_has in Hs as (t & Ht & Htc). exists x, t, c. auto 10.
  - intros (x & t & c & Hx & Ht & Htc & Hc & E & B). right. exists (cpu_set_to_my_set shl (worker_mask x)). split; [apply in_map_iff; eauto|].
    apply packed_bit; [exact Hu|]. exists c. split; [exact Hc|]. split; [apply worker_has; eauto|auto].
Qed.
End Bits.

(** * Lines *)
Lemma firstn_plus {A} (s : list A) a b : firstn (a + b) s = firstn a s ++ firstn b (skipn a s).
Proof. revert s. induction a as [|a IH]; intros [|x s]; cbn; [reflexivity|reflexivity|rewrite firstn_nil; reflexivity|]. f_equal. apply IH. Qed.
Lemma chunks {A} (s : list A) w n : concat (map (fun i => firstn w (skipn (i * w) s)) (seq 0 n)) = firstn (n * w) s.
Proof.
  induction n as [|n IH]; [reflexivity|]. rewrite seq_S, map_app, concat_app, IH. cbn [map concat Nat.add]. rewrite app_nil_r.
  rewrite <- firstn_plus. f_equal. lia.
Qed.
Lemma print_lines_ok W mask lw is : 0 < lw -> (forall i, In i is -> i * lw <= length mask) ->
  print_lines W mask lw (Some lw) is = Some (map (fun i => repeat " "%char (if lw <? W then (W - lw) / 2 else 0) ++ firstn lw (skipn (i * lw) mask)) is).
Proof.
  intros Hl. induction is as [|i is IH]; intro H; cbn [print_lines map]; [reflexivity|].
  unfold substr at 1. assert (Hi : i * lw <= length mask) by (apply H; left; reflexivity). apply Nat.leb_le in Hi. rewrite Hi.
  rewrite IH by (intros; apply H; right; assumption). unfold print_centered. destruct (lw <? W); reflexivity.
Qed.
Lemma shift_bit w k : N.land w (2 ^ N.of_nat k) <> 0%N <-> N.testbit w (N.of_nat k) = true.
Proof.
  split.
  - intro H. destruct (N.testbit w (N.of_nat k)) eqn:T; [reflexivity|]. exfalso. apply H. apply N.bits_inj_0. intro b. rewrite N.land_spec, N.pow2_bits_eqb.
    destruct (N.eqb_spec (N.of_nat k) b) as [<-|]; [rewrite T; reflexivity|apply andb_false_r].
  - intros T E. assert (N.testbit (N.land w (2 ^ N.of_nat k)) (N.of_nat k) = true) by (rewrite N.land_spec, N.pow2_bits_true, T; reflexivity). rewrite E, N.bits_0 in H. discriminate.
Qed.
