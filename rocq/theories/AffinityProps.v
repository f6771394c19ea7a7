(** C92: the masks of CPUs printed at the start. *)
Require Import Ascii List Arith NArith ZArith Lia Bool ZifyNat.
Require Import Verif.AffinityModel Verif.AffinitySpec Verif.AffinityProofs.
Import ListNotations.
Local Open Scope nat_scope.
Ltac Zify.zify_post_hook ::= Z.div_mod_to_equations.

(** C92a: the text of a mask is written within its bounds and shows every CPU, unless the number of CPUs is one
    more than a multiple of ten. *)
Theorem mask_text_safe : forall np set, 0 < np -> exists str, to_string np set = Some str /\ length str = np + (np - 1) / 10.
Proof.
  intros np set H. destruct (Nat.eq_dec (np mod 10) 1) as [E|E]; [destruct (Nat.eq_dec np 1) as [E1|E1]|].
  - destruct (to_string_shows np set H (or_intror E1)) as (str & S1 & [S2 _ _]). eauto.
  - destruct (to_string_last np set H E E1) as (str & S1 & S2 & _). eauto.
  - destruct (to_string_shows np set H (or_introl E)) as (str & S1 & [S2 _ _]). eauto.
Qed.
Theorem mask_text_shows : forall np set, 0 < np -> np mod 10 <> 1 \/ np = 1 -> exists str, to_string np set = Some str /\ shows np set str.
Proof. intros np set H1 H2. apply to_string_shows; assumption. Qed.
(** With 11, 21, ... CPUs the last bar is missing, and the text ends with a dash for a CPU that does not exist. *)
Theorem last_group_refuted : forall np set, np mod 10 = 1 -> 1 < np -> exists str, to_string np set = Some str /\ ~ shows np set str /\
  nth_error str (length str - 1) = Some "-"%char.
Proof.
  intros np set H1 H2. destruct (to_string_last np set ltac:(lia) H1 ltac:(lia)) as (str & E & L & C & N & D). exists str. split; [exact E|]. rewrite L. split; [|exact D].
  intros [S1 S2 S3]. specialize (S3 ((np - 1) / 10 - 1) ltac:(rewrite L; lia)). replace (11 * ((np - 1) / 10 - 1) + 10) with (np + (np - 1) / 10 - 2) in S3 by lia.
  rewrite N in S3. injection S3 as S3. unfold cell in S3. replace ((np - 1) mod 10) with 0 in S3 by lia. destruct (set (np - 1)); discriminate S3.
Qed.

(** C92b: the mask of the node has a CPU exactly if a thread of a rank on the node may run there, as long as
    only CPUs are involved whose number modulo 64 is below 31. *)
Theorem node_mask_union : forall shl ranks, shift_of_int shl ->
  (forall threads t c, In threads ranks -> In t threads -> t c = true -> c mod 64 < 31) ->
  forall c, c < 1024 -> c mod 64 < 31 ->
  (worker_mask_on_node shl ranks c = true <-> exists threads t, In threads ranks /\ In t threads /\ t c = true).
Proof.
  intros shl ranks [S1 _] Hr c Hc Hm. unfold worker_mask_on_node. rewrite unpacked. unfold bits_per_unit, units in *.
  rewrite S1 by exact Hm. rewrite shift_bit, node_bit by (unfold units; lia). unfold bits_per_unit, units. split.
  - intros (_ & x & t & c' & Hx & Ht & Htc & Hc' & E & B). exists x, t. split; [exact Hx|]. split; [exact Ht|].
    rewrite S1 in B by (eapply Hr; eassumption). rewrite N.pow2_bits_eqb in B. apply N.eqb_eq, Nat2N.inj in B. replace c with c' by lia. exact Htc.
  - intros (x & t & Hx & Ht & Htc). split; [exact Hc|]. exists x, t, c. repeat (split; [assumption || reflexivity || lia|]). rewrite S1 by exact Hm. apply N.pow2_bits_true.
Qed.
(** What is printed, on a node with at most 30 CPUs. *)
Theorem node_mask_printed : forall shl ranks np, shift_of_int shl -> 0 < np <= 30 -> np mod 10 <> 1 \/ np = 1 ->
  (forall threads t c, In threads ranks -> In t threads -> t c = true -> c < np) ->
  exists str, to_string np (worker_mask_on_node shl ranks) = Some str /\
    forall c, c < np -> nth_error str (c + c / 10) = Some "-"%char <-> ~ exists threads t, In threads ranks /\ In t threads /\ t c = true.
Proof.
  intros shl ranks np HS [H1 H2] H3 Hr. destruct (to_string_shows np (worker_mask_on_node shl ranks) H1 H3) as (str & E & [_ S _]). exists str. split; [exact E|].
  intros c Hc. rewrite (S c Hc). unfold cell. rewrite <- (node_mask_union shl ranks HS); [|intros x t c' Hx Ht Htc; specialize (Hr x t c' Hx Ht Htc); lia|lia|lia].
  destruct (worker_mask_on_node shl ranks c); [|split; [discriminate|reflexivity]]. split; [|intro C; elim C; reflexivity].
  intro C. exfalso. injection C as C. assert (D : forall d, d < 10 -> ascii_of_nat (48 + d) <> "-"%char) by (intros d Hd; do 10 (destruct d as [|d]; [discriminate|]); lia).
  apply (D (c mod 10) ltac:(lia) C).
Qed.
(** On a node with 33 or more CPUs some mask is wrong, whatever the undefined shift yields: bind the only thread
    of the only rank to one of the first 33 CPUs. *)
Theorem node_mask_refuted : forall shl, shift_of_int shl -> exists c0 c, c0 < 33 /\ c < 33 /\
  worker_mask_on_node shl [[fun x => x =? c0]] c <> (c =? c0).
Proof.
  intros shl (S1 & S2 & S3).
  assert (ONE : forall c0, c0 < 33 -> worker_mask_on_node shl [[fun x => x =? c0]] 32 = true <-> N.land (shl c0) (shl 32) <> 0%N).
  { intros c0 H0. unfold worker_mask_on_node. rewrite unpacked. unfold bits_per_unit, units in *. change (32 mod 64) with 32. change (32 / 64) with 0.
    set (w := nth 0 _ 0%N). assert (W : forall b, N.testbit w b = N.testbit (shl c0) b).
    { intro b. apply eq_true_iff_eq. unfold w. pose proof (node_bit shl [[fun x => x =? c0]] 0 b ltac:(unfold units; lia)) as NB. unfold bits_per_unit, units in NB. rewrite NB. split.
      - intros (x & t & c & [<-|[]] & [<-|[]] & E & _ & _ & B). apply Nat.eqb_eq in E. subst c. rewrite Nat.mod_small in B by lia. exact B.
      - intro B. exists [fun x => x =? c0], (fun x => x =? c0), c0. split; [left; reflexivity|]. split; [left; reflexivity|]. split; [apply Nat.eqb_refl|]. split; [lia|]. split; [lia|]. rewrite Nat.mod_small by lia. exact B. }
    replace w with (shl c0) by (apply N.bits_inj; intro b; symmetry; apply W). split; [intros [_ H]; exact H|]. intro H. split; [lia|exact H]. }
  destruct (N.eq_dec (N.land (shl 32) (shl 32)) 0) as [Z|NZ].
  - exists 32, 32. split; [lia|]. split; [lia|]. intro E. apply (proj1 (ONE 32 ltac:(lia)) E). exact Z.
  - destruct (N.eq_dec (N.land (shl 31) (shl 32)) 0) as [Z|NZ2].
    2:{ exists 31, 32. split; [lia|]. split; [lia|]. rewrite (proj2 (ONE 31 ltac:(lia)) NZ2). discriminate. }
    (** a bit of the shift below 31 *)
    assert (B : (exists k, k < 31 /\ N.testbit (shl 32) (N.of_nat k) = true) \/ forall k, k < 31 -> N.testbit (shl 32) (N.of_nat k) = false).
    { generalize (shl 32). intro w. generalize 31. intro n. induction n as [|n IH]; [right; intros; lia|]. destruct IH as [(k & H1 & H2)|IH]; [left; exists k; split; [lia|exact H2]|].
      destruct (N.testbit w (N.of_nat n)) eqn:T; [left; exists n; split; [lia|exact T]|]. right. intros k Hk. destruct (Nat.eq_dec k n) as [->|]; [exact T|apply IH; lia]. }
    destruct B as [(k & Hk & T)|B].
    + exists k, 32. split; [lia|]. split; [lia|]. assert (NE : N.land (shl k) (shl 32) <> 0%N).
      { rewrite S1 by exact Hk. rewrite N.land_comm. apply shift_bit. exact T. }
      rewrite (proj2 (ONE k ltac:(lia)) NE). replace (32 =? k) with false by (symmetry; apply Nat.eqb_neq; lia). discriminate.
    + exfalso. apply NZ. rewrite N.land_diag. apply N.bits_inj_0. intro b. destruct (N.lt_ge_cases b 31) as [L|L]; [replace b with (N.of_nat (N.to_nat b)) by apply N2Nat.id; apply B; lia|].
      destruct (N.lt_ge_cases b 64) as [L2|L2].
      * assert (E : N.testbit (N.land (shl 31) (shl 32)) b = false) by (rewrite Z; apply N.bits_0). rewrite N.land_spec, S2 in E.
        assert (T : N.testbit (2 ^ 64 - 2 ^ 31) b = true).
        { change (2 ^ 64 - 2 ^ 31)%N with (N.shiftl (N.ones 33) 31). rewrite N.shiftl_spec_high' by exact L. apply N.ones_spec_low. lia. }
        rewrite T in E. exact E.
      * destruct (N.eq_dec (shl 32) 0) as [->|N0]; [apply N.bits_0|]. apply N.bits_above_log2. apply N.lt_le_trans with 64%N; [|exact L2]. apply N.log2_lt_pow2; [lia|apply S3].
Qed.

(** C92c: the lines printed for the rank and for the node hold their masks. *)
Theorem affinity_lines : forall logo_width mask node_mask, 11 <= logo_width -> mask <> [] -> length node_mask = length mask ->
  exists own node, print_affinity logo_width mask node_mask = Some (own, node) /\ lines_of logo_width mask own /\ lines_of logo_width node_mask node.
Proof.
  intros W mask node HW Hm Hn. unfold print_affinity. set (lw := W - W mod 11). assert (Hl : 11 <= lw <= W) by (unfold lw; lia).
  assert (Hlen : 0 < length mask) by (destruct mask; [congruence|cbn; lia]).
  destruct (Nat.eqb_spec (1 + (length mask - 1) / lw) 1) as [E|E].
  - rewrite E. assert (D : (length mask - 1) / lw = 0) by lia. apply Nat.div_small_iff in D; [|lia]. cbn [seq print_lines]. unfold substr. cbn [Nat.mul Nat.leb skipn].
    eexists _, _. split; [reflexivity|].
    assert (K : forall s, length s = length mask -> lines_of W s [print_centered W s None]).
    { intros s Hs. exists (if length s <? W then (W - length s) / 2 else 0), [s]. split; [|split; [cbn; apply app_nil_r|repeat constructor; lia]].
      unfold print_centered. destruct (length s <? W); reflexivity. }
    split; apply K; auto.
  - set (n := 1 + (length mask - 1) / lw). assert (B : forall i, In i (seq 0 n) -> i * lw <= length mask).
    { intros i Hi. apply in_seq in Hi. pose proof (Nat.mul_div_le (length mask - 1) lw ltac:(lia)). assert (i <= (length mask - 1) / lw) by (unfold n in Hi; lia). nia. }
    assert (A : length mask <= n * lw). { pose proof (Nat.mul_succ_div_gt (length mask - 1) lw ltac:(lia)). unfold n. nia. }
    rewrite !print_lines_ok by (rewrite ?Hn; auto; lia). eexists _, _. split; [reflexivity|].
    assert (K : forall s, length s = length mask -> lines_of W s (map (fun i => repeat " "%char (if lw <? W then (W - lw) / 2 else 0) ++ firstn lw (skipn (i * lw) s)) (seq 0 n))).
    { intros s Hs. exists (if lw <? W then (W - lw) / 2 else 0), (map (fun i => firstn lw (skipn (i * lw) s)) (seq 0 n)). split; [rewrite map_map; reflexivity|]. split.
      - rewrite chunks. apply firstn_all2. lia.
      - apply Forall_forall. intros x Hx. apply in_map_iff in Hx as (i & <- & _). rewrite firstn_length. lia. }
    split; apply K; auto.
Qed.

Print Assumptions mask_text_shows.
Print Assumptions node_mask_printed.
Print Assumptions node_mask_refuted.
Print Assumptions affinity_lines.
