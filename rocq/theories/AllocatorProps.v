(** Property theorems: the scratch memory allocator (C09). *)
Require Import List ZArith Lia Bool.
Require Import Verif.Base Verif.DistributeModel Verif.AllocatorModel Verif.AllocatorProofs.
Import ListNotations.
Local Open Scope Z_scope.
Local Open Scope opt_scope.

(** C09a: after any history of allocations and resets on an arena [start,stop), the live blocks
    lie in the arena, are aligned and are pairwise disjoint. *)
Theorem allocator_blocks_disjoint : forall sz start stop al s ops,
  0 < sz -> 0 < al -> 0 <= start <= stop -> stop < 2^64 ->
  mk_alloc start stop al = Some s ->
  Forall (fun o => match o with OpAlloc n => 0 <= n * sz < 2^64 | OpReset => True end) ops ->
  let live := snd (run sz ops s []) in
  Forall (fun b => start <= fst b /\ fst b + snd b <= stop /\ fst b mod al = 0) live /\
  ForallOrdPairs (fun b c => fst b + snd b <= fst c \/ fst c + snd c <= fst b) live.
Proof.
  intros sz start stop al s ops Hsz Hal Hs He M HF.
  unfold mk_alloc in M. destruct (Z.eqb_spec (start mod al) 0) as [E|]; [|discriminate].
  inversion M; subst s; clear M.
  destruct (run_inv sz ops {| start_ := start; end_ := stop; current_ := start; alignment_ := al |} [] HF)
    as (A & B & C & E1 & E2 & E3).
  - unfold arena_ok; cbn. repeat split; auto; lia.
  - constructor.
  - constructor.
  - cbn zeta. split; auto. eapply Forall_impl; [|exact B]. intros b (B1 & B2 & B3 & B4).
    cbn in *. rewrite E1 in B1. rewrite E3 in B3. repeat split; auto.
    destruct A as (_ & _ & _ & _ & A & _). rewrite E2 in A. lia.
Qed.
Print Assumptions allocator_blocks_disjoint.

(** C09b: an allocation that does not fit throws (None) and the next reset gives back the state
    in which the allocator was constructed, whatever happened before. *)
Theorem allocator_reset_restores : forall sz start stop al s ops,
  mk_alloc start stop al = Some s -> reset (fst (run sz ops s [])) = s.
Proof.
  intros sz start stop al s ops M.
  assert (G : forall ops s live, start_ (fst (run sz ops s live)) = start_ s /\
             end_ (fst (run sz ops s live)) = end_ s /\ alignment_ (fst (run sz ops s live)) = alignment_ s).
  { induction ops0 as [|o rest IH]; intros t live; cbn; auto. destruct o as [n|].
    - destruct (allocate sz n t) as [[p t']|] eqn:E; [|apply IH].
      destruct (IH t' ((p, n * sz) :: live)) as (I1 & I2 & I3).
      unfold allocate in E. destruct (_ && _); [|discriminate].
      destruct (std_align _ _ _ _); [|discriminate]. cbn in E. inversion E; subst. cbn in *. auto.
    - destruct (IH (reset t) []) as (I1 & I2 & I3). cbn in *. auto. }
  destruct (G ops s []) as (G1 & G2 & G3). unfold reset. rewrite G1, G2, G3.
  unfold mk_alloc in M. destruct (_ =? _); [|discriminate]. inversion M; reflexivity.
Qed.
Print Assumptions allocator_reset_restores.

(** C09c: an arena of sum(allocation_size(n_i, al)) elements suffices for allocating n_1, n_2, ...
    in sequence. *)
Theorem allocation_size_suffices : forall sz al start ns s,
  0 < sz -> (exists k, 0 <= k /\ al = 2 ^ k) -> 0 <= start ->
  (forall n, In n ns -> 1 <= n /\ n * sz + al < 2^64) ->
  let units := fold_right Z.add 0 (map (fun n => allocation_size sz n al) ns) in
  start + sz * units < 2^64 -> 0 <= units ->
  mk_alloc start (start + sz * units) al = Some s ->
  exists blocks, alloc_all sz ns s = Some blocks.
Proof.
  intros sz al start ns s Hsz P Hs Hn units Hb Hu M.
  unfold mk_alloc in M. destruct (Z.eqb_spec (start mod al) 0) as [E|]; [|discriminate].
  inversion M; subst s; clear M. destruct (pow2_land al P) as [Hal _].
  apply (alloc_all_ok sz al Hsz P ns _ 0 0); auto.
  - unfold arena_ok; cbn. repeat split; auto; nia.
  - lia.
  - apply ceil_le; lia.
Qed.
Print Assumptions allocation_size_suffices.

(** The size computation breaks for n = 0, and a request whose byte size wraps is granted with a
    block that leaves the arena. *)
Theorem allocation_size_zero_refuted : allocation_size 8 0 32 = 2305843009213693952.
Proof. reflexivity. Qed.
Theorem allocate_overflow_refuted : exists s n p s',
  mk_alloc 0 64 8 = Some s /\ 0 <= n < 2^64 /\ allocate 8 n s = Some (p, s') /\
  end_ s' < p + n * 8.
Proof.
  exists {| start_ := 0; end_ := 64; current_ := 0; alignment_ := 8 |}, (2^61).
  exists 0, {| start_ := 0; end_ := 64; current_ := 2^64; alignment_ := 8 |}.
  split; [reflexivity|]. split; [split; vm_compute; congruence|]. split; [|vm_compute]; reflexivity.
Qed.

Example allocator_ex : exists s, mk_alloc 64 (64 + 8 * 12) 32 = Some s /\
  snd (run 8 [OpAlloc 1; OpReset; OpAlloc 3; OpAlloc 5; OpAlloc 4; OpAlloc 2] s [])
  = [(96, 40); (64, 24)] /\
  alloc_all 8 [3; 5] s = Some [64; 96] /\ allocation_size 8 3 32 + allocation_size 8 5 32 = 12.
Proof. eexists. repeat split; reflexivity. Qed.
