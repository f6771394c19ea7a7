(** Property theorems: names recognised by their hash (C101). *)
Require Import ZArith Bool Ascii String Lia List.
Require Import Verif.GmshModel Verif.HashSpec.
Import ListNotations.
Local Open Scope list_scope.
Local Open Scope Z_scope.

Lemma code_bound c : 0 <= code c < 256.
Proof. unfold code. pose proof (nat_ascii_bounded c). lia. Qed.
Lemma code_inj a b : code a = code b -> a = b.
Proof.
  unfold code. intro H. apply Nat2Z.inj in H. rewrite <- (ascii_nat_embedding a), <- (ascii_nat_embedding b). congruence.
Qed.

Lemma lxor_bound h c : 0 <= h < two64 -> 0 <= Z.lxor h (code c) < two64.
Proof.
  intros H. pose proof (code_bound c) as C.
  assert (N : 0 <= Z.lxor h (code c)) by (apply Z.lxor_nonneg; lia).
  split; [exact N|].
  destruct (Z.eq_dec (Z.lxor h (code c)) 0) as [E|E]; [rewrite E; reflexivity|].
  change two64 with (2 ^ 64). apply Z.log2_lt_pow2; [lia|].
  eapply Z.le_lt_trans; [apply Z.log2_lxor; lia|].
  apply Z.max_lub_lt.
  - destruct (Z.eq_dec h 0) as [->|]; [reflexivity|]. apply Z.log2_lt_pow2; [lia|]. change (2 ^ 64) with two64. lia.
  - destruct (Z.eq_dec (code c) 0) as [->|]; [reflexivity|]. apply Z.log2_lt_pow2; [lia|]. lia.
Qed.

Lemma step_bound h c : 0 <= fnv1a_step h c < two64.
Proof. apply Z.mod_pos_bound. reflexivity. Qed.

(** The factor is odd, so that it has an inverse modulo 2^64. *)
Lemma factor_inj x y : 0 <= x < two64 -> 0 <= y < two64 ->
  (x * 1099511628211) mod two64 = (y * 1099511628211) mod two64 -> x = y.
Proof.
  intros X Y H.
  assert (G : forall z, 0 <= z < two64 -> ((z * 1099511628211) mod two64 * 14886173955864302971) mod two64 = z).
  { intros z Z0. rewrite Z.mul_mod_idemp_l by discriminate. rewrite <- Z.mul_assoc.
    rewrite <- Z.mul_mod_idemp_r by discriminate.
    replace ((1099511628211 * 14886173955864302971) mod two64) with 1 by (vm_compute; reflexivity).
    rewrite Z.mul_1_r. apply Z.mod_small. exact Z0. }
  rewrite <- (G x X), <- (G y Y), H. reflexivity.
Qed.

Lemma step_inj h h' c : 0 <= h < two64 -> 0 <= h' < two64 -> fnv1a_step h c = fnv1a_step h' c -> h = h'.
Proof.
  intros H H' E. apply factor_inj in E; auto using lxor_bound.
  apply (f_equal (fun z => Z.lxor z (code c))) in E.
  rewrite !Z.lxor_assoc, !Z.lxor_nilpotent, !Z.lxor_0_r in E. exact E.
Qed.
Lemma step_char h a b : 0 <= h < two64 -> fnv1a_step h a = fnv1a_step h b -> a = b.
Proof.
  intros H E. apply factor_inj in E; auto using lxor_bound. apply code_inj.
  apply (f_equal (Z.lxor h)) in E. rewrite <- !Z.lxor_assoc, !Z.lxor_nilpotent, !Z.lxor_0_l in E. exact E.
Qed.

Lemma fold_bound s : forall h, 0 <= h < two64 -> 0 <= fold_left fnv1a_step s h < two64.
Proof. induction s as [|c s IH]; intros h H; cbn; auto using step_bound. Qed.
Lemma fold_inj s : forall h h', 0 <= h < two64 -> 0 <= h' < two64 ->
  fold_left fnv1a_step s h = fold_left fnv1a_step s h' -> h = h'.
Proof.
  induction s as [|c s IH]; intros h h' H H' E; cbn in E; auto.
  apply IH in E; auto using step_bound. eapply step_inj; eauto.
Qed.
Lemma fnv1a0_bound : 0 <= fnv1a0 < two64.
Proof. split; [discriminate|reflexivity]. Qed.

(** C101a: two texts of any length that differ in one character have different hashes; the hash has 64 bits. *)
Theorem one_character_changes_hash : forall p a b q, a <> b ->
  fnv1a (p ++ a :: q) <> fnv1a (p ++ b :: q) /\ 0 <= fnv1a (p ++ a :: q) < 2 ^ 64.
Proof.
  intros p a b q N. unfold fnv1a. rewrite !fold_left_app. cbn [fold_left].
  split; [|apply (fold_bound q), step_bound].
  intro E. apply fold_inj in E; auto using step_bound. apply N. eapply step_char; eauto.
  apply fold_bound, fnv1a0_bound.
Qed.
Print Assumptions one_character_changes_hash.

(** C101b: a common beginning or a common end does not matter for whether the hashes of two texts differ. *)
Theorem common_end_keeps_hash : forall s t q, fnv1a (s ++ q) = fnv1a (t ++ q) <-> fnv1a s = fnv1a t.
Proof.
  intros s t q. unfold fnv1a. rewrite !fold_left_app. split; [|congruence].
  apply fold_inj; apply fold_bound, fnv1a0_bound.
Qed.
Print Assumptions common_end_keeps_hash.

(** The names of sections. *)
Definition section_names : list text :=
  map str ["MeshFormat"; "EndMeshFormat"; "Nodes"; "EndNodes"; "Elements"; "EndElements"]%string.
Definition chars : list ascii := filter isalpha (map ascii_of_nat (seq 0 256)).
Lemma chars_all c : isalpha c = true -> In c chars.
Proof.
  intro A. unfold chars. apply filter_In. split; [|exact A]. rewrite <- (ascii_nat_embedding c). apply in_map. apply in_seq. pose proof (nat_ascii_bounded c). lia.
Qed.

Fixpoint splits (s : text) : list (text * text) :=
  ([], s) :: match s with [] => [] | c :: t => map (fun x => (c :: fst x, snd x)) (splits t) end.
Lemma splits_all p : forall q, In (p, q) (splits (p ++ q)).
Proof.
  induction p as [|c p IH]; intro q; cbn [app].
  - destruct q; cbn; auto.
  - cbn [splits]. right. apply in_map_iff. exists (p, q). auto.
Qed.

(** The hashes of the names. *)
Definition section_hashes : list Z :=
  [1489617619351514671; 13354507914705949916; 9948139145794220442; 7037721214689535343; 6744263316119731020; 17350786599129143779].
Lemma section_hashes_ok : map fnv1a section_names = section_hashes.
Proof. vm_compute. reflexivity. Qed.
(** The same hash with a mask in place of the remainder, which is faster to compute. *)
Definition masked_step (h : Z) (c : ascii) : Z := Z.land (Z.lxor h (code c) * 1099511628211) 18446744073709551615.
Lemma masked_ok t : fold_left masked_step t fnv1a0 = fnv1a t.
Proof.
  unfold fnv1a. generalize fnv1a0. induction t as [|c t IH]; intro h; cbn [fold_left]; [reflexivity|].
  rewrite IH. f_equal. unfold masked_step, fnv1a_step. change 18446744073709551615 with (Z.ones 64).
  apply Z.land_ones. discriminate.
Qed.
Definition known (t : text) : bool := let h := fold_left masked_step t fnv1a0 in existsb (Z.eqb h) section_hashes.
Lemma known_ok t : known t = false -> section_token t = T_unknown_section.
Proof.
  unfold known. rewrite masked_ok, <- section_hashes_ok. unfold section_token. cbn [map section_names existsb].
  rewrite !orb_false_iff. intros (A & B & C & D & E & F & _).
  rewrite A, B, C, D, E, F. reflexivity.
Qed.
Definition typos_ok (s : text) : bool :=
  forallb (fun x => match x with (p, q) =>
    forallb (fun c => negb (known (p ++ c :: q))) chars &&
    match q with
    | [] => true
    | a :: q' =>
        negb (known (p ++ q')) && forallb (fun c => Ascii.eqb a c || negb (known (p ++ c :: q'))) chars &&
        match q' with
        | [] => true
        | b :: q'' => Ascii.eqb a b || negb (known (p ++ b :: a :: q''))
        end
    end end) (splits s).
Lemma section_typos_checked : forallb typos_ok section_names = true.
Proof. vm_compute. reflexivity. Qed.

(** C101c: a name of letters, as the lexer collects them, that is a section name with a typing error is not taken for the name of any section. *)
Theorem misspelt_section_unknown : forall s t, In s section_names -> typo s t ->
  (forall c, In c t -> isalpha c = true) -> section_token t = T_unknown_section.
Proof.
  intros s t S T L. pose proof section_typos_checked as C. rewrite forallb_forall in C. specialize (C s S).
  unfold typos_ok in C. rewrite forallb_forall in C.
  apply known_ok. clear S. destruct T as [p a b q N|p a q|p a q|p a b q N].
  - specialize (C _ (splits_all p (a :: q))). cbn beta iota in C.
    apply andb_true_iff in C. destruct C as [_ C]. apply andb_true_iff in C. destruct C as [C _].
    apply andb_true_iff in C. destruct C as [_ C]. rewrite forallb_forall in C. specialize (C b (chars_all b ltac:(apply L, in_or_app; cbn; auto))).
    apply orb_true_iff in C. destruct C as [C|C]; [apply Ascii.eqb_eq in C; congruence|].
    apply negb_true_iff in C. exact C.
  - specialize (C _ (splits_all p (a :: q))). cbn beta iota in C.
    apply andb_true_iff in C. destruct C as [_ C]. apply andb_true_iff in C. destruct C as [C _].
    apply andb_true_iff in C. destruct C as [C _]. apply negb_true_iff in C. exact C.
  - specialize (C _ (splits_all p q)). cbn beta iota in C.
    apply andb_true_iff in C. destruct C as [C _]. rewrite forallb_forall in C. specialize (C a (chars_all a ltac:(apply L, in_or_app; cbn; auto))).
    apply negb_true_iff in C. exact C.
  - specialize (C _ (splits_all p (a :: b :: q))). cbn beta iota in C.
    apply andb_true_iff in C. destruct C as [_ C]. apply andb_true_iff in C. destruct C as [_ C].
    apply orb_true_iff in C. destruct C as [C|C]; [apply Ascii.eqb_eq in C; congruence|].
    apply negb_true_iff in C. exact C.
Qed.
Print Assumptions misspelt_section_unknown.
Example misspelt_ex : typo (str "Nodes") (str "Node") /\ map section_token section_names =
  [T_mesh_format; T_end_mesh_format; T_nodes; T_end_nodes; T_elements; T_end_elements].
Proof. split; [exact (left_out (str "Node") "s"%char [])|vm_compute; reflexivity]. Qed.

(** C101d: different texts can have the same hash: the text of these eight characters has hash 0, and a zero character
    at the end does not change it. *)
Theorem hash_distinct_refuted : ~ forall s t, fnv1a s = fnv1a t -> s = t.
Proof.
  intro H. set (s := map ascii_of_nat [213; 107; 185; 83; 66; 135; 8; 54]%nat).
  assert (E : fnv1a s = fnv1a (s ++ [ascii_of_nat 0])) by (vm_compute; reflexivity).
  apply H in E. discriminate.
Qed.
Print Assumptions hash_distinct_refuted.
