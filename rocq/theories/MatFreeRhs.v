(** Block row of an assembled vector, decomposed by the element's facets. *)
Require Import List Arith Lia Bool Reals Lra.
Require Import Verif.Base Verif.LinAlg Verif.LocalMeshModel Verif.LocalMeshProps Verif.TopoModel Verif.TopoSpec Verif.TopoProofs
  Verif.TopoProps Verif.AssembleModel Verif.MatFree.
Import ListNotations.
Local Open Scope R_scope.

(** Component k of block e of the vector to which the blocks in [entries] are added. *)
Definition vec_row (entries : list (nat * (nat -> R))) (e k : nat) : R :=
  lsum (fun '(i, B) => if i =? e then B k else 0) entries.

Section Slots.
Variables (k : nat) (m : topo_mesh) (fi : list facet_info) (wr : list (nat * side_info)) (t : list side_info).
Hypothesis O : topo_ok k m.
Hypothesis Efi : facet_table k m = Some fi.
Hypothesis Iw : interleaving (all_side_writes k fi) wr.
Hypothesis Et : do_writes (fresh_sides k m) wr = Some t.

(** What the facet of a slot contributes to the block of element e. *)
Definition slot_load (L : vec_lop (nat -> R)) (e k : nat) (s : side_info) : R :=
  match nth_error fi (si_fct s) with
  | None => 0
  | Some x => vec_row (rhs_facet L (si_fct s) x) e k
  end.
Lemma vec_row_by_slots (L : vec_lop (nat -> R)) e sl j :
  (e < tm_num_local m)%nat -> map_opt (fun d => nth_error t (e * (k + 1) + d)) (seq 0 (k + 1)) = Some sl ->
  vec_row (rhs m fi L) e j =
  match r_volume L e with Some B => B j | None => 0 end + lsum (slot_load L e j) sl + match r_post L e with Some B => B j | None => 0 end.
Proof.
  intros He Esl. destruct (slots_of k m fi wr t O Efi Iw Et e He) as (sl' & _ & Esl' & Nd & Mem & Sl). assert (sl' = sl) by congruence. subst sl'.
  assert (El : forall v : nat -> option (nat -> R),
    lsum (fun '(i, B) => if i =? e then B j else 0) (flat_map (fun e => if_some (v e) (fun b => [(e, b)])) (seq 0 (tm_num_local m))) =
    match v e with Some B => B j | None => 0 end).
  { intro v. rewrite lsum_flat_map. rewrite (lsum_single _ _ e).
    - destruct (v e); cbn; [rewrite Nat.eqb_refl; ring | reflexivity].
    - apply seq_NoDup.
    - apply in_seq. lia.
    - intros b _ Hb. destruct (v b); cbn; [|reflexivity]. destruct (Nat.eqb_spec b e); [congruence|ring]. }
  unfold vec_row, rhs. rewrite !lsum_app, !El. rewrite <- Rplus_assoc. f_equal. f_equal.
  rewrite lsum_flat_map. rewrite (lsum_sub Nat.eq_dec _ _ (map si_fct sl)); auto using seq_NoDup.
  - rewrite lsum_map. apply lsum_ext. intros s Hs. unfold slot_load. destruct (nth_error fi (si_fct s)); reflexivity.
  - intros i Hi. apply in_map_iff in Hi as (s & <- & Hs). apply In_nth_error in Hs as [d Hd].
    destruct (Sl d s Hd) as (_ & Hl & _). apply in_seq. lia.
  - intros i Hi Hn. apply in_seq in Hi. destruct (facet_table_correct k m O) as (fi' & Efi' & Lfi & Rec).
    assert (fi' = fi) by congruence. subst fi'. destruct (Rec i ltac:(lia)) as (x & Ex & Rx). rewrite Ex. cbn [if_some].
    assert (Nc : ~ (e = fi_up0 x \/ e = fi_up1 x)). { intro Hc. apply Hn. apply Mem. apply (fr_up _ _ _ _ Rx). auto. }
    apply lsum_zero. intros [r B] HB. destruct (Nat.eqb_spec r e) as [->|]; auto. exfalso.
    unfold rhs_facet in HB. destruct (fi_up0 x =? fi_up1 x); cbn [negb] in HB.
    + destruct (fi_inside0 x); [|destruct HB]. destruct (r_boundary L i x); [|destruct HB]. cbn in HB. destruct HB as [HB|[]]. assert (e = fi_up0 x) by congruence. tauto.
    + destruct (r_skeleton L i x) as [[B0 B1]|]; [|destruct HB]. cbn in HB. apply in_app_or in HB.
      destruct (fi_inside0 x), (fi_inside1 x); cbn in HB;
        repeat match goal with
        | H : _ \/ _ |- _ => destruct H
        | H : False |- _ => destruct H
        end;
        apply Nc; first [left; congruence | right; congruence].
Qed.
End Slots.
