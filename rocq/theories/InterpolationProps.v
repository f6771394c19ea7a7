(** C68: p-multigrid.  Interpolation to a higher degree does not change the function; the operators of the coarse levels
    are the restrictions of the bilinear form of the finest level. *)
Require Import List Arith Lia Bool Reals Lra Permutation Sorted.
Require Import Classical.
Require Import Verif.Base Verif.LinAlg Verif.MultiIndexModel Verif.MultiIndexProps Verif.TensorModel Verif.TensorProps Verif.CombinatoricsModel Verif.CombinatoricsProps
  Verif.BasisModel Verif.BasisSpec Verif.IntegralSpec Verif.IntegralProofs Verif.DubinerProofs Verif.SpanProofs
  Verif.RefElementSpec Verif.RefElementModel Verif.RefElementProofs Verif.RefElementProps
  Verif.LocalMeshModel Verif.LocalMeshProps Verif.TopoModel Verif.TopoSpec Verif.TopoProps Verif.AssembleModel Verif.AssembleSpec Verif.AssembleProps
  Verif.MGConfigModel Verif.MGConfigProps Verif.InterpolationModel Verif.InterpolationSpec.
Import ListNotations.
Local Open Scope R_scope.
Local Open Scope opt_scope.

(** ** The multi-indices of a lower degree come first *)
Lemma sums_loop_iter : forall fuel it last l, sums_loop fuel it last = Some l ->
  l = map (fun k => sums_deref (Nat.iter k sums_incr it)) (seq 0 (length l)).
Proof.
  induction fuel as [| fuel IH]; intros it last l E; cbn [sums_loop] in E; destruct (list_eq_dec Nat.eq_dec it last).
  - inversion E. reflexivity.
  - discriminate.
  - inversion E. reflexivity.
  - destruct (sums_loop fuel (sums_incr it) last) as [r |] eqn:Er; [| discriminate]. cbn [bind] in E. inversion E. subst l.
    cbn [length seq map]. f_equal. rewrite (IH _ _ _ Er) at 1. rewrite <- seq_shift, map_map. apply map_ext. intros k.
    f_equal. clear. induction k as [| k IH]; [reflexivity |]. cbn [Nat.iter nat_rect] in *. unfold Nat.iter in *. cbn in *. now rewrite IH.
Qed.
(** C68a: the loop over AllIntegerSums<D>(N') begins like the one over AllIntegerSums<D>(N) for N <= N'; so the first
    columns of a Vandermonde matrix belong to the basis functions of the lower degree. *)
Theorem multiindices_nested : forall D N N' mi mi', (0 < D)%nat -> (N <= N')%nat -> runs_through D N mi -> runs_through D N' mi' ->
  firstn (length mi) mi' = mi.
Proof.
  intros D N N' mi mi' HD HN [f E] [f' E'].
  destruct (sums_multiindices f D N mi HD E) as [[ND HA] _]. destruct (sums_multiindices f' D N' mi' HD E') as [[ND' HA'] _].
  assert (L : (length mi <= length mi')%nat).
  { apply NoDup_incl_length; [exact ND |]. intros x Hx. apply HA in Hx. apply HA'. lia. }
  apply sums_loop_iter in E. apply sums_loop_iter in E'. change (sums_begin D true N') with (sums_begin D true N) in E'.
  rewrite E', firstn_map. replace (firstn (length mi) (seq 0 (length mi'))) with (seq 0 (length mi)); [now symmetry |].
  replace (length mi') with (length mi + (length mi' - length mi))%nat by lia. rewrite seq_app, firstn_app, seq_length, Nat.sub_diag.
  rewrite firstn_O, app_nil_r. rewrite <- (seq_length (length mi) 0) at 2. now rewrite firstn_all.
Qed.
Print Assumptions multiindices_nested.
Lemma nested_nth : forall D N N' mi mi' j, (0 < D)%nat -> (N <= N')%nat -> runs_through D N mi -> runs_through D N' mi' -> (j < length mi)%nat ->
  nth j mi' [] = nth j mi [].
Proof.
  intros D N N' mi mi' j HD HN R1 R2 Hj. pose proof (multiindices_nested D N N' mi mi' HD HN R1 R2) as E.
  rewrite <- (firstn_skipn (length mi) mi'), E. now rewrite app_nth1.
Qed.

(** ** The local matrix *)
(** Entry (r, c) of a matrix that has tmp in the diagonal blocks of the quantities. *)
Definition quantity_diag (N1 N2 : nat) (tmp : nat -> nat -> R) (r c : nat) : R :=
  if (r / N1 =? c / N2)%nat then tmp (r mod N1)%nat (c mod N2)%nat else 0.
Definition block_values (bs1 bs2 : nat) (X : nat -> nat -> R) : list R := map (fun a => X (a mod bs1)%nat (a / bs1)%nat) (seq 0 (bs1 * bs2)).

Lemma div_split : forall N k p, (k < N)%nat -> ((k + p * N) / N = p /\ (k + p * N) mod N = k)%nat.
Proof.
  intros N k p Hk. split.
  - rewrite Nat.div_add by lia. rewrite Nat.div_small by lia. lia.
  - rewrite Nat.mod_add by lia. now apply Nat.mod_small.
Qed.
Lemma block_read : forall bs1 bs2 m X, (forall r c, (r < bs1)%nat -> (c < bs2)%nat -> m (v_addr (packed 0 [bs1; bs2]) [r; c]) = X r c) ->
  map m (seq 0 (bs1 * bs2)) = block_values bs1 bs2 X.
Proof.
  intros bs1 bs2 m X H. unfold block_values. apply map_ext_in. intros a Ha. apply in_seq in Ha.
  assert (0 < bs1)%nat by nia. rewrite <- H.
  - rewrite addr2. f_equal. pose proof (Nat.div_mod a bs1 ltac:(lia)). lia.
  - apply Nat.mod_upper_bound. lia.
  - apply Nat.div_lt_upper_bound; lia.
Qed.
Lemma nodal_assemble_ok : forall S_to S_from Q m, let N1 := length (ne_nodes S_to) in let N2 := length (ne_nodes S_from) in
  let tmp k l := rsum N2 (fun j => ne_V S_to k j * ne_Vinv S_from j l) in
  forall r c, (r < N1 * Q)%nat -> (c < N2 * Q)%nat ->
  nodal_assemble S_to S_from Q (packed 0 [N1 * Q; N2 * Q]%nat) m (v_addr (packed 0 [N1 * Q; N2 * Q]%nat) [r; c]) = quantity_diag N1 N2 tmp r c.
Proof.
  intros S_to S_from Q m N1 N2 tmp r c Hr Hc. unfold nodal_assemble. cbv zeta. fold N1 N2. set (I := packed 0 _).
  assert (PN1 : (0 < N1)%nat) by nia. assert (PN2 : (0 < N2)%nat) by nia.
  assert (Rs : forall k p, (k < N1)%nat -> (p < Q)%nat -> (k + p * N1 < N1 * Q)%nat) by (intros; nia).
  assert (Cs : forall l p, (l < N2)%nat -> (p < Q)%nat -> (l + p * N2 < N2 * Q)%nat) by (intros; nia).
  unfold quantity_diag. destruct (Nat.eqb_spec (r / N1) (c / N2)) as [E | E].
  - apply writes_read.
    + exists (v_addr I [r; c], tmp (r mod N1)%nat (c mod N2)%nat). split; [| reflexivity].
      apply in_flat_map. exists (c mod N2)%nat. split; [apply in_seq; pose proof (Nat.mod_upper_bound c N2 ltac:(lia)); lia |].
      apply in_flat_map. exists (c / N2)%nat. split; [apply in_seq; pose proof (Nat.div_lt_upper_bound c N2 Q ltac:(lia) ltac:(lia)); lia |].
      apply in_map_iff. exists (r mod N1)%nat. split; [| apply in_seq; pose proof (Nat.mod_upper_bound r N1 ltac:(lia)); lia].
      pose proof (Nat.div_mod r N1 ltac:(lia)). pose proof (Nat.div_mod c N2 ltac:(lia)).
      replace (r mod N1 + c / N2 * N1)%nat with r by (rewrite <- E; lia). replace (c mod N2 + c / N2 * N2)%nat with c by lia. reflexivity.
    + intros e He Ee. apply in_flat_map in He. destruct He as (l & Hl & He). apply in_flat_map in He. destruct He as (p & Hp & He).
      apply in_map_iff in He. destruct He as (k & <- & Hk). apply in_seq in Hl, Hp, Hk. cbn [fst snd] in *.
      apply packed_inj in Ee; [| apply in_shape2; [apply Rs; lia | apply Cs; lia] | now apply in_shape2].
      inversion Ee. subst r c. destruct (div_split N1 k p ltac:(lia)) as [_ ->]. destruct (div_split N2 l p ltac:(lia)) as [_ ->]. reflexivity.
  - rewrite writes_other.
    + rewrite assign_read; [reflexivity | apply packed_inj2 | exact Hr | exact Hc].
    + intros e He Ee. apply in_flat_map in He. destruct He as (l & Hl & He). apply in_flat_map in He. destruct He as (p & Hp & He).
      apply in_map_iff in He. destruct He as (k & <- & Hk). apply in_seq in Hl, Hp, Hk. cbn [fst snd] in *.
      apply packed_inj in Ee; [| apply in_shape2; [apply Rs; lia | apply Cs; lia] | now apply in_shape2].
      inversion Ee. subst r c. apply E. destruct (div_split N1 k p ltac:(lia)) as [-> _]. destruct (div_split N2 l p ltac:(lia)) as [-> _]. reflexivity.
Qed.
Lemma modal_assemble_ok : forall N1 N2 Q m, (N2 <= N1)%nat -> forall r c, (r < N1 * Q)%nat -> (c < N2 * Q)%nat ->
  modal_assemble N1 N2 Q (packed 0 [N1 * Q; N2 * Q]%nat) m (v_addr (packed 0 [N1 * Q; N2 * Q]%nat) [r; c])
    = quantity_diag N1 N2 (fun k l => if (k =? l)%nat then 1 else 0) r c.
Proof.
  intros N1 N2 Q m HN r c Hr Hc. unfold modal_assemble. cbv zeta. set (I := packed 0 _).
  assert (PN1 : (0 < N1)%nat) by nia. assert (PN2 : (0 < N2)%nat) by nia.
  assert (Rs : forall k p, (k < N1)%nat -> (p < Q)%nat -> (k + p * N1 < N1 * Q)%nat) by (intros; nia).
  assert (Cs : forall l p, (l < N2)%nat -> (p < Q)%nat -> (l + p * N2 < N2 * Q)%nat) by (intros; nia).
  assert (Inv : forall e, In e (flat_map (fun l => map (fun p => (v_addr I [l + p * N1; l + p * N2]%nat, 1)) (seq 0 Q)) (seq 0 N2)) ->
    fst e = v_addr I [r; c] -> snd e = 1 /\ exists l p, (l < N2)%nat /\ (p < Q)%nat /\ r = (l + p * N1)%nat /\ c = (l + p * N2)%nat).
  { intros e He Ee. apply in_flat_map in He. destruct He as (l & Hl & He). apply in_map_iff in He. destruct He as (p & <- & Hp).
    apply in_seq in Hl, Hp. cbn [fst snd] in *.
    apply packed_inj in Ee; [| apply in_shape2; [apply Rs; lia | apply Cs; lia] | now apply in_shape2].
    inversion Ee. split; [reflexivity |]. exists l, p. repeat split; lia. }
  unfold quantity_diag. pose proof (Nat.mod_upper_bound c N2 ltac:(lia)). pose proof (Nat.mod_upper_bound r N1 ltac:(lia)).
  pose proof (Nat.div_mod r N1 ltac:(lia)). pose proof (Nat.div_mod c N2 ltac:(lia)).
  destruct (Nat.eqb_spec (r / N1) (c / N2)) as [E | E]; [destruct (Nat.eqb_spec (r mod N1) (c mod N2)) as [E' | E'] |].
  - apply writes_read.
    + exists (v_addr I [r; c], 1). split; [| reflexivity].
      apply in_flat_map. exists (c mod N2)%nat. split; [apply in_seq; lia |].
      apply in_map_iff. exists (c / N2)%nat. split; [| apply in_seq; pose proof (Nat.div_lt_upper_bound c N2 Q ltac:(lia) ltac:(lia)); lia].
      replace (c mod N2 + c / N2 * N1)%nat with r by (rewrite <- E, <- E'; lia). replace (c mod N2 + c / N2 * N2)%nat with c by lia. reflexivity.
    + intros e He Ee. now apply Inv.
  - rewrite writes_other; [rewrite assign_read; [reflexivity | apply packed_inj2 | exact Hr | exact Hc] |].
    intros e He Ee. destruct (Inv e He Ee) as (_ & l & p & Hl & Hp & -> & ->).
    apply E'. destruct (div_split N1 l p ltac:(lia)) as [_ ->]. destruct (div_split N2 l p ltac:(lia)) as [_ ->]. reflexivity.
  - rewrite writes_other; [rewrite assign_read; [reflexivity | apply packed_inj2 | exact Hr | exact Hc] |].
    intros e He Ee. destruct (Inv e He Ee) as (_ & l & p & Hl & Hp & -> & ->).
    apply E. destruct (div_split N1 l p ltac:(lia)) as [-> _]. destruct (div_split N2 l p ltac:(lia)) as [-> _]. reflexivity.
Qed.

(** The loop over the elements adds the same block for every element. *)
Lemma interpolation_loop : forall lop bs1 bs2 X num m0 calls, (forall m r c, (r < bs1)%nat -> (c < bs2)%nat ->
    lop (packed 0 [bs1; bs2]) m (v_addr (packed 0 [bs1; bs2]) [r; c]) = X r c) ->
  snd (fold_left (fun (st : mem * list (nat * nat * list R)) elNo => let m := lop (packed 0 [bs1; bs2]) (fst st) in
      (m, snd st ++ [(elNo, elNo, map m (seq 0 (bs1 * bs2)))])) num (m0, calls))
  = calls ++ map (fun e => (e, e, block_values bs1 bs2 X)) num.
Proof.
  intros lop bs1 bs2 X num. induction num as [| e num IH]; intros m0 calls H; cbn [fold_left map]; [now rewrite app_nil_r |].
  cbv zeta. cbn [fst snd]. rewrite IH by exact H. rewrite <- app_assoc. cbn [app]. do 3 f_equal.
  apply block_read. intros; now apply H.
Qed.

(** ** The distributed matrix *)
Lemma petsc_matrix_perm : forall rb cb l l', Permutation l l' -> forall i j, petsc_matrix rb cb l i j = petsc_matrix rb cb l' i j.
Proof.
  intros rb cb l l' P i j. unfold petsc_matrix. induction P as [| x l l' P IH | x y l | l1 l2 l3 P1 IH1 P2 IH2]; cbn [fold_right]; [reflexivity | now rewrite IH | | congruence].
  destruct x as [[? ?] ?], y as [[? ?] ?]. ring.
Qed.
Lemma petsc_diag : forall ne bs1 bs2 X g r g' c, (g < ne)%nat -> (g' < ne)%nat -> (r < bs1)%nat -> (c < bs2)%nat ->
  petsc_matrix bs1 bs2 (map (fun e => (e, e, block_values bs1 bs2 X)) (seq 0 ne)) (r + g * bs1)%nat (c + g' * bs2)%nat = if (g =? g')%nat then X r c else 0.
Proof.
  intros ne bs1 bs2 X g r g' c Hg Hg' Hr Hc. unfold petsc_matrix.
  destruct (div_split bs1 r g Hr) as [D1 M1]. destruct (div_split bs2 c g' Hc) as [D2 M2]. rewrite D1, D2, M1, M2.
  assert (V : nth (r + bs1 * c) (block_values bs1 bs2 X) 0 = X r c).
  { unfold block_values. set (f := fun a => X (a mod bs1)%nat (a / bs1)%nat).
    assert (Hb : (r + bs1 * c < bs1 * bs2)%nat) by nia. rewrite nth_indep with (d' := f O) by (now rewrite map_length, seq_length).
    rewrite map_nth, seq_nth by exact Hb. unfold f. destruct (div_split bs1 r c Hr) as [D3 M3].
    replace (0 + (r + bs1 * c))%nat with (r + c * bs1)%nat by lia. now rewrite D3, M3. }
  assert (G : forall s n, fold_right (fun (b : nat * nat * list R) s => let '(gi, gj, v) := b in
     (if ((g =? gi) && (g' =? gj))%nat%bool then nth (r + bs1 * c)%nat v 0 else 0) + s) 0 (map (fun e => (e, e, block_values bs1 bs2 X)) (seq s n))
     = if ((g =? g') && ((s <=? g) && (g <? s + n)))%nat%bool then X r c else 0).
  { intros s n. revert s. induction n as [| n IH]; intros s; cbn [seq map fold_right].
    - destruct (g =? g')%nat, (Nat.leb_spec s g), (Nat.ltb_spec g (s + 0)); try reflexivity; lia.
    - rewrite IH, V. destruct (Nat.eqb_spec g g') as [<- | Hne].
      + destruct (Nat.eqb_spec g s) as [-> | Hs]; cbn [andb].
        * destruct (Nat.leb_spec s s), (Nat.ltb_spec s (s + S n)), (Nat.leb_spec (S s) s), (Nat.ltb_spec s (S s + n)); cbn [andb]; try lia; ring.
        * destruct (Nat.leb_spec s g), (Nat.ltb_spec g (s + S n)), (Nat.leb_spec (S s) g), (Nat.ltb_spec g (S s + n)); cbn [andb]; try lia; ring.
      + cbn [andb]. destruct (Nat.eqb_spec g s), (Nat.eqb_spec g' s); cbn [andb]; try lia; ring. }
  rewrite G. destruct (Nat.eqb_spec g g'); [| reflexivity]. destruct (Nat.leb_spec 0 g), (Nat.ltb_spec g (0 + ne)); cbn [andb]; try lia; reflexivity.
Qed.

(** Every rank assembles its elements; together the ranks add the block of each element once. *)
Lemma ranks_add_all : forall k procs elems facets bc m (B : list R), mesh_parts k procs elems facets bc m ->
  exists G, (forall p, (p < procs)%nat -> map_opt (to_global (m p)) (map (fun e => (e, e, B)) (seq 0 (tm_num_local (m p)))) = Some (G p))
  /\ Permutation (flat_map G (seq 0 procs)) (map (fun g => (g, g, B)) (seq 0 (length elems))).
Proof.
  intros k procs elems facets bc m B MP.
  set (F := {| f_volume := fun _ => Some B; f_skeleton := fun _ _ _ _ => None; f_boundary := fun _ _ _ => None; f_post := fun _ => None |} : mat_form (list R)).
  set (L := {| a_volume := fun _ => Some B; a_skeleton := fun _ _ => None; a_boundary := fun _ _ => None; a_post := fun _ => None |} : mat_lop (list R)).
  assert (T : forall p, exists t, (p < procs)%nat -> facet_table k (m p) = Some t).
  { intros p. destruct (lt_dec p procs) as [Hp | Hp]; [| exists []; intros; contradiction].
    destruct (facet_table_correct k (m p) (mp_mesh _ _ _ _ _ _ MP p Hp)) as (t & E & _). exists t. intros _. exact E. }
  assert (T' : exists fi, forall p, (p < procs)%nat -> facet_table k (m p) = Some (fi p)).
  { exists (fun p => match facet_table k (m p) with Some t => t | None => [] end). intros p Hp. destruct (T p) as (t & E). now rewrite (E Hp). }
  destruct T' as (fi & Hfi).
  destruct (assembly_complete k procs elems facets bc m F fi (fun _ => L) MP) as (G & H1' & H2').
  - intros f b g h. reflexivity.
  - exact Hfi.
  - intros p Hp. split; [intros; split; reflexivity | intros; split; reflexivity].
  - exists G. split.
    + intros p Hp. specialize (H1' p Hp). unfold assemble in H1'.
      assert (E1 : forall l, flat_map (fun e => if_some (a_volume L e) (fun A00 => [(e, e, A00)])) l = map (fun e => (e, e, B)) l)
        by (induction l as [| x l IH]; cbn; [reflexivity | now rewrite <- IH]).
      assert (E2 : forall l, flat_map (fun i => if_some (nth_error (fi p) i) (assemble_facet L i)) l = []).
      { induction l as [| x l IH]; cbn [flat_map]; [reflexivity |]. rewrite IH, app_nil_r. destruct (nth_error (fi p) x) as [y |]; [| reflexivity].
        cbn [if_some]. unfold assemble_facet. cbn. destruct (negb _); [reflexivity |]. now destruct (fi_inside0 y). }
      assert (E3 : forall l, flat_map (fun e => if_some (a_post L e) (fun A00 => [(e, e, A00)])) l = [])
        by (induction l as [| x l IH]; cbn; [reflexivity | exact IH]).
      rewrite E1, E2, E3, !app_nil_r in H1'. exact H1'.
    + etransitivity; [exact H2' |]. unfold global_matrix.
      assert (E1 : forall l, flat_map (fun g => if_some (f_volume F g) (fun b => [(g, g, b)])) l = map (fun e => (e, e, B)) l)
        by (induction l as [| x l IH]; cbn; [reflexivity | now rewrite <- IH]).
      assert (E3 : forall l, flat_map (fun g => if_some (f_post F g) (fun b => [(g, g, b)])) l = [])
        by (induction l as [| x l IH]; cbn; [reflexivity | exact IH]).
      rewrite E1, E3, app_nil_r.
      assert (E2 : forall l, flat_map (fun f => match elements_of elems f with
                     | [g] => if_some (f_boundary F f (bc f) g) (fun b => [(g, g, b)])
                     | [g; h] => if_some (f_skeleton F f (bc f) g h) (fun '(gg, gh, hg, hh) => [(g, g, gg); (g, h, gh); (h, g, hg); (h, h, hh)])
                     | _ => [] end) l = []).
      { induction l as [| x l IH]; cbn [flat_map]; [reflexivity |]. rewrite IH, app_nil_r.
        destruct (elements_of elems x) as [| a [| b [| c r]]]; reflexivity. }
      rewrite E2, app_nil_r. reflexivity.
Qed.

(** ** Functions *)
Lemma rsum_app : forall n m f, rsum (n + m) f = rsum n f + rsum m (fun r => f (r + n)%nat).
Proof. intros n m f. induction m as [| m IH]; [rewrite Nat.add_0_r; cbn; ring |]. rewrite Nat.add_succ_r. cbn [rsum]. rewrite IH. replace (m + n)%nat with (n + m)%nat by lia. ring. Qed.
Lemma rsum_blocks : forall n m f, rsum (n * m) f = rsum n (fun g => rsum m (fun r => f (r + g * m)%nat)).
Proof. induction n as [| n IH]; intros m f; [reflexivity |]. replace (S n * m)%nat with (n * m + m)%nat by lia. rewrite rsum_app, IH. reflexivity. Qed.

(** tmp expresses the basis functions of the lower degree by those of the higher degree. *)
Definition inclusion (N1 N2 : nat) (b1 b2 : nat -> (nat -> R) -> R) (tmp : nat -> nat -> R) : Prop :=
  forall l xi, (l < N2)%nat -> b2 l xi = rsum N1 (fun k => tmp k l * b1 k xi).

Lemma diag_prolongs : forall ne Q N1 N2 b1 b2 tmp blocks x, inclusion N1 N2 b1 b2 tmp ->
  Permutation blocks (map (fun g => (g, g, block_values (N1 * Q) (N2 * Q) (quantity_diag N1 N2 tmp))) (seq 0 ne)) ->
  same_function ne Q b2 N2 x b1 N1 (fun i => rsum (ne * (N2 * Q)) (fun j => petsc_matrix (N1 * Q) (N2 * Q) blocks i j * x j)).
Proof.
  intros ne Q N1 N2 b1 b2 tmp blocks x Hi Hp g p xi Hg HQ. unfold fe_value.
  assert (Y : forall k, (k < N1)%nat -> rsum (ne * (N2 * Q)) (fun j => petsc_matrix (N1 * Q) (N2 * Q) blocks (g * (N1 * Q) + (p * N1 + k))%nat j * x j)
      = rsum N2 (fun l => tmp k l * x (g * (N2 * Q) + (p * N2 + l))%nat)).
  { intros k Hk. replace (g * (N1 * Q) + (p * N1 + k))%nat with ((k + p * N1) + g * (N1 * Q))%nat by lia.
    rewrite (rsum_ext _ _ (fun j => petsc_matrix (N1 * Q) (N2 * Q) (map (fun g => (g, g, block_values (N1 * Q) (N2 * Q) (quantity_diag N1 N2 tmp))) (seq 0 ne)) ((k + p * N1) + g * (N1 * Q))%nat j * x j))
      by (intros j Hj; now rewrite (petsc_matrix_perm _ _ _ _ Hp)).
    rewrite rsum_blocks. rewrite (rsum_single ne g); [| exact Hg |].
    - replace (N2 * Q)%nat with (Q * N2)%nat at 1 by lia. rewrite rsum_blocks. rewrite (rsum_single Q p); [| exact HQ |].
      + apply rsum_ext. intros l Hl. rewrite petsc_diag; [| exact Hg | exact Hg | nia | nia]. rewrite Nat.eqb_refl. unfold quantity_diag.
        destruct (div_split N1 k p Hk) as [-> ->]. destruct (div_split N2 l p Hl) as [-> ->]. rewrite Nat.eqb_refl. do 2 f_equal. lia.
      + intros p' Hp' Hne. apply rsum_zero. intros l Hl. rewrite petsc_diag; [| exact Hg | exact Hg | nia | nia]. rewrite Nat.eqb_refl. unfold quantity_diag.
        destruct (div_split N1 k p Hk) as [-> _]. destruct (div_split N2 l p' Hl) as [-> _]. destruct (Nat.eqb_spec p p'); [congruence | ring].
    - intros g' Hg' Hne. apply rsum_zero. intros c Hc. rewrite petsc_diag; [| exact Hg | exact Hg' | nia | exact Hc].
      destruct (Nat.eqb_spec g g'); [congruence | ring]. }
  rewrite (rsum_ext N1 _ (fun k => rsum N2 (fun l => tmp k l * x (g * (N2 * Q) + (p * N2 + l))%nat * b1 k xi)))
    by (intros k Hk; cbv beta; rewrite Y by exact Hk; now rewrite rsum_scale_r).
  rewrite rsum_swap. apply rsum_ext. intros l Hl. rewrite (Hi l xi Hl), <- rsum_scale. apply rsum_ext. intros; ring.
Qed.

Section Prolongation.
Variables (k procs : nat) (elems facets : list (list nat)) (bc : list nat -> nat) (m : nat -> topo_mesh) (m0 : nat -> mem).
Hypothesis MP : mesh_parts k procs elems facets bc m.
(** The blocks that all ranks have added to the distributed matrix, in some order. *)
Definition assembled (lop : view -> mem -> mem) (bs1 bs2 to from : nat) (blocks : list (nat * nat * list R)) : Prop :=
  exists calls G, (forall p, (p < procs)%nat -> interpolation_assemble lop bs1 bs2 to from (tm_num_local (m p)) (m0 p) = Some (calls p)
      /\ map_opt (to_global (m p)) (calls p) = Some (G p))
  /\ Permutation blocks (flat_map G (seq 0 procs)).
Lemma assembled_diag : forall lop bs1 bs2 X to from, (from < to)%nat ->
  (forall m r c, (r < bs1)%nat -> (c < bs2)%nat -> lop (packed 0 [bs1; bs2]) m (v_addr (packed 0 [bs1; bs2]) [r; c]) = X r c) ->
  (exists blocks, assembled lop bs1 bs2 to from blocks)
  /\ forall blocks, assembled lop bs1 bs2 to from blocks -> Permutation blocks (map (fun g => (g, g, block_values bs1 bs2 X)) (seq 0 (length elems))).
Proof.
  intros lop bs1 bs2 X to from Hlt Hl. destruct (ranks_add_all k procs elems facets bc m (block_values bs1 bs2 X) MP) as (G & HG & HP).
  assert (E : forall p, interpolation_assemble lop bs1 bs2 to from (tm_num_local (m p)) (m0 p) = Some (map (fun e => (e, e, block_values bs1 bs2 X)) (seq 0 (tm_num_local (m p))))).
  { intros p. unfold interpolation_assemble. destruct (Nat.leb_spec to from); [lia |]. cbv zeta. now rewrite (interpolation_loop lop bs1 bs2 X) by exact Hl. }
  split.
  - exists (flat_map G (seq 0 procs)). exists (fun p => map (fun e => (e, e, block_values bs1 bs2 X)) (seq 0 (tm_num_local (m p)))), G.
    split; [| reflexivity]. intros p Hp. split; [apply E | now apply HG].
  - intros blocks (calls & G' & H & HB). etransitivity; [exact HB |]. rewrite <- HP.
    assert (EQ : forall l, (forall p, In p l -> (p < procs)%nat) -> flat_map G' l = flat_map G l).
    { induction l as [| p l IH]; intros Hlt'; cbn [flat_map]; [reflexivity |]. rewrite IH by (intros; apply Hlt'; now right). f_equal.
      destruct (H p (Hlt' p (or_introl eq_refl))) as [E1 E2]. rewrite E in E1. inversion E1 as [E1']. rewrite <- E1' in E2.
      rewrite HG in E2 by (apply Hlt'; now left). now inversion E2. }
    rewrite EQ; [reflexivity |]. intros p Hp. apply in_seq in Hp. lia.
Qed.

(** C68b: the assembly succeeds on every rank, and interpolation by the assembled matrix, on any number of ranks and in
    any order of additions, turns the coefficients of a function of the lower degree into the coefficients of the same
    function for the higher degree: for the nodal basis of any nodes that determine the polynomials of their degree. *)
Theorem nodal_prolongation : forall inverse D from to mi_f mi_t nodes_f nodes_t psi_f psi_t Q, (D = 1 \/ D = 2 \/ D = 3)%nat -> (from < to)%nat ->
  exact_inverse inverse -> runs_through D from mi_f -> runs_through D to mi_t -> length nodes_f = length mi_f -> length nodes_t = length mi_t ->
  unisolvent D from nodes_f -> unisolvent D to nodes_t -> nodal_basis D from nodes_f psi_f -> nodal_basis D to nodes_t psi_t ->
  let lop := nodal_assemble (NodalRefElement inverse D to mi_t nodes_t) (NodalRefElement inverse D from mi_f nodes_f) Q in
  let N1 := length nodes_t in let N2 := length nodes_f in let ne := length elems in
  (exists blocks, assembled lop (N1 * Q) (N2 * Q) to from blocks)
  /\ forall blocks, assembled lop (N1 * Q) (N2 * Q) to from blocks ->
     forall x, same_function ne Q psi_f N2 x psi_t N1 (fun i => rsum (ne * (N2 * Q)) (fun j => petsc_matrix (N1 * Q) (N2 * Q) blocks i j * x j)).
Proof.
  intros inverse D from to mi_f mi_t nodes_f nodes_t psi_f psi_t Q HD Hlt HI Rf Rt Lf Lt Uf Ut Pf Pt lop N1 N2 ne.
  set (S_t := NodalRefElement inverse D to mi_t nodes_t) in *. set (S_f := NodalRefElement inverse D from mi_f nodes_f) in *.
  set (tmp := fun k l => rsum N2 (fun j => ne_V S_t k j * ne_Vinv S_f j l)).
  destruct (assembled_diag lop (N1 * Q) (N2 * Q) (quantity_diag N1 N2 tmp) to from Hlt) as [Ex All].
  { intros m' r c Hr Hc. exact (nodal_assemble_ok S_t S_f Q m' r c Hr Hc). }
  split; [exact Ex |]. intros blocks HB x. apply (diag_prolongs ne Q N1 N2 psi_t psi_f tmp); [| now apply All].
  destruct Rf as [ff Ef]. destruct (sums_multiindices ff D from mi_f ltac:(lia) Ef) as [Hmf _].
  pose proof (psi0_nodal inverse D from mi_f nodes_f HD Hmf Lf Uf HI) as P0.
  intros l xi Hl. rewrite (nodal_reproduces D to nodes_t psi_t (psi_f l) Ut Pt).
  - apply rsum_ext. intros kk Hk. f_equal. rewrite <- (nodal_unique D from nodes_f _ _ Uf P0 Pf) by exact Hl.
    unfold psi0, tmp. fold S_f. unfold N2 in *. rewrite Lf. apply rsum_ext. intros j Hj. cbn [ne_V S_t NodalRefElement]. unfold Vandermonde.
    rewrite (nested_nth D from to mi_f mi_t j); [ring | lia | lia | now exists ff | exact Rt | exact Hj].
  - apply (poly_le D from to); [lia |]. now apply (proj1 Pf).
Qed.
(** C68c: the same for the modal basis. *)
Theorem modal_prolongation : forall D from to mi_f mi_t Q, (D = 1 \/ D = 2 \/ D = 3)%nat -> (from < to)%nat ->
  runs_through D from mi_f -> runs_through D to mi_t ->
  let N1 := length mi_t in let N2 := length mi_f in let ne := length elems in let lop := modal_assemble N1 N2 Q in
  let phi_f j := DubinerP D (nth j mi_f []) in let phi_t j := DubinerP D (nth j mi_t []) in
  (exists blocks, assembled lop (N1 * Q) (N2 * Q) to from blocks)
  /\ forall blocks, assembled lop (N1 * Q) (N2 * Q) to from blocks ->
     forall x, same_function ne Q phi_f N2 x phi_t N1 (fun i => rsum (ne * (N2 * Q)) (fun j => petsc_matrix (N1 * Q) (N2 * Q) blocks i j * x j)).
Proof.
  intros D from to mi_f mi_t Q HD Hlt Rf Rt N1 N2 ne lop phi_f phi_t.
  assert (HN : (N2 <= N1)%nat).
  { unfold N1, N2. rewrite <- (multiindices_nested D from to mi_f mi_t ltac:(lia) ltac:(lia) Rf Rt). rewrite firstn_length. lia. }
  destruct (assembled_diag lop (N1 * Q) (N2 * Q) (quantity_diag N1 N2 (fun k l => if (k =? l)%nat then 1 else 0)) to from Hlt) as [Ex All].
  { intros m' r c Hr Hc. exact (modal_assemble_ok N1 N2 Q m' HN r c Hr Hc). }
  split; [exact Ex |]. intros blocks HB x. apply (diag_prolongs ne Q N1 N2 phi_t phi_f (fun k l => if (k =? l)%nat then 1 else 0)); [| now apply All].
  intros l xi Hl. rewrite (rsum_single N1 l (fun k => (if (k =? l)%nat then 1 else 0) * phi_t k xi)); [| lia |].
  - rewrite Nat.eqb_refl. unfold phi_f, phi_t. rewrite (nested_nth D from to mi_f mi_t l); [ring | lia | lia | exact Rf | exact Rt | exact Hl].
  - intros kk Hk Hne. destruct (Nat.eqb_spec kk l); [congruence | ring].
Qed.
End Prolongation.
Print Assumptions nodal_prolongation.
Print Assumptions modal_prolongation.

(** ** The operators of the coarse levels *)
Lemma bilinear_galerkin : forall n n' A P y x,
  bilinear n' (matMatMult n (matTranspose P) (matMatMult n A P)) y x
  = bilinear n A (fun i => rsum n' (fun j => P i j * y j)) (fun i => rsum n' (fun j => P i j * x j)).
Proof.
  intros n n' A P y x. unfold bilinear, matMatMult, matTranspose.
  set (Px := fun i => rsum n' (fun j => P i j * x j)).
  rewrite (rsum_ext n' _ (fun i => y i * rsum n (fun k => P k i * rsum n (fun m => A k m * Px m)))).
  - rewrite (rsum_ext n' _ (fun i => rsum n (fun k => P k i * y i * rsum n (fun m => A k m * Px m)))) by (intros i Hi; rewrite <- rsum_scale; apply rsum_ext; intros; ring).
    rewrite rsum_swap. apply rsum_ext. intros k Hk. rewrite rsum_scale_r. reflexivity.
  - intros i Hi. f_equal.
    rewrite (rsum_ext n' _ (fun j => rsum n (fun k => P k i * rsum n (fun m => A k m * P m j) * x j))) by (intros j Hj; now rewrite rsum_scale_r).
    rewrite rsum_swap. apply rsum_ext. intros k Hk.
    rewrite (rsum_ext n' _ (fun j => P k i * rsum n (fun m => A k m * (P m j * x j)))) by (intros j Hj; rewrite Rmult_assoc; f_equal; rewrite <- rsum_scale_r; apply rsum_ext; intros; ring).
    rewrite rsum_scale. f_equal. rewrite rsum_swap. apply rsum_ext. intros m Hm. now rewrite rsum_scale.
Qed.
Definition independent (nb : nat) (b : nat -> (nat -> R) -> R) : Prop :=
  forall c, (forall xi, rsum nb (fun j => c j * b j xi) = 0) -> forall j, (j < nb)%nat -> c j = 0.
Lemma same_coefficients : forall ne Q b nb x x', independent nb b -> same_function ne Q b nb x b nb x' ->
  forall i, (i < ne * (nb * Q))%nat -> x i = x' i.
Proof.
  intros ne Q b nb x x' Ind H i Hi. assert (0 < nb)%nat by nia. assert (0 < Q)%nat by nia.
  set (g := (i / (nb * Q))%nat). set (r := (i mod (nb * Q))%nat). set (p := (r / nb)%nat). set (j := (r mod nb)%nat).
  assert (Hr : (r < nb * Q)%nat) by (apply Nat.mod_upper_bound; nia).
  assert (Hg : (g < ne)%nat) by (apply Nat.div_lt_upper_bound; nia).
  assert (Hp : (p < Q)%nat) by (apply Nat.div_lt_upper_bound; lia).
  assert (Hj : (j < nb)%nat) by (apply Nat.mod_upper_bound; lia).
  assert (E : i = (g * (nb * Q) + (p * nb + j))%nat).
  { pose proof (Nat.div_mod i (nb * Q) ltac:(nia)). pose proof (Nat.div_mod r nb ltac:(lia)). unfold g, p, j in *. fold r in H2. nia. }
  assert (Z : x (g * (nb * Q) + (p * nb + j))%nat - x' (g * (nb * Q) + (p * nb + j))%nat = 0); [| rewrite E; lra].
  refine (Ind (fun j => x (g * (nb * Q) + (p * nb + j))%nat - x' (g * (nb * Q) + (p * nb + j))%nat) _ j Hj).
  intros xi. specialize (H g p xi Hg Hp). unfold fe_value in H.
  rewrite (rsum_ext nb _ (fun k => x (g * (nb * Q) + (p * nb + k))%nat * b k xi - x' (g * (nb * Q) + (p * nb + k))%nat * b k xi)) by (intros; ring).
  rewrite rsum_minus. lra.
Qed.
Lemma bilinear_ext : forall n A y y' x x', (forall i, (i < n)%nat -> y i = y' i) -> (forall i, (i < n)%nat -> x i = x' i) -> bilinear n A y x = bilinear n A y' x'.
Proof.
  intros n A y y' x x' Hy Hx. unfold bilinear. apply rsum_ext. intros i Hi. rewrite Hy by exact Hi. f_equal. apply rsum_ext. intros j Hj. now rewrite Hx.
Qed.
Lemma same_sym : forall ne Q b nb x b' nb' x', same_function ne Q b nb x b' nb' x' -> same_function ne Q b' nb' x' b nb x.
Proof. intros ne Q b nb x b' nb' x' H g p xi Hg Hp. symmetry. now apply H. Qed.
Lemma same_trans : forall ne Q b nb x b' nb' x' b'' nb'' x'', same_function ne Q b nb x b' nb' x' -> same_function ne Q b' nb' x' b'' nb'' x'' -> same_function ne Q b nb x b'' nb'' x''.
Proof. intros ne Q b nb x b' nb' x' b'' nb'' x'' H1 H2 g p xi Hg Hp. rewrite H1 by assumption. now apply H2. Qed.

(** C68d: setup_mg computes an operator for every level below the finest; its bilinear form on two functions of the level
    is that of the finest matrix on the same two functions, represented in the finest basis. *)
Theorem coarse_operators : forall ne Q (nb : nat -> nat) (b : nat -> nat -> (nat -> R) -> R) interp level_degree A,
  let size d := (ne * (nb d * Q))%nat in let finest := last level_degree 0%nat in
  StronglySorted lt level_degree -> independent (nb finest) (b finest) ->
  (forall from to, (from < to <= finest)%nat -> exists P, interp to from = Some P
     /\ forall x, same_function ne Q (b from) (nb from) x (b to) (nb to) (fun i => rsum (size from) (fun j => P i j * x j))) ->
  exists ops, setup_mg size interp level_degree A = Some ops /\ length ops = (length level_degree - 1)%nat
  /\ forall l d, (l + 1 < length level_degree)%nat -> nth_error level_degree l = Some d ->
     exists A_l, nth_error ops (length level_degree - 2 - l) = Some A_l
     /\ forall x y xf yf, same_function ne Q (b d) (nb d) x (b finest) (nb finest) xf -> same_function ne Q (b d) (nb d) y (b finest) (nb finest) yf ->
        bilinear (size d) A_l y x = bilinear (size finest) A yf xf.
Proof.
  intros ne Q nb b interp ld A size finest Hs Ind HP. set (n := length ld).
  destruct (Nat.eq_dec n 0) as [E0 | N0].
  { exists []. unfold setup_mg. fold n. rewrite E0. cbn. split; [reflexivity |]. split; [reflexivity |]. intros; lia. }
  assert (Fin : nth_error ld (n - 1) = Some finest).
  { unfold finest, n in *. clear -N0. induction ld as [| a [| a' ld] IH]; [cbn in N0; lia | reflexivity |].
    cbn [length] in *. specialize (IH ltac:(lia)). replace (S (S (length ld)) - 1)%nat with (S (S (length ld) - 1)) by lia. exact IH. }
  assert (Srt : forall i j di dj, (i < j)%nat -> nth_error ld i = Some di -> nth_error ld j = Some dj -> (di < dj)%nat).
  { clear -Hs. induction Hs as [| a ld' Hs IH Hf]; intros i j di dj Hij Ei Ej; [destruct i; discriminate |].
    destruct j as [| j]; [lia |]. cbn in Ej. destruct i as [| i]; cbn in Ei.
    - inversion Ei; subst. rewrite Forall_forall in Hf. apply Hf. now apply nth_error_In in Ej.
    - apply (IH i j); [lia | assumption | assumption]. }
  set (step := fun st l => do (A_lp1, out) <- st; do to_degree <- nth_error ld (l + 1)%nat; do from_degree <- nth_error ld l; do Im <- interp to_degree from_degree;
    let AP := matMatMult (size to_degree) A_lp1 Im in let A_l := matMatMult (size to_degree) (matTranspose Im) AP in Some (A_l, out ++ [A_l])).
  set (good := fun l (M : matrix) => forall d, nth_error ld l = Some d -> forall x y xf yf,
    same_function ne Q (b d) (nb d) x (b finest) (nb finest) xf -> same_function ne Q (b d) (nb d) y (b finest) (nb finest) yf ->
    bilinear (size d) M y x = bilinear (size finest) A yf xf).
  (* after k steps, the levels n-2, ..., n-1-k are done *)
  assert (G : forall k, (k <= n - 1)%nat -> exists M out, fold_left step (firstn k (rev (seq 0 (n - 1)))) (Some (A, [])) = Some (M, out)
    /\ length out = k /\ good (n - 1 - k)%nat M /\ forall i, (i < k)%nat -> exists M', nth_error out i = Some M' /\ good (n - 2 - i)%nat M').
  { induction k as [| k IH]; intros Hk.
    - exists A, []. split; [reflexivity |]. split; [reflexivity |]. split; [| intros; lia].
      intros d Ed x y xf yf Hx Hy. replace (n - 1 - 0)%nat with (n - 1)%nat in Ed by lia. rewrite Fin in Ed. inversion Ed. subst d.
      apply bilinear_ext; intros i Hi; now apply (same_coefficients ne Q (b finest) (nb finest)).
    - destruct (IH ltac:(lia)) as (M & out & EF & Lo & GM & GO).
      assert (ER : nth_error (rev (seq 0 (n - 1))) k = Some (n - 2 - k)%nat).
      { rewrite nth_error_nth' with (d := 0%nat) by (rewrite rev_length, seq_length; lia). rewrite rev_nth by (rewrite seq_length; lia).
        rewrite seq_length, seq_nth by lia. f_equal. lia. }
      assert (EFS : firstn (S k) (rev (seq 0 (n - 1))) = firstn k (rev (seq 0 (n - 1))) ++ [(n - 2 - k)%nat]).
      { clear -ER. revert k ER. generalize (rev (seq 0 (n - 1))) (n - 2)%nat. intros l z k E. assert (forall y, nth_error l k = Some y -> firstn (S k) l = firstn k l ++ [y]).
        { clear. revert k. induction l as [| a l IH]; intros [| k] y E; try discriminate; cbn in *; [congruence |]. rewrite <- IH by exact E. reflexivity. }
        now apply H. }
      rewrite EFS, fold_left_app, EF. cbn [fold_left]. unfold step at 1. cbn [bind].
      set (l := (n - 2 - k)%nat). assert (Hl : (l + 1 < n)%nat) by (unfold l; lia).
      destruct (nth_error ld (l + 1)) as [to |] eqn:Et; [| apply nth_error_None in Et; unfold n in *; lia].
      destruct (nth_error ld l) as [from |] eqn:Ef; [| apply nth_error_None in Ef; unfold n in *; lia].
      assert (Hft : (from < to <= finest)%nat).
      { split; [apply (Srt l (l + 1)%nat); auto; lia |]. destruct (Nat.eq_dec (l + 1) (n - 1)) as [El | Nl]; [rewrite El, Fin in Et; inversion Et; lia |].
        apply Nat.lt_le_incl. apply (Srt (l + 1)%nat (n - 1)%nat); auto. lia. }
      destruct (HP from to Hft) as (P & EP & HPx). cbn [bind]. rewrite EP. cbn [bind]. set (A_l := matMatMult _ _ _).
      exists A_l, (out ++ [A_l]). split; [reflexivity |]. split; [rewrite app_length, Lo; cbn; lia |].
      assert (GA : good l A_l).
      { intros d Ed x y xf yf Hx Hy. rewrite Ef in Ed. inversion Ed. subst d. unfold A_l. rewrite bilinear_galerkin.
        replace (n - 1 - k)%nat with (l + 1)%nat in GM by (unfold l; lia).
        apply (GM to Et); eapply same_trans; try (apply same_sym; apply HPx); assumption. }
      split; [now replace (n - 1 - S k)%nat with l by (unfold l; lia) |].
      intros i Hi. destruct (Nat.eq_dec i k) as [-> | Hne].
      + exists A_l. split; [rewrite nth_error_app2 by lia; now rewrite Lo, Nat.sub_diag |]. exact GA.
      + destruct (GO i ltac:(lia)) as (M' & E' & G'). exists M'. split; [now rewrite nth_error_app1 by lia | exact G']. }
  destruct (G (n - 1)%nat (le_n _)) as (M & out & EF & Lo & _ & GO).
  rewrite <- (seq_length (n - 1) 0) in EF at 1. rewrite <- rev_length, firstn_all in EF.
  exists out. change (setup_mg size interp ld A) with (do st <- fold_left step (rev (seq 0 (n - 1))) (Some (A, [])); Some (snd st)). rewrite EF. cbn [bind snd]. split; [reflexivity |]. split; [exact Lo |].
  intros l d Hl Ed. destruct (GO (n - 2 - l)%nat ltac:(lia)) as (M' & E' & G'). exists M'. split; [exact E' |].
  replace (n - 2 - (n - 2 - l))%nat with l in G' by lia. now apply G'.
Qed.
Print Assumptions coarse_operators.

(** The operators of the coarse levels inherit from the finest matrix that they are symmetric, nonnegative, positive. *)
Definition symmetric_form (n : nat) (A : matrix) : Prop := forall x y, bilinear n A y x = bilinear n A x y.
Definition nonnegative_form (n : nat) (A : matrix) : Prop := forall x, 0 <= bilinear n A x x.
Definition positive_form (n : nat) (A : matrix) : Prop := forall x, (exists i, (i < n)%nat /\ x i <> 0) -> 0 < bilinear n A x x.
Theorem coarse_operators_inherit : forall ne Q (nb : nat -> nat) (b : nat -> nat -> (nat -> R) -> R) interp level_degree A,
  let size d := (ne * (nb d * Q))%nat in let finest := last level_degree 0%nat in
  StronglySorted lt level_degree -> (forall d, (d <= finest)%nat -> independent (nb d) (b d)) ->
  (forall from to, (from < to <= finest)%nat -> exists P, interp to from = Some P
     /\ forall x, same_function ne Q (b from) (nb from) x (b to) (nb to) (fun i => rsum (size from) (fun j => P i j * x j))) ->
  exists ops, setup_mg size interp level_degree A = Some ops
  /\ forall l d, (l + 1 < length level_degree)%nat -> nth_error level_degree l = Some d ->
     exists A_l, nth_error ops (length level_degree - 2 - l) = Some A_l
     /\ (symmetric_form (size finest) A -> symmetric_form (size d) A_l)
     /\ (nonnegative_form (size finest) A -> nonnegative_form (size d) A_l)
     /\ (positive_form (size finest) A -> positive_form (size d) A_l).
Proof.
  intros ne Q nb b interp ld A size finest Hs Ind HP.
  destruct (coarse_operators ne Q nb b interp ld A Hs (Ind finest (le_n _)) HP) as (ops & E & L & H).
  exists ops. split; [exact E |]. intros l d Hl Ed. destruct (H l d Hl Ed) as (A_l & EA & HA). exists A_l. split; [exact EA |].
  assert (Hd : (d < finest)%nat).
  { clear -Hs Hl Ed. unfold finest. revert l Hl Ed. induction Hs as [| a ld' Hs IH Hf]; intros l Hl Ed; [destruct l; discriminate |].
    destruct ld' as [| a' ld']; [cbn in Hl; lia |]. change (last (a :: a' :: ld') 0%nat) with (last (a' :: ld') 0%nat).
    destruct l as [| l]; cbn in Ed.
    - inversion Ed; subst. rewrite Forall_forall in Hf. apply Hf. clear. revert a'. induction ld' as [| c ld' IH]; intros a'; [now left |].
      right. apply IH.
    - apply (IH l); [cbn in *; lia | exact Ed]. }
  destruct (HP d finest (conj Hd (le_n _))) as (P & _ & HPx).
  set (up := fun x i => rsum (size d) (fun j => P i j * x j)).
  assert (F : forall x y, bilinear (size d) A_l y x = bilinear (size finest) A (up y) (up x)) by (intros x y; apply HA; apply HPx).
  split; [| split].
  - intros S x y. rewrite !F. apply S.
  - intros S x. rewrite F. apply S.
  - intros S x (i & Hi & Nz). rewrite F. apply S.
    destruct (classic (exists j, (j < size finest)%nat /\ up x j <> 0)) as [Y | N]; [exact Y | exfalso].
    apply Nz. apply (same_coefficients ne Q (b d) (nb d) x (fun _ => 0) (Ind d ltac:(lia))); [| exact Hi].
    intros g p xi Hg Hp. rewrite (HPx x g p xi Hg Hp). unfold fe_value. rewrite !rsum_zero; [reflexivity | intros; ring |].
    intros k Hk. fold (up x (g * (nb finest * Q) + (p * nb finest + k))%nat).
    destruct (Req_dec (up x (g * (nb finest * Q) + (p * nb finest + k))%nat) 0) as [Z | Z]; [rewrite Z; ring |].
    exfalso. apply N. exists (g * (nb finest * Q) + (p * nb finest + k))%nat. split; [| exact Z]. unfold size.
    assert (p * nb finest + k < nb finest * Q)%nat by nia. nia.
Qed.
Print Assumptions coarse_operators_inherit.

(** C68e: all of the above put together, for the nodal basis and the levels that the configuration asks for. *)
Lemma nodal_independent : forall D N nodes psi, nodal_basis D N nodes psi -> independent (length nodes) psi.
Proof.
  intros D N nodes psi [_ H] c Hc j Hj. specialize (Hc (nth j nodes (fun _ => 0))).
  rewrite (rsum_single (length nodes) j) in Hc; [| exact Hj | intros i Hi Hne; rewrite H by assumption; destruct (Nat.eqb_spec i j); [congruence | ring]].
  rewrite H, Nat.eqb_refl in Hc by assumption. lra.
Qed.
Theorem nodal_multigrid : forall k procs elems facets bc m m0 inverse D strategy coarse max_degree
    (mi : nat -> list (list nat)) (nodes : nat -> list (nat -> R)) (psi : nat -> nat -> (nat -> R) -> R) Q interp A,
  mesh_parts k procs elems facets bc m -> (D = 1 \/ D = 2 \/ D = 3)%nat -> (1 <= max_degree)%nat -> exact_inverse inverse ->
  (forall d, (d <= max_degree)%nat -> runs_through D d (mi d) /\ length (nodes d) = length (mi d) /\ unisolvent D d (nodes d) /\ nodal_basis D d (nodes d) (psi d)) ->
  let bs d := (length (nodes d) * Q)%nat in let size d := (length elems * bs d)%nat in
  let S d := NodalRefElement inverse D d (mi d) (nodes d) in
  (forall from to, (from < to <= max_degree)%nat ->
     exists blocks, assembled procs m m0 (nodal_assemble (S to) (S from) Q) (bs to) (bs from) to from blocks /\ interp to from = Some (petsc_matrix (bs to) (bs from) blocks)) ->
  exists fuel level_degree ops, levels fuel strategy coarse max_degree = Some level_degree
  /\ setup_mg size interp level_degree A = Some ops
  /\ forall l d, (l + 1 < length level_degree)%nat -> nth_error level_degree l = Some d ->
     exists A_l, nth_error ops (length level_degree - 2 - l) = Some A_l
     /\ (forall x y xf yf, same_function (length elems) Q (psi d) (length (nodes d)) x (psi max_degree) (length (nodes max_degree)) xf ->
           same_function (length elems) Q (psi d) (length (nodes d)) y (psi max_degree) (length (nodes max_degree)) yf ->
           bilinear (size d) A_l y x = bilinear (size max_degree) A yf xf)
     /\ (symmetric_form (size max_degree) A -> symmetric_form (size d) A_l)
     /\ (nonnegative_form (size max_degree) A -> nonnegative_form (size d) A_l)
     /\ (positive_form (size max_degree) A -> positive_form (size d) A_l).
Proof.
  intros k procs elems facets bc m m0 inverse D strategy coarse max_degree mi nodes psi Q interp A MP HD Hmax HI HF bs size S Hi.
  destruct (levels_hierarchy strategy coarse max_degree Hmax) as (fuel & ld & EL & Hs & _ & Hl).
  assert (HP : forall from to, (from < to <= last ld 0%nat)%nat -> exists P, interp to from = Some P
     /\ forall x, same_function (length elems) Q (psi from) (length (nodes from)) x (psi to) (length (nodes to)) (fun i => rsum (size from) (fun j => P i j * x j))).
  { intros from to Hft. rewrite Hl in Hft. destruct (Hi from to Hft) as (blocks & HB & E). exists (petsc_matrix (bs to) (bs from) blocks). split; [exact E |].
    destruct (HF from ltac:(lia)) as (Rf & Lf & Uf & Pf). destruct (HF to ltac:(lia)) as (Rt & Lt & Ut & Pt).
    apply (nodal_prolongation k procs elems facets bc m m0 MP inverse D from to (mi from) (mi to) (nodes from) (nodes to) (psi from) (psi to) Q); auto. lia. }
  assert (Ind : forall d, (d <= last ld 0%nat)%nat -> independent (length (nodes d)) (psi d)).
  { intros d Hd. rewrite Hl in Hd. destruct (HF d Hd) as (_ & _ & _ & Pd). exact (nodal_independent _ _ _ _ Pd). }
  destruct (coarse_operators_inherit (length elems) Q (fun d => length (nodes d)) psi interp ld A Hs Ind HP) as (ops & E & H1).
  destruct (coarse_operators (length elems) Q (fun d => length (nodes d)) psi interp ld A Hs (Ind _ (le_n _)) HP) as (ops' & E' & _ & H2).
  change (setup_mg size interp ld A = Some ops) in E. change (setup_mg size interp ld A = Some ops') in E'. rewrite E in E'. inversion E'. subst ops'.
  rewrite Hl in H1, H2. exists fuel, ld, ops. split; [exact EL |]. split; [exact E |]. intros l d Hll Ed.
  destruct (H1 l d Hll Ed) as (A_l & EA & P1). destruct (H2 l d Hll Ed) as (A_l' & EA' & P2). rewrite EA in EA'. inversion EA'. subst A_l'.
  exists A_l. split; [exact EA |]. split; [exact P2 | exact P1].
Qed.
Print Assumptions nodal_multigrid.

(** Interpolation to the same or a lower degree is refused. *)
Theorem interpolation_refused : forall lop bs1 bs2 to from n m0, interpolation_assemble lop bs1 bs2 to from n m0 = None <-> (to <= from)%nat.
Proof.
  intros. unfold interpolation_assemble. destruct (Nat.leb_spec to from); split; intros; try lia; try reflexivity; discriminate.
Qed.
Print Assumptions interpolation_refused.
