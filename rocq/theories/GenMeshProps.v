(** C17: generated box meshes. *)
Require Import List Arith Bool ZArith Lia Permutation Sorted.
Require Import Verif.Base Verif.CommProofs Verif.CommBlocks Verif.MultiIndexModel Verif.MultiIndexProofs Verif.SimplexModel Verif.SimplexProofs
  Verif.GenMeshModel Verif.GenMeshSpec Verif.GenMeshProofs Verif.GenMeshConf Verif.GhostSpec Verif.CombinatoricsProofs.
Import ListNotations.
Local Open Scope opt_scope.

Definition cell_at (N : list nat) (c : nat) : list nat := match unflatten c N with Some e => e | None => [] end.
Definition box_elems (D : nat) (N : list nat) : list (list nat) :=
  concat (map (fun c => cube_elems D N (cell_at N c)) (seq 0 (product N))).
Lemma box_pos D N : box D N -> 0 < product N.
Proof.
  intros (_ & _ & P). rewrite product_prodl. induction P as [|n N H P IH]; cbn [prodl]; [lia|]. apply Nat.mul_pos_pos; auto.
Qed.
Lemma box_elems_len D N : length (box_elems D N) = product N * num_simplices D.
Proof. apply (concat_chunks (fun c => cube_elems D N (cell_at N c))). intros. apply cube_elems_length. Qed.
Lemma box_elems_in D N x : box D N -> (In x (box_elems D N) <-> exists e s, valid D N e s /\ x = E D N e s).
Proof.
  intros HB. unfold box_elems. rewrite in_concat. split.
  - intros (l & Hl & Hx). apply in_map_iff in Hl as (c & <- & Hc). apply in_seq in Hc. rewrite product_prodl in Hc.
    destruct (unflatten_spec N c ltac:(lia)) as (e & Ee & R & _). unfold cell_at in Hx. rewrite Ee in Hx.
    apply in_map_iff in Hx as (s & <- & Hs). apply in_seq in Hs. exists e, s. split; auto. split; auto. lia.
  - intros (e & s & [R Hs] & ->). pose proof (flat_bound _ _ R) as FB. exists (cube_elems D N e). split.
    + apply in_map_iff. exists (flat e N). split; [|apply in_seq; rewrite product_prodl; lia].
      destruct (unflatten_spec N (flat e N) FB) as (e' & Ee & R' & F'). unfold cell_at. rewrite Ee. f_equal. eapply flat_inj; eauto.
    + apply in_map_iff. exists s. split; auto. apply in_seq. lia.
Qed.
Lemma gen_elements_block D N size r : box D N -> r < size ->
  let fr := Z.to_nat (fst (DistributeModel.distribute 0 (Z.of_nat (product N * num_simplices D)) (Z.of_nat r) (Z.of_nat size))) in
  let t := Z.to_nat (snd (DistributeModel.distribute 0 (Z.of_nat (product N * num_simplices D)) (Z.of_nat r) (Z.of_nat size))) in
  gen_elements D N r size = Some (firstn (t - fr) (skipn fr (box_elems D N))).
Proof.
  intros HB Hr fr t. destruct (dist_blocks (box_elems D N) _ size ltac:(lia) (box_elems_len D N)) as [B _]. specialize (B r Hr). fold fr t in B.
  unfold gen_elements. fold fr t. apply cube_loop_spec; try lia.
  - destruct HB as ([-> | ->] & _); cbn; lia.
  - intros c Hc. rewrite product_prodl in Hc. destruct (cube_simplices_spec D N c (proj1 HB) Hc) as (e & Ee & _ & _ & C).
    unfold cell_at. rewrite Ee. split; auto. apply cube_elems_length.
  - apply (box_pos D N HB).
Qed.

(** C17: the elements do not depend on the number of ranks. *)
Theorem gen_elements_rank_independent : forall D N, box D N ->
  exists all, gen_elements D N 0 1 = Some all /\
    forall size, 0 < size -> exists part,
      (forall r, r < size -> gen_elements D N r size = Some (part r)) /\ concat (map part (seq 0 size)) = all.
Proof.
  intros D N HB. exists (box_elems D N).
  assert (P : forall size, 0 < size -> exists part,
      (forall r, r < size -> gen_elements D N r size = Some (part r)) /\ concat (map part (seq 0 size)) = box_elems D N).
  { intros size Hs. destruct (dist_blocks (box_elems D N) _ size Hs (box_elems_len D N)) as [_ C]. eexists. split; [|exact C].
    intros r Hr. apply gen_elements_block; auto. }
  split; auto. destruct (P 1 ltac:(lia)) as (part & A & B). rewrite (A 0) by lia. cbn in B. rewrite app_nil_r in B. congruence.
Qed.
Print Assumptions gen_elements_rank_independent.

(** C17: nor do the vertices.  [pos] is any total function giving the position of a grid point. *)
Theorem gen_vertices_rank_independent : forall {V} (pos : list nat -> option V) (where_ : list nat -> V) D N, box D N ->
  (forall p, Forall2 (fun x n => x <= n) p N -> pos p = Some (where_ p)) ->
  exists all, gen_vertices pos N 0 1 = Some all /\
    (forall size, 0 < size -> exists part,
      (forall r, r < size -> gen_vertices pos N r size = Some (part r)) /\ concat (map part (seq 0 size)) = all) /\
    (forall v p, vertex_at N v p -> nth_error all v = Some (where_ p)) /\ length all = product (map (fun n => n + 1) N).
Proof.
  intros V pos wh D N HB HP. set (n := product (np1 N)).
  set (g := map (fun v => wh (cell_at (np1 N) v)) (seq 0 n)).
  assert (LG : length g = n) by (unfold g; rewrite map_length, seq_length; auto).
  assert (OKV : forall v, v < n -> (do p <- unflatten v (np1 N); pos p) = Some (wh (cell_at (np1 N) v))).
  { intros v Hv. unfold n in Hv. rewrite product_prodl in Hv. destruct (unflatten_spec (np1 N) v Hv) as (p & Ep & R & F).
    unfold cell_at. rewrite Ep. cbn [bind]. apply HP. apply (vertex_at_iff D N HB v p). split; auto. rewrite flatten_flat; auto. apply inrange_length; auto. }
  assert (P : forall size, 0 < size -> exists part,
      (forall r, r < size -> gen_vertices pos N r size = Some (part r)) /\ concat (map part (seq 0 size)) = g).
  { intros size Hs. destruct (dist_blocks g n size Hs LG) as [B C]. eexists. split; [|exact C]. intros r Hr. specialize (B r Hr). cbv beta.
    unfold gen_vertices. fold n. rewrite (map_opt_ok _ (fun v => wh (cell_at (np1 N) v))).
    - f_equal. unfold g. rewrite skipn_map, firstn_map. f_equal.
      revert B. generalize (Z.to_nat (snd (DistributeModel.distribute 0 (Z.of_nat n) (Z.of_nat r) (Z.of_nat size)))).
      generalize (Z.to_nat (fst (DistributeModel.distribute 0 (Z.of_nat n) (Z.of_nat r) (Z.of_nat size)))). generalize n. clear. intros n a b H.
      assert (S1 : skipn a (seq 0 n) = seq a (n - a)).
      { replace n with (a + (n - a)) at 1 by lia. rewrite seq_app, skipn_app, seq_length, skipn_all2 by (rewrite seq_length; lia).
        rewrite Nat.sub_diag. auto. }
      rewrite S1. replace (n - a) with (b - a + (n - b)) by lia. rewrite seq_app, firstn_app, seq_length, Nat.sub_diag.
      rewrite firstn_all2 by (rewrite seq_length; lia). cbn. rewrite app_nil_r. auto.
    - intros v Hv. apply in_seq in Hv. apply OKV. lia. }
  exists g. split; [|split; [auto|split]].
  - destruct (P 1 ltac:(lia)) as (part & A & B). rewrite (A 0) by lia. cbn in B. rewrite app_nil_r in B. congruence.
  - intros v p Hv. apply (vertex_at_iff D N HB) in Hv as [R Ev]. rewrite flatten_flat in Ev by (apply inrange_length; auto).
    assert (Hn : v < n) by (unfold n; rewrite product_prodl, <- Ev; apply flat_bound; auto).
    unfold g. rewrite nth_error_map, (nth_error_nth' (seq 0 n) 0) by (rewrite seq_length; auto). rewrite seq_nth by auto. cbn [option_map Nat.add].
    unfold n in Hn. rewrite product_prodl in Hn. destruct (unflatten_spec (np1 N) v Hn) as (p' & Ep & R' & F'). unfold cell_at. rewrite Ep.
    do 2 f_equal. eapply flat_inj; eauto. congruence.
  - exact LG.
Qed.
Print Assumptions gen_vertices_rank_independent.

Lemma box_all D N all : box D N -> gen_elements D N 0 1 = Some all -> all = box_elems D N.
Proof.
  intros HB HA. destruct (dist_blocks (box_elems D N) _ 1 ltac:(lia) (box_elems_len D N)) as [_ C]. cbn [seq map concat] in C. rewrite app_nil_r in C.
  pose proof (gen_elements_block D N 1 0 HB ltac:(lia)) as G. cbv zeta in G. rewrite C in G. congruence.
Qed.
Lemma elem_in_cell D N e s : box D N -> valid D N e s -> in_cell N e (E D N e s).
Proof.
  intros HB V. split; [apply V|]. intros v Hv. apply in_elem in Hv as (c & Hc & ->). exists (vadd e c).
  pose proof (corner_in D N HB e s c V Hc) as R. split; [apply (vertex_at_iff D N HB); auto|].
  destruct (fa_bits _ _ _ (table_facts D (is_odd e) s (proj1 HB) (proj2 V)) c Hc) as [L B]. rewrite <- (valid_len D N HB e s V) in L.
  clear -L B. revert c L B. induction e as [|x e IH]; intros [|y c] L B; try discriminate; cbn [vadd]; constructor; inversion B; subst; [lia|apply IH; auto].
Qed.
Lemma zdiff_shift e : forall a b, length a = length e -> length b = length e -> zdiff (vadd e a) (vadd e b) = zdiff a b.
Proof.
  induction e as [|x e IH]; intros [|y a] [|z b] L1 L2; try discriminate; auto. unfold zdiff in *. cbn [vadd combine map fst snd].
  f_equal; [lia|]. apply IH; auto.
Qed.
Lemma volume_shift e cs : (forall c, In c cs -> length c = length e) -> volume (map (vadd e) cs) = volume cs.
Proof.
  intro H. destruct cs as [|p [|a [|b [|c [|d cs]]]]]; auto; cbn [map volume];
    rewrite !zdiff_shift by (apply H; cbn; auto); auto.
Qed.
Lemma volume_pos D odd s : D = 2 \/ D = 3 -> s < num_simplices D -> (0 < volume (corners D odd s))%Z.
Proof.
  intros [-> | ->] Hs; cbn in Hs; destruct odd; do 5 (destruct s as [|s]; [vm_compute; reflexivity|try lia]).
Qed.

(** C17: elements have D+1 different vertices of the grid, all of one cell; every cell has the stated number of
    elements, with the volume of the cell in total, and no element is degenerate. *)
Theorem gen_mesh_cells : forall D N all, box D N -> gen_elements D N 0 1 = Some all ->
  NoDup all /\ length all = product N * num_simplices D /\
  (forall e, In e all -> length e = D + 1 /\ StronglySorted lt e /\ (forall v, In v e -> v < product (map (fun n => n + 1) N)) /\
     exists c, in_cell N c e) /\
  (forall c, Forall2 (fun x n => x < n) c N -> exists els ps,
     (forall e, In e els -> In e all /\ in_cell N c e) /\ NoDup els /\ length els = num_simplices D /\
     Forall2 (fun e p => length p = D + 1 /\ (forall v, In v e <-> exists x, In x p /\ vertex_at N v x) /\ (0 < volume p)%Z) els ps /\
     fold_right Z.add 0%Z (map volume ps) = Z.of_nat (Factorial.fact D)).
Proof.
  intros D N all HB HA. assert (EA : all = box_elems D N) by (apply box_all; auto).
  subst all. clear HA. split; [|split; [apply box_elems_len|split]].
  - unfold box_elems.
    assert (G : forall l, NoDup l -> (forall c, In c l -> c < product N) -> NoDup (concat (map (fun c => cube_elems D N (cell_at N c)) l))).
    { induction l as [|c l IH]; intros Nl Hl; cbn [map concat]; [constructor|]. inversion Nl as [|? ? N1 N2]; subst.
      assert (CE : forall c, c < product N -> inrange (cell_at N c) N /\ flat (cell_at N c) N = c).
      { intros c' Hc'. rewrite product_prodl in Hc'. destruct (unflatten_spec N c' Hc') as (e & Ee & R & F). unfold cell_at. rewrite Ee. auto. }
      apply NoDup_app_intro.
      - unfold cube_elems. apply nodup_map_inj; [|apply seq_NoDup]. intros s s' Hs Hs' H. apply in_seq in Hs. apply in_seq in Hs'.
        apply (E_inj D N HB (cell_at N c) s (cell_at N c) s'); auto; split; try (apply CE; apply Hl; left; auto); lia.
      - apply IH; auto. intros; apply Hl; right; auto.
      - intros x Hx Hy. apply in_map_iff in Hx as (s & <- & Hs). apply in_seq in Hs. apply in_concat in Hy as (l' & Hl' & Hy).
        apply in_map_iff in Hl' as (c' & <- & Hc'). apply in_map_iff in Hy as (s' & Eq & Hs'). apply in_seq in Hs'.
        destruct (CE c) as [R1 F1]; [apply Hl; left; auto|]. destruct (CE c') as [R2 F2]; [apply Hl; right; auto|].
        apply (E_inj D N HB (cell_at N c') s' (cell_at N c) s) in Eq as [Eq _]; [|split; auto; lia|split; auto; lia].
        apply N1. rewrite <- F1, <- Eq, F2. auto. }
    apply G; [apply seq_NoDup|]. intros c Hc. apply in_seq in Hc. lia.
  - intros x Hx. apply box_elems_in in Hx as (e & s & V & ->); auto. destruct (E_good D N HB e s V) as [A B]. split; auto. split; auto. split.
    + intros v Hv. apply in_elem in Hv as (c & Hc & ->). pose proof (corner_in D N HB e s c V Hc) as R.
      rewrite flatten_flat by (apply inrange_length; auto). fold (np1 N). rewrite product_prodl. apply flat_bound; auto.
    + exists e. apply elem_in_cell; auto.
  - intros c Hc. exists (cube_elems D N c), (map (fun s => map (vadd c) (corners D (is_odd c) s)) (seq 0 (num_simplices D))).
    assert (V : forall s, In s (seq 0 (num_simplices D)) -> valid D N c s) by (intros s Hs; apply in_seq in Hs; split; [exact Hc|lia]).
    split; [|split; [|split; [apply cube_elems_length|split]]].
    + intros x Hx. apply in_map_iff in Hx as (s & <- & Hs). split; [apply box_elems_in; auto; exists c, s; auto|]. apply elem_in_cell; auto.
    + unfold cube_elems. apply nodup_map_inj; [|apply seq_NoDup]. intros s s' Hs Hs' H. apply (E_inj D N HB c s c s'); auto.
    + unfold cube_elems. assert (I : forall s, In s (seq 0 (num_simplices D)) -> In s (seq 0 (num_simplices D))) by auto. revert I.
      generalize (seq 0 (num_simplices D)) at 1 3 4. induction l as [|s l IH]; intro I; cbn [map]; constructor; [|apply IH; intros; apply I; right; auto].
      specialize (V s (I s (or_introl eq_refl))). pose proof (table_facts D (is_odd c) s (proj1 HB) (proj2 V)) as [_ FL _ FB _].
      split; [rewrite map_length; auto|]. split.
      * intro v. unfold E. rewrite in_elem. split.
        -- intros (k & Hk & ->). exists (vadd c k). split; [apply in_map; auto|]. apply (vertex_at_iff D N HB). split; auto. apply (corner_in D N HB c s); auto.
        -- intros (x & Hx & Hv). apply in_map_iff in Hx as (k & <- & Hk). apply (vertex_at_iff D N HB) in Hv as [_ <-]. exists k; auto.
      * rewrite volume_shift; [apply volume_pos; [apply HB|apply V]|]. intros k Hk. rewrite (valid_len D N HB c s V). apply FB; auto.
    + rewrite map_map. rewrite (map_ext_in _ (fun s => volume (corners D (is_odd c) s))).
      * destruct (proj1 HB) as [-> | ->]; destruct (is_odd c); vm_compute; reflexivity.
      * intros s Hs. specialize (V s Hs). pose proof (table_facts D (is_odd c) s (proj1 HB) (proj2 V)) as [_ _ _ FB _].
        apply volume_shift. intros k Hk. rewrite (valid_len D N HB c s V). apply FB; auto.
Qed.
Print Assumptions gen_mesh_cells.

(** C17: the mesh is conforming: a facet on the outside of the box belongs to one element, every other facet to
    exactly two. *)
Theorem gen_mesh_conforming : forall D N all e f, box D N -> gen_elements D N 0 1 = Some all -> In e all -> facet_of D f e ->
  (on_boundary N f -> forall e', In e' all -> facet_of D f e' -> e' = e) /\
  (~ on_boundary N f -> exists e', In e' all /\ e' <> e /\ facet_of D f e' /\
     forall e'', In e'' all -> facet_of D f e'' -> e'' = e \/ e'' = e').
Proof.
  intros D N all e f HB HA He Hf. rewrite (box_all D N all HB HA) in *.
  apply box_elems_in in He as (c & s & V & ->); auto.
  destruct (facet_neighbours D N HB c s f V Hf) as [[O P]|[O (c2 & s2 & V2 & Hne & F2 & P)]].
  - split; [|tauto]. intros _ e' He' F'. apply box_elems_in in He' as (c' & s' & V' & ->); auto.
  - split; [tauto|]. intros _. exists (E D N c2 s2). split; [apply box_elems_in; auto; exists c2, s2; auto|]. split; auto. split; auto.
    intros e' He' F'. apply box_elems_in in He' as (c' & s' & V' & ->); auto.
Qed.
Print Assumptions gen_mesh_conforming.

Lemma on_boundary_dec D N e f : box D N -> length e = D + 1 -> StronglySorted lt e -> (forall v, In v e -> v < product (map (fun n => n + 1) N)) ->
  facet_of D f e -> on_boundary N f \/ ~ on_boundary N f.
Proof.
  intros HB _ _ HV (_ & _ & I).
  assert (P : forall v, In v f -> exists p, forall p', vertex_at N v p' <-> p' = p).
  { intros v Hv. specialize (HV v (I v Hv)). fold (np1 N) in HV. rewrite product_prodl in HV. destruct (unflatten_spec (np1 N) v HV) as (p & _ & R & F).
    exists p. intro p'. rewrite (vertex_at_iff D N HB). split.
    - intros [R' F']. rewrite flatten_flat in F' by (apply inrange_length; auto). eapply flat_inj; eauto. congruence.
    - intros ->. split; auto. rewrite flatten_flat; auto. apply inrange_length; auto. }
  assert (Q : forall d y, (forall v p, In v f -> vertex_at N v p -> nth d p 0 = y) \/ ~ (forall v p, In v f -> vertex_at N v p -> nth d p 0 = y)).
  { intros d y. clear I HV. induction f as [|v f IH]; [left; intros ? ? []|].
    destruct IH as [IH|IH]; [intros w Hw; apply P; right; auto| |right; intro H; apply IH; intros w p Hw; apply H; right; auto].
    destruct (P v (or_introl eq_refl)) as (p & Hp). destruct (Nat.eq_dec (nth d p 0) y) as [Ey|Ey].
    - left. intros w p' [<-|Hw] Hp'; [apply Hp in Hp'; subst; auto|eauto].
    - right. intro H. apply Ey. apply (H v p); [left; auto|apply Hp; auto]. }
  unfold on_boundary. generalize (length N). induction n as [|n IH]; [right; intros (d & Hd & _); lia|].
  destruct IH as [(d & Hd & X)|IH]; [left; exists d; split; auto|].
  destruct (Q n 0) as [Q1|Q1]; [left; exists n; auto|]. destruct (Q n (nth n N 0)) as [Q2|Q2]; [left; exists n; auto|].
  right. intros (d & Hd & X). destruct (Nat.eq_dec d n) as [->|Hn]; [tauto|]. apply IH. exists d. split; auto. lia.
Qed.

(** C17: so the parts of all ranks form a mesh as the local mesh construction needs it (C20). *)
Theorem gen_mesh_global : forall D N size, box D N -> 0 < size ->
  exists part, (forall r, r < size -> gen_elements D N r size = Some (part r)) /\ global_mesh size D part.
Proof.
  intros D N size HB Hs. destruct (gen_elements_rank_independent D N HB) as (all & A & P). destruct (P size Hs) as (part & P1 & P2).
  exists part. split; auto. destruct (gen_mesh_cells D N all HB A) as (ND & _ & EL & _).
  assert (IA : forall q e, q < size -> In e (part q) -> In e all).
  { intros q e Hq He. rewrite <- P2. apply in_concat. exists (part q). split; auto. apply in_map, in_seq. lia. }
  split.
  - intros q e Hq He. destruct (EL e (IA q e Hq He)) as (X & Y & _). auto.
  - rewrite P2. auto.
  - rewrite P2. intros f a b c Ha Hb Hc Fa Fb Fc.
    pose proof (gen_mesh_conforming D N all a f HB A Ha Fa) as [C1 C2].
    destruct (on_boundary_dec D N a f HB (proj1 (EL a Ha)) (proj1 (proj2 (EL a Ha))) (proj1 (proj2 (proj2 (EL a Ha)))) Fa) as [O|O].
    + left. symmetry. auto.
    + destruct (C2 O) as (e' & _ & _ & _ & U). destruct (U b Hb Fb), (U c Hc Fc); subst; auto.
Qed.
Print Assumptions gen_mesh_global.

(** Found: if a cell count is zero (a resolution more than twice the extent), there is a division by zero. *)
Theorem gen_mesh_zero_cells_refuted : exists D N size, 0 < size /\ length N = D /\ gen_elements D N 0 size = None.
Proof. exists 2, [0; 3], 4. repeat split; auto. Qed.

Example box_3d : box 3 [2; 3; 2] /\ (exists part, (forall r, r < 7 -> gen_elements 3 [2;3;2] r 7 = Some (part r)) /\ global_mesh 7 3 part) /\
  option_map (@length _) (gen_elements 3 [2;3;2] 3 7) = Some 9.
Proof.
  assert (B : box 3 [2;3;2]) by (split; [auto|split; [auto|repeat constructor]]).
  split; auto. split; [apply gen_mesh_global; auto; lia|]. vm_compute. reflexivity.
Qed.
