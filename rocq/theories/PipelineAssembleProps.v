(** Property theorems: the matrix and the right-hand side the ranks assemble from a mesh do not depend
    on the number of ranks or on the partition (C61). *)
Require Import List Arith Bool ZArith Lia Permutation Sorted.
Require Import Verif.Base Verif.SimplexModel Verif.LocalMeshModel Verif.LocalMeshProps Verif.PartitionProps Verif.GhostModel Verif.GhostSpec Verif.TopoModel Verif.TopoSpec Verif.TopoProofs Verif.TopoProps Verif.ApplyProps
  Verif.AssembleModel Verif.AssembleSpec Verif.AssembleProofs Verif.AssembleProps Verif.PipelineModel Verif.PipelineProps.
Import ListNotations.
Local Open Scope opt_scope.

(** * Specification *)
(** A variational form: the blocks for an element, for an interior facet (with its boundary condition)
    and the two elements next to it, for a boundary facet and its element.  Elements and facets are
    lists of vertices. *)
Record plex_form (B : Type) := {
  w_volume : list nat -> option B;
  w_skeleton : list nat -> nat -> list nat -> list nat -> option (B * B * B * B);
  w_boundary : list nat -> nat -> list nat -> option B;
  w_post : list nat -> option B }.
Arguments w_volume {B}. Arguments w_skeleton {B}. Arguments w_boundary {B}. Arguments w_post {B}.
Definition plex_symmetric {B} (W : plex_form B) : Prop :=
  forall f bc x y, w_skeleton W f bc y x = match w_skeleton W f bc x y with
    | Some (xx, xy, yx, yy) => Some (yy, yx, xy, xx) | None => None end.
(** A rank's local operator evaluates the form on the elements and facets it is called with. *)
Definition evaluates_plex {B} (k : nat) (W : plex_form B) (m : topo_mesh) (L : mat_lop B) : Prop :=
  (forall e x, e < tm_num_local m -> nth_error (tm_elems m) e = Some x -> a_volume L e = w_volume W x /\ a_post L e = w_post W x) /\
  (forall i f r x y, i < tm_num_local_facets m -> nth_error (tm_facets m) i = Some f -> facet_record_ok k m i r ->
     nth_error (tm_elems m) (fi_up0 r) = Some x -> nth_error (tm_elems m) (fi_up1 r) = Some y ->
     (fi_up0 r <> fi_up1 r -> a_skeleton L i r = w_skeleton W f (fi_bc r) x y) /\
     (fi_up0 r = fi_up1 r -> a_boundary L i r = w_boundary W f (fi_bc r) x)).
(** A block with the elements it belongs to. *)
Definition to_plex {B} (m : topo_mesh) (c : nat * nat * B) : option (list nat * list nat * B) :=
  let '(i, j, b) := c in
  do x <- nth_error (tm_elems m) i; do y <- nth_error (tm_elems m) j; Some (x, y, b).
(** The blocks of the form on a mesh: by element, by facet, by element. *)
Definition plex_matrix {B} (elems facets : list (list nat)) (bc : list nat -> nat) (W : plex_form B) : list (list nat * list nat * B) :=
  flat_map (fun x => if_some (w_volume W x) (fun b => [(x, x, b)])) elems ++
  flat_map (fun f => match filter (fun x => forallb (fun v => existsb (Nat.eqb v) x) f) elems with
                     | [x] => if_some (w_boundary W f (bc f) x) (fun b => [(x, x, b)])
                     | [x; y] => if_some (w_skeleton W f (bc f) x y)
                         (fun '(xx, xy, yx, yy) => [(x, x, xx); (x, y, xy); (y, x, yx); (y, y, yy)])
                     | _ => []
                     end) facets ++
  flat_map (fun x => if_some (w_post W x) (fun b => [(x, x, b)])) elems.
(** The facets of a mesh, each once. *)
Definition all_facets (k : nat) (elems facets : list (list nat)) : Prop :=
  NoDup facets /\ forall f, In f facets <-> length f = k /\ StronglySorted lt f /\ exists x, In x elems /\ incl f x.

(** The same for the right-hand side. *)
Record plex_load (B : Type) := {
  wv_volume : list nat -> option B;
  wv_skeleton : list nat -> nat -> list nat -> list nat -> option (B * B);
  wv_boundary : list nat -> nat -> list nat -> option B;
  wv_post : list nat -> option B }.
Arguments wv_volume {B}. Arguments wv_skeleton {B}. Arguments wv_boundary {B}. Arguments wv_post {B}.
Definition load_symmetric {B} (W : plex_load B) : Prop :=
  forall f bc x y, wv_skeleton W f bc y x = match wv_skeleton W f bc x y with Some (a, b) => Some (b, a) | None => None end.
Definition evaluates_load {B} (k : nat) (W : plex_load B) (m : topo_mesh) (L : vec_lop B) : Prop :=
  (forall e x, e < tm_num_local m -> nth_error (tm_elems m) e = Some x -> r_volume L e = wv_volume W x /\ r_post L e = wv_post W x) /\
  (forall i f r x y, i < tm_num_local_facets m -> nth_error (tm_facets m) i = Some f -> facet_record_ok k m i r ->
     nth_error (tm_elems m) (fi_up0 r) = Some x -> nth_error (tm_elems m) (fi_up1 r) = Some y ->
     (fi_up0 r <> fi_up1 r -> r_skeleton L i r = wv_skeleton W f (fi_bc r) x y) /\
     (fi_up0 r = fi_up1 r -> r_boundary L i r = wv_boundary W f (fi_bc r) x)).
Definition to_plex_row {B} (m : topo_mesh) (c : nat * B) : option (list nat * B) :=
  do x <- nth_error (tm_elems m) (fst c); Some (x, snd c).
Definition plex_vector {B} (elems facets : list (list nat)) (bc : list nat -> nat) (W : plex_load B) : list (list nat * B) :=
  flat_map (fun x => if_some (wv_volume W x) (fun b => [(x, b)])) elems ++
  flat_map (fun f => match filter (fun x => forallb (fun v => existsb (Nat.eqb v) x) f) elems with
                     | [x] => if_some (wv_boundary W f (bc f) x) (fun b => [(x, b)])
                     | [x; y] => if_some (wv_skeleton W f (bc f) x y) (fun '(a, b) => [(x, a); (y, b)])
                     | _ => []
                     end) facets ++
  flat_map (fun x => if_some (wv_post W x) (fun b => [(x, b)])) elems.

(** * Lemmas *)
Lemma perm_flat_map {A B} (f : A -> list B) l l' : Permutation l l' -> Permutation (flat_map f l) (flat_map f l').
Proof. apply Permutation_flat_map. Qed.
Lemma perm_flat_map_ext {A B} (f g : A -> list B) l : (forall x, In x l -> Permutation (f x) (g x)) -> Permutation (flat_map f l) (flat_map g l).
Proof.
  induction l as [|a l IH]; intro H; cbn; auto. apply Permutation_app; [apply H; cbn; auto|apply IH; intros; apply H; cbn; auto].
Qed.
Lemma perm_filter {A} (p : A -> bool) l l' : Permutation l l' -> Permutation (filter p l) (filter p l').
Proof.
  induction 1; cbn; auto.
  - destruct (p x); auto.
  - destruct (p x), (p y); auto. apply perm_swap.
  - eapply perm_trans; eauto.
Qed.
Lemma all_facets_perm k e e' f f' : Permutation e e' -> all_facets k e f -> all_facets k e' f' -> Permutation f f'.
Proof.
  intros P [N1 I1] [N2 I2]. apply NoDup_Permutation; auto. intro x. rewrite I1, I2.
  split; intros (A & S & y & Hy & Iy); split; auto; split; auto; exists y; split; auto; [apply (Permutation_in _ P)|apply (Permutation_in _ (Permutation_sym P))]; auto.
Qed.
Lemma plex_matrix_perm {B} (W : plex_form B) e e' f f' bc bc' : plex_symmetric W -> Permutation e e' -> Permutation f f' -> (forall x, bc x = bc' x) ->
  Permutation (plex_matrix e f bc W) (plex_matrix e' f' bc' W).
Proof.
  intros S Pe Pf Eb. unfold plex_matrix. repeat apply Permutation_app; try (apply perm_flat_map; auto).
  eapply perm_trans; [apply perm_flat_map; exact Pf|]. apply perm_flat_map_ext. intros g _. rewrite <- Eb.
  pose proof (perm_filter (fun x => forallb (fun v => existsb (Nat.eqb v) x) g) e e' Pe) as P.
  destruct (filter _ e) as [|x [|y [|z t]]].
  - apply Permutation_nil in P. rewrite P. auto.
  - apply Permutation_length_1_inv in P. rewrite P. auto.
  - apply Permutation_length_2_inv in P as [-> | ->]; auto. rewrite (S g (bc g) x y). destruct (w_skeleton W g (bc g) x y) as [[[[xx xy] yx] yy]|]; cbn [if_some]; auto.
    change (Permutation ([(x, x, xx); (x, y, xy)] ++ [(y, x, yx); (y, y, yy)]) ([(y, y, yy); (y, x, yx)] ++ [(x, y, xy); (x, x, xx)])).
    eapply perm_trans; [apply Permutation_app_comm|]. apply Permutation_app; apply perm_swap.
  - pose proof (Permutation_length P) as L. destruct (filter _ e') as [|x' [|y' [|z' t']]]; cbn in L; try discriminate; auto.
Qed.
Lemma plex_vector_perm {B} (W : plex_load B) e e' f f' bc bc' : load_symmetric W -> Permutation e e' -> Permutation f f' -> (forall x, bc x = bc' x) ->
  Permutation (plex_vector e f bc W) (plex_vector e' f' bc' W).
Proof.
  intros S Pe Pf Eb. unfold plex_vector. repeat apply Permutation_app; try (apply perm_flat_map; auto).
  eapply perm_trans; [apply perm_flat_map; exact Pf|]. apply perm_flat_map_ext. intros g _. rewrite <- Eb.
  pose proof (perm_filter (fun x => forallb (fun v => existsb (Nat.eqb v) x) g) e e' Pe) as P.
  destruct (filter _ e) as [|x [|y [|z t]]].
  - apply Permutation_nil in P. rewrite P. auto.
  - apply Permutation_length_1_inv in P. rewrite P. auto.
  - apply Permutation_length_2_inv in P as [-> | ->]; auto. rewrite (S g (bc g) x y). destruct (wv_skeleton W g (bc g) x y) as [[a b]|]; cbn [if_some]; auto. apply perm_swap.
  - pose proof (Permutation_length P) as L. destruct (filter _ e') as [|x' [|y' [|z' t']]]; cbn in L; try discriminate; auto.
Qed.
Lemma map_nth_seq (E : list (list nat)) : map (fun g => nth g E []) (seq 0 (length E)) = E.
Proof.
  apply (nth_ext _ _ [] []); [rewrite map_length, seq_length; auto|]. intros i Hi. rewrite map_length, seq_length in Hi.
  rewrite (nth_indep _ [] (nth 0 E [])) by (rewrite map_length, seq_length; auto). rewrite (map_nth (fun g => nth g E [])), seq_nth by auto. reflexivity.
Qed.
Lemma flat_map_names {C} (E : list (list nat)) (h : list nat -> list C) : flat_map (fun g => h (nth g E [])) (seq 0 (length E)) = flat_map h E.
Proof. transitivity (flat_map h (map (fun g => nth g E []) (seq 0 (length E)))); [rewrite !flat_map_concat_map, map_map; reflexivity|rewrite map_nth_seq; reflexivity]. Qed.
Lemma map_flat_map {A B C} (g : B -> C) (f : A -> list B) l : map g (flat_map f l) = flat_map (fun x => map g (f x)) l.
Proof. rewrite !flat_map_concat_map, concat_map, map_map. reflexivity. Qed.
Lemma elements_named E f : map (fun g => nth g E []) (elements_of E f) = filter (fun x => forallb (fun v => existsb (Nat.eqb v) x) f) E.
Proof.
  transitivity (filter (fun x => forallb (fun v => existsb (Nat.eqb v) x) f) (map (fun g => nth g E []) (seq 0 (length E)))); [|rewrite map_nth_seq; reflexivity].
  unfold elements_of. generalize (seq 0 (length E)). induction l as [|g l IH]; cbn; auto.
  destruct (forallb _ f); cbn; congruence.
Qed.

(** The form on numbered elements. *)
Definition form_at {B} (E : list (list nat)) (W : plex_form B) : mat_form B :=
  {| f_volume g := w_volume W (nth g E []); f_skeleton f bc g h := w_skeleton W f bc (nth g E []) (nth h E []);
     f_boundary f bc g := w_boundary W f bc (nth g E []); f_post g := w_post W (nth g E []) |}.
Definition load_at {B} (E : list (list nat)) (W : plex_load B) : vec_form B :=
  {| v_volume g := wv_volume W (nth g E []); v_skeleton f bc g h := wv_skeleton W f bc (nth g E []) (nth h E []);
     v_boundary f bc g := wv_boundary W f bc (nth g E []); v_post g := wv_post W (nth g E []) |}.
Definition name3 {B} (E : list (list nat)) (c : nat * nat * B) := let '(i, j, b) := c in (nth i E [], nth j E [], b).
Definition name2 {B} (E : list (list nat)) (c : nat * B) := (nth (fst c) E [], snd c).

Lemma matrix_named {B} (W : plex_form B) E F bc : map (name3 E) (global_matrix E F bc (form_at E W)) = plex_matrix E F bc W.
Proof.
  unfold global_matrix, plex_matrix, form_at. cbn [f_volume f_skeleton f_boundary f_post]. rewrite !map_app, !map_flat_map. f_equal; [|f_equal].
  - rewrite <- flat_map_names. apply flat_map_ext. intro g. destruct (w_volume W _); reflexivity.
  - apply flat_map_ext. intro f. rewrite <- elements_named. destruct (elements_of E f) as [|g [|h [|a t]]]; cbn; auto.
    + destruct (w_boundary W _ _ _); reflexivity.
    + destruct (w_skeleton W _ _ _ _) as [[[[? ?] ?] ?]|]; reflexivity.
  - rewrite <- flat_map_names. apply flat_map_ext. intro g. destruct (w_post W _); reflexivity.
Qed.
Lemma vector_named {B} (W : plex_load B) E F bc : map (name2 E) (global_vector E F bc (load_at E W)) = plex_vector E F bc W.
Proof.
  unfold global_vector, plex_vector, load_at. cbn [v_volume v_skeleton v_boundary v_post]. rewrite !map_app, !map_flat_map. f_equal; [|f_equal].
  - rewrite <- flat_map_names. apply flat_map_ext. intro g. destruct (wv_volume W _); reflexivity.
  - apply flat_map_ext. intro f. rewrite <- elements_named. destruct (elements_of E f) as [|g [|h [|a t]]]; cbn; auto.
    + destruct (wv_boundary W _ _ _); reflexivity.
    + destruct (wv_skeleton W _ _ _ _) as [[? ?]|]; reflexivity.
  - rewrite <- flat_map_names. apply flat_map_ext. intro g. destruct (wv_post W _); reflexivity.
Qed.

Section Parts.
Variables (k procs : nat) (E F : list (list nat)) (bc : list nat -> nat) (m : nat -> topo_mesh).
Hypothesis MP : mesh_parts k procs E F bc m.
Lemma numbered p e g x : p < procs -> nth_error (tm_l2cg (m p)) e = Some g -> nth_error (tm_elems (m p)) e = Some x -> nth g E [] = x.
Proof. intros Hp Hg Hx. destruct (mp_elem _ _ _ _ _ _ MP p e g Hp Hg) as [_ Eg]. apply nth_error_nth. congruence. Qed.
Lemma plex_some p e : p < procs -> e < length (tm_l2cg (m p)) -> exists x, nth_error (tm_elems (m p)) e = Some x.
Proof. intros Hp He. rewrite (to_l2cg _ _ (mp_mesh _ _ _ _ _ _ MP p Hp)) in He. apply nth_error_lt. auto. Qed.
Lemma to_plex_named {B} p (c : nat * nat * B) d : p < procs -> to_global (m p) c = Some d -> to_plex (m p) c = Some (name3 E d).
Proof.
  intros Hp. destruct c as [[i j] b]. unfold to_global, to_plex. destruct (nth_error (tm_l2cg (m p)) i) as [gi|] eqn:Ei; cbn [bind]; [|discriminate].
  destruct (nth_error (tm_l2cg (m p)) j) as [gj|] eqn:Ej; cbn [bind]; [|discriminate]. intros [= <-].
  destruct (plex_some p i Hp) as [x Ex]; [apply nth_error_Some; congruence|]. destruct (plex_some p j Hp) as [y Ey]; [apply nth_error_Some; congruence|].
  rewrite Ex, Ey. cbn [bind name3]. rewrite (numbered p i gi x), (numbered p j gj y); auto.
Qed.
Lemma to_plex_row_named {B} p (c : nat * B) d : p < procs -> to_global_row (m p) c = Some d -> to_plex_row (m p) c = Some (name2 E d).
Proof.
  intros Hp. unfold to_global_row, to_plex_row. destruct (nth_error (tm_l2cg (m p)) (fst c)) as [gi|] eqn:Ei; cbn [bind]; [|discriminate]. intros [= <-].
  destruct (plex_some p (fst c) Hp) as [x Ex]; [apply nth_error_Some; congruence|].
  rewrite Ex. unfold name2. cbn [bind fst snd]. rewrite (numbered p (fst c) gi x); auto.
Qed.
Lemma map_opt_named {X Y Z} (f : X -> option Y) (g : X -> option Z) (n : Y -> Z) : (forall c d, f c = Some d -> g c = Some (n d)) ->
  forall l r, map_opt f l = Some r -> map_opt g l = Some (map n r).
Proof.
  intros H. induction l as [|c l IH]; intros r Er; cbn [map_opt] in *; [injection Er as <-; auto|].
  destruct (f c) as [d|] eqn:Ed; cbn [bind] in Er; [|discriminate]. destruct (map_opt f l) as [r'|]; cbn [bind] in Er; [|discriminate]. injection Er as <-.
  rewrite (H c d Ed), (IH r' eq_refl). reflexivity.
Qed.
Lemma record_elems p i r : p < procs -> facet_record_ok k (m p) i r ->
  exists x y, nth_error (tm_elems (m p)) (fi_up0 r) = Some x /\ nth_error (tm_elems (m p)) (fi_up1 r) = Some y /\ nth (fi_g0 r) E [] = x /\ nth (fi_g1 r) E [] = y.
Proof.
  intros Hp R. destruct (proj2 (fr_up _ _ _ _ R (fi_up0 r)) (or_introl eq_refl)) as (x & _ & Ex & _). destruct (proj2 (fr_up _ _ _ _ R (fi_up1 r)) (or_intror eq_refl)) as (y & _ & Ey & _).
  exists x, y. split; auto. split; auto. split; [apply (numbered p (fi_up0 r))|apply (numbered p (fi_up1 r))]; auto; apply R.
Qed.
Lemma evaluates_at {B} (W : plex_form B) p L : p < procs -> evaluates_plex k W (m p) L -> evaluates k (form_at E W) (m p) L.
Proof.
  intros Hp [H1 H2]. split; cbn [form_at f_volume f_skeleton f_boundary f_post].
  - intros e g He Eg. destruct (plex_some p e Hp) as [x Ex]; [apply nth_error_Some; congruence|]. rewrite (numbered p e g x Hp Eg Ex). auto.
  - intros i f r Hi Ef R. destruct (record_elems p i r Hp R) as (x & y & Ex & Ey & -> & ->). destruct (H2 i f r x y Hi Ef R Ex Ey). auto.
Qed.
Lemma evaluates_rhs_at {B} (W : plex_load B) p L : p < procs -> evaluates_load k W (m p) L -> evaluates_rhs k (load_at E W) (m p) L.
Proof.
  intros Hp [H1 H2]. split; cbn [load_at v_volume v_skeleton v_boundary v_post].
  - intros e g He Eg. destruct (plex_some p e Hp) as [x Ex]; [apply nth_error_Some; congruence|]. rewrite (numbered p e g x Hp Eg Ex). auto.
  - intros i f r Hi Ef R. destruct (record_elems p i r Hp R) as (x & y & Ex & Ey & -> & ->). destruct (H2 i f r x y Hi Ef R Ex Ey). auto.
Qed.
End Parts.
Lemma bc_given_unique procs belems bdata bc bc' : (forall p, p < procs -> length (bdata p) = length (belems p)) ->
  bc_given procs belems bdata bc -> bc_given procs belems bdata bc' -> forall f, bc f = bc' f.
Proof.
  intros L [A1 A2] [B1 B2] f.
  destruct (in_dec (list_eq_dec Nat.eq_dec) f (concat (map belems (seq 0 procs)))) as [I|I].
  - apply in_concat in I as (l & Hl & I). apply in_map_iff in Hl as (p & <- & Hp). apply in_seq in Hp. apply In_nth_error in I as [j Ej].
    destruct (nth_error_lt (bdata p) j) as [b Eb]; [rewrite L by lia; apply nth_error_Some; congruence|].
    rewrite (A1 p j f b), (B1 p j f b); auto; lia.
  - assert (N : forall p, p < procs -> ~ In f (belems p)).
    { intros p Hp H. apply I, in_concat. exists (belems p). split; auto. apply in_map_iff. exists p. split; auto. apply in_seq. lia. }
    rewrite A2, B2; auto.
Qed.

(** * Theorems *)
(** C61: from reading to the blocks of the matrix and of the right-hand side: whatever is left open,
    the local meshes exist, their facet tables can be built, and together the ranks compute exactly the
    blocks of the form on the mesh that was read -- each element once, each facet once. *)
Theorem assembly_of_mesh_read : forall {B} procs k plex2rank elems part enum oe belems bdata benum ob sh si og off facets bc (W : plex_form B) (V : plex_load B),
  0 < procs -> 0 < k -> mesh_given procs k elems belems bdata ->
  outcomes procs plex2rank elems part enum oe belems benum ob sh si og off ->
  all_facets k (concat (map elems (seq 0 procs))) facets -> bc_given procs belems bdata bc -> plex_symmetric W -> load_symmetric V ->
  exists m fi,
    local_topology procs k plex2rank elems part enum oe belems bdata benum ob sh si og off = Some m /\
    (forall p, p < procs -> facet_table k (m p) = Some (fi p)) /\
    (forall L, (forall p, p < procs -> evaluates_plex k W (m p) (L p)) ->
       exists G, (forall p, p < procs -> map_opt (to_plex (m p)) (assemble (m p) (fi p) (L p)) = Some (G p)) /\
         Permutation (flat_map G (seq 0 procs)) (plex_matrix (concat (map elems (seq 0 procs))) facets bc W)) /\
    (forall L, (forall p, p < procs -> evaluates_load k V (m p) (L p)) ->
       exists G, (forall p, p < procs -> map_opt (to_plex_row (m p)) (rhs (m p) (fi p) (L p)) = Some (G p)) /\
         Permutation (flat_map G (seq 0 procs)) (plex_vector (concat (map elems (seq 0 procs))) facets bc V)).
Proof.
  intros B procs k p2r elems part enum oe belems bdata benum ob sh si og off facets bc W V H0 Hk MG OC AF BC SW SV.
  destruct (local_meshes_fit_together procs k p2r elems part enum oe belems bdata benum ob sh si og off H0 Hk MG OC) as (m & E & F & bc' & Em & PE & BC' & MP & _).
  assert (PF : Permutation F facets).
  { apply (all_facets_perm k E (concat (map elems (seq 0 procs)))); auto. split; [apply (mp_facets _ _ _ _ _ _ MP)|apply (mp_facets_all _ _ _ _ _ _ MP)]. }
  assert (EB := bc_given_unique procs belems bdata bc' bc (mg_bc _ _ _ _ _ MG) BC' BC).
  exists m, (fun p => match facet_table k (m p) with Some x => x | None => [] end). split; auto.
  assert (FT : forall p, p < procs -> facet_table k (m p) = Some (match facet_table k (m p) with Some x => x | None => [] end)).
  { intros p Hp. destruct (facet_table_correct k (m p) (mp_mesh _ _ _ _ _ _ MP p Hp)) as (fi & -> & _). auto. }
  split; auto. split.
  - intros L HL. destruct (assembly_complete k procs E F bc' m (form_at E W) (fun p => match facet_table k (m p) with Some x => x | None => [] end) L MP) as (G & HG & PG).
    + intros f b g h. apply SW.
    + auto.
    + intros p Hp. eapply evaluates_at; eauto.
    + exists (fun p => map (name3 E) (G p)). split.
      * intros p Hp. eapply map_opt_named; [|apply HG; auto]. intros c d. eapply to_plex_named; eauto.
      * rewrite <- map_flat_map. eapply perm_trans; [apply Permutation_map; exact PG|]. rewrite matrix_named. apply plex_matrix_perm; auto.
  - intros L HL. destruct (rhs_complete k procs E F bc' m (load_at E V) (fun p => match facet_table k (m p) with Some x => x | None => [] end) L MP) as (G & HG & PG).
    + intros f b g h. apply SV.
    + auto.
    + intros p Hp. eapply evaluates_rhs_at; eauto.
    + exists (fun p => map (name2 E) (G p)). split.
      * intros p Hp. eapply map_opt_named; [|apply HG; auto]. intros c d. eapply to_plex_row_named; eauto.
      * rewrite <- map_flat_map. eapply perm_trans; [apply Permutation_map; exact PG|]. rewrite vector_named. apply plex_vector_perm; auto.
Qed.
Print Assumptions assembly_of_mesh_read.

(** C61: two runs, with other numbers of ranks, other partitions and other orders of everything, on
    meshes with the same elements and the same boundary conditions compute the same blocks. *)
Theorem assembly_independent_of_partition : forall {B} k (W : plex_form B) (V : plex_load B)
    procs p2r elems part enum oe belems bdata benum ob sh si og off
    procs' p2r' elems' part' enum' oe' belems' bdata' benum' ob' sh' si' og' off' m m' fi fi' L L' R R' A A' b b',
  0 < procs -> 0 < procs' -> 0 < k -> plex_symmetric W -> load_symmetric V ->
  mesh_given procs k elems belems bdata -> outcomes procs p2r elems part enum oe belems benum ob sh si og off ->
  mesh_given procs' k elems' belems' bdata' -> outcomes procs' p2r' elems' part' enum' oe' belems' benum' ob' sh' si' og' off' ->
  Permutation (concat (map elems (seq 0 procs))) (concat (map elems' (seq 0 procs'))) ->
  Permutation (concat (map (fun p => combine (belems p) (bdata p)) (seq 0 procs))) (concat (map (fun p => combine (belems' p) (bdata' p)) (seq 0 procs'))) ->
  local_topology procs k p2r elems part enum oe belems bdata benum ob sh si og off = Some m ->
  local_topology procs' k p2r' elems' part' enum' oe' belems' bdata' benum' ob' sh' si' og' off' = Some m' ->
  (forall p, p < procs -> facet_table k (m p) = Some (fi p) /\ evaluates_plex k W (m p) (L p) /\ evaluates_load k V (m p) (R p)) ->
  (forall p, p < procs' -> facet_table k (m' p) = Some (fi' p) /\ evaluates_plex k W (m' p) (L' p) /\ evaluates_load k V (m' p) (R' p)) ->
  (forall p, p < procs -> map_opt (to_plex (m p)) (assemble (m p) (fi p) (L p)) = Some (A p) /\ map_opt (to_plex_row (m p)) (rhs (m p) (fi p) (R p)) = Some (b p)) ->
  (forall p, p < procs' -> map_opt (to_plex (m' p)) (assemble (m' p) (fi' p) (L' p)) = Some (A' p) /\ map_opt (to_plex_row (m' p)) (rhs (m' p) (fi' p) (R' p)) = Some (b' p)) ->
  Permutation (flat_map A (seq 0 procs)) (flat_map A' (seq 0 procs')) /\ Permutation (flat_map b (seq 0 procs)) (flat_map b' (seq 0 procs')).
Proof.
  intros B k W V procs p2r elems part enum oe belems bdata benum ob sh si og off
    procs' p2r' elems' part' enum' oe' belems' bdata' benum' ob' sh' si' og' off' m m' fi fi' L L' R R' A A' b b'
    H0 H0' Hk SW SV MG OC MG' OC' PE PB Em Em' HL HL' HA HA'.
  destruct (local_meshes_fit_together procs k p2r elems part enum oe belems bdata benum ob sh si og off H0 Hk MG OC) as (m0 & E & F & bc & Em0 & PE0 & BC & MP & _).
  assert (m0 = m) by congruence. subst m0. clear Em0.
  assert (AF : all_facets k (concat (map elems (seq 0 procs))) F).
  { split; [apply (mp_facets _ _ _ _ _ _ MP)|]. intro f. rewrite (mp_facets_all _ _ _ _ _ _ MP).
    split; intros (X1 & X2 & y & Hy & Iy); split; auto; split; auto; exists y; split; auto; [apply (Permutation_in _ PE0)|apply (Permutation_in _ (Permutation_sym PE0))]; auto. }
  assert (AF' : all_facets k (concat (map elems' (seq 0 procs'))) F).
  { destruct AF as [N I]. split; auto. intro f. rewrite I.
    split; intros (X1 & X2 & y & Hy & Iy); split; auto; split; auto; exists y; split; auto; [apply (Permutation_in _ PE)|apply (Permutation_in _ (Permutation_sym PE))]; auto. }
  assert (InC : forall n (u : nat -> list (list nat)) (v : nat -> list nat) f x, In (f, x) (concat (map (fun p => combine (u p) (v p)) (seq 0 n))) <->
       exists p j, p < n /\ nth_error (u p) j = Some f /\ nth_error (v p) j = Some x).
  { intros n u v f x. rewrite in_concat. split.
    - intros (l & Hl & Hx). apply in_map_iff in Hl as (p & <- & Hp). apply in_seq in Hp. apply in_combine_nth in Hx as (j & Hj). exists p, j. split; [lia|auto].
    - intros (p & j & Hp & Hj). exists (combine (u p) (v p)). split; [apply in_map_iff; exists p; split; auto; apply in_seq; lia|apply in_combine_nth; eauto]. }
  assert (BC' : bc_given procs' belems' bdata' bc).
  { destruct BC as [B1 B2]. split.
    - intros p j f x Hp Hj Hx. assert (I : In (f, x) (concat (map (fun p => combine (belems' p) (bdata' p)) (seq 0 procs')))) by (apply InC; eauto).
      apply (Permutation_in _ (Permutation_sym PB)), InC in I as (p0 & j0 & Hp0 & Hj0 & Hx0). eapply B1; eauto.
    - intros f N. apply B2. intros p Hp I. apply In_nth_error in I as [j Ej].
      destruct (nth_error_lt (bdata p) j) as [x Ex]; [rewrite (mg_bc _ _ _ _ _ MG) by auto; apply nth_error_Some; congruence|].
      assert (I : In (f, x) (concat (map (fun p => combine (belems p) (bdata p)) (seq 0 procs)))) by (apply InC; eauto).
      apply (Permutation_in _ PB), InC in I as (p0 & j0 & Hp0 & Hj0 & Hx0). apply (N p0 Hp0). eapply nth_error_In; eauto. }
  assert (EqF : forall {X} n (u v : nat -> list X), (forall p, p < n -> u p = v p) -> flat_map u (seq 0 n) = flat_map v (seq 0 n)).
  { intros X n u v H. apply flat_map_ext_in. intros p Hp. apply in_seq in Hp. apply H. lia. }
  destruct (assembly_of_mesh_read procs k p2r elems part enum oe belems bdata benum ob sh si og off F bc W V H0 Hk MG OC AF BC SW SV) as (m1 & fi1 & E1 & T1 & X1 & Y1).
  assert (m1 = m) by congruence. subst m1.
  destruct (assembly_of_mesh_read procs' k p2r' elems' part' enum' oe' belems' bdata' benum' ob' sh' si' og' off' F bc W V H0' Hk MG' OC' AF' BC' SW SV) as (m2 & fi2 & E2 & T2 & X2 & Y2).
  assert (m2 = m') by congruence. subst m2.
  destruct (X1 L) as (G1 & HG1 & PG1); [intros p Hp; apply HL; auto|]. destruct (X2 L') as (G2 & HG2 & PG2); [intros p Hp; apply HL'; auto|].
  destruct (Y1 R) as (g1 & Hg1 & Pg1); [intros p Hp; apply HL; auto|]. destruct (Y2 R') as (g2 & Hg2 & Pg2); [intros p Hp; apply HL'; auto|].
  assert (F1 : forall p, p < procs -> fi1 p = fi p) by (intros p Hp; destruct (HL p Hp) as (T & _); rewrite T1 in T by auto; congruence).
  assert (F2 : forall p, p < procs' -> fi2 p = fi' p) by (intros p Hp; destruct (HL' p Hp) as (T & _); rewrite T2 in T by auto; congruence).
  rewrite (EqF _ procs A G1), (EqF _ procs b g1), (EqF _ procs' A' G2), (EqF _ procs' b' g2).
  - split.
    + eapply perm_trans; [exact PG1|]. eapply perm_trans; [|apply Permutation_sym; exact PG2]. apply plex_matrix_perm; auto.
    + eapply perm_trans; [exact Pg1|]. eapply perm_trans; [|apply Permutation_sym; exact Pg2]. apply plex_vector_perm; auto.
  - intros p Hp. destruct (HA' p Hp) as [_ X]. rewrite <- F2, Hg2 in X by auto. congruence.
  - intros p Hp. destruct (HA' p Hp) as [X _]. rewrite <- F2, HG2 in X by auto. congruence.
  - intros p Hp. destruct (HA p Hp) as [_ X]. rewrite <- F1, Hg1 in X by auto. congruence.
  - intros p Hp. destruct (HA p Hp) as [X _]. rewrite <- F1, HG1 in X by auto. congruence.
Qed.
Print Assumptions assembly_independent_of_partition.
