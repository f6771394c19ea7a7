(** Lemmas on memory, views and the nodal basis. *)
Require Import List Arith Lia Reals Lra Permutation.
Require Import Verif.Base Verif.LinAlg Verif.MultiIndexModel Verif.MultiIndexProps Verif.TensorModel Verif.TensorProps Verif.CombinatoricsModel
  Verif.BasisModel Verif.BasisSpec Verif.IntegralSpec Verif.IntegralProofs Verif.QuadratureModel Verif.QuadratureSpec Verif.QuadratureProps
  Verif.RootsProps Verif.DubinerProofs Verif.SpanProofs Verif.RefElementSpec Verif.RefElementModel.
Import ListNotations.
Local Open Scope R_scope.

(** ** Memory *)
Lemma writes_app : forall l l' m, writes m (l ++ l') = writes (writes m l) l'.
Proof. intros. unfold writes. apply fold_left_app. Qed.
Lemma writes_other : forall l m a, (forall e, In e l -> fst e <> a) -> writes m l a = m a.
Proof.
  induction l as [| e l IH]; intros m a H; [reflexivity |]. unfold writes. cbn [fold_left]. fold (writes (write m (fst e) (snd e)) l).
  rewrite IH by (intros; apply H; now right). unfold write. destruct (Nat.eqb_spec a (fst e)) as [E | E]; [| reflexivity].
  exfalso. apply (H e); [now left | congruence].
Qed.
Lemma writes_read : forall l m a x, (exists e, In e l /\ fst e = a) -> (forall e, In e l -> fst e = a -> snd e = x) -> writes m l a = x.
Proof.
  induction l as [| e l IH]; intros m a x (e0 & Hin & E0) H; [destruct Hin |]. unfold writes. cbn [fold_left]. fold (writes (write m (fst e) (snd e)) l).
  destruct (in_dec Nat.eq_dec a (map fst l)) as [I | I].
  - apply in_map_iff in I. destruct I as (e1 & E1 & I1). apply IH; [now exists e1 | intros; apply H; [now right | assumption]].
  - rewrite writes_other.
    + destruct Hin as [-> | Hin]; [| exfalso; apply I, in_map_iff; now exists e0].
      unfold write. rewrite E0, Nat.eqb_refl. apply H; [now left | exact E0].
    + intros e' He' E. apply I, in_map_iff. now exists e'.
Qed.

Definition inj2 (v : view) : Prop := forall r c r' c', (r < nth 0 (v_shape v) 0)%nat -> (c < nth 1 (v_shape v) 0)%nat ->
  (r' < nth 0 (v_shape v) 0)%nat -> (c' < nth 1 (v_shape v) 0)%nat -> v_addr v [r; c] = v_addr v [r'; c'] -> r = r' /\ c = c'.
Lemma assign_read : forall m v X r c, inj2 v -> (r < nth 0 (v_shape v) 0)%nat -> (c < nth 1 (v_shape v) 0)%nat ->
  assign m v X (v_addr v [r; c]) = X r c.
Proof.
  intros m v X r c Hv Hr Hc. unfold assign. apply writes_read.
  - exists (v_addr v [r; c], X r c). split; [| reflexivity]. apply in_flat_map. exists r. split; [apply in_seq; lia |].
    apply in_map_iff. exists c. split; [reflexivity | apply in_seq; lia].
  - intros e He E. apply in_flat_map in He. destruct He as (r' & Hr' & He). apply in_map_iff in He. destruct He as (c' & <- & Hc').
    apply in_seq in Hr'. apply in_seq in Hc'. cbn [fst snd] in *. destruct (Hv r' c' r c) as [-> ->]; try lia. reflexivity.
Qed.
Lemma assign_other : forall m v X a,
  (forall r c, (r < nth 0 (v_shape v) 0)%nat -> (c < nth 1 (v_shape v) 0)%nat -> v_addr v [r; c] <> a) -> assign m v X a = m a.
Proof.
  intros m v X a H. unfold assign. apply writes_other. intros e He. apply in_flat_map in He. destruct He as (r' & Hr' & He).
  apply in_map_iff in He. destruct He as (c' & <- & Hc'). apply in_seq in Hr'. apply in_seq in Hc'. apply H; lia.
Qed.
Lemma packed_inj : forall off shape e e', in_shape e shape -> in_shape e' shape ->
  v_addr (packed off shape) e = v_addr (packed off shape) e' -> e = e'.
Proof. intros off shape. apply packed_tensor_layout. Qed.
Lemma in_shape2 : forall a b i j, (i < a)%nat -> (j < b)%nat -> in_shape [i; j] [a; b].
Proof. intros. repeat constructor; assumption. Qed.
Lemma in_shape3 : forall a b c i j k, (i < a)%nat -> (j < b)%nat -> (k < c)%nat -> in_shape [i; j; k] [a; b; c].
Proof. intros. repeat constructor; assumption. Qed.
Lemma packed_inj2 : forall off a b, inj2 (packed off [a; b]).
Proof.
  intros off a b r c r' c' H1 H2 H3 H4 E. cbn [v_shape packed nth] in *.
  pose proof (packed_inj off [a; b] [r; c] [r'; c'] ltac:(now apply in_shape2) ltac:(now apply in_shape2) E) as X. inversion X. auto.
Qed.
Lemma addr2 : forall off a b r c, v_addr (packed off [a; b]) [r; c] = (off + r + a * c)%nat.
Proof. intros. unfold v_addr, packed, computeStride. cbn. nia. Qed.
Lemma addr3 : forall off a b c i j k, v_addr (packed off [a; b; c]) [i; j; k] = (off + i + a * (j + b * k))%nat.
Proof. intros. unfold v_addr, packed, computeStride. cbn. nia. Qed.

(** ** Permutations *)
Lemma perm2 : forall p, Permutation p [0; 1]%nat -> p = [0; 1]%nat \/ p = [1; 0]%nat.
Proof.
  intros p H. apply Permutation_sym in H. apply Permutation_length_2_inv in H. exact H.
Qed.
Lemma perm3 : forall p, Permutation p [0; 1; 2]%nat -> In p [[0; 1; 2]; [0; 2; 1]; [1; 0; 2]; [1; 2; 0]; [2; 0; 1]; [2; 1; 0]]%nat.
Proof.
  intros p H. pose proof (Permutation_length H) as L. destruct p as [| a [| b [| c [| ? ?]]]]; try discriminate.
  assert (I : forall x, In x [a; b; c] -> (x = 0 \/ x = 1 \/ x = 2)%nat).
  { intros x Hx. apply (Permutation_in _ H) in Hx. cbn in Hx. intuition. }
  assert (ND : NoDup [a; b; c]) by (apply (Permutation_NoDup (Permutation_sym H)); repeat constructor; cbn; intuition discriminate).
  inversion ND as [| ? ? N1 ND1]; subst. inversion ND1 as [| ? ? N2 ND2]; subst. cbn in N1, N2.
  destruct (I a) as [-> | [-> | ->]]; [cbn; tauto | | |]; destruct (I b) as [-> | [-> | ->]]; try (cbn; tauto); try (exfalso; intuition congruence);
    destruct (I c) as [-> | [-> | ->]]; try (cbn; tauto); try (exfalso; intuition congruence).
Qed.

(** ** The modal basis *)
Lemma fold_left_rsum : forall n f s, fold_left (fun s q => s + f q) (seq 0 n) s = s + rsum n f.
Proof. induction n as [| n IH]; intros f s; [cbn; ring |]. rewrite seq_S, fold_left_app, IH. cbn. ring. Qed.

Lemma modal_basis_ok : forall m0 D N mi points perm, binom (N + D) D = Some (length mi) -> Permutation perm [0; 1]%nat ->
  exists E m, modal_evaluateBasisAt m0 D N mi points perm = Some (E, m)
  /\ E = packed 0 (permuted perm [length mi; length points])
  /\ forall bf p, (bf < length mi)%nat -> (p < length points)%nat ->
       m (v_addr E (permuted perm [bf; p])) = DubinerP D (nth bf mi []) (point points p).
Proof.
  intros m0 D N mi points perm B Hp. unfold modal_evaluateBasisAt. rewrite B. cbn [bind].
  assert (G : forall E, (forall bf p bf' p', (bf < length mi)%nat -> (p < length points)%nat -> (bf' < length mi)%nat -> (p' < length points)%nat ->
     v_addr E (permuted perm [bf; p]) = v_addr E (permuted perm [bf'; p']) -> bf = bf' /\ p = p') ->
    forall bf p, (bf < length mi)%nat -> (p < length points)%nat ->
    writes m0 (flat_map (fun p => map (fun bf => (v_addr E (permuted perm [bf; p]), DubinerP D (nth bf mi []) (point points p)))
             (seq 0 (length mi))) (seq 0 (length points))) (v_addr E (permuted perm [bf; p])) = DubinerP D (nth bf mi []) (point points p)).
  { intros E I bf p Hb Hq. apply writes_read.
    - eexists. split; [apply in_flat_map; exists p; split; [apply in_seq; lia |]; apply in_map_iff; exists bf; split; [reflexivity | apply in_seq; lia] | reflexivity].
    - intros e He Ea. apply in_flat_map in He. destruct He as (p' & Hp' & He). apply in_map_iff in He. destruct He as (bf' & <- & Hb').
      apply in_seq in Hp'. apply in_seq in Hb'. cbn [fst snd] in *. destruct (I bf' p' bf p) as [-> ->]; try lia. reflexivity. }
  destruct (perm2 perm Hp) as [-> | ->]; cbn [permute nth_error bind permuted]; eexists; eexists; (split; [reflexivity |]; split; [reflexivity |]);
    apply G; intros bf p bf' p' H1 H2 H3 H4 E; unfold permuted in E; cbn [permute nth_error bind] in E; apply packed_inj in E; try (now apply in_shape2);
    inversion E; auto.
Qed.
Lemma modal_gradient_ok : forall m0 D N mi points perm, binom (N + D) D = Some (length mi) -> Permutation perm [0; 1; 2]%nat ->
  exists E m, modal_evaluateGradientAt m0 D N mi points perm = Some (E, m)
  /\ E = packed 0 (permuted perm [length mi; D; length points])
  /\ forall bf d p, (bf < length mi)%nat -> (d < D)%nat -> (p < length points)%nat ->
       m (v_addr E (permuted perm [bf; d; p])) = gradDubinerP D (nth bf mi []) (point points p) d.
Proof.
  intros m0 D N mi points perm B Hp. unfold modal_evaluateGradientAt. rewrite B. cbn [bind].
  assert (G : forall E, (forall bf d p bf' d' p', (bf < length mi)%nat -> (d < D)%nat -> (p < length points)%nat -> (bf' < length mi)%nat -> (d' < D)%nat -> (p' < length points)%nat ->
     v_addr E (permuted perm [bf; d; p]) = v_addr E (permuted perm [bf'; d'; p']) -> bf = bf' /\ d = d' /\ p = p') ->
    forall bf d p, (bf < length mi)%nat -> (d < D)%nat -> (p < length points)%nat ->
    writes m0 (flat_map (fun p => flat_map (fun bf => map (fun d => (v_addr E (permuted perm [bf; d; p]), gradDubinerP D (nth bf mi []) (point points p) d))
             (seq 0 D)) (seq 0 (length mi))) (seq 0 (length points))) (v_addr E (permuted perm [bf; d; p])) = gradDubinerP D (nth bf mi []) (point points p) d).
  { intros E I bf d p Hb Hd Hq. apply writes_read.
    - eexists. split; [apply in_flat_map; exists p; split; [apply in_seq; lia |]; apply in_flat_map; exists bf; split; [apply in_seq; lia |];
        apply in_map_iff; exists d; split; [reflexivity | apply in_seq; lia] | reflexivity].
    - intros e He Ea. apply in_flat_map in He. destruct He as (p' & Hp' & He). apply in_flat_map in He. destruct He as (bf' & Hb' & He).
      apply in_map_iff in He. destruct He as (d' & <- & Hd').
      apply in_seq in Hp'. apply in_seq in Hb'. apply in_seq in Hd'. cbn [fst snd] in *. destruct (I bf' d' p' bf d p) as (-> & -> & ->); try lia. reflexivity. }
  pose proof (perm3 perm Hp) as HP. cbn [In] in HP.
  destruct HP as [<- | [<- | [<- | [<- | [<- | [<- | []]]]]]]; cbn [permute nth_error bind permuted]; eexists; eexists; (split; [reflexivity |]; split; [reflexivity |]);
    apply G; intros bf d p bf' d' p' H1 H2 H3 H4 H5 H6 E; unfold permuted in E; cbn [permute nth_error bind] in E; apply packed_inj in E; try (now apply in_shape3);
    inversion E; auto.
Qed.

Lemma rule_sum_nth : forall l f, rule_sum l f = rsum (length l) (fun q => nth q (map snd l) 0 * f (point (map fst l) q)).
Proof.
  intros l f. unfold point. induction l as [| e l IH]; [reflexivity |]. change (rule_sum (e :: l) f) with (snd e * f (fst e) + rule_sum l f).
  cbn [length map]. rewrite rsum_head, IH. reflexivity.
Qed.
(** ** Nodal basis *)
Lemma nodal_reproduces : forall D N nodes psi f, unisolvent D N nodes -> nodal_basis D N nodes psi -> polynomial D N f ->
  forall xi, f xi = rsum (length nodes) (fun i => f (point nodes i) * psi i xi).
Proof.
  intros D N nodes psi f U [PP PN] Hf xi.
  assert (Z : (fun xi => f xi + -1 * rsum (length nodes) (fun i => f (point nodes i) * psi i xi)) xi = 0); [| cbv beta in Z; lra].
  refine (U (fun xi => f xi + -1 * rsum (length nodes) (fun i => f (point nodes i) * psi i xi)) _ _ xi).
  - apply (poly_plus D N f (fun xi => -1 * rsum (length nodes) (fun i => f (point nodes i) * psi i xi))); [exact Hf |].
    apply poly_scale. apply (poly_rsum D N (length nodes) (fun i xi => f (point nodes i) * psi i xi)). intros i Hi. apply poly_scale. now apply PP.
  - intros x Hx. destruct (In_nth nodes x (fun _ => 0) Hx) as (k & Hk & <-).
    rewrite (rsum_single (length nodes) k (fun i => f (point nodes i) * psi i (nth k nodes (fun _ => 0)))); [| exact Hk |].
    + rewrite PN, Nat.eqb_refl by assumption. unfold point in *. ring.
    + intros i Hi Hne. rewrite PN by assumption. destruct (Nat.eqb_spec i k); [congruence | ring].
Qed.
Lemma nodal_unique : forall D N nodes psi psi', unisolvent D N nodes -> nodal_basis D N nodes psi -> nodal_basis D N nodes psi' ->
  forall i xi, (i < length nodes)%nat -> psi i xi = psi' i xi.
Proof.
  intros D N nodes psi psi' U P P' i xi Hi. rewrite (nodal_reproduces D N nodes psi' (psi i) U P' (proj1 P i Hi) xi).
  rewrite (rsum_single (length nodes) i (fun j => psi i (point nodes j) * psi' j xi)); [| exact Hi |].
  - unfold point. rewrite (proj2 P) by assumption. rewrite Nat.eqb_refl. ring.
  - intros j Hj Hne. unfold point. rewrite (proj2 P) by assumption. destruct (Nat.eqb_spec i j); [congruence | ring].
Qed.

Section NodalOk.
Variables (inverse : nat -> (nat -> nat -> R) -> nat -> nat -> R) (D N : nat) (mi : list (list nat)) (nodes : list vec).
Hypothesis HD : (D = 1 \/ D = 2 \/ D = 3)%nat.
Hypothesis Hmi : multiindices D N mi.
Hypothesis Hb : binom (N + D) D = Some (length mi).
Hypothesis Hn : length nodes = length mi.
Hypothesis U : unisolvent D N nodes.
Hypothesis Hinv : exact_inverse inverse.
Local Notation n := (length mi).
Local Notation S := (NodalRefElement inverse D N mi nodes).
Local Notation phi j := (DubinerP D (nth j mi [])).
Local Notation V := (ne_V S).
Local Notation Vinv := (ne_Vinv S).

Lemma V_nonsingular : nonsingular n V.
Proof.
  intros c Hc. apply (phi_independent D N mi HD Hmi). apply U.
  - apply (poly_rsum D N n (fun j xi => c j * phi j xi)). intros j Hj. apply poly_scale. now apply (phi_poly D N mi HD Hmi).
  - intros x Hx. destruct (In_nth nodes x (fun _ => 0) Hx) as (k & Hk & <-). transitivity (mat_vec n V c k); [| apply Hc; lia]. unfold mat_vec.
    apply rsum_ext. intros j Hj. cbn [ne_V NodalRefElement]. unfold Vandermonde, point in *. ring.
Qed.
Lemma V_Vinv : forall i j, (i < n)%nat -> (j < n)%nat -> rsum n (fun k => V i k * Vinv k j) = delta i j.
Proof. intros i j Hi Hj. cbn [ne_Vinv NodalRefElement]. rewrite Hn. exact (Hinv n V V_nonsingular i j Hi Hj). Qed.
Lemma Vinv_V : forall i j, (i < n)%nat -> (j < n)%nat -> rsum n (fun k => Vinv i k * V k j) = delta i j.
Proof. exact (inverse_commutes n V Vinv V_Vinv). Qed.
Definition psi0 (i : nat) (xi : vec) : R := rsum n (fun j => Vinv j i * phi j xi).
Lemma psi0_nodal : nodal_basis D N nodes psi0.
Proof.
  split.
  - intros i Hi. apply (poly_rsum D N n (fun j xi => Vinv j i * phi j xi)). intros j Hj. apply poly_scale. now apply (phi_poly D N mi HD Hmi).
  - intros i k Hi Hk. rewrite Hn in Hi, Hk. unfold psi0.
    rewrite (rsum_ext n _ (fun j => V k j * Vinv j i)) by (intros; cbn [ne_V NodalRefElement]; unfold Vandermonde, point in *; ring).
    rewrite V_Vinv by assumption. unfold delta. rewrite Nat.eqb_sym. reflexivity.
Qed.

Lemma nodal_basis_at : forall m0 points perm, Permutation perm [0; 1]%nat ->
  exists E m, nodal_evaluateBasisAt S m0 points perm = Some (E, m) /\ E = packed 0 (permuted perm [n; length points])
  /\ forall i p, (i < n)%nat -> (p < length points)%nat -> m (v_addr E (permuted perm [i; p])) = psi0 i (point points p).
Proof.
  intros m0 points perm Hp. destruct (modal_basis_ok m0 D N mi points perm Hb Hp) as (E & m & Em & EE & Hm).
  unfold nodal_evaluateBasisAt. cbn [ne_dim ne_degree ne_mi ne_nodes NodalRefElement]. rewrite Em, Hn. cbn [bind].
  change (inverse (length nodes) (Vandermonde D mi nodes)) with Vinv.
  destruct (perm2 perm Hp) as [-> | ->]; cbn [nth Nat.eqb andb] in *; unfold permuted in *; cbn [permute nth_error bind] in *;
    eexists; eexists; (split; [reflexivity |]; split; [exact EE |]); intros i p Hi Hq; rewrite assign_read;
    try (rewrite EE; apply packed_inj2); try (rewrite EE; assumption); unfold psi0; apply rsum_ext; intros j Hj; unfold emap; rewrite Hm by assumption; ring.
Qed.

Lemma slice_loop_ok : forall a c m k, (k <= c)%nat -> let E := packed 0 [a; n; c] in
  forall r q i, (r < a)%nat -> (q < n)%nat -> (i < c)%nat ->
  slice_loop S E m k (v_addr E [r; q; i]) =
    if (i <? k)%nat then rsum n (fun j => m (v_addr E [r; j; i]) * Vinv j q) else m (v_addr E [r; q; i]).
Proof.
  intros a c m k Hk E.
  assert (SA : forall i r q, v_addr (subtensor E [Slice; Slice; Idx i]) [r; q] = v_addr E [r; q; i]).
  { intros i r q. unfold E, subtensor, v_addr, packed, computeStride. cbn. nia. }
  assert (SI : forall i, subtensor E [Slice; Slice; Idx i] = packed (v_addr E [0; 0; i]%nat) [a; n]) by reflexivity.
  induction k as [| k IH]; intros r q i Hr Hq Hi; [reflexivity |].
  specialize (IH ltac:(lia)). unfold slice_loop in *. rewrite seq_S, fold_left_app. cbn [fold_left Nat.add].
  set (mk := fold_left _ (seq 0 k) m) in *. cbv zeta.
  destruct (Nat.eq_dec i k) as [-> | Hne].
  - rewrite <- SA, assign_read.
    + replace (k <? Datatypes.S k)%nat with true by (symmetry; apply Nat.ltb_lt; lia). cbn [ne_nodes NodalRefElement]. rewrite Hn.
      apply rsum_ext. intros j Hj. unfold emap. rewrite SA, IH by assumption. rewrite Nat.ltb_irrefl. reflexivity.
    + rewrite SI. apply packed_inj2.
    + rewrite SI. exact Hr.
    + rewrite SI. exact Hq.
  - rewrite assign_other.
    + rewrite IH by assumption. replace (i <? Datatypes.S k)%nat with (i <? k)%nat; [reflexivity |].
      destruct (Nat.ltb_spec i k); destruct (Nat.ltb_spec i (Datatypes.S k)); try reflexivity; lia.
    + intros r' c' Hr' Hc'. rewrite SA. rewrite SI in Hr', Hc'. cbn [v_shape packed nth] in Hr', Hc'. intros Ea.
      apply packed_inj in Ea; [| now apply in_shape3 | now apply in_shape3]. congruence.
Qed.

Definition gpsi (i : nat) (xi : vec) (d : nat) : R := rsum n (fun j => Vinv j i * gradDubinerP D (nth j mi []) xi d).
Lemma nodal_gradient_at : forall m0 points perm, Permutation perm [0; 1; 2]%nat ->
  exists E m, nodal_evaluateGradientAt S m0 points perm = Some (E, m) /\ E = packed 0 (permuted perm [n; D; length points])
  /\ forall i d p, (i < n)%nat -> (d < D)%nat -> (p < length points)%nat ->
       m (v_addr E (permuted perm [i; d; p])) = gpsi i (point points p) d.
Proof.
  intros m0 points perm Hp. destruct (modal_gradient_ok m0 D N mi points perm Hb Hp) as (E & m & Em & EE & Hm).
  set (np := length points) in *.
  unfold nodal_evaluateGradientAt. cbn [ne_dim ne_degree ne_mi ne_nodes NodalRefElement]. rewrite Em, Hn. fold np. cbn [bind].
  change (inverse (length nodes) (Vandermonde D mi nodes)) with Vinv.
  pose proof (perm3 perm Hp) as HP. cbn [In] in HP.
  destruct HP as [<- | [<- | [<- | [<- | [<- | [<- | []]]]]]]; cbn [nth Nat.eqb andb] in *; unfold permuted in *; cbn [permute nth_error bind] in *;
    eexists; eexists; (split; [reflexivity |]; split; [exact EE |]); intros i d p Hi Hd Hq; rewrite EE in *.
  - (* 0 1 2 *)
    assert (Ad : forall j, v_addr (packed 0 [n; D; np]) [j; d; p] = v_addr (reshape (packed 0 [n; D; np]) [n; (D * np)%nat]) [j; (d + D * p)%nat])
      by (intros; unfold reshape; cbn [v_off packed]; change {| v_off := 0; v_shape := [n; D; np]; v_stride := computeStride [n; D; np]; v_packed := true |} with (packed 0 [n; D; np]); rewrite addr3, addr2; nia).
    rewrite Ad, assign_read; [| apply packed_inj2 | exact Hi | cbn; nia].
    unfold gpsi. apply rsum_ext. intros j Hj. unfold emap. rewrite <- Ad, Hm by assumption. ring.
  - (* 0 2 1 *)
    assert (Ad : forall j, v_addr (packed 0 [n; np; D]) [j; p; d] = v_addr (reshape (packed 0 [n; np; D]) [n; (D * np)%nat]) [j; (p + np * d)%nat])
      by (intros; unfold reshape; cbn [v_off packed]; change {| v_off := 0; v_shape := [n; np; D]; v_stride := computeStride [n; np; D]; v_packed := true |} with (packed 0 [n; np; D]); rewrite addr3, addr2; nia).
    rewrite Ad, assign_read; [| apply packed_inj2 | exact Hi | cbn; nia].
    unfold gpsi. apply rsum_ext. intros j Hj. unfold emap. rewrite <- Ad, Hm by assumption. ring.
  - (* 1 0 2 *)
    cbn [v_shape packed nth]. rewrite (slice_loop_ok D np m np (le_n _) d i p Hd Hi Hq).
    replace (p <? np)%nat with true by (symmetry; apply Nat.ltb_lt; lia).
    unfold gpsi. apply rsum_ext. intros j Hj. rewrite Hm by assumption. ring.
  - (* 1 2 0 *)
    assert (Ad : forall j, v_addr (packed 0 [D; np; n]) [d; p; j] = v_addr (reshape (packed 0 [D; np; n]) [(D * np)%nat; n]) [(d + D * p)%nat; j])
      by (intros; unfold reshape; cbn [v_off packed]; change {| v_off := 0; v_shape := [D; np; n]; v_stride := computeStride [D; np; n]; v_packed := true |} with (packed 0 [D; np; n]); rewrite addr3, addr2; nia).
    rewrite Ad, assign_read; [| apply packed_inj2 | cbn; nia | exact Hi].
    unfold gpsi. apply rsum_ext. intros j Hj. unfold emap. rewrite <- Ad, Hm by assumption. ring.
  - (* 2 0 1 *)
    cbn [v_shape packed nth]. rewrite (slice_loop_ok np D m D (le_n _) p i d Hq Hi Hd).
    replace (d <? D)%nat with true by (symmetry; apply Nat.ltb_lt; lia).
    unfold gpsi. apply rsum_ext. intros j Hj. rewrite Hm by assumption. ring.
  - (* 2 1 0 *)
    assert (Ad : forall j, v_addr (packed 0 [np; D; n]) [p; d; j] = v_addr (reshape (packed 0 [np; D; n]) [(D * np)%nat; n]) [(p + np * d)%nat; j])
      by (intros; unfold reshape; cbn [v_off packed]; change {| v_off := 0; v_shape := [np; D; n]; v_stride := computeStride [np; D; n]; v_packed := true |} with (packed 0 [np; D; n]); rewrite addr3, addr2; nia).
    rewrite Ad, assign_read; [| apply packed_inj2 | cbn; nia | exact Hi].
    unfold gpsi. apply rsum_ext. intros j Hj. unfold emap. rewrite <- Ad, Hm by assumption. ring.
Qed.
End NodalOk.
