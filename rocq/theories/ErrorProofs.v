(** Lemmas for C69: tensors filled by the loops of FiniteElementFunction, Curvilinear and Error. *)
Require Import List Arith Lia Reals Lra Permutation FunctionalExtensionality.
Require Import Verif.Base Verif.LinAlg Verif.MultiIndexModel Verif.MultiIndexProps Verif.TensorModel Verif.TensorProps Verif.SimplexModel Verif.TopoModel Verif.FaultModel
  Verif.GeometryModel Verif.GeometryProofs Verif.MeshPoissonProps Verif.BasisSpec Verif.QuadratureModel Verif.QuadratureSpec Verif.RefElementModel Verif.RefElementProofs Verif.RefElementProps
  Verif.InterpolationSpec Verif.ErrorSpec Verif.ErrorModel.
Import ListNotations.
Local Open Scope R_scope.

(** The reference element evaluates the n basis functions b and their derivatives (C67). *)
Definition represents (D : nat) (S : ref_element) (n : nat) (b : nat -> (nat -> R) -> R) : Prop :=
  (forall m0 points perm, Permutation perm [0; 1]%nat -> exists E m,
      re_basis S m0 points perm = Some (E, m) /\ E = packed 0 (permuted perm [n; length points])
      /\ forall i p, (i < n)%nat -> (p < length points)%nat -> m (v_addr E (permuted perm [i; p])) = b i (point points p))
  /\ ((D = 2 \/ D = 3)%nat -> forall m0 points perm, Permutation perm [0; 1; 2]%nat -> exists E m,
      re_gradient S m0 points perm = Some (E, m) /\ E = packed 0 (permuted perm [n; D; length points])
      /\ forall i d p, (i < n)%nat -> (d < D)%nat -> (p < length points)%nat ->
           partial_derivative (b i) d (point points p) (m (v_addr E (permuted perm [i; d; p])))).

(** ** Views *)
Lemma sub3 : forall a b c k i j, v_addr (subtensor (packed 0 [a; b; c]) [Slice; Slice; Idx k]) [i; j] = (i + a * (j + b * k))%nat.
Proof. intros. unfold subtensor, v_addr, packed, computeStride. cbn. nia. Qed.
Lemma sub3_packed : forall a b c k, subtensor (packed 0 [a; b; c]) [Slice; Slice; Idx k] = packed (v_addr (packed 0 [a; b; c]) [0; 0; k]%nat) [a; b].
Proof. reflexivity. Qed.
Lemma sub1 : forall a b c k i j, v_addr (subtensor (packed 0 [a; b; c]) [Idx k; Slice; Slice]) [i; j] = (k + a * (i + b * j))%nat.
Proof. intros. unfold subtensor, v_addr, packed, computeStride. cbn. nia. Qed.
Lemma sub1_shape : forall a b c k, v_shape (subtensor (packed 0 [a; b; c]) [Idx k; Slice; Slice]) = [b; c].
Proof. reflexivity. Qed.
Lemma addr3' : forall a b c i j k, v_addr (packed 0 [a; b; c]) [i; j; k] = (i + a * (j + b * k))%nat.
Proof. intros. rewrite addr3. lia. Qed.
Lemma addr2' : forall a b i j, v_addr (packed 0 [a; b]) [i; j] = (i + a * j)%nat.
Proof. intros. rewrite addr2. lia. Qed.
Lemma inj3 : forall a b c i j k i' j' k', (i < a)%nat -> (j < b)%nat -> (k < c)%nat -> (i' < a)%nat -> (j' < b)%nat -> (k' < c)%nat ->
  (i + a * (j + b * k) = i' + a * (j' + b * k'))%nat -> i = i' /\ j = j' /\ k = k'.
Proof.
  intros a b c i j k i' j' k' H1 H2 H3 H4 H5 H6 E. rewrite <- !(addr3' a b c) in E.
  apply packed_inj in E; [inversion E; auto | now apply in_shape3 | now apply in_shape3].
Qed.

(** ** FiniteElementFunction *)
Lemma coefficient : forall F e k p, v_addr (subtensor (ff_data F) [Slice; Slice; Idx e]) [k; p] = (e * (ff_nb F * ff_Q F) + (p * ff_nb F + k))%nat.
Proof. intros. unfold ff_data. rewrite sub3. nia. Qed.
Lemma ff_map_read : forall F e E me n mr q p, (q < n)%nat -> (p < ff_Q F)%nat ->
  emap (ff_map F e E me (packed 0 [n; ff_Q F]) mr) (packed 0 [n; ff_Q F]) q p
  = rsum (ff_nb F) (fun k => emap me E q k * ff_mem F (e * (ff_nb F * ff_Q F) + (p * ff_nb F + k))%nat).
Proof.
  intros F e E me n mr q p Hq Hp. unfold ff_map, emap. rewrite assign_read; [| apply packed_inj2 | exact Hq | exact Hp].
  apply rsum_ext. intros k Hk. now rewrite coefficient.
Qed.
Lemma evaluated : forall D F b m0 points, represents D (ff_re F) (ff_nb F) b ->
  exists E me, evaluationMatrix F m0 points = Some (E, me)
  /\ forall q k, (q < length points)%nat -> (k < ff_nb F)%nat -> emap me E q k = b k (point points q).
Proof.
  intros D F b m0 points [H _]. destruct (H m0 points [1; 0]%nat ltac:(apply perm_swap)) as (E & me & Eq & EE & V).
  exists E, me. split; [exact Eq |]. intros q k Hq Hk. exact (V k q Hk Hq).
Qed.

(** ** Jacobians *)
Section Geometry.
Variables (D nb np : nat) (pos : nat -> nat -> R) (mg : mem).
Hypothesis HD : (D = 2 \/ D = 3)%nat.
Local Notation gradE := (packed 0 [nb; D; np]).
Local Notation J := (packed 0 [D; D; np]).
Lemma cl_jacobian_read : forall mr i e q, (i < D)%nat -> (e < D)%nat -> (q < np)%nat ->
  emap (cl_jacobian D nb pos gradE mg J mr) (subtensor J [Slice; Slice; Idx q]) i e = rsum nb (fun j => pos j i * mg (v_addr gradE [j; e; q])).
Proof.
  intros mr i e q Hi He Hq. unfold cl_jacobian, emap, reshape. cbn [v_off packed v_shape nth].
  rewrite sub3. replace (i + D * (e + D * q))%nat with (v_addr (packed 0 [D; D * np]%nat) [i; (e + D * q)%nat]) by (rewrite addr2'; reflexivity).
  rewrite assign_read; [| apply packed_inj2 | exact Hi | cbn [v_shape packed nth]; nia].
  apply rsum_ext. intros j Hj. do 2 f_equal. rewrite addr2', addr3'. nia.
Qed.
Lemma cl_jacobianInv_read : forall mJ mr i e q, (i < D)%nat -> (e < D)%nat -> (q < np)%nat ->
  emap (cl_jacobianInv D J mJ J mr) (subtensor J [Slice; Slice; Idx q]) i e = geo_inverse D (emap mJ (subtensor J [Slice; Slice; Idx q])) i e.
Proof.
  intros mJ mr i e q Hi He Hq. unfold cl_jacobianInv. cbn [v_shape packed nth].
  assert (G : forall k, (k <= np)%nat -> (q < k)%nat ->
    emap (fold_left (fun m i => assign m (subtensor J [Slice; Slice; Idx i]) (geo_inverse D (emap mJ (subtensor J [Slice; Slice; Idx i])))) (seq 0 k) mr)
      (subtensor J [Slice; Slice; Idx q]) i e = geo_inverse D (emap mJ (subtensor J [Slice; Slice; Idx q])) i e).
  { induction k as [| k IH]; intros Hk Hqk; [lia |]. rewrite seq_S, fold_left_app. cbn [fold_left Nat.add]. unfold emap at 1.
    destruct (Nat.eq_dec q k) as [-> | Hne].
    - apply assign_read; [rewrite sub3_packed; apply packed_inj2 | exact Hi | exact He].
    - rewrite assign_other; [apply IH; lia |]. intros r c Hr Hc E. rewrite sub3_packed in Hr, Hc. cbn [v_shape packed nth] in Hr, Hc. rewrite !sub3 in E.
      apply (inj3 D D np) in E; try assumption; lia. }
  apply (G np); [apply le_n | exact Hq].
Qed.
End Geometry.
Lemma geo_det_ext D A B : (D = 2 \/ D = 3)%nat -> (forall i j, (i < D)%nat -> (j < D)%nat -> A i j = B i j) -> geo_det D A = geo_det D B.
Proof. intros [-> | ->] H; cbn; rewrite !H by lia; reflexivity. Qed.

(** ** Gradients *)
Lemma first_loop : forall F e E me np D mr q p j k, (q < np)%nat -> (p < ff_Q F)%nat -> (j < D)%nat -> (k <= D)%nat ->
  let R := packed 0 [np; ff_Q F; D] in let mat := subtensor (ff_data F) [Slice; Slice; Idx e] in
  fold_left (fun m j => assign m (subtensor R [Slice; Slice; Idx j])
      (fun q p => rsum (ff_nb F) (fun k => emap me (subtensor E [Slice; Slice; Idx j]) q k * emap (ff_mem F) mat k p))) (seq 0 k) mr (v_addr R [q; p; j])
  = if (j <? k)%nat then rsum (ff_nb F) (fun k => emap me (subtensor E [Slice; Slice; Idx j]) q k * emap (ff_mem F) mat k p) else mr (v_addr R [q; p; j]).
Proof.
  intros F e E me np D mr q p j k Hq Hp Hj Hk R mat. induction k as [| k IH]; [reflexivity |].
  rewrite seq_S, fold_left_app. cbn [fold_left Nat.add]. unfold R. rewrite addr3'.
  destruct (Nat.eq_dec j k) as [-> | Hne].
  - rewrite <- (sub3 np (ff_Q F) D k q p). rewrite assign_read; [| rewrite sub3_packed; apply packed_inj2 | exact Hq | exact Hp].
    now replace (k <? S k)%nat with true by (symmetry; apply Nat.ltb_lt; lia).
  - rewrite assign_other.
    + specialize (IH ltac:(lia)). unfold R in IH. rewrite addr3' in IH. rewrite IH.
      replace (j <? S k)%nat with (j <? k)%nat; [reflexivity |]. destruct (Nat.ltb_spec j k); destruct (Nat.ltb_spec j (S k)); try reflexivity; lia.
    + intros r c Hr Hc Ea. rewrite sub3_packed in Hr, Hc. cbn [v_shape packed nth] in Hr, Hc. rewrite sub3 in Ea. apply (inj3 np (ff_Q F) D) in Ea; try assumption; lia.
Qed.
Lemma second_loop : forall np Q D (JI : view) (mj m1 : mem) q p j k, (q < np)%nat -> (p < Q)%nat -> (j < D)%nat -> (k <= np)%nat ->
  (forall q, nth 0 (v_shape (subtensor JI [Slice; Slice; Idx q])) 0%nat = D) ->
  let R := packed 0 [np; Q; D] in
  fold_left (fun m q => assign m (subtensor R [Idx q; Slice; Slice]) (fun p j => rsum (nth 0 (v_shape (subtensor JI [Slice; Slice; Idx q])) 0%nat)
      (fun a => emap m (subtensor R [Idx q; Slice; Slice]) p a * emap mj (subtensor JI [Slice; Slice; Idx q]) a j))) (seq 0 k) m1 (v_addr R [q; p; j])
  = if (q <? k)%nat then rsum D (fun a => m1 (v_addr R [q; p; a]) * emap mj (subtensor JI [Slice; Slice; Idx q]) a j) else m1 (v_addr R [q; p; j]).
Proof.
  intros np Q D JI mj m1 q p j k Hq Hp Hj Hk HJ R. revert j Hj. induction k as [| k IH]; intros j Hj; [reflexivity |]. specialize (IH ltac:(lia)).
  rewrite seq_S, fold_left_app. cbn [fold_left Nat.add]. unfold R in *. rewrite addr3'.
  destruct (Nat.eq_dec q k) as [-> | Hne].
  - rewrite <- (sub1 np Q D k p j). rewrite assign_read.
    + rewrite HJ. replace (k <? S k)%nat with true by (symmetry; apply Nat.ltb_lt; lia). apply rsum_ext. intros a Ha. f_equal.
      unfold emap. rewrite sub1, <- (addr3' np Q D). rewrite IH by exact Ha. now rewrite Nat.ltb_irrefl.
    + intros r c r' c' H1 H2 H3 H4 Ea. rewrite sub1_shape in *. cbn [nth] in *. rewrite !sub1 in Ea. apply (inj3 np Q D) in Ea; try assumption. tauto.
    + rewrite sub1_shape. exact Hp.
    + rewrite sub1_shape. exact Hj.
  - rewrite assign_other.
    + rewrite <- (addr3' np Q D q p j), IH by exact Hj.
      replace (q <? S k)%nat with (q <? k)%nat; [reflexivity |]. destruct (Nat.ltb_spec q k); destruct (Nat.ltb_spec q (S k)); try reflexivity; lia.
    + intros r c Hr Hc Ea. rewrite sub1_shape in Hr, Hc. cbn [nth] in Hr, Hc. rewrite sub1 in Ea. apply (inj3 np Q D) in Ea; try assumption; lia.
Qed.
Lemma ff_gradient_read : forall F e (me mj mr : mem) np D q p j, (q < np)%nat -> (p < ff_Q F)%nat -> (j < D)%nat ->
  let E := packed 0 [np; ff_nb F; D] in let R := packed 0 [np; ff_Q F; D] in let JI := packed 0 [D; D; np] in
  ff_gradient F e E me JI mj R mr (v_addr R [q; p; j])
  = rsum D (fun a => rsum (ff_nb F) (fun k => me (v_addr E [q; k; a]) * ff_mem F (e * (ff_nb F * ff_Q F) + (p * ff_nb F + k))%nat)
      * emap mj (subtensor JI [Slice; Slice; Idx q]) a j).
Proof.
  intros F e me mj mr np D q p j Hq Hp Hj E R JI. unfold ff_gradient. cbv zeta.
  replace (nth 0 (v_shape R) 0%nat) with np by reflexivity. replace (nth 2 (v_shape E) 0%nat) with D by reflexivity.
  unfold R. rewrite (second_loop np (ff_Q F) D JI mj) by (auto; intros; reflexivity).
  replace (q <? np)%nat with true by (symmetry; now apply Nat.ltb_lt). apply rsum_ext. intros a Ha. f_equal.
  rewrite (first_loop F e E me np D mr q p a D Hq Hp Ha (le_n _)). replace (a <? D)%nat with true by (symmetry; now apply Nat.ltb_lt).
  apply rsum_ext. intros k Hk. unfold emap. rewrite coefficient. unfold E. now rewrite sub3, addr3'.
Qed.

(** ** Calculus *)
Lemma lim_near : forall f g t0 l, (exists eps, 0 < eps /\ forall t, Rabs (t - t0) < eps -> f t = g t) -> derivable_pt_lim f t0 l -> derivable_pt_lim g t0 l.
Proof.
  intros f g t0 l (eps & He & H) L e Hpos. destruct (L e Hpos) as (d & Hd).
  assert (M : 0 < Rmin d eps) by (apply Rmin_pos; [apply cond_pos | exact He]).
  exists (mkposreal _ M). intros h Hh Hlt. cbn [pos] in Hlt.
  rewrite <- (H (t0 + h)), <- (H t0); [apply Hd; [exact Hh |] | |].
  - eapply Rlt_le_trans; [exact Hlt | apply Rmin_l].
  - replace (t0 - t0) with 0 by ring. rewrite Rabs_R0. exact He.
  - replace (t0 + h - t0) with h by ring. eapply Rlt_le_trans; [exact Hlt | apply Rmin_r].
Qed.
Lemma with_coord_same : forall xi d, with_coord xi d (xi d) = xi.
Proof. intros. apply functional_extensionality. intros e. unfold with_coord. destruct (Nat.eqb_spec e d); congruence. Qed.
(** The chain rule for w o X = u. *)
Lemma chain : forall D (X : (nat -> R) -> nat -> R) u w xi J g a l, (a < D)%nat -> jacobian_of D X xi J -> near D xi (fun x => w (X x) = u x) ->
  gradient_at D w (X xi) g -> partial_derivative u a xi l -> l = rsum D (fun i => g i * J i a).
Proof.
  intros D X u w xi J g a l Ha HJ (eps & He & Hn) Hg Hu.
  pose proof (Hg (fun t => X (with_coord xi a t)) (xi a) (fun i => J i a)) as L. cbv beta in L. rewrite with_coord_same in L.
  specialize (L eq_refl (fun i Hi => HJ i a Hi Ha)).
  eapply uniqueness_limite; [exact Hu |]. eapply lim_near; [| exact L]. exists eps. split; [exact He |]. intros t Ht.
  apply Hn. intros d Hd. unfold with_coord. destruct (Nat.eqb_spec d a) as [-> | _]; [exact Ht |].
  replace (xi d - xi d) with 0 by ring. now rewrite Rabs_R0.
Qed.
