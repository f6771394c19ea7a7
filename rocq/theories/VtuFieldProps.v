(** Property theorems: what the files for visualisation show (C78). *)
Require Import List Arith Lia Reals Lra ZArith Permutation FunctionalExtensionality.
Require Import Verif.Base Verif.LinAlg Verif.MultiIndexModel Verif.MultiIndexProps Verif.TensorModel Verif.TensorProps Verif.SimplexModel Verif.TopoModel Verif.FaultModel
  Verif.GeometryModel Verif.GeometryProofs Verif.BasisSpec Verif.QuadratureModel Verif.QuadratureSpec Verif.RefElementModel Verif.RefElementProofs Verif.RefElementProps
  Verif.InterpolationSpec Verif.ErrorSpec Verif.ErrorModel Verif.ErrorProofs Verif.ErrorProps Verif.ErrorExactProps Verif.VtuModel Verif.VtuProps Verif.VtuFieldModel.
Import ListNotations.
Local Open Scope R_scope.
Local Open Scope opt_scope.

(** * Loops over elements *)
Lemma nested_writes {P I} (a : I -> P -> nat) (v : I -> P -> R) (ps : list P) (is : list I) : forall m,
  fold_left (fun m p => fold_left (fun m i => write m (a i p) (v i p)) is m) ps m = writes m (flat_map (fun p => map (fun i => (a i p, v i p)) is) ps).
Proof.
  induction ps as [|p ps IH]; intro m; [reflexivity|]. cbn [fold_left flat_map]. rewrite IH, writes_app. f_equal. unfold writes.
  clear IH. generalize m. induction is as [|i is IHi]; intro m'; [reflexivity|]. cbn. apply IHi.
Qed.
Section Loop.
Variables (n ne Q : nat) (M : Type) (step : M * mem -> nat -> M * mem) (P : nat -> nat -> (nat -> R) -> Prop).
Local Notation data := (packed 0 [n; ne; Q]).
Hypothesis Pext : forall e i f g, (forall p, (p < Q)%nat -> f p = g p) -> P e i f -> P e i g.
Hypothesis Hstep : forall st e, (e < ne)%nat ->
  (forall i, (i < n)%nat -> P e i (fun p => snd (step st e) (v_addr data [i; e; p]))) /\
  (forall i e' p, (i < n)%nat -> (e' < ne)%nat -> (p < Q)%nat -> e' <> e -> snd (step st e) (v_addr data [i; e'; p]) = snd st (v_addr data [i; e'; p])).
Lemma element_loop : forall k st, (k <= ne)%nat -> forall i e, (i < n)%nat -> (e < k)%nat -> P e i (fun p => snd (fold_left step (seq 0 k) st) (v_addr data [i; e; p])).
Proof.
  induction k as [|k IH]; intros st Hk i e Hi He; [lia|]. rewrite seq_S, fold_left_app. cbn [fold_left Nat.add].
  destruct (Hstep (fold_left step (seq 0 k) st) k ltac:(lia)) as [H1 H2]. destruct (Nat.eq_dec e k) as [-> |N]; [apply H1; exact Hi|].
  eapply Pext; [|apply (IH st ltac:(lia) i e Hi ltac:(lia))]. intros p Hp. cbv beta. symmetry. apply H2; lia || assumption.
Qed.
End Loop.
Lemma data_inj n ne Q i e p i' e' p' : (i < n)%nat -> (e < ne)%nat -> (p < Q)%nat -> (i' < n)%nat -> (e' < ne)%nat -> (p' < Q)%nat ->
  v_addr (packed 0 [n; ne; Q]) [i; e; p] = v_addr (packed 0 [n; ne; Q]) [i'; e'; p'] -> i = i' /\ e = e' /\ p = p'.
Proof. intros. rewrite !addr3' in *. eapply inj3; eauto. Qed.
Lemma part_nth m a k j : (j < k)%nat -> nth j (part m a k) 0 = m (a + j)%nat.
Proof. intro H. unfold part. rewrite (nth_indep _ 0 (m (a + 0)%nat)) by (rewrite map_length, seq_length; exact H). rewrite (map_nth (fun j => m (a + j)%nat)), seq_nth by exact H. reflexivity. Qed.
Lemma data_address n ne Q i e p : (v_addr (packed 0 [n; ne; Q]) [0; 0; p] + (e * n + i) = v_addr (packed 0 [n; ne; Q]) [i; e; p])%nat.
Proof. rewrite !addr3'. lia. Qed.

(** * One rank *)
Section Rank.
Variables (D : nat) (F : fe_function) (b : nat -> (nat -> R) -> R) (points : list (nat -> R)).
Local Notation n := (length points).
Hypothesis HR : represents D (ff_re F) (ff_nb F) b.
Local Notation u e p := (fe_value b (ff_nb F) (ff_Q F) (ff_mem F) e p).

Lemma addPointData_ok m0 : exists arrays, addPointData F m0 points = Some arrays /\ length arrays = ff_Q F /\
  forall p, (p < ff_Q F)%nat -> length (nth p arrays []) = (ff_ne F * n)%nat /\
    forall e i, (e < ff_ne F)%nat -> (i < n)%nat -> nth (e * n + i) (nth p arrays []) 0 = u e p (point points i).
Proof.
  unfold addPointData. cbv zeta. destruct (evaluated D F b m0 points HR) as (E & me & EE & V). rewrite EE. cbn [bind].
  match goal with |- context [fold_left ?s _ _] => set (step := s) end.
  pose proof (element_loop n (ff_ne F) (ff_Q F) mem step (fun e i f => forall p, (p < ff_Q F)%nat -> f p = u e p (point points i))) as L.
  assert (L1 : forall e i f g, (forall p, (p < ff_Q F)%nat -> f p = g p) -> (forall p, (p < ff_Q F)%nat -> f p = u e p (point points i)) -> forall p, (p < ff_Q F)%nat -> g p = u e p (point points i)).
  { intros e i f g H G p Hp. rewrite <- H by exact Hp. now apply G. }
  specialize (L L1).
  assert (L2 : forall st e, (e < ff_ne F)%nat ->
    (forall i, (i < n)%nat -> forall p, (p < ff_Q F)%nat -> snd (step st e) (v_addr (packed 0 [n; ff_ne F; ff_Q F]) [i; e; p]) = u e p (point points i)) /\
    (forall i e' p, (i < n)%nat -> (e' < ff_ne F)%nat -> (p < ff_Q F)%nat -> e' <> e -> snd (step st e) (v_addr (packed 0 [n; ff_ne F; ff_Q F]) [i; e'; p]) = snd st (v_addr (packed 0 [n; ff_ne F; ff_Q F]) [i; e'; p]))).
  { intros [mr md] e He. unfold step. cbn [fst snd]. set (data := packed 0 [n; ff_ne F; ff_Q F]). set (result := packed 0 [n; ff_Q F]). set (mr' := ff_map F e E me result mr).
    rewrite (nested_writes (fun i p => v_addr data [i; e; p]) (fun i p => mr' (v_addr result [i; p]))).
    assert (Val : forall i p, (i < n)%nat -> (p < ff_Q F)%nat -> mr' (v_addr result [i; p]) = u e p (point points i)).
    { intros i p Hi Hp. pose proof (ff_map_read F e E me n mr i p Hi Hp) as X. unfold emap at 1 in X. unfold mr', result. rewrite X. unfold fe_value. apply rsum_ext. intros k Hk. rewrite V by assumption. ring. }
    split.
    - intros i Hi p Hp. apply writes_read.
      + exists (v_addr data [i; e; p], mr' (v_addr result [i; p])). split; [|reflexivity]. apply in_flat_map. exists p. split; [apply in_seq; lia|]. apply in_map_iff. exists i. split; [reflexivity|apply in_seq; lia].
      + intros x Hx Ex. apply in_flat_map in Hx as (p' & Hp' & Hx). apply in_map_iff in Hx as (i' & <- & Hi'). apply in_seq in Hp', Hi'. cbn [fst snd] in *. unfold data in Ex. apply data_inj in Ex; try lia. destruct Ex as (-> & _ & ->). now apply Val.
    - intros i e' p Hi He' Hp Hne. apply writes_other. intros x Hx Ex. apply in_flat_map in Hx as (p' & Hp' & Hx). apply in_map_iff in Hx as (i' & <- & Hi'). apply in_seq in Hp', Hi'. cbn [fst snd] in *. unfold data in Ex. apply data_inj in Ex; try lia. }
  specialize (L L2 (ff_ne F) (m0, m0) (le_n _)). destruct (fold_left step (seq 0 (ff_ne F)) (m0, m0)) as [mr md]. cbn [snd] in L.
  eexists. split; [reflexivity|]. split; [rewrite map_length, seq_length; reflexivity|]. intros p Hp.
  assert (Np : forall (f : nat -> list R), nth p (map f (seq 0 (ff_Q F))) [] = f p).
  { intro f. rewrite (nth_indep _ [] (f 0%nat)) by (rewrite map_length, seq_length; exact Hp). rewrite (map_nth f), seq_nth by exact Hp. reflexivity. }
  rewrite Np. split; [unfold part; rewrite map_length, seq_length; lia|]. intros e i He Hi. rewrite part_nth by nia. rewrite data_address. now apply L.
Qed.

Section Jacobian.
Variables (cl : curvilinear) (bg : nat -> (nat -> R) -> R) (J : nat -> nat -> nat -> nat -> R).
Hypothesis HD : (D = 2 \/ D = 3)%nat.
Hypothesis HG : represents D (cv_re cl) (cv_nb cl) bg.
Local Notation X e := (place (cv_nb cl) bg (cv_pos cl e)).
Hypothesis HJ : forall e q, (e < ff_ne F)%nat -> (q < n)%nat -> jacobian_of D (X e) (point points q) (J e q) /\ geo_det D (J e q) <> 0.
(** v d is the derivative of quantity p in direction d of space, in element e at point i. *)
Definition space_derivatives (e i p : nat) (v : nat -> R) : Prop :=
  (forall a, (a < D)%nat -> partial_derivative (u e p) a (point points i) (rsum D (fun j => v j * J e i j a))) /\
  (forall w g, near D (point points i) (fun xi => w (X e xi) = u e p xi) -> gradient_at D w (X e (point points i)) g -> forall j, (j < D)%nat -> v j = g j).

Lemma addJacobianData_ok m0 : exists arrays, addJacobianData D cl 0 F m0 points = Some arrays /\
  map fst arrays = flat_map (fun d => map (fun p => (p, d)) (seq 0 (ff_Q F))) (seq 0 D) /\
  exists value, (forall e i p, (e < ff_ne F)%nat -> (i < n)%nat -> (p < ff_Q F)%nat -> space_derivatives e i p (value e i p)) /\
    forall p d a, In ((p, d), a) arrays -> length a = (ff_ne F * n)%nat /\ forall e i, (e < ff_ne F)%nat -> (i < n)%nat -> nth (e * n + i) a 0 = value e i p d.
Proof.
  unfold addJacobianData. cbv zeta.
  assert (GT : exists E me geoD mgD, gradientEvaluationTensor F m0 points = Some (E, me) /\ re_gradient (cv_re cl) m0 points [0; 1; 2]%nat = Some (geoD, mgD) /\
    forall e mJ0 mi0 mr, (e < ff_ne F)%nat ->
    let mi := cl_jacobianInv D (packed 0 [D; D; n]) (cl_jacobian D (cv_nb cl) (cv_pos cl e) geoD mgD (packed 0 [D; D; n]) mJ0) (packed 0 [D; D; n]) mi0 in
    forall i p, (i < n)%nat -> (p < ff_Q F)%nat -> space_derivatives e i p (fun d => ff_gradient F e E me (packed 0 [D; D; n]) mi (packed 0 [n; ff_Q F; D]) mr (v_addr (packed 0 [n; ff_Q F; D]) [i; p; d]))).
  { destruct (proj2 HR HD m0 points [2; 0; 1]%nat) as (E & me & E1 & _).
    { apply Permutation_sym. apply (perm_trans (l' := [0; 2; 1]%nat)); [apply perm_skip, perm_swap | apply perm_swap]. }
    destruct (proj2 HG HD m0 points [0; 1; 2]%nat (Permutation_refl _)) as (geoD & mgD & E2 & _).
    exists E, me, geoD, mgD. split; [exact E1|]. split; [exact E2|]. intros e mJ0 mi0 mr He mi i p Hi Hp.
    destruct (fe_gradient_values D F b cl bg e points m0 mJ0 mi0 mr (J e) HD HR HG (fun q Hq => HJ e q He Hq)) as (E' & me' & geoD' & mgD' & E1' & E2' & _ & G).
    unfold gradientEvaluationTensor in E1'. rewrite E1 in E1'. injection E1' as <- <-. rewrite E2 in E2'. injection E2' as <- <-.
    destruct (G i p Hi Hp) as [G1 G2]. split; [exact G1|]. intros w g Hn Hg j Hj. exact (G2 w g Hn Hg j Hj). }
  destruct GT as (E & me & geoD & mgD & E1 & E2 & GV). rewrite E2. cbn [bind]. rewrite E1. cbn [bind].
  match goal with |- context [fold_left ?s _ _] => set (step := s) end.
  set (C := (D * ff_Q F)%nat).
  pose proof (element_loop n (ff_ne F) C (mem * mem * mem) step (fun e i f => forall p, (p < ff_Q F)%nat -> space_derivatives e i p (fun d => f (d + p * D)%nat))) as L.
  assert (Cb : forall d p, (d < D)%nat -> (p < ff_Q F)%nat -> (d + p * D < C)%nat) by (intros; unfold C; nia).
  assert (L1 : forall e i f g, (forall p, (p < C)%nat -> f p = g p) -> (forall p, (p < ff_Q F)%nat -> space_derivatives e i p (fun d => f (d + p * D)%nat)) ->
    forall p, (p < ff_Q F)%nat -> space_derivatives e i p (fun d => g (d + p * D)%nat)).
  { intros e i f g H G p Hp. destruct (G p Hp) as [G1 G2]. split.
    - intros a Ha. rewrite (rsum_ext D _ (fun j => f (j + p * D)%nat * J e i j a)) by (intros j Hj; rewrite H by (now apply Cb); reflexivity). now apply G1.
    - intros w gr Hn Hg j Hj. rewrite <- H by now apply Cb. exact (G2 w gr Hn Hg j Hj). }
  specialize (L L1).
  assert (L2 : forall st e, (e < ff_ne F)%nat ->
    (forall i, (i < n)%nat -> forall p, (p < ff_Q F)%nat -> space_derivatives e i p (fun d => snd (step st e) (v_addr (packed 0 [n; ff_ne F; C]) [i; e; (d + p * D)%nat]))) /\
    (forall i e' p, (i < n)%nat -> (e' < ff_ne F)%nat -> (p < C)%nat -> e' <> e -> snd (step st e) (v_addr (packed 0 [n; ff_ne F; C]) [i; e'; p]) = snd st (v_addr (packed 0 [n; ff_ne F; C]) [i; e'; p]))).
  { intros [[[mJ mj] mr] md] e He. unfold step, volume_jacobianInv. cbn [fst snd v_shape packed].
    fold C. change (Build_view 0 [n; ff_ne F; C] _) with (packed 0 [n; ff_ne F; C]).
    set (data := packed 0 [n; ff_ne F; C]). set (result := packed 0 [n; ff_Q F; D]). set (Jv := packed 0 [D; D; n]).
    set (mj' := cl_jacobianInv D Jv (cl_jacobian D (cv_nb cl) (cv_pos cl e) geoD mgD Jv mJ) Jv mj).
    set (mr' := ff_gradient F e E me Jv mj' result mr).
    assert (W : forall ds m, fold_left (fun m d => fold_left (fun m p => fold_left (fun m i => write m (v_addr data [i; e; (d + p * D)%nat]) (mr' (v_addr result [i; p; d]))) (seq 0 n) m) (seq 0 (ff_Q F)) m) ds m
      = writes m (flat_map (fun d => flat_map (fun p => map (fun i => (v_addr data [i; e; (d + p * D)%nat], mr' (v_addr result [i; p; d]))) (seq 0 n)) (seq 0 (ff_Q F))) ds)).
    { induction ds as [|d ds IH]; intro m; [reflexivity|]. cbn [fold_left flat_map]. rewrite IH, writes_app. f_equal.
      apply (nested_writes (fun i p => v_addr data [i; e; (d + p * D)%nat]) (fun i p => mr' (v_addr result [i; p; d]))). }
    rewrite W. set (l := flat_map _ (seq 0 D)).
    assert (Hl : forall x, In x l -> exists d p i, (d < D)%nat /\ (p < ff_Q F)%nat /\ (i < n)%nat /\ x = (v_addr data [i; e; (d + p * D)%nat], mr' (v_addr result [i; p; d]))).
    { intros x Hx. apply in_flat_map in Hx as (d & Hd & Hx). apply in_flat_map in Hx as (p & Hp & Hx). apply in_map_iff in Hx as (i & <- & Hi). apply in_seq in Hd, Hp, Hi. exists d, p, i. repeat split; lia. }
    split.
    - intros i Hi p Hp.
      assert (RD : forall d, (d < D)%nat -> writes md l (v_addr data [i; e; (d + p * D)%nat]) = mr' (v_addr result [i; p; d])).
      { intros d Hd. apply writes_read.
        - exists (v_addr data [i; e; (d + p * D)%nat], mr' (v_addr result [i; p; d])). split; [|reflexivity]. apply in_flat_map. exists d. split; [apply in_seq; lia|]. apply in_flat_map. exists p. split; [apply in_seq; lia|].
          apply in_map_iff. exists i. split; [reflexivity|apply in_seq; lia].
        - intros x Hx Ex. destruct (Hl x Hx) as (d' & p' & i' & Hd' & Hp' & Hi' & ->). cbn [fst snd] in *. unfold data in Ex. apply data_inj in Ex; try assumption; try (now apply Cb). destruct Ex as (-> & _ & Ec).
          assert (p' = p) by nia. subst p'. assert (d' = d) by nia. subst d'. reflexivity. }
      destruct (GV e mJ mj mr He i p Hi Hp) as [G1 G2]. fold Jv in G1, G2. fold mj' in G1, G2. fold result in G1, G2. fold mr' in G1, G2. split.
      + intros a Ha. rewrite (rsum_ext D _ (fun j => mr' (v_addr result [i; p; j]) * J e i j a)) by (intros j Hj; rewrite RD by exact Hj; reflexivity). now apply G1.
      + intros w g Hn Hg j Hj. rewrite RD by exact Hj. exact (G2 w g Hn Hg j Hj).
    - intros i e' p Hi He' Hp Hne. apply writes_other. intros x Hx Ex. destruct (Hl x Hx) as (d' & p' & i' & Hd' & Hp' & Hi' & ->). cbn [fst snd] in *. unfold data in Ex. apply data_inj in Ex; try assumption; try (now apply Cb). destruct Ex as (_ & Ee & _). congruence. }
  specialize (L L2 (ff_ne F) ((m0, m0, m0), m0) (le_n _)). destruct (fold_left step (seq 0 (ff_ne F)) ((m0, m0, m0), m0)) as [ms md]. cbn [snd] in L.
  eexists. split; [reflexivity|]. split.
  { generalize (seq 0 D). induction l as [|d l IH]; [reflexivity|]. cbn [flat_map]. rewrite map_app, IH. f_equal. rewrite map_map. reflexivity. }
  exists (fun e i p d => md (v_addr (packed 0 [n; ff_ne F; C]) [i; e; (d + p * D)%nat])). split.
  - intros e i p He Hi Hp. exact (L i e Hi He p Hp).
  - intros p d a Ha. apply in_flat_map in Ha as (d' & Hd' & Ha). apply in_map_iff in Ha as (p' & Ep & Hp'). injection Ep as -> -> <-. apply in_seq in Hd', Hp'.
    split; [unfold part; rewrite map_length, seq_length; lia|]. intros e i He Hi. rewrite part_nth by nia. now rewrite data_address.
Qed.
End Jacobian.
End Rank.

(** * Where a piece shows the points of an element *)
(** The number of point k of cell c, as a reader finds it: the entries of a cell in the array of connectivity begin
    where those of the cell before end. *)
Definition file_point (offs conn : list Z) (c k : nat) : nat :=
  Z.to_nat (nth (Z.to_nat (match c with O => 0%Z | S c' => nth c' offs 0%Z end) + k)%nat conn 0%Z).
(** The cells of a piece, as pairs of a rank and an element of that rank, with ne r elements on rank r. *)
Definition cells (ne : list nat) : list (nat * nat) := flat_map (fun rn => map (pair (fst rn)) (seq 0 (snd rn))) (combine (seq 0 (length ne)) ne).
Lemma file_point_no n num conn offs c k : connectivity n num = Some conn -> cell_offsets n num = Some offs -> (c < num)%nat -> (k < n)%nat -> file_point offs conn c k = (c * n + k)%nat.
Proof.
  unfold connectivity, cell_offsets. destruct (_ <=? _)%Z; [|discriminate]. intros E1 E2 Hc Hk. injection E1 as <-. injection E2 as <-. unfold file_point.
  assert (Hf : match c with O => 0%Z | S c' => nth c' (map (fun m => Z.of_nat (n * m)) (seq 1 num)) 0%Z end = Z.of_nat (n * c)).
  { destruct c as [|c']; [rewrite Nat.mul_0_r; reflexivity|]. rewrite (nth_indep _ 0%Z (Z.of_nat (n * 0))) by (rewrite map_length, seq_length; lia).
    rewrite (map_nth (fun m => Z.of_nat (n * m))), seq_nth by lia. reflexivity. }
  rewrite Hf, Nat2Z.id. assert (Hb : (n * c + k < num * n)%nat) by nia.
  rewrite (nth_indep _ 0%Z (Z.of_nat 0)) by (rewrite map_length, seq_length; exact Hb). rewrite (map_nth Z.of_nat), seq_nth by exact Hb. rewrite Nat2Z.id. lia.
Qed.
Lemma cells_gather {A} (zero : A) : forall (ne : list nat) r0 (l : list (nat * list A)) n,
  Forall2 (fun k x => length (snd x) = (k * n)%nat) ne l -> map fst l = seq r0 (length ne) ->
  forall c r e, nth_error (flat_map (fun rn => map (pair (fst rn)) (seq 0 (snd rn))) (combine (seq r0 (length ne)) ne)) c = Some (r, e) ->
  (r0 <= r < r0 + length ne)%nat /\ (e < nth (r - r0) ne 0)%nat /\
  forall k, (k < n)%nat -> nth (c * n + k) (concat (map snd l)) zero = nth (e * n + k) (nth (r - r0) (map snd l) []) zero.
Proof.
  induction ne as [|m ne IH]; intros r0 l n F E c r e H; [destruct c; discriminate|].
  inversion F as [|x y xs ys L0 F' E1 E2]; subst. cbn [length seq map] in E. injection E as Er E. cbn [length seq combine flat_map fst snd] in H.
  destruct (Nat.lt_ge_cases c m) as [Hc|Hc].
  - rewrite nth_error_app1 in H by (rewrite map_length, seq_length; exact Hc).
    assert (Hs : nth_error (map (pair r0) (seq 0 m)) c = Some (r0, c)) by (apply map_nth_error; rewrite (nth_error_nth' _ 0%nat) by (rewrite seq_length; exact Hc); now rewrite seq_nth by exact Hc).
    rewrite Hs in H. injection H as <- <-. rewrite Nat.sub_diag. cbn [length nth map concat]. repeat split; try lia. intros k Hk. rewrite app_nth1 by (rewrite L0; nia). reflexivity.
  - rewrite nth_error_app2 in H by (rewrite map_length, seq_length; exact Hc). rewrite map_length, seq_length in H.
    destruct (IH (S r0) ys n F' E _ _ _ H) as (H1 & H2 & H3). cbn [length]. replace (r - r0)%nat with (S (r - S r0)) by lia. cbn [nth map concat]. repeat split; try lia. intros k Hk.
    rewrite app_nth2 by (rewrite L0; nia). rewrite <- H3 by exact Hk. f_equal. rewrite L0. assert (Ha : exists a, c = (m + a)%nat) by (exists (c - m)%nat; lia). destruct Ha as (a & ->). replace (m + a - m)%nat with a by lia. nia.
Qed.
Lemma cells_length ne : length (cells ne) = fold_right Nat.add 0%nat ne.
Proof.
  unfold cells. enough (G : forall r0, length (flat_map (fun rn => map (pair (fst rn)) (seq 0 (snd rn))) (combine (seq r0 (length ne)) ne)) = fold_right Nat.add 0%nat ne) by apply G.
  induction ne as [|m ne IH]; intro r0; [reflexivity|]. cbn [length seq combine flat_map fst snd fold_right]. rewrite app_length, map_length, seq_length, IH. reflexivity.
Qed.
(** The same with one list per rank. *)
Lemma cells_read {A} (zero : A) ne (l : list (list A)) n : Forall2 (fun k x => length x = (k * n)%nat) ne l ->
  forall c r e, nth_error (cells ne) c = Some (r, e) -> (r < length ne)%nat /\ (e < nth r ne 0)%nat /\
  forall k, (k < n)%nat -> nth (c * n + k) (gather l) zero = nth (e * n + k) (nth r l []) zero.
Proof.
  intros F c r e H. assert (L : length ne = length l) by (clear - F; induction F; cbn; congruence).
  destruct (cells_gather zero ne 0 (combine (seq 0 (length l)) l) n) with (c := c) (r := r) (e := e) as (H1 & H2 & H3).
  - clear H L. generalize 0%nat. induction F as [|k x ne l Hk F IH]; intro r0; [constructor|]. cbn [length seq combine]. constructor; [exact Hk|apply IH].
  - rewrite L. generalize 0%nat. induction l as [|x l IHl]; intro r0; [reflexivity|]. cbn. f_equal. clear. generalize (S r0). induction l as [|y l IHl]; intro r; [reflexivity|]. cbn. f_equal. apply IHl.
  - exact H.
  - assert (S2 : forall r0 (l : list (list A)), map snd (combine (seq r0 (length l)) l) = l) by (intros r0 l'; revert r0; induction l' as [|x l' IH]; intro r0; [reflexivity|]; cbn; f_equal; apply IH).
    rewrite S2, Nat.sub_0_r in *. repeat split; try lia. exact H3.
Qed.

Lemma map_opt_length {A B} (f : A -> option B) : forall l r, map_opt f l = Some r -> length r = length l.
Proof.
  induction l as [|a l IH]; intros r E; cbn in E; [injection E as <-; reflexivity|]. destruct (f a); [|discriminate]. destruct (map_opt f l); [|discriminate].
  injection E as <-. cbn. f_equal. now apply IH.
Qed.
Section Points.
Variables (D : nat) (cl : curvilinear) (bg : nat -> (nat -> R) -> R) (points : list (nat -> R)).
Local Notation n := (length points).
Hypothesis HG : represents D (cv_re cl) (cv_nb cl) bg.
Lemma stored_points pos (ps : list (nat -> R)) (E : view) (me mr : mem) : length ps = n ->
  (forall j q, (j < cv_nb cl)%nat -> (q < n)%nat -> emap me E j q = bg j (point ps q)) ->
  let x := stored (cl_map (cv_nb cl) pos E me (packed 0 [D; n]) mr) (n * D) in
  length x = (n * D)%nat /\ forall k d, (k < n)%nat -> (d < D)%nat -> nth (d + k * D) x 0 = place (cv_nb cl) bg pos (point ps k) d.
Proof.
  intros Hp V x. unfold x, stored. split; [now rewrite map_length, seq_length|]. intros k d Hk Hd.
  set (m := cl_map _ _ _ _ _ _). rewrite (nth_indep _ 0 (m 0%nat)) by (rewrite map_length, seq_length; nia). rewrite (map_nth m), seq_nth by nia. cbn [Nat.add].
  replace (d + k * D)%nat with (v_addr (packed 0 [D; n]) [d; k]) by (rewrite addr2'; lia).
  apply (coords_read D (cv_nb cl) bg pos n me mr E ps k d Hk Hd (eq_sym Hp)). intros j Hj. now apply V.
Qed.
Lemma volume_points_ok from ne m0 : exists els, volume_points D cl from ne m0 points = Some els /\ length els = ne /\
  forall e, (e < ne)%nat -> length (nth e els []) = (n * D)%nat /\
    forall k d, (k < n)%nat -> (d < D)%nat -> nth (d + k * D) (nth e els []) 0 = place (cv_nb cl) bg (cv_pos cl (e + from)%nat) (point points k) d.
Proof.
  unfold volume_points. cbv zeta. destruct (proj1 HG m0 points [0; 1]%nat (Permutation_refl _)) as (E & me & E1 & _ & V). rewrite E1. cbn [bind].
  eexists. split; [reflexivity|]. split; [now rewrite map_length, seq_length|]. intros e He.
  set (f := fun elNo => _). rewrite (nth_indep _ [] (f 0%nat)) by (rewrite map_length, seq_length; exact He). rewrite (map_nth f), seq_nth by exact He. cbn [Nat.add].
  unfold f, volume_map. apply stored_points; [reflexivity|]. intros j q Hj Hq. exact (V j q Hj Hq).
Qed.
Lemma boundary_points_ok (HD : (D = 2 \/ D = 3)%nat) upward downward fctNos el fc m0 :
  (forall b, (b < length fctNos)%nat -> exists fctNo lf fs, nth_error fctNos b = Some fctNo /\ nth_error (upward fctNo) 0 = Some (el b)
     /\ find_index fctNo (downward (el b)) = Some lf /\ f2v D = Some fs /\ nth_error fs lf = Some (fc b)) ->
  exists els, boundary_points D cl upward downward fctNos m0 points = Some els /\ length els = length fctNos /\
  forall b, (b < length fctNos)%nat -> length (nth b els []) = (n * D)%nat /\
    forall k d, (k < n)%nat -> (d < D)%nat -> nth (d + k * D) (nth b els []) 0 = place (cv_nb cl) bg (cv_pos cl (el b)) (facet_param D (fc b) (point points k)) d.
Proof.
  intro Hf. unfold boundary_points, boundary_bnds, boundary_E. cbv zeta.
  assert (exists fs, f2v D = Some fs) as (fs & Efs) by (destruct HD as [-> | ->]; vm_compute; eauto). rewrite Efs. cbn [bind].
  destruct (map_opt_all (fun fctNo => do elNo <- nth_error (upward fctNo) 0; do f <- find_index fctNo (downward elNo); Some (elNo, f))
    (fun fctNo x => nth_error (upward fctNo) 0 = Some (fst x) /\ find_index fctNo (downward (fst x)) = Some (snd x)) fctNos) as (bnds & Eb & Hb).
  { intros fctNo Hin. destruct (In_nth_error _ _ Hin) as (b & Hnb). assert (Hl : (b < length fctNos)%nat) by (apply nth_error_Some; congruence).
    destruct (Hf b Hl) as (f' & lf & fs' & A1 & A2 & A3 & _). rewrite Hnb in A1. injection A1 as <-. rewrite A2. cbn [bind]. rewrite A3. cbn [bind]. exists (el b, lf). auto. }
  rewrite Eb. cbn [bind].
  destruct (map_opt_all (fun f => re_basis (cv_re cl) m0 (facetParams D f points) [0; 1]%nat)
    (fun f ge => forall k q, (k < cv_nb cl)%nat -> (q < n)%nat -> emap (snd ge) (fst ge) k q = bg k (point (facetParams D f points) q)) fs) as (Es & Ee & He).
  { intros f _. destruct (proj1 HG m0 (facetParams D f points) [0; 1]%nat (Permutation_refl _)) as (E & me & E1 & _ & V). exists (E, me). split; [exact E1|].
    intros k q Hk Hq. cbn [fst snd]. apply (V k q Hk). unfold facetParams. now rewrite map_length. }
  rewrite Ee. cbn [bind].
  assert (Lb : length bnds = length fctNos).
  { exact (map_opt_length _ _ _ Eb). }
  assert (Step : forall b, (b < length fctNos)%nat -> exists m, boundary_map cl bnds Es b (packed 0 [D; n]) m0 = Some m /\
    length (stored m (n * D)) = (n * D)%nat /\ forall k d, (k < n)%nat -> (d < D)%nat -> nth (d + k * D) (stored m (n * D)) 0 = place (cv_nb cl) bg (cv_pos cl (el b)) (facet_param D (fc b) (point points k)) d).
  { intros b Hbl. destruct (Hf b Hbl) as (fctNo & lf & fs' & A1 & A2 & A3 & A4 & A5). rewrite Efs in A4. injection A4 as <-.
    destruct (Hb b fctNo A1) as ([el' lf'] & B1 & B2 & B3). cbn [fst snd] in B2, B3. rewrite A2 in B2. injection B2 as <-. rewrite A3 in B3. injection B3 as <-.
    destruct (He lf (fc b) A5) as ([E me] & C1 & C2). unfold boundary_map. rewrite B1. cbn [bind snd fst]. rewrite C1. cbn [bind snd fst]. eexists. split; [reflexivity|].
    destruct (stored_points (cv_pos cl (el b)) (facetParams D (fc b) points) E me m0) as (S1 & S2); [unfold facetParams; apply map_length|exact C2|]. split; [exact S1|].
    intros k d Hk Hd. rewrite S2 by assumption. f_equal. unfold point, facetParams. rewrite (nth_indep _ _ (facet_param D (fc b) (fun _ => 0))) by (rewrite map_length; exact Hk). apply (map_nth (facet_param D (fc b))). }
  rewrite Lb. destruct (map_opt_all (fun no => do m <- boundary_map cl bnds Es no (packed 0 [D; n]) m0; Some (stored m (n * D)))
    (fun b x => length x = (n * D)%nat /\ forall k d, (k < n)%nat -> (d < D)%nat -> nth (d + k * D) x 0 = place (cv_nb cl) bg (cv_pos cl (el b)) (facet_param D (fc b) (point points k)) d) (seq 0 (length fctNos))) as (els & El & Hel).
  { intros b Hin. apply in_seq in Hin. destruct (Step b ltac:(lia)) as (m & E & R1 & R2). rewrite E. cbn [bind]. eexists. split; [reflexivity|]. split; assumption. }
  exists els. split; [exact El|].
  assert (Hn : forall b, (b < length fctNos)%nat -> nth_error (seq 0 (length fctNos)) b = Some b).
  { intros b Hbl. rewrite (nth_error_nth' _ 0%nat) by (rewrite seq_length; exact Hbl). now rewrite seq_nth by exact Hbl. }
  split.
  - rewrite (map_opt_length _ _ _ El). apply seq_length.
  - intros b Hbl. destruct (Hel b b (Hn b Hbl)) as (x & X1 & X2). rewrite (nth_error_nth _ _ [] X1). exact X2.
Qed.
End Points.

(** * The piece *)
(** The cells of a piece are the elements of its ranks, each once. *)
Theorem cells_are_the_elements : forall ne, NoDup (cells ne) /\ length (cells ne) = fold_right Nat.add 0%nat ne /\
  forall r e, In (r, e) (cells ne) <-> (r < length ne)%nat /\ (e < nth r ne 0)%nat.
Proof.
  intro ne. assert (G : forall r0, let l := flat_map (fun rn => map (pair (fst rn)) (seq 0 (snd rn))) (combine (seq r0 (length ne)) ne) in
    NoDup l /\ forall r e, In (r, e) l <-> (r0 <= r < r0 + length ne)%nat /\ (e < nth (r - r0) ne 0)%nat).
  { induction ne as [|m ne IH]; intro r0; cbn [length seq combine flat_map fst snd].
    - split; [constructor|]. intros r e. cbn. lia.
    - destruct (IH (S r0)) as [N I]. split.
      + assert (NA : forall (l1 l2 : list (nat * nat)), NoDup l1 -> NoDup l2 -> (forall x, In x l1 -> ~ In x l2) -> NoDup (l1 ++ l2)).
        { clear. induction l1 as [|x l1 IH]; intros l2 A B C; [exact B|]. inversion A as [|? ? A1 A2]; subst. cbn. constructor; [|apply IH; auto; intros y Hy; apply C; now right].
          intro Hin. apply in_app_or in Hin as [Hin|Hin]; [now apply A1|exact (C x (or_introl eq_refl) Hin)]. }
        apply NA; [|exact N|].
        * generalize (seq_NoDup m 0). generalize (seq 0 m). induction l as [|a l IHl]; intro A; [constructor|]. inversion A; subst. cbn. constructor; [|now apply IHl]. intro Hin. apply in_map_iff in Hin as (y & Ey & Hy). injection Ey as ->. contradiction.
        * intros [r e] Hx Hin. apply in_map_iff in Hx as (y & Ey & _). injection Ey as -> ->. apply I in Hin. lia.
      + intros r e. rewrite in_app_iff, I, in_map_iff. split.
        * intros [(y & Ey & Hy)|[H1 H2]]; [injection Ey as <- <-; apply in_seq in Hy; rewrite Nat.sub_diag; cbn; lia|]. replace (r - r0)%nat with (S (r - S r0)) by lia. cbn [nth]. lia.
        * intros [H1 H2]. destruct (Nat.eq_dec r r0) as [-> |Hne]; [left; exists e; rewrite Nat.sub_diag in H2; split; [reflexivity|apply in_seq; cbn in H2; lia]|right].
          replace (r - r0)%nat with (S (r - S r0)) in H2 by lia. cbn [nth] in H2. lia. }
  destruct (G 0%nat) as [N I]. split; [exact N|]. split; [apply cells_length|]. intros r e. unfold cells. rewrite I, Nat.sub_0_r. lia.
Qed.
Lemma Forall2_nth {A B} (P : A -> B -> Prop) (da : A) (db : B) la : forall lb, length lb = length la -> (forall i, (i < length la)%nat -> P (nth i la da) (nth i lb db)) -> Forall2 P la lb.
Proof.
  induction la as [|a la IH]; intros [|b lb] L H; try discriminate; [constructor|]. constructor; [exact (H 0%nat ltac:(cbn; lia))|]. apply IH; [cbn in L; lia|]. intros i Hi. exact (H (S i) ltac:(cbn; lia)).
Qed.
Lemma piece_points D n ne (els : list (list (list R))) (where_ : nat -> nat -> nat -> nat -> R) : (D <= 3)%nat -> length els = length ne ->
  (forall r, (r < length ne)%nat -> length (nth r els []) = nth r ne 0%nat /\ forall e, (e < nth r ne 0)%nat -> length (nth e (nth r els []) []) = (n * D)%nat /\
     forall k d, (k < n)%nat -> (d < D)%nat -> nth (d + k * D) (nth e (nth r els []) []) 0 = where_ r e k d) ->
  let num := fold_right Nat.add 0%nat ne in (Z.of_nat (num * n) <= int32_max)%Z ->
  exists parts conn offs, map (all_points R 0 D n) els = map Some parts /\ connectivity n num = Some conn /\ cell_offsets n num = Some offs /\
  forall c r e, nth_error (cells ne) c = Some (r, e) -> forall k d, (k < n)%nat -> (d < 3)%nat ->
    nth (d + file_point offs conn c k * 3) (gather parts) 0 = if (d <? D)%nat then where_ r e k d else 0.
Proof.
  intros HD L H num Hmax.
  assert (F : Forall2 (fun k x => length x = (k * 1)%nat) ne els).
  { apply (Forall2_nth _ 0%nat []); [exact L|]. intros r Hr. destruct (H r Hr) as [A _]. rewrite A. lia. }
  assert (Ln : length (concat els) = num).
  { unfold num. clear - F. induction F as [|k x ne els A F IH]; [reflexivity|]. cbn [concat fold_right]. rewrite app_length, IH, A. lia. }
  destruct (vtu_cells R 0 D n els HD) as (parts & conn & offs & E1 & E2 & E3 & E4 & E5 & E6); [| rewrite Ln; exact Hmax |].
  { intros x e Hx He. apply (In_nth _ _ []) in Hx as (r & Hr & <-). rewrite L in Hr. destruct (H r Hr) as [A B]. apply (In_nth _ _ []) in He as (i & Hi & <-). rewrite A in Hi. apply (B i Hi). }
  rewrite Ln in *. exists parts, conn, offs. repeat (split; [assumption|]). intros c r e Hc k d Hk Hd.
  assert (Hcn : (c < num)%nat) by (unfold num; rewrite <- cells_length; apply nth_error_Some; congruence).
  destruct (E6 c k d Hcn Hk Hd) as [_ E7]. cbv zeta in E7. unfold file_point. rewrite E7. destruct (d <? D)%nat eqn:Ed; [|reflexivity]. apply Nat.ltb_lt in Ed.
  destruct (cells_read [] ne els 1 F c r e Hc) as (H1 & H2 & H3). specialize (H3 0%nat ltac:(lia)). unfold gather in H3. rewrite !Nat.mul_1_r, !Nat.add_0_r in H3.
  rewrite H3. destruct (H r H1) as [_ B]. destruct (B e H2) as [_ C]. now apply C.
Qed.
Lemma piece_array {A} n ne (l : list A) (array : A -> list R) (da : A) num conn offs : num = fold_right Nat.add 0%nat ne -> connectivity n num = Some conn -> cell_offsets n num = Some offs ->
  length l = length ne -> (forall r, (r < length ne)%nat -> length (array (nth r l da)) = (nth r ne 0 * n)%nat) ->
  forall c r e, nth_error (cells ne) c = Some (r, e) -> forall k, (k < n)%nat -> nth (file_point offs conn c k) (gather (map array l)) 0 = nth (e * n + k) (array (nth r l da)) 0.
Proof.
  intros -> E1 E2 L H c r e Hc k Hk. assert (Hcn : (c < fold_right Nat.add 0 ne)%nat) by (rewrite <- cells_length; apply nth_error_Some; congruence).
  rewrite (file_point_no n _ conn offs c k E1 E2 Hcn Hk).
  assert (F : Forall2 (fun k x => length x = (k * n)%nat) ne (map array l)).
  { apply (Forall2_nth _ 0%nat (array da)); [now rewrite map_length|]. intros i Hi. rewrite (map_nth array). now apply H. }
  destruct (cells_read 0 ne (map array l) n F c r e Hc) as (H1 & H2 & H3). rewrite H3 by exact Hk. f_equal. rewrite (nth_indep _ [] (array da)) by (rewrite map_length; lia). apply (map_nth array).
Qed.
Lemma nth_map_ne (ranks : list (curvilinear * fe_function)) r cl F : nth_error ranks r = Some (cl, F) -> nth r (map (fun x => ff_ne (snd x)) ranks) 0%nat = ff_ne F.
Proof. intro H. apply nth_error_nth. now rewrite (map_nth_error _ _ _ H). Qed.
Lemma rank_of {A} (ranks : list A) r : (r < length ranks)%nat -> exists x, nth_error ranks r = Some x.
Proof. intro H. destruct (nth_error ranks r) eqn:E; [eauto|]. apply nth_error_None in E. lia. Qed.

(** C78a: a reader of a piece of the volume finds, at point k of the cell of element e of rank r, the image of
    reference point k under the map of that element, padded with zeros, and in the array of quantity p the value of
    the discrete function of that element at reference point k. *)
Theorem vtu_shows_field : forall D (ranks : list (curvilinear * fe_function)) Q bg b points m0, (D = 2 \/ D = 3)%nat ->
  (forall cl F, In (cl, F) ranks -> represents D (cv_re cl) (cv_nb cl) bg /\ represents D (ff_re F) (ff_nb F) b /\ ff_Q F = Q) ->
  let n := length points in let ne := map (fun x => ff_ne (snd x)) ranks in let num := fold_right Nat.add 0%nat ne in
  (Z.of_nat (num * n) <= int32_max)%Z ->
  exists els parts conn offs arrays,
    map_opt (fun x => volume_points D (fst x) 0 (ff_ne (snd x)) m0 points) ranks = Some els /\ map (all_points R 0 D n) els = map Some parts /\
    connectivity n num = Some conn /\ cell_offsets n num = Some offs /\ map_opt (fun x => addPointData (snd x) m0 points) ranks = Some arrays /\
    forall c r e, nth_error (cells ne) c = Some (r, e) -> exists cl F, nth_error ranks r = Some (cl, F) /\ (e < ff_ne F)%nat /\
      forall k, (k < n)%nat -> let pt := file_point offs conn c k in
      (forall d, (d < 3)%nat -> nth (d + pt * 3) (gather parts) 0 = if (d <? D)%nat then place (cv_nb cl) bg (cv_pos cl e) (point points k) d else 0) /\
      (forall p, (p < Q)%nat -> nth pt (gather (map (fun a => nth p a []) arrays)) 0 = fe_value b (ff_nb F) Q (ff_mem F) e p (point points k)).
Proof.
  intros D ranks Q bg b points m0 HD H n ne num Hmax.
  destruct (map_opt_all (fun x => volume_points D (fst x) 0 (ff_ne (snd x)) m0 points)
    (fun x els => length els = ff_ne (snd x) /\ forall e, (e < ff_ne (snd x))%nat -> length (nth e els []) = (n * D)%nat /\
      forall k d, (k < n)%nat -> (d < D)%nat -> nth (d + k * D) (nth e els []) 0 = place (cv_nb (fst x)) bg (cv_pos (fst x) e) (point points k) d) ranks) as (els & E1 & P1).
  { intros [cl F] Hin. destruct (H cl F Hin) as (HG & _ & _). destruct (volume_points_ok D cl bg points HG 0 (ff_ne F) m0) as (x & A & B & C). exists x. cbn [fst snd]. repeat (split; [assumption|]).
    intros e He. destruct (C e He) as [C1 C2]. split; [exact C1|]. intros k d Hk Hd. rewrite (C2 k d Hk Hd), Nat.add_0_r. reflexivity. }
  destruct (map_opt_all (fun x => addPointData (snd x) m0 points)
    (fun x arrays => forall p, (p < Q)%nat -> length (nth p arrays []) = (ff_ne (snd x) * n)%nat /\
    forall e i, (e < ff_ne (snd x))%nat -> (i < n)%nat -> nth (e * n + i) (nth p arrays []) 0 = fe_value b (ff_nb (snd x)) Q (ff_mem (snd x)) e p (point points i)) ranks) as (arrays & E2 & P2).
  { intros [cl F] Hin. destruct (H cl F Hin) as (_ & HR & HQ). destruct (addPointData_ok D F b points HR m0) as (x & A & _ & C). rewrite HQ in C. exists x. cbn [fst snd]. split; [exact A|exact C]. }
  assert (Lr : length ne = length ranks) by (unfold ne; apply map_length).
  destruct (piece_points D n ne els (fun r e k d => match nth_error ranks r with Some x => place (cv_nb (fst x)) bg (cv_pos (fst x) e) (point points k) d | None => 0 end)) as (parts & conn & offs & A1 & A2 & A3 & A4);
    [destruct HD; subst; lia | rewrite Lr; apply (map_opt_length _ _ _ E1) | | exact Hmax |].
  { intros r Hr. rewrite Lr in Hr. destruct (rank_of ranks r Hr) as ([cl F] & Er). destruct (P1 r _ Er) as (x & X1 & X2). rewrite Er. rewrite (nth_error_nth _ _ [] X1). unfold ne. rewrite (nth_map_ne ranks r cl F Er). exact X2. }
  exists els, parts, conn, offs, arrays. repeat (split; [assumption|]). intros c r e Hc.
  assert (Hin : (r < length ne)%nat /\ (e < nth r ne 0)%nat) by (apply (proj2 (proj2 (cells_are_the_elements ne))); now apply (nth_error_In _ c)). destruct Hin as [Hr He].
  rewrite Lr in Hr. destruct (rank_of ranks r Hr) as ([cl F] & Er). unfold ne in He. rewrite (nth_map_ne ranks r cl F Er) in He.
  exists cl, F. split; [exact Er|]. split; [exact He|]. intros k Hk pt. split.
  - intros d Hd. unfold pt. rewrite (A4 c r e Hc k d Hk Hd), Er. reflexivity.
  - intros p Hp. unfold pt. rewrite (piece_array n ne arrays (fun a => nth p a []) [] num conn offs eq_refl A2 A3) with (c := c) (r := r) (e := e); try assumption.
    + destruct (P2 r _ Er) as (a & B1 & B2). rewrite (nth_error_nth _ _ [] B1). now apply (B2 p Hp).
    + rewrite Lr. apply (map_opt_length _ _ _ E2).
    + intros r' Hr'. rewrite Lr in Hr'. destruct (rank_of ranks r' Hr') as ([cl' F'] & Er'). destruct (P2 r' _ Er') as (a & B1 & B2). rewrite (nth_error_nth _ _ [] B1). unfold ne. rewrite (nth_map_ne ranks r' cl' F' Er'). apply (B2 p Hp).
Qed.

(** The array of the derivative of quantity p in direction d. *)
Definition derivative_array (p d : nat) (arrays : list ((nat * nat) * list R)) : list R :=
  match find (fun x => Nat.eqb (fst (fst x)) p && Nat.eqb (snd (fst x)) d)%bool arrays with Some x => snd x | None => [] end.
(** C78b: the arrays of the derivatives hold, at the same points, the derivatives of the discrete function with
    respect to the coordinates of space; all ranks write them in the same order, each name once. *)
Theorem vtu_shows_derivatives : forall D (ranks : list (curvilinear * fe_function)) Q bg b points J m0, (D = 2 \/ D = 3)%nat ->
  (forall cl F, In (cl, F) ranks -> represents D (cv_re cl) (cv_nb cl) bg /\ represents D (ff_re F) (ff_nb F) b /\ ff_Q F = Q /\
     forall e k, (e < ff_ne F)%nat -> (k < length points)%nat -> jacobian_of D (place (cv_nb cl) bg (cv_pos cl e)) (point points k) (J cl e k) /\ geo_det D (J cl e k) <> 0) ->
  let n := length points in let ne := map (fun x => ff_ne (snd x)) ranks in let num := fold_right Nat.add 0%nat ne in
  (Z.of_nat (num * n) <= int32_max)%Z ->
  exists conn offs arrays, connectivity n num = Some conn /\ cell_offsets n num = Some offs /\
    map_opt (fun x => addJacobianData D (fst x) 0 (snd x) m0 points) ranks = Some arrays /\
    (forall a, In a arrays -> map fst a = flat_map (fun d => map (fun p => (p, d)) (seq 0 Q)) (seq 0 D)) /\
    forall c r e, nth_error (cells ne) c = Some (r, e) -> exists cl F, nth_error ranks r = Some (cl, F) /\ (e < ff_ne F)%nat /\
      forall k p, (k < n)%nat -> (p < Q)%nat -> let pt := file_point offs conn c k in
      let u := fe_value b (ff_nb F) Q (ff_mem F) e p in let X := place (cv_nb cl) bg (cv_pos cl e) in let xi := point points k in
      let shown d := nth pt (gather (map (derivative_array p d) arrays)) 0 in
      (forall a, (a < D)%nat -> partial_derivative u a xi (rsum D (fun j => shown j * J cl e k j a))) /\
      (forall w g, near D xi (fun xi' => w (X xi') = u xi') -> gradient_at D w (X xi) g -> forall d, (d < D)%nat -> shown d = g d).
Proof.
  intros D ranks Q bg b points J m0 HD H n ne num Hmax.
  assert (exists conn, connectivity n num = Some conn) as (conn & A2) by (unfold connectivity; rewrite (proj2 (Z.leb_le _ _) Hmax); eauto).
  assert (exists offs, cell_offsets n num = Some offs) as (offs & A3) by (unfold cell_offsets; rewrite (proj2 (Z.leb_le _ _) Hmax); eauto).
  set (names := flat_map (fun d => map (fun p => (p, d)) (seq 0 Q)) (seq 0 D)).
  assert (FD : forall p d (a : list ((nat * nat) * list R)), (p < Q)%nat -> (d < D)%nat -> map fst a = names -> In ((p, d), derivative_array p d a) a).
  { intros p d a Hp Hd Ea. unfold derivative_array. destruct (find _ a) as [[[p' d'] x]|] eqn:Ef.
    - apply find_some in Ef as [Hin Hb]. cbn [fst snd] in Hb. apply andb_prop in Hb as [B1 B2]. apply Nat.eqb_eq in B1, B2. subst. exact Hin.
    - exfalso. assert (Hin : In (p, d) (map fst a)). { rewrite Ea. unfold names. apply in_flat_map. exists d. split; [apply in_seq; lia|]. apply in_map_iff. exists p. split; [reflexivity|apply in_seq; lia]. }
      apply in_map_iff in Hin as ([[p' d'] x] & E & Hx). cbn in E. injection E as -> ->. pose proof (find_none _ _ Ef _ Hx) as N. cbn in N. now rewrite !Nat.eqb_refl in N. }
  destruct (map_opt_all (fun x => addJacobianData D (fst x) 0 (snd x) m0 points)
    (fun x arrays => map fst arrays = names /\ exists value, (forall e i p, (e < ff_ne (snd x))%nat -> (i < n)%nat -> (p < Q)%nat -> space_derivatives D (snd x) b points (fst x) bg (J (fst x)) e i p (value e i p)) /\
    forall p d a, In ((p, d), a) arrays -> length a = (ff_ne (snd x) * n)%nat /\ forall e i, (e < ff_ne (snd x))%nat -> (i < n)%nat -> nth (e * n + i) a 0 = value e i p d) ranks) as (arrays & E2 & P2).
  { intros [cl F] Hin. destruct (H cl F Hin) as (HG & HR & HQ & HJ). destruct (addJacobianData_ok D F b points HR cl bg (J cl) HD HG HJ m0) as (x & A & B & C). rewrite HQ in B, C. exists x. cbn [fst snd]. split; [exact A|]. split; [exact B|exact C]. }
  assert (Lr : length ne = length ranks) by (unfold ne; apply map_length). assert (La : length arrays = length ranks) by exact (map_opt_length _ _ _ E2).
  exists conn, offs, arrays. repeat (split; [assumption|]). split.
  { intros a Ha. apply (In_nth_error) in Ha as (r & Hr). assert (Hl : (r < length ranks)%nat) by (rewrite <- La; apply nth_error_Some; congruence). destruct (rank_of ranks r Hl) as (x & Ex). destruct (P2 r x Ex) as (a' & B1 & B2 & _). congruence. }
  intros c r e Hc.
  assert (Hin : (r < length ne)%nat /\ (e < nth r ne 0)%nat) by (apply (proj2 (proj2 (cells_are_the_elements ne))); now apply (nth_error_In _ c)). destruct Hin as [Hr He].
  rewrite Lr in Hr. destruct (rank_of ranks r Hr) as ([cl F] & Er). unfold ne in He. rewrite (nth_map_ne ranks r cl F Er) in He.
  exists cl, F. split; [exact Er|]. split; [exact He|]. intros k p Hk Hp. cbv zeta.
  destruct (H cl F (nth_error_In _ _ Er)) as (_ & _ & HQ & _).
  destruct (P2 r _ Er) as (a & B1 & B2 & value & V1 & V2). cbn [fst snd] in V1, V2. destruct (V1 e k p He Hk Hp) as [S1 S2]. rewrite HQ in S1, S2.
  assert (Sh : forall d, (d < D)%nat -> nth (file_point offs conn c k) (gather (map (derivative_array p d) arrays)) 0 = value e k p d).
  { intros d Hd. rewrite (piece_array n ne arrays (derivative_array p d) [] num conn offs eq_refl A2 A3) with (c := c) (r := r) (e := e); try assumption.
    - rewrite (nth_error_nth _ _ [] B1). apply (V2 p d (derivative_array p d a)); try assumption. now apply FD.
    - now rewrite Lr.
    - intros r' Hr'. rewrite Lr in Hr'. destruct (rank_of ranks r' Hr') as ([cl' F'] & Er'). destruct (P2 r' _ Er') as (a' & B1' & B2' & value' & _ & V2'). rewrite (nth_error_nth _ _ [] B1'). unfold ne. rewrite (nth_map_ne ranks r' cl' F' Er'). apply (V2' p d). now apply FD. }
  split.
  - intros i Hi. rewrite (rsum_ext D _ (fun j => value e k p j * J cl e k j i)) by (intros j Hj; rewrite Sh by exact Hj; reflexivity). now apply S1.
  - intros w g Hn Hg d Hd. rewrite Sh by exact Hd. exact (S2 w g Hn Hg d Hd).
Qed.

(** C78c: a piece of facets (the fault, or the facets of a boundary): the cell of facet f shows the points of that
    facet, as the first of its elements places them, and the values of the function on the facet. *)
Theorem vtu_shows_facets : forall D (ranks : list (curvilinear * fe_function)) (upward downward : nat -> nat -> list nat) (fctNos el : nat -> nat -> nat) (fc : nat -> nat -> list nat) Q bg b points m0, (D = 2 \/ D = 3)%nat ->
  (forall r cl F, nth_error ranks r = Some (cl, F) -> represents D (cv_re cl) (cv_nb cl) bg /\ represents (D - 1) (ff_re F) (ff_nb F) b /\ ff_Q F = Q /\
     forall f, (f < ff_ne F)%nat -> exists lf fs, nth_error (upward r (fctNos r f)) 0 = Some (el r f) /\ find_index (fctNos r f) (downward r (el r f)) = Some lf /\
       f2v D = Some fs /\ nth_error fs lf = Some (fc r f)) ->
  let n := length points in let ne := map (fun x => ff_ne (snd x)) ranks in let num := fold_right Nat.add 0%nat ne in
  (Z.of_nat (num * n) <= int32_max)%Z ->
  exists els parts conn offs arrays,
    map_opt (fun rx => boundary_points D (fst (snd rx)) (upward (fst rx)) (downward (fst rx)) (map (fctNos (fst rx)) (seq 0 (ff_ne (snd (snd rx))))) m0 points) (combine (seq 0 (length ranks)) ranks) = Some els /\
    map (all_points R 0 D n) els = map Some parts /\
    connectivity n num = Some conn /\ cell_offsets n num = Some offs /\ map_opt (fun x => addPointData (snd x) m0 points) ranks = Some arrays /\
    forall c r f, nth_error (cells ne) c = Some (r, f) -> exists cl F, nth_error ranks r = Some (cl, F) /\ (f < ff_ne F)%nat /\
      forall k, (k < n)%nat -> let pt := file_point offs conn c k in
      (forall d, (d < 3)%nat -> nth (d + pt * 3) (gather parts) 0 = if (d <? D)%nat then place (cv_nb cl) bg (cv_pos cl (el r f)) (facet_param D (fc r f) (point points k)) d else 0) /\
      (forall p, (p < Q)%nat -> nth pt (gather (map (fun a => nth p a []) arrays)) 0 = fe_value b (ff_nb F) Q (ff_mem F) f p (point points k)).
Proof.
  intros D ranks upward downward fctNos el fc Q bg b points m0 HD H n ne num Hmax.
  assert (CB : forall i y, nth_error (combine (seq 0 (length ranks)) ranks) i = Some y <-> exists x, nth_error ranks i = Some x /\ y = (i, x)).
  { enough (G : forall r0 i y, nth_error (combine (seq r0 (length ranks)) ranks) i = Some y <-> exists x, nth_error ranks i = Some x /\ y = ((r0 + i)%nat, x)) by (intros; apply (G 0%nat)).
    clear. induction ranks as [|a l IH]; intros r0 i y; [cbn; destruct i; cbn; split; [discriminate|intros (x & A & _); discriminate | discriminate|intros (x & A & _); discriminate]|].
    cbn [length seq combine]. destruct i as [|i]; cbn [nth_error]; [rewrite Nat.add_0_r; split; [intro E; injection E as <-; eauto|intros (x & E & ->); injection E as <-; reflexivity]|].
    rewrite IH. replace (S r0 + i)%nat with (r0 + S i)%nat by lia. reflexivity. }
  destruct (map_opt_all (fun rx => boundary_points D (fst (snd rx)) (upward (fst rx)) (downward (fst rx)) (map (fctNos (fst rx)) (seq 0 (ff_ne (snd (snd rx))))) m0 points)
    (fun rx els => length els = ff_ne (snd (snd rx)) /\ forall f, (f < ff_ne (snd (snd rx)))%nat -> length (nth f els []) = (n * D)%nat /\
      forall k d, (k < n)%nat -> (d < D)%nat -> nth (d + k * D) (nth f els []) 0 = place (cv_nb (fst (snd rx))) bg (cv_pos (fst (snd rx)) (el (fst rx) f)) (facet_param D (fc (fst rx) f) (point points k)) d) (combine (seq 0 (length ranks)) ranks)) as (els & E1 & P1).
  { intros rx Hin. apply In_nth_error in Hin as (i & Hi). apply CB in Hi as ([cl F] & Er & ->). cbn [fst snd]. destruct (H i cl F Er) as (HG & _ & _ & HF).
    assert (Lf : length (map (fctNos i) (seq 0 (ff_ne F))) = ff_ne F) by now rewrite map_length, seq_length.
    destruct (boundary_points_ok D cl bg points HG HD (upward i) (downward i) (map (fctNos i) (seq 0 (ff_ne F))) (el i) (fc i) m0) as (x & A & B & C).
    - rewrite Lf. intros f Hf. destruct (HF f Hf) as (lf & fs & F1 & F2 & F3 & F4). exists (fctNos i f), lf, fs. split; [|auto].
      apply map_nth_error. rewrite (nth_error_nth' _ 0%nat) by (rewrite seq_length; exact Hf). now rewrite seq_nth by exact Hf.
    - rewrite Lf in B, C. exists x. split; [exact A|]. split; [exact B|exact C]. }
  destruct (map_opt_all (fun x => addPointData (snd x) m0 points)
    (fun x arrays => forall p, (p < Q)%nat -> length (nth p arrays []) = (ff_ne (snd x) * n)%nat /\
    forall e i, (e < ff_ne (snd x))%nat -> (i < n)%nat -> nth (e * n + i) (nth p arrays []) 0 = fe_value b (ff_nb (snd x)) Q (ff_mem (snd x)) e p (point points i)) ranks) as (arrays & E2 & P2).
  { intros [cl F] Hin. apply In_nth_error in Hin as (i & Hi). destruct (H i cl F Hi) as (_ & HR & HQ & _). destruct (addPointData_ok (D - 1) F b points HR m0) as (x & A & _ & C). rewrite HQ in C. exists x. cbn [fst snd]. split; [exact A|exact C]. }
  assert (Lr : length ne = length ranks) by (unfold ne; apply map_length).
  destruct (piece_points D n ne els (fun r f k d => match nth_error ranks r with Some x => place (cv_nb (fst x)) bg (cv_pos (fst x) (el r f)) (facet_param D (fc r f) (point points k)) d | None => 0 end)) as (parts & conn & offs & A1 & A2 & A3 & A4);
    [destruct HD; subst; lia | rewrite Lr, (map_opt_length _ _ _ E1), combine_length, seq_length; lia | | exact Hmax |].
  { intros r Hr. rewrite Lr in Hr. destruct (rank_of ranks r Hr) as ([cl F] & Er). destruct (P1 r (r, (cl, F)) (proj2 (CB _ _) (ex_intro _ _ (conj Er eq_refl)))) as (x & X1 & X2). rewrite Er. rewrite (nth_error_nth _ _ [] X1). unfold ne. rewrite (nth_map_ne ranks r cl F Er). exact X2. }
  exists els, parts, conn, offs, arrays. repeat (split; [assumption|]). intros c r e Hc.
  assert (Hin : (r < length ne)%nat /\ (e < nth r ne 0)%nat) by (apply (proj2 (proj2 (cells_are_the_elements ne))); now apply (nth_error_In _ c)). destruct Hin as [Hr He].
  rewrite Lr in Hr. destruct (rank_of ranks r Hr) as ([cl F] & Er). unfold ne in He. rewrite (nth_map_ne ranks r cl F Er) in He.
  exists cl, F. split; [exact Er|]. split; [exact He|]. intros k Hk pt. split.
  - intros d Hd. unfold pt. rewrite (A4 c r e Hc k d Hk Hd), Er. reflexivity.
  - intros p Hp. unfold pt. rewrite (piece_array n ne arrays (fun a => nth p a []) [] num conn offs eq_refl A2 A3) with (c := c) (r := r) (e := e); try assumption.
    + destruct (P2 r _ Er) as (a & B1 & B2). rewrite (nth_error_nth _ _ [] B1). now apply (B2 p Hp).
    + rewrite Lr. apply (map_opt_length _ _ _ E2).
    + intros r' Hr'. rewrite Lr in Hr'. destruct (rank_of ranks r' Hr') as ([cl' F'] & Er'). destruct (P2 r' _ Er') as (a & B1 & B2). rewrite (nth_error_nth _ _ [] B1). unfold ne. rewrite (nth_map_ne ranks r' cl' F' Er'). apply (B2 p Hp).
Qed.

Print Assumptions cells_are_the_elements.
Print Assumptions vtu_shows_field.
Print Assumptions vtu_shows_derivatives.
Print Assumptions vtu_shows_facets.
