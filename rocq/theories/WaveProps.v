(** Property theorems: the semi-discrete wave equation and the projection of initial values (C56). *)
Require Import List Arith Lia Bool Reals Lra.
Require Import Verif.Base Verif.LinAlg Verif.LocalMeshModel Verif.LocalMeshProps Verif.TopoModel Verif.TopoSpec Verif.TopoProofs
  Verif.TopoProps Verif.AssembleModel Verif.ApplyModel Verif.MatFree Verif.MatFreeRhs Verif.PoissonModel Verif.PoissonProps
  Verif.ElasticityModel Verif.ElasticitySpec Verif.ElasticityProofs Verif.ElasticityProps.
Import ListNotations.
Local Open Scope R_scope.

(** * Specification *)
(** Mass matrix of the reference element; MhatInv is its inverse. *)
Definition ref_mass (P : pdata) (k l : nat) : R := rsum (p_Nq P) (fun q => p_W P q * p_EQ P k q * p_EQ P l q).
Definition ref_inverse (P : pdata) : Prop := forall a c, (a < p_N P)%nat -> (c < p_N P)%nat ->
  rsum (p_N P) (fun b => ref_mass P a b * p_MinvRef P b c) = delta a c.
(** Mass matrix of an element with density rho (values at the quadrature points). *)
Definition mass (E : edata) (rho : nat -> R) (el k l : nat) : R :=
  rsum (p_Nq (e_geo E)) (fun q => rho q * p_J (e_geo E) el q * p_W (e_geo E) q * p_EQ (e_geo E) k q * p_EQ (e_geo E) l q).
(** The element's Jacobian is constant: affine elements. *)
Definition affine_element (P : pdata) (el : nat) (j : R) : Prop := j <> 0 /\ forall q, (q < p_Nq P)%nat -> p_J P el q = j.
(** The coefficient 1/rho at a quadrature point of the element. *)
Definition inv_density (E : edata) (el q : nat) : R := rsum (p_N (e_geo E)) (fun t => p_matEQ (e_geo E) q t * e_rhoInv E el t).

Section Inverse.
Variable E : edata.
Local Notation P := (e_geo E).
Local Notation N := (p_N P). Local Notation dim := (p_dim P). Local Notation Nq := (p_Nq P).
Local Notation M := (ref_mass P). Local Notation X := (p_MinvRef P).
Hypothesis Inv : ref_inverse P.

Lemma ref_mass_sym a b : M a b = M b a.
Proof. unfold ref_mass. apply rsum_ext. intros. ring. Qed.
Lemma delta_sum_r n r f : (r < n)%nat -> rsum n (fun s => f s * delta s r) = f r.
Proof. intro H. rewrite (rsum_ext n _ (fun s => delta r s * f s)) by (intros; rewrite (delta_sym r); ring). apply delta_sum. auto. Qed.
(** X^T M = I. *)
Lemma left_inv a c : (a < N)%nat -> (c < N)%nat -> rsum N (fun b => X b a * M b c) = delta a c.
Proof.
  intros Ha Hc. rewrite (delta_sym a c), <- (Inv c a) by auto. apply rsum_ext. intros b _. rewrite (ref_mass_sym b c). ring.
Qed.
Lemma inv_sym a b : (a < N)%nat -> (b < N)%nat -> X a b = X b a.
Proof.
  (* X = X^T M X = X^T *)
  intros Ha Hb.
  assert (L : rsum N (fun c => rsum N (fun d => X d a * M d c * X c b)) = X a b).
  { rewrite (rsum_ext N _ (fun c => delta a c * X c b)).
    - apply (delta_sum N a (fun c => X c b)). auto.
    - intros c Hc. rewrite rsum_scale_r, left_inv by auto. reflexivity. }
  rewrite <- L, rsum_swap. rewrite (rsum_ext N _ (fun d => X d a * delta d b)).
  - apply (delta_sum_r N b (fun d => X d a)). auto.
  - intros d Hd. rewrite <- (Inv d b) by auto. rewrite <- rsum_scale. apply rsum_ext. intros. ring.
Qed.
Lemma inv_left a c : (a < N)%nat -> (c < N)%nat -> rsum N (fun b => X a b * M b c) = delta a c.
Proof. intros Ha Hc. rewrite <- (left_inv a c) by auto. apply rsum_ext. intros b Hb. rewrite (inv_sym a b) by auto. reflexivity. Qed.

(** X M X U = X U. *)
Lemma inverse_const c (Jinv : nat -> R) U k p : (k < N)%nat -> (forall q, (q < Nq)%nat -> Jinv q = c * p_W P q) ->
  apply_inverse_mass E Jinv U (ix E k p) = c * rsum N (fun l => X k l * U (ix E l p)).
Proof.
  intros Hk HJ. unfold apply_inverse_mass. rewrite bf_ix, cp_ix by auto.
  transitivity (rsum N (fun r => rsum N (fun s => rsum N (fun l => c * (X k r * M r s * X s l * U (ix E l p)))))).
  - apply rsum_ext. intros r _. rewrite rsum_swap. apply rsum_ext. intros s _. rewrite rsum_swap. apply rsum_ext. intros l _.
    unfold ref_mass. rewrite (rsum_ext Nq _ (fun q => (c * X k r * X s l * U (ix E l p)) * (p_W P q * p_EQ P r q * p_EQ P s q))).
    + rewrite rsum_scale. ring.
    + intros q Hq. rewrite HJ by auto. ring.
  - rewrite rsum_swap. rewrite (rsum_ext N _ (fun s => delta k s * (c * rsum N (fun l => X s l * U (ix E l p))))).
    + apply (delta_sum N k (fun s => c * rsum N (fun l => X s l * U (ix E l p)))). auto.
    + intros s Hs. rewrite rsum_swap. rewrite <- rsum_scale, <- rsum_scale. apply rsum_ext. intros l _. rewrite <- (inv_left k s) by auto.
      rewrite (rsum_ext N _ (fun r => (X k r * M r s) * (c * X s l * U (ix E l p)))) by (intros; ring). rewrite rsum_scale_r. ring.
Qed.
Lemma mass_times_inverse c V k : (k < N)%nat -> rsum N (fun l => (c * M k l) * rsum N (fun m => X l m * V m)) = c * V k.
Proof.
  intro Hk. rewrite (rsum_ext N _ (fun l => rsum N (fun m => c * (M k l * X l m * V m)))).
  - rewrite rsum_swap. rewrite (rsum_ext N _ (fun m => delta k m * (c * V m))).
    + apply (delta_sum N k (fun m => c * V m)). auto.
    + intros m Hm. rewrite <- (Inv k m) by auto. rewrite <- rsum_scale_r. apply rsum_ext. intros. ring.
  - intros l _. rewrite <- rsum_scale. apply rsum_ext. intros. ring.
Qed.
End Inverse.

(** C56a: on affine elements with constant density, the acceleration a that wave_rhs returns solves
    the semi-discrete wave equation M a = -(A u - b), M the mass matrix with the density, A and b the
    assembled matrix and vector (no body force). *)
Theorem wave_rhs_correct : forall E k m fi wr t e sl U j ri,
  topo_ok k m -> facet_table k m = Some fi -> interleaving (all_side_writes k fi) wr -> do_writes (fresh_sides k m) wr = Some t ->
  p_method (e_geo E) = IP -> (forall i, (i < tm_num_local_facets m)%nat -> normal_ok (e_geo E) i) -> (forall x, In x fi -> bc_fits x) ->
  (e < tm_num_local m)%nat -> map_opt (fun d => nth_error t (e * (k + 1) + d)) (seq 0 (k + 1)) = Some sl -> e_force E = None ->
  ref_inverse (e_geo E) -> affine_element (e_geo E) e j -> ri <> 0 -> (forall q, (q < p_Nq (e_geo E))%nat -> inv_density E e q = ri) ->
  exists a, wave_rhs E fi e sl (U e) (map (fun s => U (si_lid s)) sl) = Some a /\
    forall b p, (b < p_N (e_geo E))%nat -> (p < p_dim (e_geo E))%nat ->
      rsum (p_N (e_geo E)) (fun l => mass E (fun _ => 1 / ri) e b l * a (ix E l p)) =
      - (row_times (block_size E) (assemble m fi (elasticity_mat E)) U e (ix E b p) - vec_row (rhs m fi (elasticity_vec E)) e (ix E b p)).
Proof.
  intros E k m fi wr t e sl U j ri O Efi Iw Et Ip Nm Bc He Esl Fo Inv (Hj & HJ) Hri Hd.
  destruct (elasticity_apply_matches_assembly E k m fi wr t e sl U true O Efi Iw Et Ip Nm Bc He Esl (fun _ => Fo)) as (y & Ey & Hy).
  unfold wave_rhs. rewrite Ey. eexists. split; [reflexivity|]. intros b p Hb Hp. set (P := e_geo E) in *.
  assert (Lt : forall l, (l < p_N P)%nat -> (ix E l p < block_size E)%nat) by (intros; unfold ix, block_size; fold P; nia).
  rewrite (rsum_ext (p_N P) _ (fun l => (1 / ri * j * ref_mass P b l) * (- ri / j * rsum (p_N P) (fun m0 => p_MinvRef P l m0 * y (ix E m0 p))))).
  - rewrite (rsum_ext (p_N P) _ (fun l => (-1 * ref_mass P b l) * rsum (p_N P) (fun m0 => p_MinvRef P l m0 * y (ix E m0 p)))) by (intros; field; auto).
    unfold P. rewrite (mass_times_inverse E Inv (-1) (fun m0 => y (ix E m0 p)) b) by auto. rewrite <- Hy by (apply Lt; auto). ring.
  - intros l Hl. f_equal.
    + unfold mass, ref_mass. fold P. rewrite <- rsum_scale. apply rsum_ext. intros q Hq. rewrite HJ by auto. ring.
    + unfold P. apply (inverse_const E Inv); auto. intros q Hq. unfold negative_rhoInv_W_Jinv.
      rewrite (rsum_ext _ _ (fun t => -1 * (p_matEQ (e_geo E) q t * e_rhoInv E e t))) by (intros; ring). rewrite rsum_scale.
      fold (inv_density E e q). rewrite Hd by auto. fold P. rewrite HJ by auto. field. auto.
Qed.
Print Assumptions wave_rhs_correct.

(** Product of two blocks. *)
Definition bdot (E : edata) (V U : nat -> R) : R := rsum (block_size E) (fun K => V K * U K).
(** C56b: on any element (curved, varying density) the inverse mass matrix is symmetric and positive
    definite if 1/rho, J and the weights are positive: the discrete operator -M^-1 A keeps the symmetry
    and the sign of A. *)
Theorem inverse_mass_spd : forall E Jinv, ref_inverse (e_geo E) -> (forall q, (q < p_Nq (e_geo E))%nat -> 0 < Jinv q) ->
  (forall U V, bdot E V (apply_inverse_mass E Jinv U) = bdot E U (apply_inverse_mass E Jinv V)) /\
  (forall U, 0 <= bdot E U (apply_inverse_mass E Jinv U)) /\
  (forall U, bdot E U (apply_inverse_mass E Jinv U) = 0 -> forall K, (K < block_size E)%nat -> U K = 0).
Proof.
  intros E Jinv Inv HJ. set (P := e_geo E). set (N := p_N P). set (dim := p_dim P). set (Nq := p_Nq P).
  set (g := fun U p q => rsum N (fun s => p_EQ P s q * rsum N (fun l => p_MinvRef P s l * U (ix E l p)))).
  assert (F : forall U V, bdot E V (apply_inverse_mass E Jinv U) = rsum dim (fun p => rsum Nq (fun q => Jinv q * (g U p q * g V p q)))).
  { intros U V. unfold bdot. rewrite sum_block. fold P N dim. apply rsum_ext. intros p _.
    transitivity (rsum N (fun k => rsum N (fun r => rsum Nq (fun q => V (ix E k p) * p_MinvRef P k r * (p_EQ P r q * Jinv q * g U p q))))).
    - apply rsum_ext. intros k Hk. unfold apply_inverse_mass. rewrite bf_ix, cp_ix by auto. fold P N Nq. rewrite <- rsum_scale. apply rsum_ext. intros r _.
      rewrite <- rsum_scale. apply rsum_ext. intros q _. unfold g. rewrite <- !rsum_scale. apply rsum_ext. intros s _. rewrite <- !rsum_scale. apply rsum_ext. intros. ring.
    - rewrite (rsum_ext N _ (fun k => rsum Nq (fun q => rsum N (fun r => V (ix E k p) * p_MinvRef P k r * (p_EQ P r q * Jinv q * g U p q))))) by (intros; apply rsum_swap).
      rewrite rsum_swap. apply rsum_ext. intros q _. rewrite rsum_swap.
      rewrite (rsum_ext N _ (fun r => Jinv q * g U p q * (p_EQ P r q * rsum N (fun l => p_MinvRef P r l * V (ix E l p))))).
      + rewrite rsum_scale. fold (g V p q). ring.
      + intros r Hr. rewrite (rsum_ext N _ (fun k => (p_EQ P r q * Jinv q * g U p q) * (p_MinvRef P r k * V (ix E k p)))).
        * rewrite rsum_scale. ring.
        * intros k Hk. unfold P. rewrite (inv_sym E Inv k r) by auto. ring. }
  split; [|split].
  - intros U V. rewrite !F. apply rsum_ext. intros. apply rsum_ext. intros. ring.
  - intro U. rewrite F. apply rsum_nonneg. intros p Hp. apply rsum_nonneg. intros q Hq. apply Rmult_le_pos; [left; auto | apply Rle_0_sqr].
  - intros U H K HK. rewrite F in H.
    assert (Z : forall p q, (p < dim)%nat -> (q < Nq)%nat -> g U p q = 0).
    { intros p q Hp Hq.
      assert (Np : forall p, (p < dim)%nat -> 0 <= rsum Nq (fun q => Jinv q * (g U p q * g U p q))).
      { intros. apply rsum_nonneg. intros. apply Rmult_le_pos; [left; auto | apply Rle_0_sqr]. }
      pose proof (rsum_nonneg_zero dim _ Np H p Hp) as Zp. cbv beta in Zp.
      assert (Nq' : forall q, (q < Nq)%nat -> 0 <= Jinv q * (g U p q * g U p q)) by (intros; apply Rmult_le_pos; [left; auto | apply Rle_0_sqr]).
      pose proof (rsum_nonneg_zero Nq _ Nq' Zp q Hq) as Zq. cbv beta in Zq. pose proof (HJ q Hq).
      apply Rmult_integral in Zq as [Zq|Zq]; [lra|]. apply Rmult_integral in Zq as [Zq|Zq]; auto. }
    pose proof (cp_lt E K HK) as Hp. pose proof (bf_lt E K HK) as Hk. rewrite <- (ix_parts E K HK). set (p := cp E K) in *. set (k := bf E K) in *.
    assert (S : rsum Nq (fun q => p_W P q * p_EQ P k q * g U p q) = 1 * U (ix E k p)).
    { rewrite <- (mass_times_inverse E Inv 1 (fun l => U (ix E l p)) k) by auto. fold P N.
      rewrite (rsum_ext Nq _ (fun q => rsum N (fun s => (p_W P q * p_EQ P k q * p_EQ P s q) * rsum N (fun l => p_MinvRef P s l * U (ix E l p))))).
      - rewrite rsum_swap. apply rsum_ext. intros s _. unfold ref_mass. fold Nq. rewrite rsum_scale_r. ring.
      - intros q _. unfold g. rewrite <- rsum_scale. apply rsum_ext. intros. ring. }
    rewrite Rmult_1_l in S. rewrite <- S. apply rsum_zero. intros q Hq. rewrite Z by auto. ring.
Qed.
Print Assumptions inverse_mass_spd.

(** C56c: on affine elements, project returns the L2 projection of the function given by its values x
    at the quadrature points: (w, v) = (x, v) for all v of the space. *)
Theorem project_is_l2_projection : forall E el x j, ref_inverse (e_geo E) -> affine_element (e_geo E) el j ->
  forall k p, (k < p_N (e_geo E))%nat ->
  rsum (p_N (e_geo E)) (fun l => mass E (fun _ => 1) el k l * project E el x (ix E l p)) =
  rsum (p_Nq (e_geo E)) (fun q => p_W (e_geo E) q * p_J (e_geo E) el q * p_EQ (e_geo E) k q * x p q).
Proof.
  intros E el x j Inv (Hj & HJ) k p Hk. set (P := e_geo E) in *. unfold project.
  set (U := fun K => rsum (p_Nq (e_geo E)) (fun q => p_EQ (e_geo E) (bf E K) q * p_W (e_geo E) q * p_J (e_geo E) el q * x (cp E K) q)).
  transitivity (1 * U (ix E k p)).
  - rewrite <- (mass_times_inverse E Inv 1 (fun l => U (ix E l p)) k) by auto. fold P. apply rsum_ext. intros l Hl.
    unfold P. rewrite (inverse_const E Inv (1 / j)); auto.
    + unfold mass, ref_mass. rewrite (rsum_ext (p_Nq (e_geo E)) _ (fun q => j * (p_W (e_geo E) q * p_EQ (e_geo E) k q * p_EQ (e_geo E) l q))).
      * rewrite rsum_scale. field. auto.
      * intros q Hq. rewrite HJ by auto. ring.
    + intros q Hq. fold P. rewrite HJ by auto. field. auto.
  - unfold U. rewrite bf_ix, cp_ix, Rmult_1_l by auto. fold P. apply rsum_ext. intros. ring.
Qed.
Print Assumptions project_is_l2_projection.
(** In particular it reproduces the functions of the space. *)
Theorem project_reproduces : forall E el V j, ref_inverse (e_geo E) -> affine_element (e_geo E) el j ->
  forall K, (K < block_size E)%nat -> project E el (fun p q => trc E (p_EQ (e_geo E)) V p q) K = V K.
Proof.
  intros E el V j Inv (Hj & HJ) K HK. set (P := e_geo E) in *. pose proof (cp_lt E K HK) as Hp. pose proof (bf_lt E K HK) as Hk. rewrite <- (ix_parts E K HK).
  set (p := cp E K) in *. set (k := bf E K) in *. unfold project.
  set (U := fun K => rsum (p_Nq (e_geo E)) (fun q => p_EQ (e_geo E) (bf E K) q * p_W (e_geo E) q * p_J (e_geo E) el q * trc E (p_EQ P) V (cp E K) q)).
  rewrite (inverse_const E Inv (1 / j)); auto. 2: { intros q Hq. fold P. rewrite HJ by auto. field. auto. }
  fold P.
  assert (HU : forall l, (l < p_N P)%nat -> U (ix E l p) = j * rsum (p_N P) (fun m => ref_mass P l m * V (ix E m p))).
  { intros l Hl. unfold U. rewrite bf_ix, cp_ix by auto. fold P. unfold trc. fold P.
    rewrite (rsum_ext (p_Nq P) _ (fun q => rsum (p_N P) (fun m => j * (p_W P q * p_EQ P l q * p_EQ P m q * V (ix E m p))))).
    - rewrite rsum_swap, <- rsum_scale. apply rsum_ext. intros m _. unfold ref_mass. rewrite <- rsum_scale_r, <- rsum_scale. reflexivity.
    - intros q Hq. rewrite <- rsum_scale. apply rsum_ext. intros. rewrite HJ by auto. ring. }
  rewrite (rsum_ext (p_N P) _ (fun l => rsum (p_N P) (fun m => j * (p_MinvRef P k l * ref_mass P l m * V (ix E m p))))).
  2: { intros l Hl. rewrite HU by auto. rewrite <- !rsum_scale. apply rsum_ext. intros. ring. }
  rewrite rsum_swap. rewrite (rsum_ext (p_N P) _ (fun m => delta k m * (j * V (ix E m p)))).
  2: { intros m Hm. unfold P in *. rewrite <- (inv_left E Inv k m) by auto. rewrite <- rsum_scale_r. apply rsum_ext. intros. ring. }
  rewrite (delta_sum (p_N P) k (fun m => j * V (ix E m p))) by auto. field. auto.
Qed.
Print Assumptions project_reproduces.
