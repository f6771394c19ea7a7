(** Where the warped and blended nodes lie, in particular those of a facet. *)
Require Import List Arith Lia Reals Lra.
Require Import Verif.Base Verif.LinAlg Verif.CombinatoricsModel Verif.CombinatoricsProps Verif.SimplexModel Verif.TopoModel Verif.FaultModel Verif.GeometryModel Verif.GeometryProofs Verif.PlexModel Verif.PlexSpec Verif.PlexProps
  Verif.BasisModel Verif.BasisSpec Verif.IntegralSpec Verif.QuadratureModel Verif.QuadratureSpec Verif.SpanProofs
  Verif.RefElementSpec Verif.NodesModel Verif.NodesProofs.
Import ListNotations.
Local Open Scope R_scope.

(** ** Barycentric coordinates *)
Lemma to_ref_bary : forall solve D verts (mu x : nat -> R), exact_solver solve -> affinely_independent D (S D) verts -> rsum (S D) mu = 1 ->
  (forall d, (d < D)%nat -> x d = rsum (S D) (fun c => mu c * verts c d)) -> forall d, (d < D)%nat -> general_to_ref solve D verts x d = mu (S d).
Proof.
  intros solve D verts mu x Hs Hi S1 Hx d Hd. unfold general_to_ref. apply (solver_unique solve D _ _ (fun d => mu (S d))); [exact Hs | now apply edges_nonsingular | | exact Hd].
  intros i Hin. unfold mat_vec, psub, edge_matrix. rewrite Hx by exact Hin. rewrite rsum_head in S1. rewrite rsum_head.
  rewrite (rsum_ext D _ (fun j => mu (S j) * verts (S j) i - mu (S j) * verts 0%nat i)) by (intros; ring). rewrite rsum_minus, rsum_scale_r.
  replace (rsum D (fun i0 => mu (S i0))) with (1 - mu 0%nat) by lra. ring.
Qed.
Lemma interval_independent : affinely_independent 1 2 interval_verts.
Proof. intros c S0 H i Hi. specialize (H 0%nat ltac:(lia)). unfold weighted in H. cbn [rsum interval_verts] in *. destruct i as [| [| i]]; lra || lia. Qed.
Lemma equilateral_2 : affinely_independent 2 3 equilateralTriangle.
Proof.
  intros c S0 H i Hi. destruct sqrt3 as [S N0]. pose proof (H 0%nat ltac:(lia)) as A. pose proof (H 1%nat ltac:(lia)) as B. unfold weighted in *.
  cbn [rsum equilateralTriangle coords] in *. rewrite !over_sqrt3 in B.
  assert (C : sqrt 3 * (2 * c 2%nat - c 0%nat - c 1%nat) = 0) by lra. apply Rmult_integral in C. destruct C as [C | C]; [lra |].
  destruct i as [| [| [| i]]]; lra || lia.
Qed.
Lemma equilateral_3 : affinely_independent 3 4 equilateralTetrahedron.
Proof.
  intros c S0 H i Hi. destruct sqrt3 as [S N0]. destruct sqrt6 as [S6 N6]. pose proof (H 0%nat ltac:(lia)) as A. pose proof (H 1%nat ltac:(lia)) as B. pose proof (H 2%nat ltac:(lia)) as E. unfold weighted in *.
  cbn [rsum equilateralTetrahedron coords] in *. rewrite !over_sqrt3 in B. rewrite !over_sqrt6 in E.
  assert (C : sqrt 3 * (2 * c 2%nat - c 0%nat - c 1%nat) = 0) by lra. apply Rmult_integral in C. destruct C as [C | C]; [lra |].
  assert (F : sqrt 6 * (3 * c 3%nat - c 0%nat - c 1%nat - c 2%nat) = 0) by lra. apply Rmult_integral in F. destruct F as [F | F]; [lra |].
  destruct i as [| [| [| [| i]]]]; lra || lia.
Qed.
Lemma row_sum : forall D N i, rsum (S D) (node_row D N i) = 1.
Proof. intros. rewrite rsum_head. cbn [node_row]. lra. Qed.

Section Facets.
Variables (solve : nat -> (nat -> nat -> R) -> (nat -> R) -> nat -> R) (root : nat -> nat -> nat -> nat -> R) (eps : R) (N : nat) (gl : list R).
Hypothesis HN : (1 <= N)%nat.
Hypothesis Hsolve : exact_solver solve.
Hypothesis Hroot : jacobi_roots (N - 1) 1 1 (root (N - 1)%nat 1%nat 1%nat).
Hypothesis Hgl : LegendreGaussLobattoPoints root (N + 1) 0 0 = Some gl.
Hypothesis Heps : 0 < eps < / INR N.
Local Notation shift := (tri_shift solve eps N gl).
Local Notation warped := (edge_warp solve eps N gl).

(** ** Triangles *)
Lemma shift_sum : forall alpha L, rsum 3 (shift alpha L) = 0.
Proof. intros. cbn [rsum tri_shift]. field. Qed.
(** The node of a row of L. *)
Definition node2 (alpha : R) (L : nat -> R) : option (nat -> R) :=
  bind (warpAndBlendTriangle solve root eps N alpha L) (fun warp =>
  Some (general_to_ref solve 2 equilateralTriangle (fun d => rsum 3 (fun c => L c * equilateralTriangle c d) + warp d))).
Lemma node2_value : forall alpha L, rsum 3 L = 1 -> exists x, node2 alpha L = Some x /\ forall d, (d < 2)%nat -> x d = L (S d) + shift alpha L (S d).
Proof.
  intros alpha L S1. unfold node2. destruct (triangle_shift solve root eps N gl Hgl alpha L) as (w & -> & Hw). cbn [bind]. eexists. split; [reflexivity |].
  intros d Hd. apply (to_ref_bary solve 2 equilateralTriangle (fun c => L c + shift alpha L c)); [exact Hsolve | exact equilateral_2 | | | exact Hd].
  - rewrite rsum_plus, shift_sum, S1. ring.
  - intros e He. rewrite Hw, <- rsum_plus. apply rsum_ext. intros; ring.
Qed.
(** On the edge from a to b: L is zero at c. *)
Lemma warped_zero : forall alpha L a b c, L a = 0 \/ L b = 0 -> warped alpha L a b c = 0.
Proof. intros alpha L a b c [H | H]; unfold edge_warp; rewrite H; ring. Qed.
Lemma warped_edge : forall alpha L a b c k, (k <= N)%nat -> L c = 0 -> L b = INR k / INR N -> L a + L b = 1 ->
  warped alpha L a b c = nth k gl 0 - eqPoint N k.
Proof.
  intros alpha L a b c k Hk Hc Hb Hab. rewrite <- (warpfactor_node solve root eps N gl HN Hsolve Hgl Heps k Hk). unfold edge_warp.
  assert (E : L b - L a = eqPoint N k) by (rewrite eqPoint_eq by exact HN; lra). rewrite E, Hc. f_equal.
  replace (L a) with ((1 - eqPoint N k) / 2) by (rewrite <- E; lra). replace (L b) with ((1 + eqPoint N k) / 2) by (rewrite <- E; lra). field.
Qed.
Lemma node_on_edge : forall alpha L f k, In f [[0; 1]; [0; 2]; [1; 2]]%nat -> (k <= N)%nat -> L (missing_vertex 2 f) = 0 -> L (nth 1 f 0%nat) = INR k / INR N -> rsum 3 L = 1 ->
  exists x, node2 alpha L = Some x /\ forall d, (d < 2)%nat -> x d = facet_param 2 f (fun _ => (1 + nth k gl 0) / 2) d.
Proof.
  intros alpha L f k Hf Hk Hm Hb S1. destruct (node2_value alpha L S1) as (x & E & Hx). exists x. split; [exact E |]. intros d Hd. rewrite Hx by exact Hd. clear E Hx x.
  cbn [rsum] in S1. unfold facet_param. cbn [Nat.sub rsum]. pose proof (eqPoint_eq N k HN) as EQ.
  destruct Hf as [<- | [<- | [<- | []]]]; cbn [nth] in *;
  [change (missing_vertex 2 [0; 1]%nat) with 2%nat in Hm | change (missing_vertex 2 [0; 2]%nat) with 1%nat in Hm | change (missing_vertex 2 [1; 2]%nat) with 0%nat in Hm].
  - pose proof (warped_edge alpha L 0 1 2 k Hk Hm Hb ltac:(lra)) as W. unfold tri_shift. rewrite W.
    rewrite (warped_zero alpha L 0 2 1) by auto. rewrite (warped_zero alpha L 1 2 0) by auto.
    destruct d as [| [| d]]; [| | lia]; unfold GeometryModel.ref_vertex; cbn [Nat.eqb]; lra.
  - pose proof (warped_edge alpha L 0 2 1 k Hk Hm Hb ltac:(lra)) as W. unfold tri_shift. rewrite W.
    rewrite (warped_zero alpha L 0 1 2) by auto. rewrite (warped_zero alpha L 1 2 0) by auto.
    destruct d as [| [| d]]; [| | lia]; unfold GeometryModel.ref_vertex; cbn [Nat.eqb]; lra.
  - pose proof (warped_edge alpha L 1 2 0 k Hk Hm Hb ltac:(lra)) as W. unfold tri_shift. rewrite W.
    rewrite (warped_zero alpha L 0 1 2) by auto. rewrite (warped_zero alpha L 0 2 1) by auto.
    destruct d as [| [| d]]; [| | lia]; unfold GeometryModel.ref_vertex; cbn [Nat.eqb]; lra.
Qed.

(** ** Tetrahedra *)
Local Notation V := equilateralTetrahedron.
Local Notation faces := [[0; 1; 2]; [0; 1; 3]; [0; 2; 3]; [1; 2; 3]]%nat.
Definition on_face (L : nat -> R) (f : list nat) (c : nat) : R := L (nth c f 0%nat).
Definition face_shift (alpha : R) (L : nat -> R) (f : list nat) (v : nat) : R :=
  rsum 3 (fun j => if (nth j f 0 =? v)%nat then shift alpha (on_face L f) j else 0).
Definition denominator (L : nat -> R) (f : list nat) : R :=
  (L (nth 0 f 0%nat) + 1 / 2 * L (missing_vertex 3 f)) * (L (nth 1 f 0%nat) + 1 / 2 * L (missing_vertex 3 f)) * (L (nth 2 f 0%nat) + 1 / 2 * L (missing_vertex 3 f)).
Definition numerator (L : nat -> R) (f : list nat) : R := L (nth 0 f 0%nat) * L (nth 1 f 0%nat) * L (nth 2 f 0%nat).
Lemma face_tangents : forall f d, In f faces ->
  normalized 3 (vdiff (V (nth 1 f 0%nat)) (V (nth 0 f 0%nat))) d = (V (nth 1 f 0%nat) d - V (nth 0 f 0%nat) d) / 2
  /\ normalized 3 (fun d => V (nth 2 f 0%nat) d - 1 / 2 * (V (nth 1 f 0%nat) d + V (nth 0 f 0%nat) d)) d
   = (V (nth 2 f 0%nat) d - 1 / 2 * (V (nth 1 f 0%nat) d + V (nth 0 f 0%nat) d)) / sqrt 3.
Proof.
  intros f d Hf. destruct sqrt3 as [S N0]. destruct sqrt6 as [S6 N6]. split.
  - rewrite (normalized_length 3 _ 2); [reflexivity | lra |].
    destruct Hf as [<- | [<- | [<- | [<- | []]]]]; unfold vdot, vdiff; cbn [rsum nth equilateralTetrahedron coords]; rewrite ?over_sqrt3, ?over_sqrt6; lra.
  - rewrite (normalized_length 3 _ (sqrt 3)); [reflexivity | apply sqrt_lt_R0; lra |]. rewrite S.
    destruct Hf as [<- | [<- | [<- | [<- | []]]]]; unfold vdot; cbn [rsum nth equilateralTetrahedron coords]; rewrite ?over_sqrt3, ?over_sqrt6; lra.
Qed.
Lemma face_sum : forall alpha L f d, In f faces ->
  rsum 4 (fun v => face_shift alpha L f v * V v d) = rsum 3 (fun j => shift alpha (on_face L f) j * V (nth j f 0%nat) d).
Proof. intros alpha L f d Hf. unfold face_shift. set (s := shift alpha (on_face L f)). destruct Hf as [<- | [<- | [<- | [<- | []]]]]; cbn [rsum nth Nat.eqb]; ring. Qed.
Lemma blend_face : forall alpha L f result delta, In f faces -> (forall d, (d < 3)%nat -> result d = rsum 4 (fun c => delta c * V c d)) ->
  exists r, blend_facet solve root eps N alpha L result f = Some r
  /\ forall d, (d < 3)%nat -> r d = rsum 4 (fun c => (if Rlt_dec (Rabs (denominator L f)) eps then face_shift alpha L f c
       else delta c + (1 + alpha * alpha * (L (missing_vertex 3 f) * L (missing_vertex 3 f))) * numerator L f / denominator L f * face_shift alpha L f c) * V c d).
Proof.
  intros alpha L f result delta Hf Hr. unfold blend_facet. cbv zeta. fold (on_face L f). destruct (triangle_shift solve root eps N gl Hgl alpha (on_face L f)) as (w & -> & Hw). cbn [bind].
  set (num := on_face L f 0%nat * on_face L f 1%nat * on_face L f 2%nat). change num with (numerator L f). clear num.
  match goal with |- context [Rabs ?x] => change x with (denominator L f) end.
  assert (E : forall d, (d < 3)%nat -> w 0%nat * normalized 3 (vdiff (V (nth 1 f 0%nat)) (V (nth 0 f 0%nat))) d
     + w 1%nat * normalized 3 (fun d => V (nth 2 f 0%nat) d - 1 / 2 * (V (nth 1 f 0%nat) d + V (nth 0 f 0%nat) d)) d
     = rsum 4 (fun v => face_shift alpha L f v * V v d)).
  { intros d Hd. rewrite face_sum by exact Hf. destruct (face_tangents f d Hf) as [-> ->]. rewrite !Hw. pose proof (shift_sum alpha (on_face L f)) as S0.
    cbn [rsum equilateralTriangle coords] in *. set (s := shift alpha (on_face L f)) in *. rewrite !over_sqrt3. destruct sqrt3 as [S N0].
    set (v0 := V (nth 0 f 0%nat) d). set (v1 := V (nth 1 f 0%nat) d). set (v2 := V (nth 2 f 0%nat) d).
    replace (s 2%nat) with (- s 0%nat - s 1%nat) by lra.
    replace ((0 + s 0%nat * (-1 / 3 * sqrt 3) + s 1%nat * (-1 / 3 * sqrt 3) + (- s 0%nat - s 1%nat) * (2 / 3 * sqrt 3)) * ((v2 - 1 / 2 * (v1 + v0)) / 3 * sqrt 3))
      with ((- s 0%nat - s 1%nat) * (v2 - 1 / 2 * (v1 + v0)) / 3 * (sqrt 3 * sqrt 3)) by field. rewrite S. field. }
  destruct (Rlt_dec (Rabs (denominator L f)) eps) as [Hd | Hd]; eexists; (split; [reflexivity |]); intros d Hdd; cbv beta; rewrite E by exact Hdd.
  - ring.
  - rewrite Hr by exact Hdd. rewrite Rmult_1_l, <- rsum_scale, <- rsum_plus. apply rsum_ext. intros c Hc. unfold numerator, Rdiv. ring.
Qed.
(** Rows of multiples of 1/N. *)
Hypothesis Heps3 : eps * (8 * (INR N * INR N * INR N)) <= 1.
Definition lattice_row (D : nat) (L : nat -> R) : Prop := (forall c, (c <= D)%nat -> exists m : nat, L c = INR m / INR N) /\ rsum (S D) L = 1.
Lemma INR_N : 0 < INR N. Proof. apply lt_0_INR. lia. Qed.
Lemma fraction_small : forall a b c : nat, 0 <= INR a / (2 * INR N) * (INR b / (2 * INR N)) * (INR c / (2 * INR N))
  /\ (INR a / (2 * INR N) * (INR b / (2 * INR N)) * (INR c / (2 * INR N)) < eps -> (a = 0 \/ b = 0 \/ c = 0)%nat).
Proof.
  intros a b c. pose proof INR_N as PN. set (n := INR N) in *. assert (P : 0 < 8 * (n * n * n)) by (repeat apply Rmult_lt_0_compat; lra).
  replace (INR a / (2 * n) * (INR b / (2 * n)) * (INR c / (2 * n))) with (INR (a * b * c) / (8 * (n * n * n))) by (rewrite !mult_INR; field; lra).
  split; [apply Rmult_le_pos; [apply pos_INR | left; now apply Rinv_0_lt_compat] |].
  intros H. assert (K : (a * b * c < 1)%nat); [| destruct a; [auto |]; destruct b; [auto |]; destruct c; [auto | cbn in K; lia]].
  apply INR_lt. apply (Rmult_lt_compat_r (8 * (n * n * n))) in H; [| exact P]. replace (INR (a * b * c) / (8 * (n * n * n)) * (8 * (n * n * n))) with (INR (a * b * c)) in H by (field; lra). simpl (INR 1). lra.
Qed.
Lemma half_sum : forall a b : nat, INR a / INR N + 1 / 2 * (INR b / INR N) = INR (2 * a + b) / (2 * INR N).
Proof. intros a b. pose proof INR_N. rewrite plus_INR, mult_INR. simpl (INR 2). field. lra. Qed.
Lemma face_vertices : forall f, In f faces -> (nth 0 f 0 <= 3 /\ nth 1 f 0 <= 3 /\ nth 2 f 0 <= 3 /\ missing_vertex 3 f <= 3)%nat.
Proof. intros f Hf. destruct Hf as [<- | [<- | [<- | [<- | []]]]]; vm_compute; repeat split; lia. Qed.
Lemma denominator_zero : forall L f, lattice_row 3 L -> In f faces ->
  (Rabs (denominator L f) < eps <-> denominator L f = 0) /\ (denominator L f = 0 -> L (missing_vertex 3 f) = 0).
Proof.
  intros L f [HL _] Hf. destruct (face_vertices f Hf) as (A & B & C & M). destruct (HL _ A) as (a & Ea). destruct (HL _ B) as (b & Eb). destruct (HL _ C) as (c & Ec). destruct (HL _ M) as (m & Em).
  unfold denominator. rewrite Ea, Eb, Ec, Em, !half_sum. destruct (fraction_small (2 * a + m) (2 * b + m) (2 * c + m)) as [P Z]. split; [split |].
  - rewrite Rabs_pos_eq by exact P. intros H. destruct (Z H) as [-> | [-> | ->]]; simpl (INR 0); unfold Rdiv; ring.
  - intros ->. rewrite Rabs_R0. apply Heps.
  - intros E. destruct Z as [K | [K | K]]; [rewrite E; apply Heps | | |]; replace m with 0%nat by lia; simpl (INR 0); unfold Rdiv; ring.
Qed.
(** What a face does to the shift of a node on the face f. *)
Lemma same_shift : forall alpha L f g v, In f faces -> In g faces -> L (missing_vertex 3 f) = 0 -> L (missing_vertex 3 g) = 0 -> (v < 4)%nat ->
  face_shift alpha L g v = face_shift alpha L f v.
Proof.
  intros alpha L f g v Hf Hg Zf Zg Hv.
  destruct Hf as [<- | [<- | [<- | [<- | []]]]]; destruct Hg as [<- | [<- | [<- | [<- | []]]]]; try reflexivity; cbv [missing_vertex referenceSimplex nth filter existsb negb Nat.eqb seq orb Nat.add] in Zf, Zg;
  destruct v as [| [| [| [| v]]]]; try lia; unfold face_shift; cbn [rsum nth Nat.eqb]; unfold tri_shift, edge_warp, on_face; cbn [nth]; rewrite ?Zf, ?Zg; field.
Qed.
Lemma opposite_in : forall (L : nat -> R) f g, In f faces -> In g faces -> f <> g -> L (missing_vertex 3 f) = 0 -> numerator L g = 0.
Proof.
  intros L f g Hf Hg Hne Z. unfold numerator.
  destruct Hf as [<- | [<- | [<- | [<- | []]]]]; destruct Hg as [<- | [<- | [<- | [<- | []]]]]; try congruence; cbv [missing_vertex referenceSimplex nth filter existsb negb Nat.eqb seq orb Nat.add] in Z; cbn [nth]; rewrite Z; ring.
Qed.
Lemma denominator_face : forall (L : nat -> R) f, L (missing_vertex 3 f) = 0 -> denominator L f = numerator L f.
Proof. intros L f Z. unfold denominator, numerator. rewrite Z. ring. Qed.
Lemma shift_on_face : forall alpha L f, lattice_row 3 L -> In f faces -> L (missing_vertex 3 f) = 0 ->
  exists r, fold_left (fun r facet => bind r (fun result => blend_facet solve root eps N alpha L result facet)) faces (Some (fun _ => 0)) = Some r
  /\ forall d, (d < 3)%nat -> r d = rsum 4 (fun c => face_shift alpha L f c * V c d).
Proof.
  intros alpha L f HL Hf Z.
  assert (ST : forall g result delta, In g faces -> (forall d, (d < 3)%nat -> result d = rsum 4 (fun c => delta c * V c d)) ->
     exists r, blend_facet solve root eps N alpha L result g = Some r /\ forall d, (d < 3)%nat -> r d = rsum 4 (fun c =>
       (if Req_EM_T (denominator L g) 0 then face_shift alpha L f c else if list_eq_dec Nat.eq_dec g f then delta c + face_shift alpha L f c else delta c) * V c d)).
  { intros g result delta Hg Hr. destruct (blend_face alpha L g result delta Hg Hr) as (r & E & Er). exists r. split; [exact E |]. intros d Hd. rewrite Er by exact Hd. apply rsum_ext. intros c Hc. f_equal.
    destruct (denominator_zero L g HL Hg) as [[D1 D2] D3].
    destruct (Rlt_dec (Rabs (denominator L g)) eps) as [Hs | Hs]; destruct (Req_EM_T (denominator L g) 0) as [H0 | H0]; try (exfalso; tauto).
    - apply same_shift; auto.
    - destruct (list_eq_dec Nat.eq_dec g f) as [-> | Hne].
      + rewrite Z, (denominator_face L f Z) in *. field. exact H0.
      + rewrite (opposite_in L f g) by (auto; congruence). unfold Rdiv. ring. }
  assert (INT : denominator L f <> 0 -> forall g, In g faces -> denominator L g <> 0).
  { intros H0 g Hg E. destruct (list_eq_dec Nat.eq_dec g f) as [-> | Hne]; [contradiction |]. apply H0. rewrite (denominator_face L f Z). apply (opposite_in L g f); auto. now apply (denominator_zero L g HL Hg). }
  cbn [fold_left bind].
  destruct (ST [0; 1; 2]%nat (fun _ => 0) (fun _ => 0) ltac:(cbn; tauto)) as (r1 & -> & R1); [intros d Hd; rewrite rsum_zero; auto; intros; ring |]. cbn [bind].
  destruct (ST [0; 1; 3]%nat r1 _ ltac:(cbn; tauto) R1) as (r2 & -> & R2). cbn [bind].
  destruct (ST [0; 2; 3]%nat r2 _ ltac:(cbn; tauto) R2) as (r3 & -> & R3). cbn [bind].
  destruct (ST [1; 2; 3]%nat r3 _ ltac:(cbn; tauto) R3) as (r4 & -> & R4). cbn [bind]. exists r4. split; [reflexivity |].
  intros d Hd. rewrite R4 by exact Hd. apply rsum_ext. intros c Hc. f_equal. clear R1 R2 R3 R4 ST. set (t := face_shift alpha L f c).
  destruct (Req_EM_T (denominator L f) 0) as [H0 | H0].
  - destruct Hf as [<- | [<- | [<- | [<- | []]]]];
    repeat match goal with |- context [list_eq_dec Nat.eq_dec ?a ?b] => destruct (list_eq_dec Nat.eq_dec a b); try congruence end;
    repeat match goal with |- context [Req_EM_T ?a 0] => destruct (Req_EM_T a 0); try congruence end.
  - pose proof (INT H0) as K. pose proof (K [0;1;2]%nat ltac:(cbn; tauto)). pose proof (K [0;1;3]%nat ltac:(cbn; tauto)). pose proof (K [0;2;3]%nat ltac:(cbn; tauto)). pose proof (K [1;2;3]%nat ltac:(cbn; tauto)).
    destruct Hf as [<- | [<- | [<- | [<- | []]]]];
    repeat match goal with |- context [list_eq_dec Nat.eq_dec ?a ?b] => destruct (list_eq_dec Nat.eq_dec a b); try congruence end;
    repeat match goal with |- context [Req_EM_T ?a 0] => destruct (Req_EM_T a 0); try congruence end; ring.
Qed.
End Facets.
