(** The tables at work (C85). *)
Require Import List Arith Bool ZArith Uint63 Lia Reals Lra.
Require Import Verif.LinAlg Verif.BasisModel Verif.BasisSpec Verif.JacobiProofs Verif.IntegralSpec Verif.QuadratureModel Verif.QuadratureSpec
  Verif.QuadratureProps Verif.QuadratureExamples Verif.RootsProps Verif.QuadTableModel Verif.QuadTableSpec Verif.QuadTableTri Verif.QuadTableTet Verif.QuadTableJS
  Verif.QuadTableCheck Verif.QuadTableProofs Verif.QuadTableProps.
Import ListNotations.
Local Open Scope R_scope.

(** The orders on offer and the numbers of points. *)
Example sizes : map (fun kr : nat * raw_rule => (fst kr, length (snd (snd kr)))) WV_Tri =
   [(1,1);(2,3);(4,6);(5,7);(6,12);(7,15);(8,16);(9,19);(10,25);(11,28);(12,33);(13,37);(14,42);(15,49);(16,55);(17,60);(18,67);(19,73);(20,79)]%nat
  /\ map (fun kr : nat * raw_rule => (fst kr, length (snd (snd kr)))) WV_Tet =
   [(1,1);(2,4);(3,8);(5,14);(6,24);(7,35);(8,46);(9,59);(10,81)]%nat
  /\ map fst JS_Tet = seq 2 19.
Proof. vm_compute. repeat split. Qed.
(** All hypotheses of simplex_quadrature_rule_accurate can be met; for order 20 on triangles 79 points are chosen, not 121; beyond the
    tables the tensor product rule steps in. *)
Example order_twenty : exists root, let r := simplexQuadratureRule root (as_table WV_Tri) (as_table JS_Tet) (as_table WV_Tet) 2 20 in
  nearly_exact (2 / 10 ^ 15) 2 (sr_points r) 20 /\ sr_size r = 79%nat.
Proof.
  destruct (roots_for_every_order 20) as (root & Hr). exists root. intros r.
  pose proof (simplex_quadrature_rule_accurate root 2 20 Hr ltac:(lia)) as A. fold r in A. split; [apply A |]. clear A.
  unfold r, simplexQuadratureRule, sr_size. cbn [minSizeSimplexQuadratureRule tabulated_class tensor_class rc_size rc_get].
  change (lower_bound (as_table WV_Tri) 20) with (Some (20%nat, as_rule WV_Tri_20)). cbn iota beta.
  assert (L : length (as_rule WV_Tri_20) = 79%nat) by (unfold as_rule; rewrite combine_length, !map_length; reflexivity).
  rewrite L. change (tensor_size 2 20) with 121%nat. cbn [size_le Nat.leb]. cbn [sr_points]. now rewrite map_length, L.
Qed.
(** The integral of x^2 y over the triangle is 1/60; the rule of order 4 gives it up to 2e-15. *)
Example sixtieth : Rabs (rule_sum (map (wv_transform 2) (as_rule WV_Tri_4)) (fun xi => xi 0%nat ^ 2 * xi 1%nat) - 1 / 60) <= 2 / 10 ^ 15.
Proof.
  assert (I4 : In (4%nat, as_rule WV_Tri_4) (as_table WV_Tri)) by (right; right; left; reflexivity).
  destruct (triangle_rules_accurate _ _ I4) as [_ N].
  specialize (N [(1, (2, 1, 0)%nat)]). 
  assert (T : terms_ok 2 4 [(1, (2, 1, 0)%nat)]) by (intros c p q r [E | []]; injection E as <- <- <- <-; lia).
  pose proof (simplex_mono 2 4 2 1 0 ltac:(lia) ltac:(cbn; lia)) as M.
  assert (E : is_simplex_integral 2 (poly_value [(1, (2, 1, 0)%nat)]) (1 / 60)).
  { eapply simplex_ext; [| | exact M]; [intros; unfold mono; cbn; ring |]. unfold factR. cbn. field. }
  specialize (N T _ E). cbn [coef_sum fold_right fst] in N. rewrite Rabs_R1, Rplus_0_r, Rmult_1_r in N.
  rewrite (QuadTableSound.rule_sum_ext _ _ (poly_value [(1, (2, 1, 0)%nat)])) by (intros; cbn; ring). exact N.
Qed.
(** Points on the boundary are among those of a rule: the rule of order 16 on triangles. *)
Example on_the_edge : exists x w, In (x, w) (map (wv_transform 2) (as_rule WV_Tri_16)) /\ x 1%nat = 0.
Proof.
  assert (E : exists i, nth_error (map (fun p => nth_error p 1) (fst WV_Tri_16)) i = Some (Some (Dec true 1 []))).
  { exists 13%nat. vm_compute. reflexivity. }
  destruct E as (i & E). rewrite nth_error_map in E. destruct (nth_error (fst WV_Tri_16) i) as [p |] eqn:Ep; [| discriminate]. cbn in E. injection E as E.
  assert (Hi : (i < length (snd WV_Tri_16))%nat). { change (length (snd WV_Tri_16)) with (length (fst WV_Tri_16)). apply nth_error_Some. congruence. }
  set (f := fun (p : list decimal) (d : nat) => nth d (map decimal_value p) 0).
  exists (fst (wv_transform 2 (f p, nth i (map decimal_value (snd WV_Tri_16)) 0))), (snd (wv_transform 2 (f p, nth i (map decimal_value (snd WV_Tri_16)) 0))). split.
  - rewrite <- surjective_pairing. apply in_map. unfold as_rule.
    assert (Hc : nth i (combine (map f (fst WV_Tri_16)) (map decimal_value (snd WV_Tri_16))) (f [], 0) = (f p, nth i (map decimal_value (snd WV_Tri_16)) 0)).
    { rewrite combine_nth by (rewrite !map_length; reflexivity). f_equal. rewrite map_nth. f_equal. now apply nth_error_nth. }
    rewrite <- Hc. apply nth_In. rewrite combine_length, !map_length. change (length (fst WV_Tri_16)) with (length (snd WV_Tri_16)). lia.
  - unfold wv_transform. cbn [fst Nat.ltb Nat.leb]. unfold f. rewrite (QuadTableSound.nth_value p 1 _ E). unfold decimal_value. cbn [groups_value]. change (to_Z 1) with 1%Z. lra.
Qed.
