(** Models src/quadrules: Gauss-Jacobi rules, collapsed tensor product rules on the reference simplices,
    tabulated rules and the choice among them.  double is modelled by the real numbers (no rounding),
    unsigned by nat. *)
Require Import List Arith Reals.
Require Import Verif.LinAlg Verif.BasisModel Verif.IntegralSpec.
Import ListNotations.
Local Open Scope R_scope.

(** src/util/Math.cpp:5-11 [rangeProduct], without overflow; k the number of factors left. *)
Fixpoint range_loop (k from product : nat) : nat :=
  match k with O => product | S k' => range_loop k' (S from) (product * from)%nat end.
Definition rangeProduct (from to : nat) : nat := range_loop (to + 1 - from) from 1%nat.

(** src/quadrules/IntervalQuadratureRule.h:15-30: the points and weights, and the interval [a, b]. *)
Record interval_rule := { ir_n : nat; ir_x : nat -> R; ir_w : nat -> R; ir_a : R; ir_b : R }.

(** src/quadrules/GaussJacobi.cpp:15-38 [GaussJacobi].  The Newton iteration is replaced by its limit:
    root i is the point it finds from the (i+1)-th initial guess. *)
Definition weightFactor (n a b : nat) : R :=
  - (2 * INR n + INR a + INR b + 2) * INR (rangeProduct (n + 1) (n + b)) * INR (2 ^ (a + b))
  / ((INR n + INR a + INR b + 1) * INR (rangeProduct (n + a + 1) (n + a + b)) * INR (n + 1)).
Definition GaussJacobi (root : nat -> R) (n a b : nat) : interval_rule :=
  {| ir_n := n; ir_x := root;
     ir_w := fun i => weightFactor n a b / (JacobiP (n + 1) a b (root i) * JacobiPDerivative n a b (root i));
     ir_a := -1; ir_b := 1 |}.

(** src/quadrules/IntervalQuadratureRule.cpp:5-18 [changeInterval]. *)
Definition changeInterval (start stop : R) (r : interval_rule) : interval_rule :=
  let diff := 1 / 2 * (ir_b r - ir_a r) in
  let avg := 1 / 2 * (ir_a r + ir_b r) in
  let newDiff := 1 / 2 * (stop - start) in
  let newAvg := 1 / 2 * (start + stop) in
  {| ir_n := ir_n r;
     ir_x := fun i => newDiff * (ir_x r i - avg) / diff + newAvg;
     ir_w := fun i => ir_w r i * (newDiff / diff);
     ir_a := start; ir_b := stop |}.

(** src/quadrules/SimplexQuadratureRule.h:13-30: points with weights, and the order. *)
Record simplex_rule := { sr_points : list ((nat -> R) * R); sr_order : nat }.
Definition sr_size (r : simplex_rule) : nat := length (sr_points r).

(** src/quadrules/TensorProductRule.h:12-14 [pointsPerDim] and :19-26 [size]. *)
Definition pointsPerDim (minQuadOrder : nat) : nat := (1 + minQuadOrder / 2)%nat.
Definition tensor_size (D minQuadOrder : nat) : nat :=
  fold_left (fun s _ => (s * pointsPerDim minQuadOrder)%nat) (seq 0 D) 1%nat.
(** src/quadrules/TensorProductRule.cpp:10-76 [TensorProductRule<D>::get], for D = 1, 2, 3; root n a b are
    the points of GaussJacobi(n, a, b). *)
Definition TensorProductRule (root : nat -> nat -> nat -> nat -> R) (D minQuadOrder : nat) : simplex_rule :=
  let n := pointsPerDim minQuadOrder in
  let gj a := changeInterval 0 1 (GaussJacobi (root n a 0%nat) n a 0) in
  let gj0 := gj 0%nat in
  let gj1 := gj 1%nat in
  let gj2 := gj 2%nat in
  {| sr_order := 2 * n - 1;
     sr_points :=
       match D with
       | 1%nat => map (fun i => (pt (ir_x gj0 i) 0 0, ir_w gj0 i)) (seq 0 n)
       | 2%nat =>
         flat_map (fun i => map (fun j =>
           (pt (ir_x gj1 i) (ir_x gj0 j * (1 - ir_x gj1 i)) 0, 1 / 2 * ir_w gj1 i * ir_w gj0 j))
           (seq 0 n)) (seq 0 n)
       | _ =>
         flat_map (fun i => flat_map (fun j => map (fun k =>
           (pt (ir_x gj2 i) (ir_x gj1 j * (1 - ir_x gj2 i)) (ir_x gj0 k * (1 - ir_x gj1 j) * (1 - ir_x gj2 i)),
            1 / 8 * ir_w gj2 i * ir_w gj1 j * ir_w gj0 k))
           (seq 0 n)) (seq 0 n)) (seq 0 n)
       end |}.

(** A class with the static functions size and get; None is numeric_limits<size_t>::max(). *)
Record rule_class := { rc_size : nat -> option nat; rc_get : nat -> simplex_rule }.
Definition tensor_class root (D : nat) : rule_class :=
  {| rc_size := fun m => Some (tensor_size D m); rc_get := TensorProductRule root D |}.

(** src/quadrules/TabulatedRules.h:31-53; the table is a std::map, that is, sorted by its keys, the orders;
    lower_bound finds the first key that is not less.  [transform] is applied to every point and weight. *)
Definition table := list (nat * list ((nat -> R) * R)).
Fixpoint lower_bound (t : table) (m : nat) : option (nat * list ((nat -> R) * R)) :=
  match t with [] => None | (k, r) :: t' => if (k <? m)%nat then lower_bound t' m else Some (k, r) end.
Definition tabulated_class (t : table) (transform : (nat -> R) * R -> (nat -> R) * R) : rule_class :=
  {| rc_size := fun m => match lower_bound t m with Some (_, r) => Some (length r) | None => None end;
     rc_get := fun m => match lower_bound t m with
                        | Some (k, r) => {| sr_points := map transform r; sr_order := k |}
                        | None => {| sr_points := []; sr_order := 0 |}  (* order -1 *)
                        end |}.
(** src/quadrules/TabulatedRules.h:66-71, JaskowiecSukumar2020::transform. *)
Definition js_transform (p : (nat -> R) * R) : (nat -> R) * R := (fst p, snd p / 6).
(** src/quadrules/TabulatedRules.h:93-103, WitherdenVincent2015<D>::transform; there is no coordinate
    D or above in the code, here it stays zero. *)
Definition wv_transform (D : nat) (p : (nat -> R) * R) : (nat -> R) * R :=
  (fun d => if (d <? D)%nat then 1 / 2 * fst p d + 1 / 2 else fst p d, snd p / INR (2 ^ D)).

Definition size_le (a b : option nat) : bool :=
  match a, b with _, None => true | None, Some _ => false | Some x, Some y => (x <=? y)%nat end.
(** src/quadrules/AutoRule.h:11-21 [minSizeSimplexQuadratureRule]. *)
Fixpoint minSizeSimplexQuadratureRule (c : rule_class) (cs : list rule_class) (m : nat) : simplex_rule :=
  match cs with
  | [] => rc_get c m
  | c2 :: tail => if size_le (rc_size c m) (rc_size c2 m) then minSizeSimplexQuadratureRule c tail m
                  else minSizeSimplexQuadratureRule c2 tail m
  end.
(** src/quadrules/AutoRule.h:41-50 [simplexQuadratureRule]. *)
Definition simplexQuadratureRule root (wv2 js wv3 : table) (D m : nat) : simplex_rule :=
  match D with
  | 2%nat => minSizeSimplexQuadratureRule (tabulated_class wv2 (wv_transform 2)) [tensor_class root 2] m
  | 3%nat => minSizeSimplexQuadratureRule (tabulated_class js js_transform)
               [tabulated_class wv3 (wv_transform 3); tensor_class root 3] m
  | _ => TensorProductRule root D m
  end.
