(** Models src/basis/Equidistant.cpp, src/basis/NumberingConvention.h, src/basis/Util.h and
    Simplex::referenceSimplexVertices.  double is modelled by the real numbers (no rounding). *)
Require Import List Arith Reals Lia Lra.
Require Import Verif.VecModel Verif.CombinatoricsModel.
Import ListNotations.
Local Open Scope R_scope.

Definition point := list R.

(** src/mesh/Simplex.h:51-59. *)
Definition referenceSimplexVertices (D : nat) : list point :=
  repeat 0 D :: map (fun d => map (fun i => if Nat.eqb i (d - 1) then 1 else 0) (seq 0 D)) (seq 1 D).

(** src/basis/NumberingConvention.h:17-27. *)
Inductive convention := VTK | GMSH.
Definition tet_edge_convention (c : convention) : list (list nat) :=
  match c with
  | VTK => [[0; 1]; [1; 2]; [2; 0]; [0; 3]; [1; 3]; [2; 3]]
  | GMSH => [[0; 1]; [1; 2]; [2; 0]; [3; 0]; [3; 2]; [3; 1]]
  end%nat.
Definition tet_face_convention (c : convention) : list (list nat) :=
  match c with
  | VTK => [[0; 1; 3]; [2; 3; 1]; [0; 3; 2]; [0; 2; 1]]
  | GMSH => [[0; 2; 1]; [0; 1; 3]; [0; 3; 2]; [3; 1; 2]]
  end%nat.

Section Dim.
  Variable D : nat.
  Variable conv : convention.
  Definition vert (vs : list point) (i : nat) : point := nth i vs [].

  (** src/basis/Equidistant.cpp:11-26; DD + 1 is the number of vertices. *)
  Definition shrinkAndShift (factor : R) (verts : list point) : list point :=
    let DD := (length verts - 1)%nat in
    map (fun i =>
      fold_left (fun result j =>
        let lambda_ij := if Nat.eqb i j then 1 - INR DD * factor else factor in
        vadd result (vscale lambda_ij (vert verts j)))
      (seq 0 (DD + 1)) (repeat 0 D)) (seq 0 (DD + 1)).

  (** :28-36; n < 0 does not enter the loop, as n = 0. *)
  Definition edge (n : nat) (verts : list point) : list point :=
    let h := 1 / (INR n + 1) in
    map (fun nn => let L := INR nn * h in
                   vadd (vscale (1 - L) (vert verts 0)) (vscale L (vert verts 1))) (seq 1 n).

  (** :38-57.  The while loop with n -= 3 as a recursion. *)
  Fixpoint triangle (n : nat) (verts : list point) : list point :=
    [vert verts 0] ++
    match n with
    | O => []
    | S n' => [vert verts 1; vert verts 2] ++
              edge n' [vert verts 0; vert verts 1] ++
              edge n' [vert verts 1; vert verts 2] ++
              edge n' [vert verts 2; vert verts 0]
    end ++
    match n with
    | S (S (S m)) => triangle m (shrinkAndShift (1 / INR n) verts)
    | _ => []
    end.

  (** :59-89.  The while loop with n -= 4 as a recursion. *)
  Fixpoint tet (n : nat) (verts : list point) : list point :=
    [vert verts 0] ++
    match n with
    | O => []
    | S n' => [vert verts 1; vert verts 2; vert verts 3] ++
              flat_map (fun e => edge n' (map (vert verts) e)) (tet_edge_convention conv) ++
              match n with
              | S (S (S m)) =>
                  flat_map (fun f => triangle m (shrinkAndShift (1 / INR n) (map (vert verts) f)))
                    (tet_face_convention conv)
              | _ => []
              end
    end ++
    match n with
    | S (S (S (S m))) => tet m (shrinkAndShift (1 / INR n) verts)
    | _ => []
    end.
End Dim.

(** :91-112 operator(). *)
Definition equidistant_nodes (D : nat) (conv : convention) (degree : nat) : list point :=
  let r := referenceSimplexVertices D in
  match D with
  | 1%nat => [vert r 0; vert r 1] ++ edge (degree - 1) r
  | 2%nat => triangle D degree r
  | 3%nat => tet D conv degree r
  | _ => []
  end.

(** ** src/basis/Util.h *)

(** :43-50. *)
Definition node_eta (r : list point) (p : list nat) (xi : point) : point :=
  fold_left (fun eta d => vadd eta (vscale (nth d xi 0) (vert r (nth (d + 1) p 0%nat))))
    (seq 0 (length xi))
    (vscale (1 - fold_left Rplus xi 0) (vert r (nth 0 p 0%nat))).

(** :59-62: the first node whose distance is not larger than tol. *)
Fixpoint find_node (tol : R) (x : point) (nodes : list point) : option nat :=
  match nodes with
  | [] => None
  | y :: ys => if Rgt_dec (norm (vsub x y)) tol then option_map S (find_node tol x ys) else Some O
  end.

(** :38-79. *)
Fixpoint node_positions (tol : R) (nodes : list point) (xs : list point) : option (list nat) :=
  match xs with
  | [] => Some []
  | x :: xs' =>
      match find_node tol x nodes with
      | None => None
      | Some pos => option_map (cons pos) (node_positions tol nodes xs')
      end
  end.
Definition node_permutation (D : nat) (tol : R) (nodes : list point) (p : list nat) : option (list nat) :=
  let r := referenceSimplexVertices D in
  match node_positions tol nodes (map (node_eta r p) nodes) with
  | None => None
  | Some result =>
      if forallb (fun pos => Nat.eqb (count_occ Nat.eq_dec result pos) 1) (seq 0 (length nodes))
      then Some result else None
  end.

(** :89-99: the loop, from N on; [None] in the outer option: out of fuel. *)
Fixpoint degree_loop (fuel D num_nodes N : nat) : option nat :=
  match binom (N + D) D with
  | None => None
  | Some b =>
      if (b <? num_nodes)%nat
      then match fuel with O => None | S f => degree_loop f D num_nodes (N + 1) end
      else Some N
  end.
Definition num_nodes_to_degree (fuel D num_nodes : nat) : option (option nat) :=
  match degree_loop fuel D num_nodes 1 with
  | None => None
  | Some N => match binom (N + D) D with
              | Some b => Some (if (b =? num_nodes)%nat then Some N else None)
              | None => None
              end
  end.
