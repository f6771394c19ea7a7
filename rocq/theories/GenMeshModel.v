(** Models src/mesh/GenMesh.{h,cpp} (box meshes) and app/common/MeshConfig.cpp:12-29.
    D is 2 or 3 as instantiated (GenMesh.cpp:188-189).  uint64_t is modelled by nat: numbers of vertices
    and elements are assumed to fit. *)
Require Import List Arith Bool ZArith.
Require Import Verif.Base Verif.MultiIndexModel Verif.DistributeModel Verif.SimplexModel.
Import ListNotations.
Local Open Scope opt_scope.

(** GenMesh.h:22-34 [TessInfo::NumSimplices]. *)
Definition num_simplices (D : nat) : nat := match D with 1 => 1 | 2 => 2 | _ => 5 end.
(** GenMesh.cpp:20-52 [tessellate]: the corner numbers of the simplices. *)
Definition tess_table (D : nat) (isOdd : bool) : list (list nat) :=
  match D, isOdd with
  | 1, _ => [[0; 1]]
  | 2, true => [[0; 1; 3]; [0; 2; 3]]
  | 2, false => [[0; 1; 2]; [1; 2; 3]]
  | 3, true => [[0; 1; 2; 4]; [1; 2; 3; 7]; [2; 4; 6; 7]; [1; 4; 5; 7]; [2; 4; 1; 7]]
  | 3, false => [[0; 2; 3; 6]; [0; 1; 3; 5]; [0; 4; 5; 6]; [3; 5; 6; 7]; [0; 3; 5; 6]]
  | _, _ => []
  end.
Fixpoint map_opt {A B} (f : A -> option B) (l : list A) : option (list B) :=
  match l with [] => Some [] | a :: t => do b <- f a; do r <- map_opt f t; Some (b :: r) end.
Definition tessellate (D : nat) (vertGIDs : list nat) (isOdd : bool) : option (list (list nat)) :=
  map_opt (fun c => do vs <- map_opt (nth_error vertGIDs) c; Some (mk_simplex vs)) (tess_table D isOdd).

(** src/util/MultiIndex.h:47-53 [operator+]. *)
Fixpoint vadd (a b : list nat) : list nat :=
  match a, b with x :: a', y :: b' => (x + y) :: vadd a' b' | _, _ => [] end.
(** GenMesh.h:167-172 [init]. *)
Definition np1 (N : list nat) : list nat := map (fun n => n + 1) N.
(** GenMesh.cpp:107-122, body of the loop over hypercubes. *)
Definition cube_simplices (D : nat) (N : list nat) (ecube : nat) : option (list (list nat)) :=
  do e <- unflatten ecube N;
  do vertGIDs <- map_opt (fun vflat => do o <- unflatten vflat (repeat 2 D); Some (flatten (vadd e o) (np1 N))) (seq 0 (2 ^ D));
  let isOdd := fold_left (fun b ee => xorb b (ee mod 2 =? 1)) e false in
  tessellate D vertGIDs isOdd.
(** std::copy to position [pos]. *)
Fixpoint write_at {A} (buf : list A) (pos : nat) (items : list A) : option (list A) :=
  match items with [] => Some buf | x :: t => do buf' <- upd buf pos x; write_at buf' (pos + 1) t end.
(** GenMesh.cpp:107-131, loop over hypercubes.  The destination is computed as elements.begin() +
    ecube*NumSimplices + firstPlex - from; that intermediate iterators are past the end is ignored. *)
Fixpoint cube_loop (D : nat) (N : list nat) (from to cFrom cTo : nat) (cubes : list nat) (elements : list (list nat))
  : option (list (list nat)) :=
  match cubes with
  | [] => Some elements
  | ecube :: t =>
      do simplices <- cube_simplices D N ecube;
      let NS := num_simplices D in
      let firstPlex := if ecube =? cFrom then from - cFrom * NS else 0 in
      let lastPlex := if ecube =? cTo - 1 then cTo * NS - to else 0 in
      do elements' <- write_at elements (ecube * NS + firstPlex - from) (firstn (NS - lastPlex - firstPlex) (skipn firstPlex simplices));
      cube_loop D N from to cFrom cTo t elements'
  end.
Definition product (l : list nat) : nat := fold_left Nat.mul l 1.
(** GenMesh.cpp:88-131: the elements of [rank].  [(static_cast<int64_t>(to) - 1) / NumSimplices]
    is 0 for to = 0 (NumSimplices > 1), as is the truncated nat subtraction. *)
Definition gen_elements (D : nat) (N : list nat) (rank size : nat) : option (list (list nat)) :=
  let NS := num_simplices D in
  let r := distribute 0 (Z.of_nat (product N * NS)) (Z.of_nat rank) (Z.of_nat size) in
  let from := Z.to_nat (fst r) in
  let to := Z.to_nat (snd r) in
  let cFrom := from / NS in
  let cTo := 1 + (to - 1) / NS in
  cube_loop D N from to cFrom cTo (seq cFrom (cTo - cFrom)) (repeat [] (to - from)).
(** GenMesh.cpp:59-86: the vertices of [rank]; [pos] is vertex_pos. *)
Definition gen_vertices {V} (pos : list nat -> option V) (N : list nat) (rank size : nat) : option (list V) :=
  let r := distribute 0 (Z.of_nat (product (np1 N))) (Z.of_nat rank) (Z.of_nat size) in
  let from := Z.to_nat (fst r) in
  map_opt (fun vflat => do v <- unflatten vflat (np1 N); pos v) (seq from (Z.to_nat (snd r) - from)).

(** GenMesh.h:178-185 [findRegion]; [None]: reading past the end or the assertion. *)
Fixpoint find_region_loop (fuel v region : nat) (regions : list nat) : option nat :=
  match fuel with
  | 0 => None
  | S f =>
      do x <- nth_error regions (region + 1);
      if (x <? v) && (region <? length regions - 1) then find_region_loop f v (region + 1) regions
      else if region =? length regions - 1 then None else Some region
  end.
Definition findRegion (regions : list nat) (v : nat) : option nat := find_region_loop (length regions) v 0 regions.

(** std::find. *)
Fixpoint find_index {A} (p : A -> bool) (l : list A) : option nat :=
  match l with [] => None | x :: t => if p x then Some 0 else option_map S (find_index p t) end.
(** GenMesh.cpp:143-186 [extractBoundaryMesh], one facet: [None] is an error (out of bounds or the
    assertion), [Some None]: not in the boundary mesh.  [bcs]: the functions bcs_[d]. *)
Fixpoint in_plane (v0 : list nat) (vs : list (list nat)) (flags : list bool) : list bool :=
  match vs with
  | [] => flags
  | v :: t => in_plane v0 t (map (fun x => fst x && (fst (snd x) =? snd (snd x))) (combine flags (combine v v0)))
  end.
Fixpoint other_regions (dim d : nat) (v : list nat) (regions : list (list nat)) (others : list nat) : option (list nat) :=
  match v, regions with
  | x :: v', rs :: regions' =>
      if dim =? d then other_regions dim (d + 1) v' regions' others
      else match others with
           | o :: others' => do r <- findRegion rs x; do t <- other_regions dim (d + 1) v' regions' others'; Some (Nat.max o r :: t)
           | [] => None
           end
  | _, _ => Some others
  end.
Fixpoint all_regions (dim : nat) (vs : list (list nat)) (regions : list (list nat)) (others : list nat) : option (list nat) :=
  match vs with
  | [] => Some others
  | v :: t => do o <- other_regions dim 0 v regions others; all_regions dim t regions o
  end.
Definition boundary_facet {B} (D : nat) (N : list nat) (regions : list (list nat)) (bcs : nat -> nat -> list nat -> B)
    (face : list nat) : option (option (list nat * B)) :=
  do vs <- map_opt (fun vflat => unflatten vflat (np1 N)) face;
  do v0 <- nth_error vs 0;
  let flags := in_plane v0 (tl vs) (repeat true D) in
  if 1 <? count_occ Bool.bool_dec flags true then None else
  match find_index (fun b => b) flags with
  | None => Some None
  | Some dim =>
      do rs <- nth_error regions dim;
      do x <- nth_error v0 dim;
      match find_index (Nat.eqb x) rs with
      | None => Some None
      | Some plane => do o <- all_regions dim vs regions (repeat 0 (D - 1)); Some (Some (face, bcs dim plane o))
      end
  end.
Fixpoint keep_some {A} (l : list (option A)) : list A :=
  match l with [] => [] | Some a :: t => a :: keep_some t | None :: t => keep_some t end.
Definition extractBoundaryMesh {B} (D : nat) (N : list nat) (regions : list (list nat)) (bcs : nat -> nat -> list nat -> B)
    (elems : list (list nat)) : option (list (list nat * B)) :=
  do fs <- map_opt (downward D) elems;
  do r <- map_opt (boundary_facet D N regions bcs) (concat fs);
  Some (keep_some r).

(** app/common/MeshConfig.cpp:16-26: the boundary condition function made from the configured list
    of (plane, region, condition). *)
Fixpoint config_bc {B} (none : B) (cfg : list (nat * option (list nat) * B)) (plane : nat) (region : list nat) : B :=
  match cfg with
  | [] => none
  | (p, r, bc) :: t =>
      if (p =? plane) && match r with None => true | Some r' => if list_eq_dec Nat.eq_dec r' region then true else false end
      then bc else config_bc none t plane region
  end.

(** GenMesh.h:140-154 [initDim]: the region list from the rounded number of cells of each interval. *)
Fixpoint init_regions (N : nat) (ns : list nat) : list nat :=
  N :: match ns with [] => [] | n :: t => init_regions (N + n) t end.
