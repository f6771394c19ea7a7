(** Models src/form/BoundaryMap.{h,cpp}: numbering of the facets with a given boundary condition. *)
Require Import List Arith Bool Sorted Permutation.
Require Import Verif.Base Verif.LocalMeshModel Verif.TopoModel Verif.ScatterModel.
Import ListNotations.
Local Open Scope opt_scope.

(** src/form/BoundaryMap.cpp:30-35: other_rank; [all] are the owners of the facet's elements, [i] the
    loop index.  [None] stands for the initial value -1. *)
Fixpoint other_rank_loop (rank : nat) (all : list nat) (i : nat) (rest : list nat) (r : option nat) : option nat :=
  match rest with
  | [] => r
  | o :: t => other_rank_loop rank all (i + 1) t
                (if o =? rank then nth_error all ((i + 1) mod length all) else r)
  end.
(** src/form/BoundaryMap.cpp:26-42: the facets with condition [bc], paired with the other rank.
    [None]: a facet without own element (std::logic_error) or an index out of bounds. *)
Fixpoint bnd_collect (rank bc : nat) (m : topo_mesh) (um : list (list nat)) (fcts : list nat) : option (list (nat * nat)) :=
  match fcts with
  | [] => Some []
  | f :: t =>
      do bcs <- tm_bc m;
      do b <- nth_error bcs f;
      if b =? bc then
        do els <- nth_error um f;
        do ows <- map_opt (nth_error (tm_owner m)) els;
        do o <- other_rank_loop rank ows 0 ows None;
        do r <- bnd_collect rank bc m um t;
        Some ((o, f) :: r)
      else bnd_collect rank bc m um t
  end.

(** src/form/BoundaryMap.cpp:49-51: the key (!(rank <= other), other, l2cg) and its tuple order. *)
Definition bnd_key (rank : nat) (fgid : list nat) (a : nat * nat) : nat * nat * nat :=
  (if rank <=? fst a then 0 else 1, fst a, nth (snd a) fgid 0).
Definition key_lt (a b : nat * nat * nat) : bool :=
  let '(a0, a1, a2) := a in let '(b0, b1, b2) := b in
  (a0 <? b0) || (a0 =? b0) && ((a1 <? b1) || (a1 =? b1) && (a2 <? b2)).
(** src/form/BoundaryMap.cpp:48-52 [std::sort]: some permutation in which no element is less than an
    earlier one. *)
Definition std_sorted {A} (lt : A -> A -> bool) (l s : list A) : Prop :=
  Permutation l s /\ StronglySorted (fun a b => lt b a = false) s.

(** src/form/BoundaryMap.h:33-36 and the two maps given to ScatterPlan.  [None] in bm_bnd: SIZE_MAX. *)
Record bnd_map := { bm_bnd : list (option nat); bm_fct : list nat; bm_local : nat; bm_send : umap; bm_recv : umap }.
(** src/form/BoundaryMap.cpp:59-77: the loop; [None]: std::logic_error or out of bounds. *)
Fixpoint bnd_fill (rank : nat) (l : list (nat * nat)) (b : bnd_map) : option bnd_map :=
  match l with
  | [] => Some b
  | (o, f) :: t =>
      let n := length (bm_fct b) in
      do bnd <- upd (bm_bnd b) f (Some n);
      let fct := bm_fct b ++ [f] in
      do loc <- (if rank <=? o
                 then (if length fct =? bm_local b + 1 then Some (bm_local b + 1) else None)
                 else Some (bm_local b));
      let '(sm, rm) :=
        if negb (rank =? o)
        then (if rank <? o then (umap_push (bm_send b) o n, bm_recv b) else (bm_send b, umap_push (bm_recv b) o n))
        else (bm_send b, bm_recv b) in
      bnd_fill rank t {| bm_bnd := bnd; bm_fct := fct; bm_local := loc; bm_send := sm; bm_recv := rm |}
  end.
(** src/form/BoundaryMap.cpp:54-58: initial values. *)
Definition bnd_start (m : topo_mesh) : bnd_map :=
  {| bm_bnd := repeat None (tm_num_local_facets m); bm_fct := []; bm_local := 0; bm_send := []; bm_recv := [] |}.
(** src/form/BoundaryMap.cpp:12-80: the constructor; std::sort may return any [s] that is sorted. *)
Definition boundary_map (k rank bc : nat) (m : topo_mesh) (fgid : list nat) (b : bnd_map) : Prop :=
  exists um l s, facet_upward k m = Some um /\
    bnd_collect rank bc m um (seq 0 (tm_num_local_facets m)) = Some l /\
    std_sorted (fun x y => key_lt (bnd_key rank fgid x) (bnd_key rank fgid y)) l s /\
    bnd_fill rank s (bnd_start m) = Some b.
