(** Models src/geometry/PointLocator.h/.cpp, src/io/ProbeWriterUtil.h and the assignment of probes in
    src/io/ProbeWriter.cpp and src/io/BoundaryProbeWriter.cpp, with exact real arithmetic.  [None]
    stands for an exception. *)
Require Import Arith Bool Reals List.
From Verif Require Import Base LinAlg PlexModel.
Import ListNotations.
Local Open Scope opt_scope.
Local Open Scope R_scope.

(** Simplex.h:56-64 referenceSimplexVertices. *)
Definition ref_vertices_of (k d : nat) : R := if (k =? S d)%nat then 1 else 0.

Section Locator.
(** Eigen's solvers. *)
Variable solve : nat -> (nat -> nat -> R) -> (nat -> R) -> nat -> R.
Variable D : nat.
(** The map of each element of the mesh (Curvilinear::map), its Jacobian (Curvilinear::jacobian) and the
    reference nodes (RefElement::refNodes). *)
Variable X : nat -> pt -> pt.
Variable Jac : nat -> pt -> nat -> nat -> R.
Variable nodes : list pt.
(** std::numeric_limits<double>::max() and its negative. *)
Variables huge lowest : R.
(** PointLocator.h:29-30, the parameters of the constructor. *)
Variables atol rtol bbox_factor : R.
Variable max_its : nat.

(** PointLocator.cpp:22-37: the lower and upper bound for coordinate d, enlarged. *)
Definition bbox (e d : nat) : R * R :=
  let b0 := fold_left (fun b n => Rmin b (X e n d)) nodes huge in
  let b1 := fold_left (fun b n => Rmax b (X e n d)) nodes lowest in
  let r := (b1 - b0) / 2 in
  let mid := (b1 + b0) / 2 in
  (mid - bbox_factor * r, mid + bbox_factor * r).
(** PointLocator.cpp:40-48. *)
Definition inside_bbox (e : nat) (point : pt) : bool :=
  fold_left (fun inside d =>
    inside && (if Rge_dec (point d) (fst (bbox e d)) then true else false)
           && (if Rle_dec (point d) (snd (bbox e d)) then true else false)) (seq 0 D) true.

(** PointLocator.cpp:61-64 and :74-78: residual2 is assigned, not accumulated, in the loop over d. *)
Definition residual2 (e : nat) (point xi : pt) : R :=
  fold_left (fun _ d => let f := point d - X e xi d in f * f) (seq 0 D) 0.
(** PointLocator.cpp:77: residual2 < atol + rtol * residual2 / residual2_0, where 0 / 0 is not a number
    (the comparison fails) and x / 0 is infinite for x > 0 (the comparison holds). *)
Definition converged (res res0 : R) : bool :=
  if Req_EM_T res0 0 then (if Req_EM_T res 0 then false else true)
  else if Rlt_dec res (atol + rtol * res / res0) then true else false.
(** PointLocator.cpp:66-97: Newton's method; [fuel] = max_its - it. *)
Fixpoint newton (fuel e : nat) (point : pt) (res0 : R) (xi : pt) : option pt :=
  match fuel with
  | O => None
  | S f =>
      if converged (residual2 e point xi) res0 then Some xi
      else newton f e point res0 (padd xi (solve D (Jac e xi) (psub point (X e xi))))
  end.
(** PointLocator.cpp:51-98 xInv. *)
Definition third : pt := fun _ => 1 / 3.
Definition x_inv (e : nat) (point : pt) : option pt :=
  newton max_its e point (residual2 e point third) third.

(** PointLocator.h:18-23; [None] for the element number std::numeric_limits<std::size_t>::max(). *)
Record located := { l_no : option nat; l_dist : R; l_xi : pt; l_x : pt }.
(** Vector.h: norm. *)
Definition pnorm (a : pt) : R := sqrt (pdot D a a).
(** PointLocator.h:41-60: one element. *)
Definition visit (point : pt) (r : located) (e : nat) : option located :=
  if inside_bbox e point then
    do xi0 <- x_inv e point;
    do c <- closest solve D (S D) ref_vertices_of huge xi0;
    let x := X e (xi c) in
    let dist := pnorm (psub x point) in
    Some (if Rlt_dec dist (l_dist r)
          then {| l_no := Some e; l_dist := dist; l_xi := xi c; l_x := x |} else r)
  else Some r.
(** PointLocator.h:32-65 locate. *)
Fixpoint visit_all (point : pt) (els : list nat) (r : located) : option located :=
  match els with
  | [] => Some r
  | e :: t => do r' <- visit point r e; visit_all point t r'
  end.
Definition locate (point : pt) (els : list nat) : option located :=
  visit_all point els {| l_no := None; l_dist := huge; l_xi := fun _ => 0; l_x := fun _ => 0 |}.

(** ** BoundaryPointLocator *)
(** PointLocator.h:91-96; chi has the barycentric coordinates of the facet but the first. *)
Record blocated := { b_no : option nat; b_dist : R; b_chi : pt; b_x : pt }.
(** The vertices of the facets of the reference simplex, PointLocator.cpp:121-127. *)
Variable facet_vertices : nat -> nat -> pt.
(** Curvilinear.cpp:354-368 facetParam: (1 - sum chi) of the first vertex, chi[d] of the others; the same
    computation as in Affine.h:19-27. *)
Definition facet_param (f : nat) (chi : pt) : pt := ref_to_general (D - 1) (facet_vertices f) chi.
(** PointLocator.cpp:140-159: one entry (element, (facet, local number)) of bnds_.  The element of the
    entry is not looked at. *)
Definition visit_facet (point : pt) (closest_el : nat) (closest_xi : pt)
    (r : blocated) (entry : nat * (nat * nat)) : option blocated :=
  let '(_, (fct, local)) := entry in
  do c <- closest solve D D (facet_vertices local) huge closest_xi;
  let chi := fun d => bary c (S d) in
  let x := X closest_el (facet_param local chi) in
  let dist := pnorm (psub x point) in
  Some (if Rlt_dec dist (b_dist r)
        then {| b_no := Some fct; b_dist := dist; b_chi := chi; b_x := x |} else r).
(** bnds_.find(closest_elNo), ..., bnds_.end(): the entries from the first one with that key. *)
Fixpoint from_key (k : nat) (bnds : list (nat * (nat * nat))) : list (nat * (nat * nat)) :=
  match bnds with
  | [] => []
  | b :: t => if (fst b =? k)%nat then bnds else from_key k t
  end.
Fixpoint visit_facets (point : pt) (closest_el : nat) (closest_xi : pt)
    (entries : list (nat * (nat * nat))) (r : blocated) : option blocated :=
  match entries with
  | [] => Some r
  | b :: t => do r' <- visit_facet point closest_el closest_xi r b; visit_facets point closest_el closest_xi t r'
  end.
(** PointLocator.cpp:130-163 locate; els and bnds are in the iteration order of the unordered
    containers. *)
Definition blocate (els : list nat) (bnds : list (nat * (nat * nat))) (point : pt) : option blocated :=
  let r0 := {| b_no := None; b_dist := huge; b_chi := fun _ => 0; b_x := fun _ => 0 |} in
  do l <- locate point els;
  match l_no l with
  | None => Some r0
  | Some e => visit_facets point e (l_xi l) (from_key e bnds) r0
  end.
End Locator.

(** ** Duplicate probes *)
Section Duplicates.
Variable A : Type.
(** result.dist of a located probe. *)
Variable dist_of : A -> R.
Variable huge : R.
(** std::numeric_limits<int>::max(). *)
Variable imax : nat.
(** Number of ranks, and the vector located_probes of every rank. *)
Variable procs : nat.
Variable loc : nat -> list (nat * A).

(** MPI_Allreduce with MPI_MIN, for one entry. *)
Definition reduce_R (f : nat -> R) : R := fold_left (fun m q => Rmin m (f q)) (seq 1 (procs - 1)) (f 0%nat).
Definition reduce_nat (f : nat -> nat) : nat := fold_left (fun m q => Nat.min m (f q)) (seq 1 (procs - 1)) (f 0%nat).

(** ProbeWriterUtil.h:16-26: entry i of min_dist. *)
Definition min_dist (i : nat) : R :=
  reduce_R (fun q => nth i (map (fun p => dist_of (snd p)) (loc q)) 0).
(** ProbeWriterUtil.h:31-35: min_rank[p.first] for each located probe in turn; the vector is
    zero-initialised. *)
Definition my_min_rank (q : nat) : nat -> nat :=
  fold_left (fun v p => fun i => if (i =? fst p)%nat
               then (if Req_EM_T (dist_of (snd p)) (min_dist (fst p)) then q else imax) else v i)
    (loc q) (fun _ => 0%nat).
(** ProbeWriterUtil.h:37. *)
Definition min_rank (i : nat) : nat := reduce_nat (fun q => my_min_rank q i).
(** ProbeWriterUtil.h:38-48: is an exception thrown? *)
Definition missing (q : nat) : bool :=
  existsb (fun i => (if Req_EM_T (min_dist i) huge then true else false) || (min_rank i =? imax)%nat)
    (seq 0 (length (loc q))).
(** ProbeWriterUtil.h:50-56: erase. *)
Definition clean_duplicate_probes (q : nat) : option (list (nat * A)) :=
  if missing q then None else Some (filter (fun p => (q =? min_rank (fst p))%nat) (loc q)).
End Duplicates.

(** ProbeWriter.cpp:22-27: the probes are located in turn; [None] if one of the calls throws. *)
Fixpoint locate_all {A} (locate1 : pt -> option A) (p : nat) (probes : list pt) : option (list (nat * A)) :=
  match probes with
  | [] => Some []
  | x :: t => do r <- locate1 x; do rest <- locate_all locate1 (S p) t; Some ((p, r) :: rest)
  end.
(** ProbeWriter.cpp:34-46: order is the iteration order of myElNos; elNo2OutNo. *)
Fixpoint out_no (order : list nat) (e : nat) : nat :=
  match order with
  | [] => 0
  | e' :: t => if (e' =? e)%nat then 0 else S (out_no t e)
  end.
(** ProbeWriter.cpp:48-55: for each probe its number, and its position in elNos_ = order. *)
Definition probe_meta {A} (no_of : A -> nat) (order : list nat) (l : list (nat * A)) : list (nat * nat) :=
  map (fun p => (fst p, out_no order (no_of (snd p)))) l.
