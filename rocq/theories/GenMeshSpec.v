(** Specification of box meshes. *)
Require Import List Arith ZArith Sorted.
Import ListNotations.

(** A box of N_1 x ... x N_D cells, D = 2 or 3. *)
Definition box (D : nat) (N : list nat) : Prop := (D = 2 \/ D = 3) /\ length N = D /\ Forall (fun n => 0 < n) N.
(** Number of the grid vertex at the point p: the first coordinate runs fastest. *)
Fixpoint vertex_number (N p : list nat) : nat :=
  match N, p with n :: N', x :: p' => x + (n + 1) * vertex_number N' p' | _, _ => 0 end.
(** v is the vertex at grid point p. *)
Definition vertex_at (N : list nat) (v : nat) (p : list nat) : Prop :=
  Forall2 (fun x n => x <= n) p N /\ vertex_number N p = v.
(** All vertices of f lie in one face of the box. *)
Definition on_boundary (N : list nat) (f : list nat) : Prop :=
  exists d, d < length N /\
    ((forall v p, In v f -> vertex_at N v p -> nth d p 0 = 0) \/
     (forall v p, In v f -> vertex_at N v p -> nth d p 0 = nth d N 0)).
(** All vertices of e are corners of the cell at c. *)
Definition in_cell (N c e : list nat) : Prop :=
  Forall2 (fun x n => x < n) c N /\
  forall v, In v e -> exists p, vertex_at N v p /\ Forall2 (fun x y => y <= x <= y + 1) p c.
(** D! times the volume of the simplex with the given corner points. *)
Local Open Scope Z_scope.
Definition zdiff (p q : list nat) : list Z := map (fun x => Z.of_nat (fst x) - Z.of_nat (snd x)) (combine p q).
Definition det2 (a b : list Z) : Z := nth 0 a 0 * nth 1 b 0 - nth 1 a 0 * nth 0 b 0.
Definition det3 (a b c : list Z) : Z :=
  nth 0 a 0 * (nth 1 b 0 * nth 2 c 0 - nth 2 b 0 * nth 1 c 0)
  - nth 1 a 0 * (nth 0 b 0 * nth 2 c 0 - nth 2 b 0 * nth 0 c 0)
  + nth 2 a 0 * (nth 0 b 0 * nth 1 c 0 - nth 1 b 0 * nth 0 c 0).
Definition volume (ps : list (list nat)) : Z :=
  match ps with
  | [p; a; b] => Z.abs (det2 (zdiff a p) (zdiff b p))
  | [p; a; b; c] => Z.abs (det3 (zdiff a p) (zdiff b p) (zdiff c p))
  | _ => 0
  end.
Local Close Scope Z_scope.

(** The grid planes of every dimension: from 0 to the last grid index, in ascending order. *)
Definition grid_planes (N : list nat) (regions : list (list nat)) : Prop :=
  Forall2 (fun rs n => StronglySorted lt rs /\ nth_error rs 0 = Some 0 /\ last rs 0 = n) regions N.
(** All vertices of f have the coordinate x in direction d. *)
Definition in_plane_at (N : list nat) (d x : nat) (f : list nat) : Prop :=
  forall v p, In v f -> vertex_at N v p -> nth d p 0 = x.
(** All vertices of f are between the planes r and r+1 of the list rs in direction d. *)
Definition in_slab (N rs : list nat) (d r : nat) (f : list nat) : Prop :=
  r + 1 < length rs /\ forall v p, In v f -> vertex_at N v p -> nth r rs 0 <= nth d p 0 <= nth (r + 1) rs 0.
(** The j-th of the directions different from d. *)
Definition other_direction (d j : nat) : nat := if j <? d then j else j + 1.
