(** Models src/io/GlobalSimplexMeshBuilder.{h,cpp}: the object that receives the calls of a mesh parser and
    makes the global mesh.  Floating point numbers are an abstract type [num]. *)
Require Import List Arith ZArith Bool Lia Reals.
Require Import Verif.Base Verif.CombinatoricsModel Verif.SimplexModel Verif.FacesModel Verif.LehmerModel.
Require Import Verif.EquidistantModel Verif.GmshModel.
Import ListNotations.

(** h:17-30. *)
Definition simplex_types (D : nat) : list Z :=
  match D with
  | 0 => [15]%Z
  | 1 => [1; 8; 26; 27; 28; 62; 63; 64; 65; 66]%Z
  | 2 => [2; 9; 21; 23; 25; 42; 43; 44; 45; 46]%Z
  | 3 => [4; 11; 29; 30; 31; 71; 72; 73; 74; 75]%Z
  | _ => []
  end.
Definition is_gmsh_simplex (D : nat) (type : Z) : bool := existsb (Z.eqb type) (simplex_types D).
(** h:37-49. *)
Fixpoint is_lower_dimensional (D : nat) (type : Z) : bool :=
  match D with O => false | S d => is_gmsh_simplex d type || is_lower_dimensional d type end.

(** src/form/BC.h:6. *)
Inductive BC := BC_None | BC_Natural | BC_Fault | BC_Dirichlet.

(** What a call does: returns, throws, or has undefined behaviour (including a failing assertion). *)
Inductive outcome (A : Type) := Done (a : A) | Threw | Undef.
Arguments Done {A}. Arguments Threw {A}. Arguments Undef {A}.
Definition andthen {A B} (x : outcome A) (f : A -> outcome B) : outcome B :=
  match x with Done a => f a | Threw => Threw | Undef => Undef end.
Definition defined {A} (x : option A) : outcome A := match x with Some a => Done a | None => Undef end.
Notation "'let!' x := e 'in' f" := (andthen e (fun x => f)) (at level 200, x pattern, right associativity).

(** The permutations of a sorted list in lexicographic order: what std::next_permutation runs through. *)
Fixpoint lex_perms (n : nat) (l : list nat) : list (list nat) :=
  match n with
  | O => [[]]
  | S n' => flat_map (fun x => map (cons x) (lex_perms n' (remove Nat.eq_dec x l))) l
  end.

Section Builder.
  Variable num : Type.
  Variable zero : num.
  Variable D : nat.
  (** The tolerance of node_permutation, src/basis/Util.h:41. *)
  Variable tol : R.

  Definition NumVerts := D + 1.
  Notation vertex := (list num).

  (** h:55-66.  A column of high_order_nodes that was never written is [None]; the matrix exists after the
      first allocation.  [capacity]: of the vector elements. *)
  Record builder := {
    vertices : list vertex;
    elements : list (list nat);
    facets : list (list nat);
    volume_tags : list Z;
    bcs : list BC;
    high_order_nodes : option (nat * list (option (list Z)));
    node_permutations : list (option (list nat));
    capacity : nat;
    ignoredElems : nat;
    unknownBC : nat;
    type_ : Z }.
  Definition empty_builder : builder :=
    {| vertices := []; elements := []; facets := []; volume_tags := []; bcs := []; high_order_nodes := None;
       node_permutations := []; capacity := 0; ignoredElems := 0; unknownBC := 0; type_ := 0 |}.

  (** h:71: std::vector::resize. *)
  Definition resize (n : nat) (l : list vertex) : list vertex :=
    firstn n l ++ repeat (repeat zero D) (n - length l).
  Definition setNumVertices (n : Z) (b : builder) : outcome builder :=
    Done {| vertices := resize (Z.to_nat n) (vertices b); elements := elements b; facets := facets b;
            volume_tags := volume_tags b; bcs := bcs b; high_order_nodes := high_order_nodes b;
            node_permutations := node_permutations b; capacity := capacity b; ignoredElems := ignoredElems b;
            unknownBC := unknownBC b; type_ := type_ b |}.
  (** h:72-76. *)
  Definition setVertex (id : Z) (x : list num) (b : builder) : outcome builder :=
    if (id <? 0)%Z then Undef
    else
      let! vs := defined (upd (vertices b) (Z.to_nat id) (firstn D x)) in
      Done {| vertices := vs; elements := elements b; facets := facets b;
              volume_tags := volume_tags b; bcs := bcs b; high_order_nodes := high_order_nodes b;
              node_permutations := node_permutations b; capacity := capacity b; ignoredElems := ignoredElems b;
              unknownBC := unknownBC b; type_ := type_ b |}.
  (** h:77-81. *)
  Definition setNumElements (n : Z) (b : builder) : outcome builder :=
    Done {| vertices := vertices b; elements := elements b; facets := facets b;
            volume_tags := volume_tags b; bcs := bcs b; high_order_nodes := high_order_nodes b;
            node_permutations := node_permutations b; capacity := Nat.max (capacity b) (Z.to_nat n);
            ignoredElems := ignoredElems b; unknownBC := unknownBC b; type_ := 0%Z |}.

  (** cpp:20-37.  [np]: number of the permutation. *)
  Definition perm_number (p : list nat) : nat := Z.to_nat (Lehmer_to_integer (permutation_to_Lehmer p)).
  Fixpoint fill_table (nodes : list point) (ps : list (list nat)) (t : list (option (list nat))) :
      outcome (list (option (list nat))) :=
    match ps with
    | [] => Done t
    | p :: ps' =>
        let! P := defined (node_permutation D tol nodes p) in
        let! t' := defined (upd t (perm_number p) (Some P)) in
        fill_table nodes ps' t'
    end.
  Definition preparePermutationTable (numNodes : nat) : outcome (list (option (list nat))) :=
    match num_nodes_to_degree numNodes D numNodes with
    | Some (Some N) =>
        fill_table (equidistant_nodes D GMSH N) (lex_perms NumVerts (seq 0 NumVerts))
          (repeat None (Factorial.fact NumVerts))
    | _ => Undef
    end.

  (** push_back doubles the capacity of a full vector (libstdc++). *)
  Definition grown (size cap : nat) : nat := if size <? cap then cap else Nat.max 1 (2 * size).

  (** cpp:73-92. *)
  Definition bc_of_tag (tag : Z) : BC :=
    if (tag =? 0)%Z then BC_None else if (tag =? 5)%Z then BC_Dirichlet else if (tag =? 3)%Z then BC_Fault
    else if (tag =? 1)%Z then BC_Natural else BC_None.
  Definition unknown_tag (tag : Z) : bool :=
    negb ((tag =? 0) || (tag =? 5) || (tag =? 3) || (tag =? 1))%Z.

  (** cpp:58-72: the values written for one element, column elNo of the matrix. *)
  Definition high_order_column (table : list (option (list nat))) (elem : list nat) (node : list Z) :
      outcome (list Z) :=
    let p := sort_by (fun a => nth a elem 0) (seq 0 NumVerts) in
    match nth_error table (perm_number p) with
    | Some (Some P) =>
        defined (fold_right (fun i acc =>
          match acc, nth_error P i with
          | Some c, Some p_i => match nth_error node p_i with Some v => Some (v :: c) | None => None end
          | _, _ => None
          end) (Some []) (seq NumVerts (length node - NumVerts)))
    | _ => Undef
    end.

  (** cpp:40-105.  [node]: numNodes node numbers; the parsers pass non-negative numbers.  An element with
      another number of nodes than the first one (possible only after a second setNumElements) leaves the
      matrix or a part of its column unwritten; this counts as undefined behaviour here. *)
  Definition addElement (type tag : Z) (node : list Z) (b : builder) : outcome builder :=
    if is_gmsh_simplex D type then
      let type_' := if (type_ b =? 0)%Z then type else type_ b in
      if negb (type_' =? type)%Z then Threw
      else if length node <? NumVerts then Undef
      else
        let elem := map Z.to_nat (firstn NumVerts node) in
        let cap := grown (length (elements b)) (capacity b) in
        let elNo := length (elements b) in
        let! (hon, table) :=
          if NumVerts <? length node then
            let! (hon, table) :=
              match high_order_nodes b with
              | None => let! t := preparePermutationTable (length node) in
                        Done ((length node - NumVerts, repeat None cap), t)
              | Some h => Done (h, node_permutations b)
              end in
            let! column := high_order_column table elem node in
            if length node - NumVerts <? fst hon then Undef
            else if fst hon <? length node - NumVerts then Undef
            else let! cols := defined (upd (snd hon) elNo (Some column)) in
                 Done (Some (fst hon, cols), table)
          else Done (high_order_nodes b, node_permutations b) in
        Done {| vertices := vertices b; elements := elements b ++ [mk_simplex elem]; facets := facets b;
                volume_tags := volume_tags b ++ [tag]; bcs := bcs b; high_order_nodes := hon;
                node_permutations := table; capacity := cap; ignoredElems := ignoredElems b;
                unknownBC := unknownBC b; type_ := type_' |}
    else if is_gmsh_simplex (D - 1) type then
      if length node <? D then Undef
      else
        let elem := map Z.to_nat (firstn D node) in
        Done {| vertices := vertices b; elements := elements b; facets := facets b ++ [mk_simplex elem];
                volume_tags := volume_tags b; bcs := bcs b ++ [bc_of_tag tag];
                high_order_nodes := high_order_nodes b; node_permutations := node_permutations b;
                capacity := capacity b; ignoredElems := ignoredElems b;
                unknownBC := unknownBC b + (if unknown_tag tag then 1 else 0); type_ := type_ b |}
    else if is_lower_dimensional (D - 1) type then
      Done {| vertices := vertices b; elements := elements b; facets := facets b;
              volume_tags := volume_tags b; bcs := bcs b; high_order_nodes := high_order_nodes b;
              node_permutations := node_permutations b; capacity := capacity b;
              ignoredElems := ignoredElems b + 1; unknownBC := unknownBC b; type_ := type_ b |}
    else Threw.

  (** The calls a parser makes, MeshParser.h:12-18. *)
  Definition do_call (c : call num) (b : builder) : outcome builder :=
    match c with
    | SetNumVertices n => setNumVertices n b
    | SetVertex id x => setVertex id x b
    | SetNumElements n => setNumElements n b
    | AddElement type tag nodes => addElement type tag nodes b
    end.
  Fixpoint do_calls (cs : list (call num)) (b : builder) : outcome builder :=
    match cs with [] => Done b | c :: cs' => let! b' := do_call c b in do_calls cs' b' end.

  (** ** cpp:107-185 [create] *)
  Record mesh := {
    m_elements : list (list nat);
    m_vertices : list vertex;
    m_high : option (list (list vertex));
    m_tags : list Z;
    m_facets : list (list nat);
    m_bcs : list BC }.

  (** cpp:134-143: coordinates of the high order nodes, per element. *)
  Fixpoint all_some {A} (l : list (option A)) : option (list A) :=
    match l with
    | [] => Some []
    | None :: _ => None
    | Some x :: t => option_map (cons x) (all_some t)
    end.
  Definition high_order_verts (num_nodes : nat) (b : builder) : outcome (list (list vertex)) :=
    defined (all_some (map (fun k =>
      match high_order_nodes b with
      | Some (_, cols) =>
          match nth_error cols k with
          | Some (Some col) =>
              all_some (map (fun j =>
                match nth_error col j with
                | Some v => if (v <? 0)%Z then None else nth_error (vertices b) (Z.to_nat v)
                | None => None
                end) (seq 0 num_nodes))
          | _ => None
          end
      | None => None
      end) (seq 0 (length (elements b))))).

  (** cpp:146-156; the map holds [None] for Invalid. *)
  Fixpoint renumber_simplex (map_ : list (option nat)) (new_id : nat) (elem : list nat) :
      option (list nat * (list (option nat) * nat)) :=
    match elem with
    | [] => Some ([], (map_, new_id))
    | e :: t =>
        match nth_error map_ e with
        | None => None
        | Some None =>
            match upd map_ e (Some new_id) with
            | None => None
            | Some map' =>
                match renumber_simplex map' (new_id + 1) t with
                | Some (t', s) => Some (new_id :: t', s)
                | None => None
                end
            end
        | Some (Some i) =>
            match renumber_simplex map_ new_id t with
            | Some (t', s) => Some (i :: t', s)
            | None => None
            end
        end
    end.
  Fixpoint renumber_elements (map_ : list (option nat)) (new_id : nat) (elems : list (list nat)) :
      option (list (list nat) * (list (option nat) * nat)) :=
    match elems with
    | [] => Some ([], (map_, new_id))
    | e :: t =>
        match renumber_simplex map_ new_id e with
        | None => None
        | Some (e', (map', new_id')) =>
            match renumber_elements map' new_id' t with
            | Some (t', s) => Some (e' :: t', s)
            | None => None
            end
        end
    end.
  (** cpp:157-162; a vertex of no element fails the assertion. *)
  Definition renumber_facet (map_ : list (option nat)) (fct : list nat) : option (list nat) :=
    all_some (map (fun f => match nth_error map_ f with Some (Some i) => Some i | _ => None end) fct).
  (** cpp:164-171. *)
  Fixpoint place_vertices (map_ : list (option nat)) (olds news : list vertex) : option (list vertex) :=
    match map_, olds with
    | [], _ => Some news
    | None :: m, _ :: vs => place_vertices m vs news
    | Some id :: m, v :: vs => match upd news id v with Some news' => place_vertices m vs news' | None => None end
    | _ :: _, [] => None
    end.

  (** cpp:131-182 on one process, after the reductions. *)
  Definition create_local (high_rows high_cols : nat) (b : builder) : outcome mesh :=
    if 0 <? high_cols then
      let! hv := high_order_verts high_rows b in
      let! (elems, (map_, new_id)) := defined (renumber_elements (repeat None (length (vertices b))) 0 (elements b)) in
      let! fcts := defined (all_some (map (renumber_facet map_) (facets b))) in
      let! vs := defined (place_vertices map_ (vertices b) (repeat (repeat zero D) new_id)) in
      Done {| m_elements := elems; m_vertices := vs; m_high := Some hv; m_tags := volume_tags b;
              m_facets := fcts; m_bcs := bcs b |}
    else Done {| m_elements := elements b; m_vertices := vertices b; m_high := None; m_tags := volume_tags b;
                 m_facets := facets b; m_bcs := bcs b |}.

  Definition rows (b : builder) : nat := match high_order_nodes b with Some (r, _) => r | None => 0 end.
  Definition cols (b : builder) : nat := match high_order_nodes b with Some (_, c) => length c | None => 0 end.
  Fixpoint all_done {A} (l : list (outcome A)) : outcome (list A) :=
    match l with
    | [] => Done []
    | x :: t => let! a := x in let! r := all_done t in Done (a :: r)
    end.
  (** cpp:108-130 on all processes: [bs] lists their builders. *)
  Definition create (bs : list builder) : outcome (list mesh) :=
    if list_sum (map (fun b => length (elements b)) bs) =? 0 then Threw
    else if list_sum (map (fun b => length (bcs b)) bs) =? 0 then Threw
    else all_done (map (create_local (list_max (map rows bs)) (list_max (map cols bs))) bs).
End Builder.

Arguments vertices {num}. Arguments elements {num}. Arguments facets {num}. Arguments volume_tags {num}.
Arguments bcs {num}. Arguments high_order_nodes {num}. Arguments node_permutations {num}. Arguments capacity {num}.
Arguments ignoredElems {num}. Arguments unknownBC {num}. Arguments type_ {num}.
Arguments m_elements {num}. Arguments m_vertices {num}. Arguments m_high {num}. Arguments m_tags {num}.
Arguments m_facets {num}. Arguments m_bcs {num}.
