(** The MSH 2 ASCII format, independently of the parser: what a file says, how it is written down as
    tokens, how tokens are spelled, and what the mesh builder has to be told. *)
Require Import ZArith Bool Ascii String List.
Require Import Verif.GmshModel.
Import ListNotations.
Local Open Scope list_scope.
Local Open Scope Z_scope.

(** A number as written: an integer or a decimal fraction. *)
Inductive numeral := N_int (n : Z) | N_real (digits : text).
Record node := { node_tag : Z; node_x : list numeral }.
Record elem := { elem_no : Z; elem_type : Z; elem_tags : list Z; elem_nodes : list Z }.
Inductive section :=
| Nodes (l : list node)
| Elements (l : list elem)
| Other (ts : list token).           (* anything else, for example $PhysicalNames *)
Record msh := { version : numeral; data_size : token; body : list section }.

Definition numeral_token (x : numeral) : token :=
  match x with N_int n => T_integer n | N_real b => T_real b end.
Definition node_tokens (v : node) : list token := T_integer (node_tag v) :: map numeral_token (node_x v).
Definition elem_tokens (e : elem) : list token :=
  [T_integer (elem_no e); T_integer (elem_type e); T_integer (Z.of_nat (List.length (elem_tags e)))]
  ++ map T_integer (elem_tags e) ++ map T_integer (elem_nodes e).
Definition section_tokens (s : section) : list token :=
  match s with
  | Nodes l => [T_nodes; T_integer (Z.of_nat (List.length l))] ++ flat_map node_tokens l ++ [T_end_nodes]
  | Elements l => [T_elements; T_integer (Z.of_nat (List.length l))] ++ flat_map elem_tokens l ++ [T_end_elements]
  | Other ts => ts
  end.
Definition msh_tokens (m : msh) : list token :=
  [T_mesh_format; numeral_token (version m); T_integer 0; data_size m; T_end_mesh_format]
  ++ flat_map section_tokens (body m).

Definition node_ok (count : nat) (v : node) : Prop :=
  1 <= node_tag v <= Z.of_nat count /\ List.length (node_x v) = 3%nat.
Definition elem_ok (e : elem) : Prop :=
  1 <= elem_type e <= 128 /\
  List.length (elem_nodes e) = nth (Z.to_nat (elem_type e - 1)) NumNodes 0%nat /\
  Forall (fun n => 1 <= n) (elem_nodes e).
Definition other_ok (t : token) : Prop := t <> T_nodes /\ t <> T_elements /\ t <> T_eof.
Definition section_ok (s : section) : Prop :=
  match s with
  | Nodes l => Forall (node_ok (List.length l)) l
  | Elements l => Forall elem_ok l
  | Other ts => Forall other_ok ts
  end.
Definition is_nodes (s : section) : bool := match s with Nodes _ => true | _ => false end.
Definition is_elements (s : section) : bool := match s with Elements _ => true | _ => false end.
(** Every element has at least one tag. *)
Definition tagged (m : msh) : Prop :=
  forall l e, In (Elements l) (body m) -> In e l -> elem_tags e <> [].

Section Meaning.
  Variable num : Type.
  Variable of_int : Z -> num.
  Variable strtod : text -> num.
  Definition value (x : numeral) : num := match x with N_int n => of_int n | N_real b => strtod b end.
  Definition msh_ok (version_ok : num -> bool) (m : msh) : Prop :=
    version_ok (value (version m)) = true /\ Forall section_ok (body m).
  (** Zero-based vertex number and coordinates; type, first tag and zero-based vertex numbers. *)
  Definition node_call (v : node) : call num := SetVertex (node_tag v - 1) (map value (node_x v)).
  Definition elem_call (e : elem) : call num :=
    AddElement (elem_type e) (hd 0 (elem_tags e)) (map (fun n => n - 1) (elem_nodes e)).
  Definition section_calls (s : section) : list (call num) :=
    match s with
    | Nodes l => SetNumVertices (Z.of_nat (List.length l)) :: map node_call l
    | Elements l => SetNumElements (Z.of_nat (List.length l)) :: map elem_call l
    | Other _ => []
    end.
  Definition msh_calls (m : msh) : list (call num) := flat_map section_calls (body m).
End Meaning.

(** ** Spelling *)

Definition digits_number (ds : text) : Z := fold_left (fun a c => 10 * a + (code c - 48)) ds 0.
Inductive spelled : token -> text -> Prop :=
| sp_integer : forall sign ds n,
    ds <> [] -> forallb isdigit ds = true -> (List.length (sign ++ ds) < 128)%nat ->
    (sign = [] \/ sign = ["+"%char] \/ sign = ["-"%char]) ->
    n = (if existsb (fun c => Ascii.eqb c "-") sign then - digits_number ds else digits_number ds) ->
    -9223372036854775808 <= n <= 9223372036854775807 ->
    spelled (T_integer n) (sign ++ ds)
| sp_real : forall b, b <> [] -> (List.length b < 128)%nat ->
    (forall c, In c b -> isdigit c = true \/ In c (str "+-.eE")) -> (exists c, In c b /\ In c (str ".eE")) ->
    spelled (T_real b) b
| sp_string : forall b, ~ In (chr 34) b -> spelled T_string (chr 34 :: b ++ [chr 34])
| sp_section : forall t name,
    In (t, name) [(T_mesh_format, "$MeshFormat"); (T_end_mesh_format, "$EndMeshFormat");
                  (T_nodes, "$Nodes"); (T_end_nodes, "$EndNodes");
                  (T_elements, "$Elements"); (T_end_elements, "$EndElements")]%string ->
    spelled t (str name)
| sp_other_section : forall name,
    forallb isalpha name = true ->
    ~ In (fnv1a name) (map (fun s => fnv1a (str s))
        ["MeshFormat"; "EndMeshFormat"; "Nodes"; "EndNodes"; "Elements"; "EndElements"]%string) ->
    spelled T_unknown_section ("$"%char :: name).

(** A text in which the tokens are separated by arbitrary non-empty white space, and which ends with
    exactly one white space character (the newline after the last line). *)
Inductive written : list token -> text -> Prop :=
| wr_last : forall w t tx c, forallb isspace w = true -> spelled t tx -> isspace c = true ->
    written [t] (w ++ tx ++ [c])
| wr_more : forall w t tx c ts r, forallb isspace w = true -> spelled t tx -> isspace c = true ->
    written ts r -> written (t :: ts) (w ++ tx ++ c :: r).

(** ** What a mesh builder may rely on for any input *)
Section Safe.
  Variable num : Type.
  (** [n] is the argument of the last SetNumVertices. *)
  Fixpoint calls_safe (n : Z) (cs : list (call num)) : Prop :=
    match cs with
    | [] => True
    | SetNumVertices m :: cs => 0 <= m /\ calls_safe m cs
    | SetVertex id x :: cs => 0 <= id < n /\ List.length x = 3%nat /\ calls_safe n cs
    | SetNumElements m :: cs => 0 <= m /\ calls_safe n cs
    | AddElement type tag nodes :: cs =>
        1 <= type <= 128 /\ List.length nodes = nth (Z.to_nat (type - 1)) NumNodes 0%nat /\
        Forall (fun k => 0 <= k) nodes /\ calls_safe n cs
    end.
End Safe.

(** [lexes l ts l']: the next tokens are ts. *)
Fixpoint lexes (l : lex) (ts : list token) (l' : lex) : Prop :=
  match ts with
  | [] => l' = l
  | t :: ts => exists l1, getToken l = Lexed t l1 /\ lexes l1 ts l'
  end.
Definition start (msh : text) : lex := {| lastChar := " "; rest := msh |}.
