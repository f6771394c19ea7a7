(** Models src/io/GMSHLexer.cpp, src/io/GMSHParser.cpp and src/util/Hash.h.  Source locations (only
    used in the text of error messages) are left out; the reading of a decimal fraction (strtod) and
    the conversion of integers to double are parameters. *)
Require Import ZArith Bool Ascii String List.
Import ListNotations.
Local Open Scope list_scope.
Local Open Scope Z_scope.

Definition text := list ascii.
Definition code (c : ascii) : Z := Z.of_nat (nat_of_ascii c).
Definition chr (n : nat) : ascii := ascii_of_nat n.

(** <cctype> in the C locale. *)
Definition isspace (c : ascii) : bool := (code c =? 32) || ((9 <=? code c) && (code c <=? 13)).
Definition isdigit (c : ascii) : bool := (48 <=? code c) && (code c <=? 57).
Definition isalpha (c : ascii) : bool :=
  ((65 <=? code c) && (code c <=? 90)) || ((97 <=? code c) && (code c <=? 122)).

(** Hash.h:10-12. *)
Definition two64 : Z := 18446744073709551616.
Definition fnv1a0 : Z := 14695981039346656037.       (* 0xcbf29ce484222325 *)
Definition fnv1a_step (hash : Z) (c : ascii) : Z := (Z.lxor hash (code c) * 1099511628211) mod two64.
Definition fnv1a (s : text) : Z := fold_left fnv1a_step s fnv1a0.
Definition str (s : string) : text := list_ascii_of_string s.

(** GMSHLexer.h:11-24; numbers carry what getInteger/getReal return (the text of a real). *)
Inductive token :=
| T_eof | T_integer (n : Z) | T_real (digits : text) | T_string
| T_mesh_format | T_end_mesh_format | T_nodes | T_end_nodes | T_elements | T_end_elements
| T_unknown_section | T_unknown_token.

(** The lexer: lastChar and the characters the stream has left. *)
Record lex := { lastChar : ascii; rest : text }.
(** GMSHLexer.cpp:11-20: at the end of the stream lastChar keeps its value. *)
Definition advance (l : lex) : lex :=
  match rest l with [] => l | c :: r => {| lastChar := c; rest := r |} end.

(** while (p(lastChar)) advance(): the characters passed and the final lexer.  None: the stream is
    exhausted while p holds, so the loop never ends. *)
Fixpoint skip_while (p : ascii -> bool) (c : ascii) (r : text) : option (text * lex) :=
  if p c then
    match r with
    | [] => None
    | c' :: r' => match skip_while p c' r' with
                  | Some (w, l) => Some (c :: w, l)
                  | None => None
                  end
    end
  else Some ([], {| lastChar := c; rest := r |}).

(** GMSHLexer.cpp:42-63: the switch on the hash of the section name. *)
Definition section_token (name : text) : token :=
  let h := fnv1a name in
  if h =? fnv1a (str "MeshFormat") then T_mesh_format
  else if h =? fnv1a (str "EndMeshFormat") then T_end_mesh_format
  else if h =? fnv1a (str "Nodes") then T_nodes
  else if h =? fnv1a (str "EndNodes") then T_end_nodes
  else if h =? fnv1a (str "Elements") then T_elements
  else if h =? fnv1a (str "EndElements") then T_end_elements
  else T_unknown_section.

(** GMSHLexer.cpp:66-69. *)
Definition mustbereal (c : ascii) : bool := Ascii.eqb c "." || Ascii.eqb c "e" || Ascii.eqb c "E".
Definition isnumber (c : ascii) : bool :=
  isdigit c || Ascii.eqb c "+" || Ascii.eqb c "-" || mustbereal c.

(** GMSHLexer.cpp:75-79: the do loop; [n] is the number of characters that may still be stored.  At
    the end of the stream the last character is stored again and again. *)
Fixpoint number_loop (n : nat) (l : lex) : text * lex :=
  match n with
  | O => ([], l)
  | S n' =>
      let l' := advance l in
      if isnumber (lastChar l') then let '(b, l'') := number_loop n' l' in (lastChar l :: b, l'')
      else ([lastChar l], l')
  end.
Definition MaxNumberLength : nat := 128.

(** std::strtol(buf, 0, 10): optional sign, leading digits (0 without any), clamped to long. *)
Definition long_max : Z := 9223372036854775807.
Definition long_min : Z := -9223372036854775808.
Fixpoint digits_value (b : text) (acc : Z) : Z :=
  match b with
  | c :: b' => if isdigit c then digits_value b' (10 * acc + (code c - 48)) else acc
  | [] => acc
  end.
Definition strtol (b : text) : Z :=
  let v := match b with
           | c :: b' => if Ascii.eqb c "-" then - digits_value b' 0
                        else if Ascii.eqb c "+" then digits_value b' 0 else digits_value b 0
           | [] => 0
           end in
  Z.max long_min (Z.min long_max v).

Inductive lexed := Lexed (t : token) (l : lex) | Lex_hang | Lex_throw.

(** GMSHLexer.cpp:22-103. *)
Definition quote : ascii := chr 34.
Definition getToken (l : lex) : lexed :=
  match rest l with
  | [] => Lexed T_eof l                                           (* peek: 26-29 *)
  | _ =>
      match skip_while isspace (lastChar l) (rest l) with         (* 31-33 *)
      | None => Lex_hang
      | Some (_, l) =>
          if Ascii.eqb (lastChar l) "$" then                      (* 35-64 *)
            let l := advance l in
            match skip_while isalpha (lastChar l) (rest l) with
            | None => Lex_hang
            | Some (name, l) => Lexed (section_token name) l
            end
          else if isnumber (lastChar l) then                      (* 71-92 *)
            let '(b, l) := number_loop MaxNumberLength l in
            if Nat.eqb (List.length b) MaxNumberLength then Lex_throw
            else if existsb mustbereal b then Lexed (T_real b) l else Lexed (T_integer (strtol b)) l
          else if Ascii.eqb (lastChar l) quote then               (* 94-100 *)
            match rest l with
            | [] => Lexed T_string l              (* lastChar stays the opening quote *)
            | c :: r =>
                match skip_while (fun c => negb (Ascii.eqb c quote)) c r with
                | None => Lex_hang
                | Some (_, l) => Lexed T_string (advance l)
                end
            end
          else Lexed T_unknown_token l
      end
  end.

(** ** Parser *)

Section Parser.
  (* double; conversion from long; strtod; 2.0 <= version < 3.0 *)
  Variable num : Type.
  Variable of_int : Z -> num.
  Variable strtod : text -> num.
  Variable version_ok : num -> bool.

  (** Calls of the mesh builder, MeshParser.h:12-18. *)
  Inductive call :=
  | SetNumVertices (n : Z) | SetVertex (id : Z) (x : list num)
  | SetNumElements (n : Z) | AddElement (type tag : Z) (nodes : list Z).

  (** The error messages, GMSHParser.cpp:62-211. *)
  Inductive error :=
  | E_format | E_version_number | E_zero | E_end_format | E_version
  | E_num_nodes | E_node_tag | E_coordinate | E_end_nodes
  | E_num_elements | E_element_tag | E_element_type | E_num_tags | E_tag | E_node | E_end_elements.

  (** curTok, the lexer, the calls made so far and the messages logged so far. *)
  Record pstate := { cur : token; lx : lex; calls : list call; errors : list error }.

  (** A member function returns a value, logs an error and returns {}, does not return because the
      lexer loops or throws, or (only in the model) exceeds the bound on the loop of parse_. *)
  Inductive result (A : Type) :=
  | Ret (a : A) (s : pstate) | Err (s : pstate) | Hang | Throw | Unfinished.
  Arguments Ret {A}. Arguments Err {A}. Arguments Hang {A}. Arguments Throw {A}. Arguments Unfinished {A}.

  Definition P (A : Type) := pstate -> result A.
  Definition ret {A} (a : A) : P A := fun s => Ret a s.
  Definition bind {A B} (m : P A) (f : A -> P B) : P B := fun s =>
    match m s with
    | Ret a s => f a s
    | Err s => Err s
    | Hang => Hang
    | Throw => Throw
    | Unfinished => Unfinished
    end.
  Notation "'let*' x ':=' m 'in' f" := (bind m (fun x => f)) (at level 61, x pattern, right associativity).
  Notation "m ;; f" := (bind m (fun _ => f)) (at level 61, right associativity).

  Definition fail {A} (e : error) : P A := fun s =>
    Err {| cur := cur s; lx := lx s; calls := calls s; errors := errors s ++ [e] |}.
  Definition emit (c : call) : P unit := fun s =>
    Ret tt {| cur := cur s; lx := lx s; calls := calls s ++ [c]; errors := errors s |}.
  (** GMSHParser.h:29-32. *)
  Definition next : P token := fun s =>
    match getToken (lx s) with
    | Lexed t l => Ret t {| cur := t; lx := l; calls := calls s; errors := errors s |}
    | Lex_hang => Hang
    | Lex_throw => Throw
    end.
  (** getNextToken(); if (curTok != integer || !ok(getInteger())) return logError(e); *)
  Definition read_integer (ok : Z -> bool) (e : error) : P Z :=
    next ;; fun s =>
    match cur s with
    | T_integer n => if ok n then Ret n s else fail e s
    | _ => fail e s
    end.
  (** getNextToken() and GMSHParser.cpp:26-33. *)
  Definition read_number (e : error) : P num :=
    next ;; fun s =>
    match cur s with
    | T_integer n => Ret (of_int n) s
    | T_real b => Ret (strtod b) s
    | _ => fail e s
    end.
  Definition expect (t : token -> bool) (e : error) : P unit := fun s =>
    if t (cur s) then Ret tt s else fail e s.
  Definition read_expect (t : token -> bool) (e : error) : P unit := next ;; expect t e.

  Definition is_mesh_format t := match t with T_mesh_format => true | _ => false end.
  Definition is_end_mesh_format t := match t with T_end_mesh_format => true | _ => false end.
  Definition is_end_nodes t := match t with T_end_nodes => true | _ => false end.
  Definition is_end_elements t := match t with T_end_elements => true | _ => false end.

  (** for (i = 0; i < n; ++i) x.push_back(f(i)) *)
  Fixpoint repeatP {A} (n : nat) (f : P A) : P (list A) :=
    match n with
    | O => ret []
    | S n' => let* x := f in let* xs := repeatP n' f in ret (x :: xs)
    end.

  (** GMSHParser.cpp:91-111. *)
  Definition parseMeshFormat : P num :=
    expect is_mesh_format E_format ;;
    let* version := read_number E_version_number in
    read_integer (fun n => n =? 0) E_zero ;;
    next ;;
    read_expect is_end_mesh_format E_end_format ;;
    next ;; ret version.

  (** GMSHParser.cpp:113-148. *)
  Definition parseNode (numVertices : Z) : P unit :=
    let* n := read_integer (fun n => (1 <=? n) && (n <=? numVertices)) E_node_tag in
    let* x := repeatP 3 (read_number E_coordinate) in
    emit (SetVertex (n - 1) x).
  Definition parseNodes : P unit :=
    let* numVertices := read_integer (fun n => 0 <=? n) E_num_nodes in
    emit (SetNumVertices numVertices) ;;
    repeatP (Z.to_nat numVertices) (parseNode numVertices) ;;
    read_expect is_end_nodes E_end_nodes ;;
    next ;; ret tt.

  (** MeshParser.h:35-164. *)
  Definition NumNodes : list nat :=
    [2; 3; 4; 4; 8; 6; 5; 3; 6; 9; 10; 27; 18; 14; 1; 8; 20; 15; 13; 9; 10; 12; 15; 15; 21; 4; 5; 6;
     20; 35; 56; 22; 28; 0; 0; 16; 25; 36; 12; 16; 20; 28; 36; 45; 55; 66; 49; 64; 81; 100; 121; 18;
     21; 24; 27; 30; 24; 28; 32; 36; 40; 7; 8; 9; 10; 11; 0; 0; 0; 0; 84; 120; 165; 220; 286; 34; 40;
     46; 52; 58; 1; 1; 1; 1; 1; 1; 40; 75; 64; 125; 216; 343; 512; 729; 1000; 32; 44; 56; 68; 80; 92;
     104; 126; 196; 288; 405; 550; 24; 33; 42; 51; 60; 69; 78; 30; 55; 91; 140; 204; 285; 385; 21; 29;
     37; 45; 53; 61; 69]%nat.

  (** GMSHParser.cpp:150-214.  The variable tag lives outside the loop over the elements. *)
  Definition parseElement (tag : Z) : P Z :=
    read_integer (fun _ => true) E_element_tag ;;
    let* type := read_integer (fun n => (1 <=? n) && (n <=? 128)) E_element_type in
    let* numTags := read_integer (fun n => 0 <=? n) E_num_tags in
    let* tags := repeatP (Z.to_nat numTags) (read_integer (fun _ => true) E_tag) in
    let tag := match tags with [] => tag | t :: _ => t end in
    let* nodes := repeatP (nth (Z.to_nat (type - 1)) NumNodes 0%nat)
                    (let* n := read_integer (fun n => 1 <=? n) E_node in ret (n - 1)) in
    emit (AddElement type tag nodes) ;;
    ret tag.
  Fixpoint parseElementLoop (n : nat) (tag : Z) : P unit :=
    match n with
    | O => ret tt
    | S n' => let* tag := parseElement tag in parseElementLoop n' tag
    end.
  Definition parseElements : P unit :=
    let* numElements := read_integer (fun n => 0 <=? n) E_num_elements in
    emit (SetNumElements numElements) ;;
    parseElementLoop (Z.to_nat numElements) (-1) ;;
    read_expect is_end_elements E_end_elements ;;
    next ;; ret tt.

  (** Ignoring the returned bool, GMSHParser.cpp:74, 78. *)
  Definition ignore_error (m : P unit) : P unit := fun s =>
    match m s with Err s => Ret tt s | r => r end.

  (** GMSHParser.cpp:69-86: [fuel] bounds the number of iterations. *)
  Fixpoint sections (fuel : nat) (hasNodes hasElements : bool) : P bool := fun s =>
    match cur s with
    | T_eof => Ret (hasNodes && hasElements) s
    | t =>
        match fuel with
        | O => Unfinished
        | S n =>
            match t with
            | T_nodes => (ignore_error parseNodes ;; sections n true hasElements) s
            | T_elements => (ignore_error parseElements ;; sections n hasNodes true) s
            | _ => (next ;; sections n hasNodes hasElements) s
            end
        end
    end.

  (** GMSHParser.cpp:58-89.  If parseMeshFormat fails its result is 0.0, an unsupported version; the
      message that then also reports the version is logged as well. *)
  Definition parse_ (fuel : nat) : P bool := fun s =>
    match next s with
    | Ret _ s =>
        match parseMeshFormat s with
        | Ret version s => if version_ok version then sections fuel false false s else fail E_version s
        | Err s => fail E_version s
        | Hang => Hang | Throw => Throw | Unfinished => Unfinished
        end
    | Err s => Err s
    | Hang => Hang | Throw => Throw | Unfinished => Unfinished
    end.

  (** GMSHParser::parse, GMSHParser.cpp:35-47, on a fresh parser (lastChar = ' '). *)
  Definition parse (fuel : nat) (msh : text) : result bool :=
    parse_ fuel {| cur := T_eof; lx := {| lastChar := " "; rest := msh |}; calls := []; errors := [] |}.
End Parser.

Arguments Ret {num A}. Arguments Err {num A}. Arguments Hang {num A}. Arguments Throw {num A}.
Arguments Unfinished {num A}.
Arguments SetNumVertices {num}. Arguments SetVertex {num}. Arguments SetNumElements {num}.
Arguments AddElement {num}.
Arguments cur {num}. Arguments lx {num}. Arguments calls {num}. Arguments errors {num}.
