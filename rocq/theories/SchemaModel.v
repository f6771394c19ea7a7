(** Models src/util/Schema.h, src/util/SchemaHelper.h:50-53, app/common/CmdLine.h and, of the bundled
    TOML library (external/toml/toml_impl.hpp), the conversions of node::value, node_view::operator[]
    and node_integer_cast.  Help texts are left out; of an error only the class of the exception and
    the list of "-->" locations in its message are kept. *)
Require Import ZArith QArith Bool Ascii String List.
Import ListNotations.
Local Open Scope list_scope.
Local Open Scope Z_scope.

(** A double: not a number, an infinity, or a finite value (the two zeros are identified). *)
Inductive double := DNan | DInf (negative : bool) | DRat (q : Q).

(** A TOML node (toml_impl.hpp node types; dates and times are one kind). *)
Inductive node :=
| NStr (s : string) | NInt (z : Z) | NFloat (f : double) | NBool (b : bool) | NDate
| NArr (l : list node) | NTab (l : list (string * node)).

(** A C++ value.  A struct is the list of its members; None: as default-constructed (nullopt for a
    std::optional, indeterminate for a number). *)
Inductive val :=
| VBool (b : bool) | VInt (z : Z) | VFloat (f : double) | VStr (s : string) | VEnum (k : nat)
| VArr (l : list val) | VRec (l : list (option val)).

(** Where an error is reported: the "  --> " lines, innermost first. *)
Inductive step := Key (k : string) | Entry (idx : nat).
(** A result, an exception (is it a std::runtime_error?), or undefined behaviour. *)
Inductive outcome (A : Type) := Ok (a : A) | Error (runtime : bool) (path : list step) | Undef.
Arguments Ok {A}. Arguments Error {A}. Arguments Undef {A}.
Definition obind {A B} (x : outcome A) (f : A -> outcome B) : outcome B :=
  match x with Ok a => f a | Error r p => Error r p | Undef => Undef end.

(** The T of ValueSchema<T>: bool, an integral type with its range, double, std::string, other. *)
Inductive vtype := TBool | TInt (lo hi : Z) | TDouble | TString | TOther.

Definition checker := option (val -> bool).
(** Schema.h:68-180 ValueSchema, :182-303 ArraySchema (min_, max_, of_), :305-468 TableSchema: a
    default-constructed T and the entries with key, member, whether the member is a std::optional,
    and schema.  Each carries validator_ and default_ (Schema.h:63-65). *)
Inductive schema :=
| SValue (ty : vtype) (converter_ : option (string -> outcome val)) (validator_ : checker)
    (default_ : option val)
| SArray (min_ max_ : Z) (of_ : option schema) (validator_ : checker) (default_ : option val)
| STable (blank : list (option val)) (entries_ : list (string * (nat * bool) * schema))
    (validator_ : checker) (default_ : option val).
(** Schema.h:52. *)
Definition get_default_value (s : schema) : option val :=
  match s with SValue _ _ _ d => d | SArray _ _ _ _ d => d | STable _ _ _ d => d end.

(** Schema.h:56-61. *)
Definition validate (chk : checker) (v : val) : outcome val :=
  match chk with
  | Some f => if f v then Ok v else Error true []
  | None => Ok v
  end.

(** toml_impl.hpp:2621-2647 node_integer_cast. *)
Definition node_integer_cast (lo hi z : Z) : option val :=
  if (z <? lo) || (hi <? z) then None else Some (VInt z).
(** static_cast<int64_t>(double): undefined unless the truncated value fits. *)
Definition int64_of_double (f : double) : option Z :=
  match f with
  | DRat q =>
      let z := Z.quot (Qnum q) (Zpos (Qden q)) in
      if (- 2 ^ 63 <=? z) && (z <? 2 ^ 63) then Some z else None
  | _ => None
  end.
(** toml_impl.hpp:2999-3108 node::value<T>(). *)
Definition node_value (ty : vtype) (n : node) : outcome (option val) :=
  match ty with
  | TString => Ok (match n with NStr s => Some (VStr s) | _ => None end)
  | TInt lo hi =>
      match n with
      | NInt z => Ok (node_integer_cast lo hi z)
      | NFloat f =>
          match int64_of_double f, f with
          | Some z, DRat q => Ok (if Qeq_bool (inject_Z z) q then node_integer_cast lo hi z else None)
          | _, _ => Undef
          end
      | NBool b => Ok (Some (VInt (if b then 1 else 0)))
      | _ => Ok None
      end
  | TDouble =>
      Ok match n with
         | NInt z => if (z <? - 2 ^ 53) || (2 ^ 53 <? z) then None
                     else Some (VFloat (DRat (inject_Z z)))
         | NFloat f => Some (VFloat f)
         | _ => None
         end
  | TBool =>
      Ok match n with
         | NInt z => Some (VBool (negb (z =? 0)))
         | NBool b => Some (VBool b)
         | _ => None
         end
  | TOther => Error true []
  end.

(** Schema.h:77-102 ValueSchema::translate(node). *)
Definition translate_value (ty : vtype) (conv : option (string -> outcome val)) (chk : checker)
    (n : node) : outcome val :=
  obind
    match conv with
    | Some f => match n with NStr s => f s | _ => Error true [] end
    | None => obind (node_value ty n) (fun r => match r with Some v => Ok v | None => Error true [] end)
    end
    (validate chk).

(** toml_impl.hpp:4662-4668 node_view::operator[](key): no node unless this is a table. *)
Fixpoint get (l : list (string * node)) (k : string) : option node :=
  match l with
  | [] => None
  | (k', n) :: r => if String.eqb k' k then Some n else get r k
  end.
Definition node_at (n : node) (k : string) : option node :=
  match n with NTab l => get l k | _ => None end.

(** table.*member_ = v. *)
Fixpoint set_member (m : list (option val)) (i : nat) (v : val) : list (option val) :=
  match m, i with
  | [], _ => []
  | _ :: r, O => Some v :: r
  | a :: r, S j => a :: set_member r j v
  end.

(** Schema.h:220-234: the entries of the array in turn; only std::runtime_error gets a location. *)
Fixpoint translate_array (tr : node -> outcome val) (idx : nat) (l : list node)
    : outcome (list val) :=
  match l with
  | [] => Ok []
  | x :: r =>
      obind match tr x with
            | Error true p => Error true (p ++ [Entry idx])
            | o => o
            end
        (fun v => obind (translate_array tr (S idx) r) (fun vs => Ok (v :: vs)))
  end.

(** Schema.h:419-429 and :442-446 Model::translate(table, node). *)
Definition translate_member (tr : node -> outcome val) (i : nat) (optional : bool)
    (s : schema) (sub : option node) (m : list (option val)) : outcome (list (option val)) :=
  match sub with
  | Some n => obind (tr n) (fun v => Ok (set_member m i v))
  | None =>
      if optional then Ok m
      else match get_default_value s with
           | Some d => Ok (set_member m i d)
           | None => Error true []
           end
  end.
(** Schema.h:329-335: every exception becomes a std::runtime_error with the key (:455-465). *)
Section Entries.
Variable tr : schema -> node -> outcome val.
Fixpoint translate_entries (entries : list (string * (nat * bool) * schema)) (n : node) (m : list (option val))
    : outcome (list (option val)) :=
  match entries with
  | [] => Ok m
  | (key, (i, optional), s) :: r =>
      obind match translate_member (tr s) i optional s (node_at n key) m with
            | Error _ p => Error true (p ++ [Key key])
            | o => o
            end
        (translate_entries r n)
  end.
End Entries.

(** translate(node): Schema.h:77-102, :201-237, :327-338. *)
Fixpoint translate (s : schema) (n : node) {struct s} : outcome val :=
  match s with
  | SValue ty conv chk _ => translate_value ty conv chk n
  | SArray lo hi of chk _ =>
      match of with
      | None => Error true []
      | Some s' =>
          match n with
          | NArr l =>
              if (Z.of_nat (length l) <? lo) || (hi <? Z.of_nat (length l)) then Error true []
              else obind (translate_array (translate s') 0 l) (fun vs => validate chk (VArr vs))
          | _ => Error true []
          end
      end
  | STable blank entries chk _ =>
      obind (translate_entries translate entries n blank) (fun m => validate chk (VRec m))
  end.

(** std::tolower in the C locale. *)
Definition tolower (c : ascii) : ascii :=
  let n := nat_of_ascii c in
  if (Nat.leb 65 n && Nat.leb n 90)%bool then ascii_of_nat (n + 32) else c.
Definition lower (s : string) : list ascii := map tolower (list_ascii_of_string s).
Definition chars (s : string) : list ascii := list_ascii_of_string s.

(** std::from_chars for an integer type (C++17 [charconv.from.chars], base 10) on the characters
    [first, last); the sign is read for signed types only.  None: no digits. *)
Fixpoint digits (acc : Z) (l : list ascii) : Z :=
  match l with
  | [] => acc
  | c :: r =>
      let d := Z.of_nat (nat_of_ascii c) - 48 in
      if (0 <=? d) && (d <=? 9) then digits (10 * acc + d) r else acc
  end.
Definition starts_with_digit (l : list ascii) : bool :=
  match l with
  | [] => false
  | c :: _ => let d := Z.of_nat (nat_of_ascii c) - 48 in (0 <=? d) && (d <=? 9)
  end.
Definition from_chars (lo hi : Z) (l : list ascii) : option (option val) :=
  let neg := match l with c :: _ => Ascii.eqb c "-"%char && (lo <? 0) | [] => false end in
  let body := if neg then tl l else l in
  if negb (starts_with_digit body) then None
  else let z := if neg then - digits 0 body else digits 0 body in
       Some (if (z <? lo) || (hi <? z) then None else Some (VInt z)).

Section CommandLine.
(** std::stod on a std::string; None: it throws (std::invalid_argument or std::out_of_range). *)
Variable stod : string -> option double.
(** What follows the terminating zero of a command line argument in memory. *)
Variable memory : string -> list ascii.

(** Schema.h:104-144 ValueSchema::translate(string_view); :113-114 the range given to from_chars is
    twice as long as the value, so it reaches into the memory behind it. *)
Definition string_value (ty : vtype) (value : string) : outcome val :=
  match ty with
  | TBool =>
      if list_eq_dec ascii_dec (lower value) (chars "yes") then Ok (VBool true)
      else if list_eq_dec ascii_dec (lower value) (chars "true") then Ok (VBool true)
      else if list_eq_dec ascii_dec (lower value) (chars "no") then Ok (VBool false)
      else if list_eq_dec ascii_dec (lower value) (chars "false") then Ok (VBool false)
      else Error true []
  | TInt lo hi =>
      match from_chars lo hi
              (firstn (2 * length (chars value)) (chars value ++ "000"%char :: memory value)) with
      | None => Error false []
      | Some None => Error false []
      | Some (Some v) => Ok v
      end
  | TDouble => match stod value with Some f => Ok (VFloat f) | None => Error false [] end
  | TString => Ok (VStr value)
  | TOther => Error true []
  end.
(** Schema.h:104-144, :239-241 and :340: arrays and tables throw std::logic_error. *)
Definition translate_string (s : schema) (value : string) : outcome val :=
  match s with
  | SValue ty conv chk _ =>
      obind match conv with Some f => f value | None => string_value ty value end (validate chk)
  | _ => Error false []
  end.

(** Schema.h:342-353 TableSchema::set: the first entry with that key. *)
Fixpoint set_entry (entries : list (string * (nat * bool) * schema)) (m : list (option val))
    (key value : string) : outcome (list (option val)) :=
  match entries with
  | [] => Ok m
  | (k, (i, _), s) :: r =>
      if String.eqb key k then
        match translate_string s value with
        | Ok v => Ok (set_member m i v)
        | Error _ p => Error true (p ++ [Key key])
        | Undef => Undef
        end
      else set_entry r m key value
  end.

(** Schema.h:378-382, :404-410 cmd_line_args: the keys of the entries holding plain values. *)
Fixpoint cmd_line_args (entries : list (string * (nat * bool) * schema)) : list string :=
  match entries with
  | [] => []
  | (k, _, SValue _ _ _ _) :: r => k :: cmd_line_args r
  | _ :: r => cmd_line_args r
  end.

(** CmdLine.h:50-57: the options present on the command line, in the order of the schema. *)
Fixpoint apply_args (entries : list (string * (nat * bool) * schema)) (keys : list string)
    (present : string -> option string) (m : list (option val)) : outcome (list (option val)) :=
  match keys with
  | [] => Ok m
  | k :: r =>
      obind match present k with Some value => set_entry entries m k value | None => Ok m end
        (apply_args entries r present)
  end.

(** CmdLine.h:42-46: an absent ts_checkpoint becomes an empty array. *)
Definition with_ts_checkpoint (raw : list (string * node)) : list (string * node) :=
  match get raw "ts_checkpoint" with
  | Some _ => raw
  | None => ("ts_checkpoint"%string, NArr []) :: raw
  end.

(** CmdLine.h:15-67 readFromConfigurationFileAndCmdLine after the arguments and the file have been
    parsed.  Error: a message is printed and nullopt returned. *)
Definition read_config (blank : list (option val))
    (entries : list (string * (nat * bool) * schema)) (chk : checker)
    (raw : list (string * node)) (present : string -> option string)
    : outcome (list (option val)) :=
  obind (translate (STable blank entries chk None) (NTab (with_ts_checkpoint raw)))
    (fun v => match v with
              | VRec m => apply_args entries (cmd_line_args entries) present m
              | _ => Error true []
              end).
End CommandLine.

(** SchemaHelper.h:50-53 iEquals(a, b): std::equal with three iterators, so b is read as far as a is
    long.  b is a string literal: a zero follows its last character.  None: it is read further. *)
Fixpoint i_equals_chars (a b : list ascii) : option bool :=
  match a with
  | [] => Some true
  | x :: a' =>
      match b with
      | [] => None
      | y :: b' => if Ascii.eqb (tolower x) (tolower y) then i_equals_chars a' b' else Some false
      end
  end.
Definition iEquals (a b : string) : option bool :=
  i_equals_chars (chars a) (chars b ++ ["000"%char]).
