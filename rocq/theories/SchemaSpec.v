(** What it means that a TOML value fits a schema, and what counts as a fault in it; stated over the
    data types of SchemaModel, without its functions except the look-up of a key. *)
Require Import ZArith QArith Bool Ascii String List.
From Verif Require Import SchemaModel.
Import ListNotations.
Local Open Scope list_scope.
Local Open Scope Z_scope.

(** A TOML value read as a native type: the same value, integers also as numbers and truth values,
    truth values also as 0 and 1, integral floating point numbers also as integers; an integer must
    fit the type and be exactly representable. *)
Inductive reads : vtype -> node -> val -> Prop :=
| R_string s : reads TString (NStr s) (VStr s)
| R_bool b : reads TBool (NBool b) (VBool b)
| R_bool_int z b : (b = true <-> z <> 0) -> reads TBool (NInt z) (VBool b)
| R_int lo hi z : lo <= z <= hi -> reads (TInt lo hi) (NInt z) (VInt z)
| R_int_bool lo hi b : reads (TInt lo hi) (NBool b) (VInt (if b then 1 else 0))
| R_int_float lo hi q z :
    (q == inject_Z z)%Q -> lo <= z <= hi -> - 2 ^ 63 <= z < 2 ^ 63 ->
    reads (TInt lo hi) (NFloat (DRat q)) (VInt z)
| R_double f : reads TDouble (NFloat f) (VFloat f)
| R_double_int z : Z.abs z <= 2 ^ 53 -> reads TDouble (NInt z) (VFloat (DRat (inject_Z z))).

Definition passes (chk : checker) (v : val) : Prop := forall f, chk = Some f -> f v = true.

(** The value under a key, if the node is a table holding that key. *)
Definition has_key (n : node) (k : string) (sub : node) : Prop := node_at n k = Some sub.
Definition lacks_key (n : node) (k : string) : Prop := node_at n k = None.

Inductive fits : schema -> node -> val -> Prop :=
| F_value ty chk d n v :
    reads ty n v -> passes chk v -> fits (SValue ty None chk d) n v
| F_convert ty f chk d s v :
    f s = Ok v -> passes chk v -> fits (SValue ty (Some f) chk d) (NStr s) v
| F_array lo hi s chk d l vs :
    lo <= Z.of_nat (length l) <= hi ->
    Forall2 (fits s) l vs ->
    passes chk (VArr vs) ->
    fits (SArray lo hi (Some s) chk d) (NArr l) (VArr vs)
| F_table blank entries chk d n m :
    length m = length blank ->
    (* a member no key refers to keeps its initial value *)
    (forall i, (forall k o s, ~ In (k, (i, o), s) entries) ->
       nth_error m i = nth_error blank i) ->
    (* a given key *)
    (forall k i o s sub, In (k, (i, o), s) entries -> has_key n k sub ->
       exists v, nth_error m i = Some (Some v) /\ fits s sub v) ->
    (* a missing key: the default, or nothing for an optional member *)
    (forall k i s, In (k, (i, false), s) entries -> lacks_key n k ->
       exists v, get_default_value s = Some v /\ nth_error m i = Some (Some v)) ->
    (forall k i s, In (k, (i, true), s) entries -> lacks_key n k ->
       nth_error m i = nth_error blank i) ->
    passes chk (VRec m) ->
    fits (STable blank entries chk d) n (VRec m).

(** The path of an error message (innermost first) leads to a real fault. *)
Inductive fault : schema -> node -> list step -> Prop :=
| X_type ty chk d n : (forall v, ~ reads ty n v) -> fault (SValue ty None chk d) n []
| X_text ty f chk d n : (forall s, n <> NStr s) -> fault (SValue ty (Some f) chk d) n []
| X_convert ty f chk d s rt p : f s = Error rt p -> fault (SValue ty (Some f) chk d) (NStr s) p
| X_check ty chk d f n v : reads ty n v -> chk = Some f -> f v = false ->
    fault (SValue ty None chk d) n []
| X_check_convert ty c chk d f s v : c s = Ok v -> chk = Some f -> f v = false ->
    fault (SValue ty (Some c) chk d) (NStr s) []
| X_no_array lo hi s chk d n : (forall l, n <> NArr l) -> fault (SArray lo hi (Some s) chk d) n []
| X_size lo hi s chk d l : ~ (lo <= Z.of_nat (length l) <= hi) ->
    fault (SArray lo hi (Some s) chk d) (NArr l) []
| X_no_schema lo hi chk d n : fault (SArray lo hi None chk d) n []
| X_entry lo hi s chk d l idx x p : nth_error l idx = Some x -> fault s x p ->
    fault (SArray lo hi (Some s) chk d) (NArr l) (p ++ [Entry idx])
(* an exception of a converter below an array that is not a std::runtime_error *)
| X_entry_unlocated lo hi s chk d l idx x p : nth_error l idx = Some x -> fault s x p ->
    (forall b e c d', s <> STable b e c d') ->
    fault (SArray lo hi (Some s) chk d) (NArr l) p
| X_array_check lo hi s chk d l vs f : Forall2 (fits s) l vs -> chk = Some f -> f (VArr vs) = false ->
    fault (SArray lo hi (Some s) chk d) (NArr l) []
| X_key blank entries chk d n k i o s sub p : In (k, (i, o), s) entries -> has_key n k sub ->
    fault s sub p -> fault (STable blank entries chk d) n (p ++ [Key k])
| X_missing blank entries chk d n k i s : In (k, (i, false), s) entries -> lacks_key n k ->
    get_default_value s = None -> fault (STable blank entries chk d) n [Key k]
| X_table_check blank entries chk d n m f : fits (STable blank entries None d) n (VRec m) ->
    chk = Some f -> f (VRec m) = false -> fault (STable blank entries chk d) n [].

(** Every schema of a table assigns different members to its entries. *)
Fixpoint well_formed (s : schema) : Prop :=
  match s with
  | SValue _ _ _ _ => True
  | SArray _ _ of _ _ => match of with Some s' => well_formed s' | None => True end
  | STable blank entries _ _ =>
      NoDup (map (fun e => fst (snd (fst e))) entries) /\
      (fix all (l : list (string * (nat * bool) * schema)) : Prop :=
         match l with
         | [] => True
         | (_, (i, _), s') :: r => (i < length blank)%nat /\ well_formed s' /\ all r
         end) entries
  end.

(** Two nodes look the same to a schema: equal values where it reads values, arrays of the same
    length that look the same, and under each of its keys the same (other keys and the order of the
    keys do not matter). *)
Fixpoint alike (s : schema) (n n' : node) : Prop :=
  match s with
  | SValue _ _ _ _ => n = n'
  | SArray _ _ of _ _ =>
      match of, n, n' with
      | Some s', NArr l, NArr l' => Forall2 (alike s') l l'
      | _, _, _ => n = n'
      end
  | STable _ entries _ _ =>
      (fix all (l : list (string * (nat * bool) * schema)) : Prop :=
         match l with
         | [] => True
         | (k, _, s') :: r =>
             match node_at n k, node_at n' k with
             | Some a, Some b => alike s' a b
             | None, None => True
             | _, _ => False
             end /\ all r
         end) entries
  end.

(** No floating point number that has no 64 bit integer part. *)
Fixpoint tame (n : node) : Prop :=
  match n with
  | NFloat DNan => False
  | NFloat (DInf _) => False
  | NFloat (DRat q) => - 2 ^ 63 <= Z.quot (Qnum q) (Zpos (Qden q)) < 2 ^ 63
  | NArr l => (fix all (l : list node) := match l with [] => True | x :: r => tame x /\ all r end) l
  | NTab l => (fix all (l : list (string * node)) :=
                 match l with [] => True | (_, x) :: r => tame x /\ all r end) l
  | _ => True
  end.
(** The converters of a schema are defined for every text. *)
Fixpoint converters_defined (s : schema) : Prop :=
  match s with
  | SValue _ conv _ _ => forall f x, conv = Some f -> f x <> Undef
  | SArray _ _ of _ _ => match of with Some s' => converters_defined s' | None => True end
  | STable _ entries _ _ =>
      (fix all (l : list (string * (nat * bool) * schema)) : Prop :=
         match l with [] => True | (_, _, s') :: r => converters_defined s' /\ all r end) entries
  end.

(** ** Command line arguments *)
Definition code (c : ascii) : Z := Z.of_nat (nat_of_ascii c).
Definition is_digit (c : ascii) : Prop := 48 <= code c <= 57.
Definition decimal (ds : list ascii) : Z := fold_left (fun a c => 10 * a + (code c - 48)) ds 0.
(** The text consists of, or starts with, a decimal number (whatever follows is ignored). *)
Inductive reads_text (stod : string -> option double) : vtype -> string -> val -> Prop :=
| T_string s : reads_text stod TString s (VStr s)
| T_double s f : stod s = Some f -> reads_text stod TDouble s (VFloat f)
| T_bool s b : In (lower s) (map chars (if b : bool then ["yes"; "true"] else ["no"; "false"])%string) ->
    reads_text stod TBool s (VBool b)
| T_int lo hi s ds rest : chars s = ds ++ rest -> ds <> [] -> Forall is_digit ds ->
    (forall c r, rest = c :: r -> ~ is_digit c) -> lo <= decimal ds <= hi ->
    reads_text stod (TInt lo hi) s (VInt (decimal ds))
| T_neg lo hi s ds rest : chars s = "-"%char :: ds ++ rest -> ds <> [] -> Forall is_digit ds ->
    (forall c r, rest = c :: r -> ~ is_digit c) -> lo < 0 -> lo <= - decimal ds <= hi ->
    reads_text stod (TInt lo hi) s (VInt (- decimal ds)).
(** A command line argument accepted by a schema. *)
Inductive fits_text (stod : string -> option double) : schema -> string -> val -> Prop :=
| FT_value ty chk d s v : reads_text stod ty s v -> passes chk v ->
    fits_text stod (SValue ty None chk d) s v
| FT_convert ty f chk d s v : f s = Ok v -> passes chk v ->
    fits_text stod (SValue ty (Some f) chk d) s v.

(** The table of the configuration file, where a missing ts_checkpoint counts as given but empty. *)
Definition config_file (raw : list (string * node)) (n : node) : Prop :=
  (forall k, k <> "ts_checkpoint"%string -> node_at n k = get raw k) /\
  (get raw "ts_checkpoint" = None -> node_at n "ts_checkpoint" = Some (NArr [])) /\
  (forall x, get raw "ts_checkpoint" = Some x -> node_at n "ts_checkpoint" = Some x).
