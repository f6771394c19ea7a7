(** * What a scenario script's author relies on

    The script defines a table.  Its members are numbers or functions.  A function is called with the
    table itself, then the coordinates in order, then (for materials) the tag of the volume or (for
    time-dependent data) the time.  Its results are the values, in order. *)

From Coq Require Import ZArith String List Bool Arith.
From Verif Require Import ScriptModel.
Import ListNotations.
Local Open Scope list_scope.

Section Spec.

Context {G num : Type}.
Variable L : interp G num.

(** A value that reads as a number: a number, or a text that is one. *)
Inductive numeric : value num -> num -> Prop :=
| numeric_float x : numeric (Num x) x
| numeric_int z : numeric (Int z) (i_float G num L z)
| numeric_text s x : i_parse G num L s = Some x -> numeric (Str s) x.

(** The first [n] of the values returned read as the numbers [xs]. *)
Definition first_results (n : nat) (vs : list (value num)) (xs : list num) : Prop :=
  n <= length vs /\ Forall2 numeric (firstn n vs) xs.

(** Result [d] is missing or is not a number. *)
Definition no_number_at (d : nat) (vs : list (value num)) : Prop :=
  nth_error vs d = None \/ exists v, nth_error vs d = Some v /\ forall x, ~ numeric v x.

(** Lua's view of a method call: [table.m] is called with these arguments after the table, in the
    script's memory [g], and returns, or raises. *)
Definition method_returns (g : G) (table m : string) (args : list (value num)) (g' : G)
  (vs : list (value num)) : Prop :=
  exists t, i_global G num L g table = Tab t /\
    i_call G num L g (i_field G num L g t m) (Tab t :: args) = (g', inl vs).

Definition method_raises (g : G) (table m : string) (args : list (value num)) (g' : G)
  (e : value num) : Prop :=
  exists t, i_global G num L g table = Tab t /\
    i_call G num L g (i_field G num L g t m) (Tab t :: args) = (g', inr e).

(** What the answer to a request is. *)
Inductive answered : request num -> G -> list num -> G -> Prop :=
| answered_function dout name x g vs g' xs :
    i_call G num L g (i_global G num L g name) (map Num x) = (g', inl vs) ->
    first_results dout vs xs ->
    answered (AskFunction num dout name x) g xs g'
| answered_member dout table m x g vs g' xs :
    method_returns g table m (map Num x) g' vs ->
    first_results dout vs xs ->
    answered (AskMember num dout table m x) g xs g'
| answered_tagged dout table m x tag g vs g' xs :
    method_returns g table m (map Num x ++ [Int tag]) g' vs ->
    first_results dout vs xs ->
    answered (AskTagged num dout table m x tag) g xs g'
| answered_constant table m g t c :
    i_global G num L g table = Tab t ->
    numeric (i_field G num L g t m) c ->
    answered (AskConstant num table m) g [c] g
| answered_has table m g t :
    i_global G num L g table = Tab t ->
    i_field G num L g t m <> Nil ->
    answered (AskHas num table m) g [i_float G num L 1] g
| answered_has_not table m g t :
    i_global G num L g table = Tab t ->
    i_field G num L g t m = Nil ->
    answered (AskHas num table m) g [i_float G num L 0] g.

(** The slots of the interface's stack a request takes. *)
Definition slots (r : request num) : nat :=
  match r with
  | AskFunction _ dout _ x => Nat.max (1 + length x) dout
  | AskMember _ dout _ _ x => Nat.max (2 + length x) dout
  | AskTagged _ dout _ _ x _ => Nat.max (3 + length x) dout
  | AskConstant _ _ _ | AskHas _ _ _ => 2
  end.

(** There is room for a request on top of what the stack holds already. *)
Definition room (st : list (value num)) (r : request num) : Prop :=
  length st + slots r <= stack_slots.

(** Whatever the script raises can be printed (it is a text or a number, as Lua's own errors are). *)
Definition raises_text : Prop :=
  forall g f args g' e, i_call G num L g f args = (g', inr e) -> to_text G num L e <> None.

(** The script's functions change nothing the script can observe. *)
Definition pure_script : Prop :=
  forall g f args, fst (i_call G num L g f args) = g.

(** Requests answered one after the other. *)
Inductive answered_all : list (request num) -> G -> list (list num) -> G -> Prop :=
| answered_nil g : answered_all [] g [] g
| answered_cons r rs g xs g1 xss g2 :
    answered r g xs g1 -> answered_all rs g1 xss g2 -> answered_all (r :: rs) g (xs :: xss) g2.

(** A function of a scenario answers like the member [m] of the script's table does, whenever it is
    called, and however much of the stack is in use. *)
Definition is_method (f : functional G num) (dout : nat) (table m : string) : Prop :=
  forall x g st xs s', room st (AskMember num dout table m x) ->
    (f x (mk_lstate G num g st) = Done xs s' <->
     exists g', answered (AskMember num dout table m x) g xs g' /\ s' = mk_lstate G num g' st).

(** The same for the materials, which are given the tag of the volume. *)
Definition is_tagged_method (f : tagged_functional G num) (dout : nat) (table m : string) : Prop :=
  forall x tag g st xs s', room st (AskTagged num dout table m x tag) ->
    (f x tag (mk_lstate G num g st) = Done xs s' <->
     exists g', answered (AskTagged num dout table m x tag) g xs g' /\ s' = mk_lstate G num g' st).

(** A function that returns fixed values. *)
Definition is_constant (f : functional G num) (v : list num) : Prop := forall x s, f x s = Done v s.
Definition is_tagged_constant (f : tagged_functional G num) (v : list num) : Prop :=
  forall x tag s, f x tag s = Done v s.

(** The member of the script if there is one, and the default otherwise. *)
Definition member_or (g : G) (t : nat) (m : string) (present absent : Prop) : Prop :=
  (i_field G num L g t m <> Nil -> present) /\ (i_field G num L g t m = Nil -> absent).

Definition optional_method (g : G) (t : nat) (f : option (functional G num)) (dout : nat)
  (table m : string) : Prop :=
  member_or g t m (exists h, f = Some h /\ is_method h dout table m) (f = None).

(** A time-dependent function of the script, at a time: the time comes after the coordinates. *)
Definition is_method_at (f : functional G num) (time : num) (dout : nat) (table m : string) : Prop :=
  forall x g st xs s', room st (AskMember num dout table m (x ++ [time])) ->
    (f x (mk_lstate G num g st) = Done xs s' <->
     exists g', answered (AskMember num dout table m (x ++ [time])) g xs g' /\
       s' = mk_lstate G num g' st).

(** Where the script's [require] looks after the script in [dir] has been loaded. *)
Definition search_path (old dir : string) : string :=
  (old ++ ";" ++ dir ++ "/?.lua;" ++ dir ++ "/?/init.lua")%string.

(** The script file has been run in the library [g0], which left the memory [g]: the search path was
    extended first; an error of the script, if it can be printed, is ignored. *)
Definition file_loaded (g0 : G) (dir file : string) (g : G) : Prop :=
  exists p old err,
    i_global G num L g0 "package" = Tab p /\
    to_text G num L (i_field G num L g0 p "path") = Some old /\
    i_file G num L (i_set G num L g0 p "path" (Str (search_path old dir))) file = (g, err) /\
    (err = None \/ exists e, err = Some e /\ to_text G num L e <> None).

(** A scenario of an earthquake sequence, as the script in memory [g] defines it by its table [t]:
    every function is the member of its name, or the default if there is none. *)
Definition seas_reads (dim q : nat) (table : string) (g : G) (t : nat) (sc : seas_scenario G num)
  : Prop :=
  let one := i_float G num L 1 in
  let zero := i_float G num L 0 in
  member_or g t "warp" (is_method (ss_warp G num sc) dim table "warp")
    (forall x s, ss_warp G num sc x s = Done x s) /\
  member_or g t "mu" (is_tagged_method (ss_mu G num sc) 1 table "mu")
    (is_tagged_constant (ss_mu G num sc) [one]) /\
  member_or g t "lam" (is_tagged_method (ss_lam G num sc) 1 table "lam")
    (is_tagged_constant (ss_lam G num sc) [zero]) /\
  member_or g t "rho"
    (exists f, ss_rho G num sc = Some f /\ is_tagged_method f 1 table "rho")
    (ss_rho G num sc = None) /\
  optional_method g t (ss_boundary G num sc) q table "boundary" /\
  optional_method g t (ss_solution G num sc) q table "solution" /\
  optional_method g t (ss_displacement G num sc) q table "initial_displacement" /\
  optional_method g t (ss_velocity G num sc) q table "initial_velocity".

(** The same for the friction law and for static problems. *)
Definition friction_reads (tc q : nat) (table : string) (g : G) (t : nat)
  (sc : friction_scenario G num) : Prop :=
  let zero := i_float G num L 0 in
  numeric (i_field G num L g t "V0") (fs_V0 G num sc) /\
  numeric (i_field G num L g t "b") (fs_b G num sc) /\
  numeric (i_field G num L g t "f0") (fs_f0 G num sc) /\
  is_method (fs_a G num sc) 1 table "a" /\
  is_method (fs_eta G num sc) 1 table "eta" /\
  is_method (fs_L G num sc) 1 table "L" /\
  is_method (fs_Vinit G num sc) tc table "Vinit" /\
  member_or g t "sn_pre" (is_method (fs_sn_pre G num sc) 1 table "sn_pre")
    (is_constant (fs_sn_pre G num sc) [zero]) /\
  member_or g t "tau_pre" (is_method (fs_tau_pre G num sc) tc table "tau_pre")
    (is_constant (fs_tau_pre G num sc) (repeat zero tc)) /\
  member_or g t "Sinit" (is_method (fs_Sinit G num sc) tc table "Sinit")
    (is_constant (fs_Sinit G num sc) (repeat zero tc)) /\
  optional_method g t (fs_source G num sc) 1 table "source" /\
  optional_method g t (fs_delta_tau G num sc) tc table "delta_tau" /\
  optional_method g t (fs_delta_sn G num sc) 1 table "delta_sn" /\
  optional_method g t (fs_solution G num sc) q table "fault_solution".

Definition static_reads (dim q : nat) (table : string) (g : G) (t : nat)
  (sc : static_scenario G num) : Prop :=
  let one := i_float G num L 1 in
  member_or g t "warp" (is_method (st_warp G num sc) dim table "warp")
    (forall x s, st_warp G num sc x s = Done x s) /\
  member_or g t "mu" (is_tagged_method (st_mu G num sc) 1 table "mu")
    (is_tagged_constant (st_mu G num sc) [one]) /\
  member_or g t "lam" (is_tagged_method (st_lam G num sc) 1 table "lam")
    (is_tagged_constant (st_lam G num sc) [one]) /\
  optional_method g t (st_force G num sc) q table "force" /\
  optional_method g t (st_boundary G num sc) q table "boundary" /\
  optional_method g t (st_slip G num sc) q table "slip" /\
  optional_method g t (st_solution G num sc) q table "solution" /\
  optional_method g t (st_jacobian G num sc) (q * dim) table "solution_jacobian".

(** What a member gives at a point: its answer if it was there when the script was loaded (memory
    [g0]), and the default otherwise. *)
Definition gives (g0 : G) (t : nat) (table m : string) (dout : nat) (default x : list num) (g : G)
  (xs : list num) (g' : G) : Prop :=
  member_or g0 t m (answered (AskMember num dout table m x) g xs g') (xs = default /\ g' = g).

(** The friction parameters at a point, read in this order. *)
Definition params_at (g0 : G) (t : nat) (tc : nat) (table : string) (x : list num) (g : G)
  (p : friction_params num) (g' : G) : Prop :=
  let zero := i_float G num L 0 in
  exists g1 g2 g3 g4 g5 g6,
    answered (AskMember num 1 table "a" x) g [fp_a num p] g1 /\
    answered (AskMember num 1 table "eta" x) g1 [fp_eta num p] g2 /\
    answered (AskMember num 1 table "L" x) g2 [fp_L num p] g3 /\
    gives g0 t table "sn_pre" 1 [zero] x g3 [fp_sn_pre num p] g4 /\
    gives g0 t table "tau_pre" tc (repeat zero tc) x g4 (fp_tau_pre num p) g5 /\
    answered (AskMember num tc table "Vinit" x) g5 (fp_Vinit num p) g6 /\
    gives g0 t table "Sinit" tc (repeat zero tc) x g6 (fp_Sinit num p) g'.

End Spec.
