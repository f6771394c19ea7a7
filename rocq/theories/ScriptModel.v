(** * The scenario script: tandem's bridge to Lua and the scenarios built from it

    A run's materials, friction parameters, boundary data and exact solutions are functions of a Lua
    script.  The code reaches them through the stack of the Lua C interface: it pushes a table, a
    method and the arguments, calls, reads the results off the stack and pops them.  Modelled are
    src/script/LuaLib.h and LuaLib.cpp, and the constructors and accessors that use them:
    app/tandem/SeasScenario.h, app/tandem/FrictionConfig.h, app/tandem/SeasSolution.h,
    app/common/Scenario.h, app/common/ElasticityScenario.h, app/common/PoissonScenario.h, and the
    time argument of app/form/FacetFunctionalFactory.h.

    The interpreter itself is not modelled: it is the parameter [interp], which says what a global, a
    member and a call evaluate to.  A call is arbitrary: it may change the script's state, return any
    number of values of any type, or raise any value.

    Simplifications.  Looking up a global or a member yields a value and changes nothing (it may go
    through metatables, but an [__index] function with effects or errors is not modelled).  Floating
    point numbers are an abstract type.  The text of an exception is given by its parts. *)

From Coq Require Import ZArith String List Bool Arith.
Import ListNotations.
Local Open Scope list_scope.

Section Script.

Variables G num : Type.

(** The values a script handles.  Tables and functions are references.  The script's memory [G]
    holds what they refer to.  Lua has two kinds of numbers, floats and integers
    (LuaLib.h:40 and 137 push one of each). *)
Inductive value :=
| Nil
| Flag (b : bool)
| Num (x : num)
| Int (z : Z)
| Str (s : string)
| Tab (t : nat)
| Fun (f : nat).

(** What the interpreter does; not modelled further (Lua's own library). *)
Record interp := {
  i_global : G -> string -> value;                         (* the global of that name *)
  i_field : G -> nat -> string -> value;                   (* the member of a table *)
  i_set : G -> nat -> string -> value -> G;                (* the assignment of a member *)
  i_call : G -> value -> list value -> G * (list value + value); (* results, or the value raised *)
  i_chunk : G -> string -> G * option value;               (* compiles and runs a text *)
  i_file : G -> string -> G * option value;                (* compiles and runs a file *)
  i_parse : string -> option num;                          (* a text that reads as a number *)
  i_float : Z -> num;                                      (* an integer as a float *)
  i_show : num -> string;                                  (* a number as text *)
  i_cfun : string -> value                                 (* a C function as a value *)
}.

Variable L : interp.

(** The state of a library: the script's memory and the interface's stack, top first
    (LuaLib.h:185, [lua_State* L]). *)
Record lstate := mk_lstate { l_mem : G; l_stack : list value }.

(** The slots of the stack a C caller may use without [lua_checkstack], which the code never calls:
    Lua's LUA_MINSTACK. *)
Definition stack_slots : nat := 20.

(** The exceptions of the bridge: LuaLib.h:65, 82, 124 and 170; 43-47, 91-96 and 143-148;
    50-54, 99-104, 152-156 and 173-177.  The last carries the number of the result. *)
Inductive failure :=
| NotATable (table : string)
| ScriptError (name : string) (message : string)
| NotANumber (name : string) (index : nat).

(** What a step of the bridge ends in.  [Undefined] is undefined behaviour or an abort: a stack slot
    that does not exist is read or written, or a null pointer is printed as a text. *)
Inductive outcome (A : Type) :=
| Done (a : A) (s : lstate)
| Thrown (e : failure) (s : lstate)
| Undefined.
Arguments Done {A}. Arguments Thrown {A}. Arguments Undefined {A}.

Definition script (A : Type) := lstate -> outcome A.

(** One step after the other; an exception leaves the rest out, and leaves the stack as it is. *)
Definition ret {A} (a : A) : script A := fun s => Done a s.
Definition bind {A B} (m : script A) (k : A -> script B) : script B := fun s =>
  match m s with
  | Done a s' => k a s'
  | Thrown e s' => Thrown e s'
  | Undefined => Undefined
  end.
Definition throw {A} (e : failure) : script A := fun s => Thrown e s.

Notation "x <- m ; k" := (bind m (fun x => k)) (at level 61, m at next level, right associativity).
Notation "m ;; k" := (bind m (fun _ => k)) (at level 61, right associativity).

(** [lua_push...]: onto a free slot (LuaLib.h:40, 89, 133, 137). *)
Definition push (v : value) : script unit := fun s =>
  if length (l_stack s) <? stack_slots
  then Done tt (mk_lstate (l_mem s) (v :: l_stack s))
  else Undefined.

(** The value at index -k (LuaLib.h:50, 55, 64, 68). *)
Definition peek (k : nat) : script value := fun s =>
  match k with
  | 0 => Undefined
  | S j => match nth_error (l_stack s) j with Some v => Done v s | None => Undefined end
  end.

(** [lua_pop] (LuaLib.h:57, 69, 107, 162, 179). *)
Definition pop (n : nat) : script unit := fun s =>
  if n <=? length (l_stack s)
  then Done tt (mk_lstate (l_mem s) (skipn n (l_stack s)))
  else Undefined.

(** [lua_getglobal] (LuaLib.h:37, 63, 80, 121, 168). *)
Definition get_global (name : string) : script unit := fun s =>
  push (i_global L (l_mem s) name) s.

(** [lua_getfield(L, -1, name)], of a table on top (LuaLib.h:67, 84, 128, 172).  Of anything else it
    is an error outside of a protected call, which aborts. *)
Definition get_field (name : string) : script unit := fun s =>
  match l_stack s with
  | Tab t :: _ => push (i_field L (l_mem s) t name) s
  | _ => Undefined
  end.

(** [lua_insert(L, -2)]: swaps the two values on top (LuaLib.h:85, 129). *)
Definition insert_second : script unit := fun s =>
  match l_stack s with
  | a :: b :: r => Done tt (mk_lstate (l_mem s) (b :: a :: r))
  | _ => Undefined
  end.

(** Exactly [n] results: more are dropped, missing ones are nil (Lua's adjustment to [nresults]). *)
Definition adjust (n : nat) (vs : list value) : list value := firstn n (vs ++ repeat Nil n).

(** [lua_pcall(L, n, r, 0)]: takes [n] arguments and the function below them, and pushes [r] results
    or the value raised; true for an error (LuaLib.h:42, 90, 142). *)
Definition pcall (n r : nat) : script bool := fun s =>
  if length (l_stack s) <? S n then Undefined else
  let args := rev (firstn n (l_stack s)) in
  let rest := skipn (S n) (l_stack s) in
  match i_call L (l_mem s) (nth n (l_stack s) Nil) args with
  | (g, inl vs) =>
      if length rest + r <=? stack_slots
      then Done false (mk_lstate g (rev (adjust r vs) ++ rest))
      else Undefined
  | (g, inr e) => Done true (mk_lstate g (e :: rest))
  end.

(** [lua_isnumber]: a number, or a text that reads as one. *)
Definition is_number (v : value) : bool :=
  match v with
  | Num _ | Int _ => true
  | Str t => match i_parse L t with Some _ => true | None => false end
  | _ => false
  end.

(** [lua_tonumber]; for a value that is no number it is 0, which the code never asks for. *)
Definition to_number (v : value) : num :=
  match v with
  | Num x => x
  | Int z => i_float L z
  | Str t => match i_parse L t with Some x => x | None => i_float L 0 end
  | _ => i_float L 0
  end.

(** [lua_tostring]: a null pointer unless the value is a text or a number. *)
Definition to_text (v : value) : option string :=
  match v with
  | Str t => Some t
  | Num x => Some (i_show L x)
  | Int z => Some (i_show L (i_float L z))
  | _ => None
  end.

(** LuaLib.h:38-41, 87-89 and 132-134: the coordinates, first to last. *)
Fixpoint push_numbers (xs : list num) : script unit :=
  match xs with
  | [] => ret tt
  | x :: xs' => push (Num x) ;; push_numbers xs'
  end.

(** LuaLib.h:43-47, 91-96 and 143-148: the raised value is printed as a text; a null pointer if it
    has none. *)
Definition raise {A} (name : string) : script A :=
  v <- peek 1 ;
  match to_text v with
  | Some m => throw (ScriptError name m)
  | None => fun _ => Undefined
  end.

(** LuaLib.h:49-56, 98-106 and 151-159: result [d] of [n] is at index d - n. *)
Fixpoint read_results (name : string) (n todo : nat) : script (list num) :=
  match todo with
  | 0 => ret []
  | S todo' =>
      let d := n - todo in
      v <- peek (n - d) ;
      if is_number v
      then xs <- read_results name n todo' ; ret (to_number v :: xs)
      else throw (NotANumber name d)
  end.

(** LuaLib.h:42-59, 90-109 and 142-164: the call, its results, and the stack cleaned up. *)
Definition call_and_read (name : string) (nargs dout : nat) : script (list num) :=
  err <- pcall nargs dout ;
  if (err : bool) then raise name else
  xs <- read_results name dout dout ;
  pop dout ;;
  ret xs.

(** A name as the messages print it: LuaLib.h:45 for a function, 93-94 for a method. *)
Definition member_name (table m : string) : string := (table ++ "." ++ m)%string.

(** The function of LuaLib.h:32-60; [Din] is the number of arguments. *)
Definition get_function (dout : nat) (name : string) (x : list num) : script (list num) :=
  get_global name ;;
  push_numbers x ;;
  call_and_read name (length x) dout.

(** LuaLib.h:63-66, 80-83, 121-125 and 168-171. *)
Definition get_table (table : string) : script unit :=
  get_global table ;;
  v <- peek 1 ;
  match v with Tab _ => ret tt | _ => throw (NotATable table) end.

(** LuaLib.h:62-71. *)
Definition has_member (table m : string) : script bool :=
  get_table table ;;
  get_field m ;;
  v <- peek 1 ;
  pop 2 ;;
  ret (match v with Nil => false | _ => true end).

(** The function of LuaLib.h:73-110: the object is the first argument. *)
Definition member_function (dout : nat) (table m : string) (x : list num) : script (list num) :=
  get_table table ;;
  get_field m ;;
  insert_second ;;
  push_numbers x ;;
  call_and_read (member_name table m) (1 + length x) dout.

(** The function of LuaLib.h:112-165: the tag of the volume is the last argument. *)
Definition member_function_tagged (dout : nat) (table m : string) (x : list num) (tag : Z)
  : script (list num) :=
  get_table table ;;
  get_field m ;;
  insert_second ;;
  push_numbers x ;;
  push (Int tag) ;;
  call_and_read (member_name table m) (1 + length x + 1) dout.

(** LuaLib.h:167-181; the message has no number, written 0 here. *)
Definition member_constant (table m : string) : script num :=
  get_table table ;;
  get_field m ;;
  v <- peek 1 ;
  if is_number v then pop 2 ;; ret (to_number v)
  else throw (NotANumber (member_name table m) 0).

(** A member is set through the stack: name and value on top of the table
    (LuaLib.cpp:35-39, [lua_settable(L, -3)]). *)
Definition add_cfun (name : string) : script unit :=
  push (Str name) ;;
  push (i_cfun L name) ;;
  (fun s => match l_stack s with
            | v :: Str k :: Tab t :: r =>
                Done tt (mk_lstate (i_set L (l_mem s) t k v) (Tab t :: r))
            | _ => Undefined
            end).

(** LuaLib.cpp:31-45, after [luaL_openlibs]: three functions are added to the table math. *)
Definition init_lib : script unit :=
  get_global "math" ;;
  add_cfun "acosh" ;;
  add_cfun "asinh" ;;
  add_cfun "atanh" ;;
  pop 1.

(** LuaLib.cpp:50-54 and 76-80: an error is printed and otherwise ignored. *)
Definition report (err : option value) : script unit :=
  match err with
  | None => ret tt
  | Some e =>
      push e ;;
      v <- peek 1 ;
      match to_text v with
      | Some _ => pop 1
      | None => fun _ => Undefined
      end
  end.

(** LuaLib.cpp:49-55. *)
Definition load (code : string) : script unit := fun s =>
  let (g, err) := i_chunk L (l_mem s) code in report err (mk_lstate g (l_stack s)).

(** LuaLib.cpp:57-81: the directory of the script is added to where the script's [require] looks.
    [dir] is that directory as an absolute path without links (the file system is not modelled). *)
Definition load_file (dir file : string) : script unit :=
  get_global "package" ;;
  get_field "path" ;;
  v <- peek 1 ;
  match to_text v with
  | None => fun _ => Undefined
  | Some cur =>
      pop 1 ;;
      push (Str (cur ++ ";" ++ dir ++ "/?.lua" ++ ";" ++ dir ++ "/?/init.lua")%string) ;;
      (fun s => match l_stack s with
                | v :: Tab t :: r => Done tt (mk_lstate (i_set L (l_mem s) t "path" v) (Tab t :: r))
                | _ => Undefined
                end) ;;
      pop 1 ;;
      (fun s => let (g, err) := i_file L (l_mem s) file in report err (mk_lstate g (l_stack s)))
  end.

(** ** Scenarios *)

Definition functional := list num -> script (list num).
Definition tagged_functional := list num -> Z -> script (list num).

(** [if (lib_.hasMember(scenario, m)) target = ...], with what the target holds otherwise
    (SeasScenario.h:43-78, FrictionConfig.h:52-80, Scenario.h:42-76). *)
Definition when_member {A} (table m : string) (found missing : A) : script A :=
  b <- has_member table m ; ret (if (b : bool) then found else missing).

(** A functional with fixed values (SeasScenario.h:100-103, FrictionConfig.h:123-129). *)
Definition constant_functional (v : list num) : functional := fun _ => ret v.
Definition constant_tagged (v : list num) : tagged_functional := fun _ _ => ret v.

(** SeasSolution.h:20-29 and FacetFunctionalFactory.h:41-47: the time is the last coordinate. *)
Definition at_time (f : functional) (time : num) : functional := fun x => f (x ++ [time]).

(** SeasScenario.h:97-109. *)
Record seas_scenario := mk_seas {
  ss_warp : functional;
  ss_mu : tagged_functional;
  ss_lam : tagged_functional;
  ss_rho : option tagged_functional;
  ss_boundary : option functional;
  ss_solution : option functional;
  ss_displacement : option functional;
  ss_velocity : option functional
}.

(** SeasScenario.h:40-79; [dim] is the dimension of the domain, [q] the number of quantities. *)
Definition seas_of_script (dim q : nat) (dir file table : string) : script seas_scenario :=
  load_file dir file ;;
  warp <- when_member table "warp" (member_function dim table "warp") (fun x => ret x) ;
  mu <- when_member table "mu" (member_function_tagged 1 table "mu")
          (constant_tagged [i_float L 1]) ;
  lam <- when_member table "lam" (member_function_tagged 1 table "lam")
           (constant_tagged [i_float L 0]) ;
  rho <- when_member table "rho" (Some (member_function_tagged 1 table "rho")) None ;
  boundary <- when_member table "boundary" (Some (member_function q table "boundary")) None ;
  solution <- when_member table "solution" (Some (member_function q table "solution")) None ;
  u_ini <- when_member table "initial_displacement"
             (Some (member_function q table "initial_displacement")) None ;
  v_ini <- when_member table "initial_velocity"
             (Some (member_function q table "initial_velocity")) None ;
  ret (mk_seas warp mu lam rho boundary solution u_ini v_ini).

(** Elasticity.cpp:35: without a density it is one.  The order of the arguments is
    Context.h:37-41's. *)
Definition elasticity_materials (sc : seas_scenario)
  : tagged_functional * tagged_functional * tagged_functional :=
  (ss_lam sc, ss_mu sc,
   match ss_rho sc with Some r => r | None => constant_tagged [i_float L 1] end).

(** DieterichRuinaBase.h:29-37. *)
Record friction_params := mk_params {
  fp_a : num; fp_eta : num; fp_L : num; fp_sn_pre : num;
  fp_tau_pre : list num; fp_Vinit : list num; fp_Sinit : list num
}.

(** FrictionConfig.h:119-134. *)
Record friction_scenario := mk_friction {
  fs_V0 : num; fs_b : num; fs_f0 : num;
  fs_a : functional; fs_eta : functional; fs_L : functional;
  fs_sn_pre : functional; fs_tau_pre : functional;
  fs_Vinit : functional; fs_Sinit : functional;
  fs_source : option functional;
  fs_delta_tau : option functional;
  fs_delta_sn : option functional;
  fs_solution : option functional
}.

(** FrictionConfig.h:46-91; [tc] is the number of tangential components, [q] of quantities of the
    fault's state. *)
Definition friction_of_script (tc q : nat) (dir file table : string) : script friction_scenario :=
  load_file dir file ;;
  sn_pre <- when_member table "sn_pre" (member_function 1 table "sn_pre")
              (constant_functional [i_float L 0]) ;
  tau_pre <- when_member table "tau_pre" (member_function tc table "tau_pre")
               (constant_functional (repeat (i_float L 0) tc)) ;
  Sinit <- when_member table "Sinit" (member_function tc table "Sinit")
             (constant_functional (repeat (i_float L 0) tc)) ;
  source <- when_member table "source" (Some (member_function 1 table "source")) None ;
  delta_tau <- when_member table "delta_tau" (Some (member_function tc table "delta_tau")) None ;
  delta_sn <- when_member table "delta_sn" (Some (member_function 1 table "delta_sn")) None ;
  V0 <- member_constant table "V0" ;
  b <- member_constant table "b" ;
  f0 <- member_constant table "f0" ;
  solution <- when_member table "fault_solution"
                (Some (member_function q table "fault_solution")) None ;
  ret (mk_friction V0 b f0
         (member_function 1 table "a") (member_function 1 table "eta") (member_function 1 table "L")
         sn_pre tau_pre (member_function tc table "Vinit") Sinit
         source delta_tau delta_sn solution).

(** The only entry of an array of one (FrictionConfig.h:97-100). *)
Definition first (xs : list num) : num := nth 0 xs (i_float L 0).

(** FrictionConfig.h:94-106. *)
Definition param_fun (sc : friction_scenario) (x : list num) : script friction_params :=
  a <- fs_a sc x ;
  eta <- fs_eta sc x ;
  l <- fs_L sc x ;
  sn <- fs_sn_pre sc x ;
  tau <- fs_tau_pre sc x ;
  vi <- fs_Vinit sc x ;
  si <- fs_Sinit sc x ;
  ret (mk_params (first a) (first eta) (first l) (first sn) tau vi si).

(** Scenario.h:111-118, with the materials of ElasticityScenario.h:46-49 and
    PoissonScenario.h:40-43 ([st_mu] is Poisson's coefficient). *)
Record static_scenario := mk_static {
  st_warp : functional;
  st_force : option functional;
  st_boundary : option functional;
  st_slip : option functional;
  st_solution : option functional;
  st_jacobian : option functional;
  st_mu : tagged_functional;
  st_lam : tagged_functional
}.

(** Scenario.h:37-77, then ElasticityScenario.h:22-29.  PoissonScenario.h:19-26 is the same without
    lam. *)
Definition static_of_script (dim q : nat) (dir file table : string) : script static_scenario :=
  load_file dir file ;;
  warp <- when_member table "warp" (member_function dim table "warp") (fun x => ret x) ;
  force <- when_member table "force" (Some (member_function q table "force")) None ;
  boundary <- when_member table "boundary" (Some (member_function q table "boundary")) None ;
  slip <- when_member table "slip" (Some (member_function q table "slip")) None ;
  solution <- when_member table "solution" (Some (member_function q table "solution")) None ;
  jacobian <- when_member table "solution_jacobian"
                (Some (member_function (q * dim) table "solution_jacobian")) None ;
  mu <- when_member table "mu" (member_function_tagged 1 table "mu")
          (constant_tagged [i_float L 1]) ;
  lam <- when_member table "lam" (member_function_tagged 1 table "lam")
           (constant_tagged [i_float L 1]) ;
  ret (mk_static warp force boundary slip solution jacobian mu lam).

(** The bridge's operations, for histories of calls. *)
Inductive request :=
| AskFunction (dout : nat) (name : string) (x : list num)
| AskMember (dout : nat) (table m : string) (x : list num)
| AskTagged (dout : nat) (table m : string) (x : list num) (tag : Z)
| AskConstant (table m : string)
| AskHas (table m : string).

(** Which function answers a request (LuaLib.h:32, 62, 74, 113 and 167). *)
Definition serve (r : request) : script (list num) :=
  match r with
  | AskFunction dout name x => get_function dout name x
  | AskMember dout table m x => member_function dout table m x
  | AskTagged dout table m x tag => member_function_tagged dout table m x tag
  | AskConstant table m => c <- member_constant table m ; ret [c]
  | AskHas table m => b <- has_member table m ; ret [i_float L (if (b : bool) then 1 else 0)]
  end.

(** Requests one after the other, up to the first exception (which ends the program:
    nothing in /repo/app catches it and goes on). *)
Fixpoint serve_all (rs : list request) : script (list (list num)) :=
  match rs with
  | [] => ret []
  | r :: rs' => a <- serve r ; l <- serve_all rs' ; ret (a :: l)
  end.

End Script.

Arguments Nil {num}. Arguments Flag {num}. Arguments Num {num}. Arguments Int {num}.
Arguments Str {num}. Arguments Tab {num}. Arguments Fun {num}.
Arguments Done {G num A}. Arguments Thrown {G num A}. Arguments Undefined {G num A}.
