(** * C86: the scenario script is called, and answered, as its author expects *)

From Coq Require Import ZArith String List Bool Arith Lia.
From Verif Require Import ScriptModel ScriptSpec ScriptProofs.
Import ListNotations.
Local Open Scope list_scope.

(** C86a: a request returns exactly what the script returns.  A function of the script is called with
    its table, the coordinates in order and the tag last; the values it returns, in order, are the
    answer; the interface's stack is afterwards what it was before.  Nothing else is ever answered. *)
Theorem script_answers_exact {G num} (L : interp G num) r g st xs s' :
  room st r ->
  (serve G num L r (mk_lstate G num g st) = Done xs s' <->
   exists g', answered L r g xs g' /\ s' = mk_lstate G num g' st).
Proof. apply serve_answered. Qed.
Print Assumptions script_answers_exact.

(** C86b: what goes wrong is reported: a scenario that is not a table, an error of the script with
    its message, and the first result that is missing or not a number. *)
Theorem script_errors_reported {G num} (L : interp G num) dout table m x tag g st :
  room st (AskTagged num dout table m x tag) ->
  let args := map Num x ++ [Int tag] in
  let run := member_function_tagged G num L dout table m x tag (mk_lstate G num g st) in
  ((forall t, i_global G num L g table <> Tab t) -> exists s', run = Thrown (NotATable table) s') /\
  (forall g' e text, method_raises L g table m args g' e -> to_text G num L e = Some text ->
     exists s', run = Thrown (ScriptError (member_name table m) text) s') /\
  (forall g' vs d ys, method_returns L g table m args g' vs -> d < dout ->
     first_results L d vs ys -> no_number_at L d vs ->
     exists s', run = Thrown (NotANumber (member_name table m) d) s').
Proof.
  intros R args run. unfold room in R; cbn [slots] in R.
  assert (E := member_function_tagged_eq L dout table m x tag g st ltac:(lia)). fold run in E.
  repeat split.
  - intros H. rewrite E. destruct (i_global G num L g table) as [| | | | |t|] eqn:K; eauto.
    now destruct (H t).
  - intros g' e text (t & K & C) T. rewrite E, K. fold args. rewrite C. cbn [method_outcome].
    rewrite T. eauto.
  - intros g' vs d ys (t & K & C) Hd F N. rewrite E, K. fold args. rewrite C. cbn [method_outcome].
    assert (S : scan L 0 (adjust num dout vs) = inr d) by (apply scan_adjust_inr; eauto).
    rewrite S. eauto.
Qed.
Print Assumptions script_errors_reported.

Theorem untagged_errors_reported {G num} (L : interp G num) dout table m x g st :
  room st (AskMember num dout table m x) ->
  let run := member_function G num L dout table m x (mk_lstate G num g st) in
  ((forall t, i_global G num L g table <> Tab t) -> exists s', run = Thrown (NotATable table) s') /\
  (forall g' e text, method_raises L g table m (map Num x) g' e -> to_text G num L e = Some text ->
     exists s', run = Thrown (ScriptError (member_name table m) text) s') /\
  (forall g' vs d ys, method_returns L g table m (map Num x) g' vs -> d < dout ->
     first_results L d vs ys -> no_number_at L d vs ->
     exists s', run = Thrown (NotANumber (member_name table m) d) s').
Proof.
  intros R run. unfold room in R; cbn [slots] in R.
  assert (E := member_function_eq L dout table m x g st ltac:(lia)). fold run in E.
  repeat split.
  - intros H. rewrite E. destruct (i_global G num L g table) as [| | | | |t|] eqn:K; eauto.
    now destruct (H t).
  - intros g' e text (t & K & C) T. rewrite E, K. rewrite C. cbn [method_outcome].
    rewrite T. eauto.
  - intros g' vs d ys (t & K & C) Hd F N. rewrite E, K. rewrite C. cbn [method_outcome].
    assert (S : scan L 0 (adjust num dout vs) = inr d) by (apply scan_adjust_inr; eauto).
    rewrite S. eauto.
Qed.
Print Assumptions untagged_errors_reported.

(** C86c: over any history of requests, however long, the interface's stack never overflows and
    nothing undefined happens, as long as the script's errors can be printed; every answer is the
    script's, and the stack is empty at the end. *)
Theorem script_history_sound {G num} (L : interp G num) rs g :
  raises_text L -> Forall (room []) rs ->
  serve_all G num L rs (mk_lstate G num g []) <> Undefined /\
  (forall xss s', serve_all G num L rs (mk_lstate G num g []) = Done xss s' <->
     exists g', answered_all L rs g xss g' /\ s' = mk_lstate G num g' []).
Proof.
  intros HR H. split; [now apply serve_all_defined|].
  intros xss s'. now apply serve_all_answered.
Qed.
Print Assumptions script_history_sound.

(** Every request tandem makes, in two and three dimensions, fits the stack: at most three
    coordinates and a time or a tag, and at most nine results (the gradient of a displacement). *)
Theorem tandem_requests_fit {num} (dout : nat) (table m : string) (x : list num) (tag : Z) :
  dout <= 9 -> length x <= 4 ->
  room [] (AskMember num dout table m x) /\ room [] (AskTagged num dout table m x tag) /\
  room [] (AskConstant num table m) /\ room [] (AskHas num table m).
Proof.
  intros H K. unfold room, stack_slots; cbn [slots length Nat.add]. repeat split; lia.
Qed.
Print Assumptions tandem_requests_fit.

(** C86d: if the script's functions change nothing, an answer does not depend on what was asked
    before: every answer in a history is the one to the request alone, in the script as loaded. *)
Theorem pure_script_history_free {G num} (L : interp G num) rs g xss s' :
  pure_script L -> Forall (room []) rs ->
  serve_all G num L rs (mk_lstate G num g []) = Done xss s' ->
  s' = mk_lstate G num g [] /\
  Forall2 (fun r xs => serve G num L r (mk_lstate G num g []) = Done xs (mk_lstate G num g [])) rs xss.
Proof.
  intros P H E. apply serve_all_answered in E; [|assumption]. destruct E as (g' & A & ->).
  apply answered_all_pure in A; [|assumption]. destruct A as [-> F]. split; [reflexivity|].
  clear - F H. revert H. induction F as [|r xs rs xss A F IH]; intros H; [constructor|].
  inversion H; subst. constructor; [|now apply IH].
  apply serve_answered; [assumption|]. eauto.
Qed.
Print Assumptions pure_script_history_free.

(** C86e: a scenario of an earthquake sequence is built exactly if the script was loaded and defines
    the table; its functions are the script's members of these names, the materials with the tag
    last, and the defaults where there are none (warp: identity, mu: 1, lam: 0). *)
Theorem seas_scenario_follows_script {G num} (L : interp G num) dim q dir file table g0 :
  (forall sc s', seas_of_script G num L dim q dir file table (mk_lstate G num g0 []) = Done sc s' ->
     exists g t, file_loaded L g0 dir file g /\ i_global G num L g table = Tab t /\
       s' = mk_lstate G num g [] /\ seas_reads L dim q table g t sc) /\
  (forall g t, file_loaded L g0 dir file g -> i_global G num L g table = Tab t ->
     exists sc, seas_of_script G num L dim q dir file table (mk_lstate G num g0 []) =
       Done sc (mk_lstate G num g [])).
Proof.
  split.
  - intros sc s' H. destruct (seas_of_script_needs L _ _ _ _ _ _ _ _ H) as (g & t & F & E).
    destruct (seas_reads_ok L dim q table g t E) as (sc' & S & K).
    rewrite (K _ _ _ F) in H. injection H as <- <-. exists g, t. auto.
  - intros g t F E. destruct (seas_reads_ok L dim q table g t E) as (sc' & S & K). eauto.
Qed.
Print Assumptions seas_scenario_follows_script.

(** The materials of elasticity are the script's lam, mu and rho, in these places; a density that the
    script does not define is 1. *)
Theorem elasticity_materials_follow_script {G num} (L : interp G num) dim q table g t sc :
  seas_reads L dim q table g t sc ->
  let '(lam, mu, rho) := elasticity_materials G num L sc in
  member_or L g t "lam" (is_tagged_method L lam 1 table "lam")
    (is_tagged_constant lam [i_float G num L 0]) /\
  member_or L g t "mu" (is_tagged_method L mu 1 table "mu")
    (is_tagged_constant mu [i_float G num L 1]) /\
  member_or L g t "rho" (is_tagged_method L rho 1 table "rho")
    (is_tagged_constant rho [i_float G num L 1]).
Proof.
  intros (_ & Hm & Hl & [Hr1 Hr2] & _). unfold elasticity_materials.
  split; [exact Hl|]. split; [exact Hm|]. split; intros K.
  - destruct (Hr1 K) as (f & -> & M). exact M.
  - rewrite (Hr2 K). intros x tag s. reflexivity.
Qed.
Print Assumptions elasticity_materials_follow_script.

(** Data that depends on time sees the time after the coordinates. *)
Theorem time_is_last_argument {G num} (L : interp G num) f time dout table m :
  is_method L f dout table m -> is_method_at L (at_time G num f time) time dout table m.
Proof. apply optional_at_time. Qed.
Print Assumptions time_is_last_argument.

(** C86f: the friction law's scenario is built exactly if the script was loaded, defines the table,
    and V0, b and f0 are numbers; the parameters at a point are the script's a, eta, L and Vinit
    there, and its sn_pre, tau_pre and Sinit or zero. *)
Theorem friction_scenario_follows_script {G num} (L : interp G num) tc q dir file table g0 :
  (forall sc s',
     friction_of_script G num L tc q dir file table (mk_lstate G num g0 []) = Done sc s' ->
     exists g t, file_loaded L g0 dir file g /\ i_global G num L g table = Tab t /\
       s' = mk_lstate G num g [] /\ friction_reads L tc q table g t sc) /\
  (forall g t, file_loaded L g0 dir file g -> i_global G num L g table = Tab t ->
     (exists v, numeric L (i_field G num L g t "V0") v) ->
     (exists v, numeric L (i_field G num L g t "b") v) ->
     (exists v, numeric L (i_field G num L g t "f0") v) ->
     exists sc, friction_of_script G num L tc q dir file table (mk_lstate G num g0 []) =
       Done sc (mk_lstate G num g [])).
Proof.
  split.
  - intros sc s' H.
    destruct (friction_of_script_needs L _ _ _ _ _ _ _ _ H) as (g & t & F & E & N1 & N2 & N3).
    destruct (friction_reads_ok L tc q table g t E N1 N2 N3) as (sc' & S & K).
    rewrite (K _ _ _ F) in H. injection H as <- <-. exists g, t. auto.
  - intros g t F E N1 N2 N3.
    destruct (friction_reads_ok L tc q table g t E N1 N2 N3) as (sc' & S & K). eauto.
Qed.
Print Assumptions friction_scenario_follows_script.

Theorem friction_params_follow_script {G num} (L : interp G num) tc q table g0 t sc x g p s' :
  friction_reads L tc q table g0 t sc ->
  length x <= 3 -> tc <= 2 ->
  (param_fun G num L sc x (mk_lstate G num g []) = Done p s' <->
   exists g', params_at L g0 t tc table x g p g' /\ s' = mk_lstate G num g' []).
Proof.
  intros H Hx Ht. apply (param_fun_ok L tc q); auto; unfold stack_slots; lia.
Qed.
Print Assumptions friction_params_follow_script.

(** C86g: the same for static problems. *)
Theorem static_scenario_follows_script {G num} (L : interp G num) dim q dir file table g0 :
  (forall sc s', static_of_script G num L dim q dir file table (mk_lstate G num g0 []) = Done sc s' ->
     exists g t, file_loaded L g0 dir file g /\ i_global G num L g table = Tab t /\
       s' = mk_lstate G num g [] /\ static_reads L dim q table g t sc) /\
  (forall g t, file_loaded L g0 dir file g -> i_global G num L g table = Tab t ->
     exists sc, static_of_script G num L dim q dir file table (mk_lstate G num g0 []) =
       Done sc (mk_lstate G num g [])).
Proof.
  split.
  - intros sc s' H. destruct (static_of_script_needs L _ _ _ _ _ _ _ _ H) as (g & t & F & E).
    destruct (static_reads_ok L dim q table g t E) as (sc' & S & K).
    rewrite (K _ _ _ F) in H. injection H as <- <-. exists g, t. auto.
  - intros g t F E. destruct (static_reads_ok L dim q table g t E) as (sc' & S & K). eauto.
Qed.
Print Assumptions static_scenario_follows_script.

(** C86h: a new library has the three inverse hyperbolic functions in its table math, and an empty
    stack. *)
Theorem new_library_ready {G num} (L : interp G num) g t :
  i_global G num L g "math" = Tab t ->
  init_lib G num L (mk_lstate G num g []) =
  Done tt (mk_lstate G num
    (i_set G num L
       (i_set G num L
          (i_set G num L g t "acosh" (i_cfun G num L "acosh"))
          t "asinh" (i_cfun G num L "asinh"))
       t "atanh" (i_cfun G num L "atanh")) []).
Proof.
  intros E. unfold init_lib, bind. rewrite get_global_ok by (apply Nat.ltb_lt; reflexivity).
  rewrite E. reflexivity.
Qed.
Print Assumptions new_library_ready.

(** Running a piece of text leaves the stack as it was; an error is printed and otherwise ignored. *)
Theorem load_runs_text {G num} (L : interp G num) code g st g' err :
  length st < stack_slots -> i_chunk G num L g code = (g', err) ->
  (forall e, err = Some e -> to_text G num L e <> None) ->
  load G num L code (mk_lstate G num g st) = Done tt (mk_lstate G num g' st).
Proof.
  intros H E T. unfold load; cbn [l_mem l_stack]. rewrite E. destruct err as [e|]; [|reflexivity].
  cbn [report]. unfold bind. rewrite push_ok by assumption. rewrite (peek_ok 0 e) by reflexivity.
  specialize (T e eq_refl). destruct (to_text G num L e); [reflexivity|congruence].
Qed.
Print Assumptions load_runs_text.

(** ** A script, and what the code does not guarantee *)

(** A script with a counter for a memory: its table s has materials, friction parameters, boundary
    data with a time, and functions that fail in three ways. *)
Definition ex_lua (file_error : option (value Z)) : interp nat Z := {|
  i_global g n :=
    if String.eqb n "s" then Tab 7 else if String.eqb n "math" then Tab 1
    else if String.eqb n "package" then Tab 2 else Nil;
  i_field g t m :=
    if t =? 7 then
      if String.eqb m "mu" then Fun 0 else if String.eqb m "boundary" then Fun 1
      else if String.eqb m "a" then Fun 2 else if String.eqb m "eta" then Fun 2
      else if String.eqb m "L" then Fun 2 else if String.eqb m "Vinit" then Fun 1
      else if String.eqb m "V0" then Num 5%Z else if String.eqb m "b" then Str "12"
      else if String.eqb m "f0" then Int 6%Z else if String.eqb m "text" then Fun 3
      else if String.eqb m "boom" then Fun 4 else if String.eqb m "raise_table" then Fun 5 else Nil
    else if t =? 2 then (if String.eqb m "path" then Str "./?.lua" else Nil) else Nil;
  i_set g t m v := g;
  i_call g f args :=
    match f, args with
    | Fun 0, [Tab _; Num x; Num y; Int tag] => (S g, inl [Num (100 * x + 10 * y + tag)%Z])
    | Fun 1, Tab _ :: Num x :: Num y :: rest =>
        (S g, inl [Num y; Num x; Num (Z.of_nat (length rest))])
    | Fun 2, [Tab _; Num x; Num y] => (S g, inl [Int (x - y)%Z])
    | Fun 3, _ => (g, inl [Num 1%Z; Str "x"])
    | Fun 4, _ => (g, inr (Str "boom"))
    | Fun 5, _ => (g, inr (Tab 7))
    | _, _ => (g, inr (Str "attempt to call a nil value"))
    end;
  i_chunk g c := (g, None);
  i_file g f := (g, file_error);
  i_parse s := if String.eqb s "12" then Some 12%Z else None;
  i_float z := z;
  i_show z := "number"%string;
  i_cfun s := Fun 8
|}.

Notation ex_state g := (mk_lstate nat Z g []).

(** C86a and C86b: the tag comes last, results come in order, further results are dropped, and errors
    name the script's function. *)
Example ex_answers :
  serve nat Z (ex_lua None) (AskTagged Z 1 "s" "mu" [3%Z; 4%Z] 9) (ex_state 0)
    = Done [349%Z] (ex_state 1) /\
  serve nat Z (ex_lua None) (AskMember Z 2 "s" "boundary" [3%Z; 4%Z; 8%Z]) (ex_state 0)
    = Done [4%Z; 3%Z] (ex_state 1) /\
  serve nat Z (ex_lua None) (AskConstant Z "s" "b") (ex_state 0) = Done [12%Z] (ex_state 0) /\
  serve nat Z (ex_lua None) (AskMember Z 2 "s" "text" [3%Z; 4%Z]) (ex_state 0)
    = Thrown (NotANumber "s.text" 1) (mk_lstate nat Z 0 [Str "x"; Num 1%Z]) /\
  serve nat Z (ex_lua None) (AskMember Z 2 "s" "boom" [3%Z; 4%Z]) (ex_state 0)
    = Thrown (ScriptError "s.boom" "boom") (mk_lstate nat Z 0 [Str "boom"]) /\
  serve nat Z (ex_lua None) (AskMember Z 2 "nothing" "mu" [3%Z; 4%Z]) (ex_state 0)
    = Thrown (NotATable "nothing") (mk_lstate nat Z 0 [Nil]).
Proof. vm_compute. repeat split. Qed.

(** The hypotheses of C86a and C86c hold of these requests. *)
Example ex_room :
  Forall (room []) [AskTagged Z 1 "s" "mu" [3%Z; 4%Z] 9; AskMember Z 2 "s" "boundary" [3%Z; 4%Z; 8%Z];
                    AskConstant Z "s" "b"; AskHas Z "s" "lam"].
Proof. repeat constructor; apply Nat.leb_le; reflexivity. Qed.

Example ex_method_returns :
  method_returns (ex_lua None) 0 "s" "mu" (map Num [3%Z; 4%Z] ++ [Int 9]) 1 [Num 349%Z] /\
  method_raises (ex_lua None) 0 "s" "boom" (map Num [3%Z; 4%Z]) 0 (Str "boom") /\
  no_number_at (ex_lua None) 1 [Num 1%Z; Str "x"] /\
  first_results (ex_lua None) 1 [Num 1%Z; Str "x"] [1%Z].
Proof.
  split; [exists 7; split; reflexivity|]. split; [exists 7; split; reflexivity|]. split.
  - right. exists (Str "x"). split; [reflexivity|]. intros x H. inversion H; subst. discriminate.
  - split; [cbn; lia|]. constructor; [constructor|constructor].
Qed.

(** A script whose functions return numbers and change nothing: the hypotheses of C86c and C86d. *)
Definition ex_pure : interp nat Z := {|
  i_global g n := Tab 7; i_field g t m := Fun 0; i_set g t m v := g;
  i_call g f args := (g, if length args =? 3 then inl [Int 5%Z] else inr (Str "arguments"));
  i_chunk g c := (g, None); i_file g f := (g, None); i_parse s := None; i_float z := z;
  i_show z := "number"%string; i_cfun s := Fun 8 |}.

Example ex_pure_script : pure_script ex_pure /\ raises_text ex_pure.
Proof.
  split; [intros g f args; reflexivity|].
  intros g f args g' e H. cbn in H. destruct (length args =? 3); inversion H; subst. discriminate.
Qed.

(** C86e to C86g: the file is loaded, and the scenarios read it. *)
Example ex_loaded : file_loaded (ex_lua None) 0 "/home/a" "a.lua" 0.
Proof. exists 2, "./?.lua"%string, None. repeat split. now left. Qed.

Example ex_seas :
  match seas_of_script nat Z (ex_lua None) 2 2 "/home/a" "a.lua" "s" (ex_state 0) with
  | Done sc s =>
      s = ex_state 0 /\
      ss_mu nat Z sc [3%Z; 4%Z] 9%Z s = Done [349%Z] (ex_state 1) /\
      ss_lam nat Z sc [3%Z; 4%Z] 9%Z s = Done [0%Z] s /\
      ss_rho nat Z sc = None /\
      ss_warp nat Z sc [3%Z; 4%Z] s = Done [3%Z; 4%Z] s /\
      match ss_boundary nat Z sc with
      | Some b => at_time nat Z b 8%Z [3%Z; 4%Z] s = Done [4%Z; 3%Z] (ex_state 1)
      | None => False
      end
  | _ => False
  end.
Proof. vm_compute. repeat split. Qed.

Example ex_friction :
  match friction_of_script nat Z (ex_lua None) 1 2 "/home/a" "a.lua" "s" (ex_state 0) with
  | Done sc s =>
      (fs_V0 nat Z sc, fs_b nat Z sc, fs_f0 nat Z sc) = (5%Z, 12%Z, 6%Z) /\
      param_fun nat Z (ex_lua None) sc [3%Z; 1%Z] s =
        Done (mk_params Z 2%Z 2%Z 2%Z 0%Z [0%Z] [1%Z] [0%Z]) (ex_state 4)
  | _ => False
  end.
Proof. vm_compute. repeat split. Qed.

Example ex_static :
  match static_of_script nat Z (ex_lua None) 2 2 "/home/a" "a.lua" "s" (ex_state 0) with
  | Done sc s => st_lam nat Z sc [3%Z; 4%Z] 9%Z s = Done [1%Z] s /\ st_force nat Z sc = None
  | _ => False
  end.
Proof. vm_compute. repeat split. Qed.

Example ex_new_library : i_global nat Z (ex_lua None) 0 "math" = Tab 1.
Proof. reflexivity. Qed.

(** An error that is caught leaves what it was about on the stack: a program that asks for an
    optional scenario again and again runs out of slots, and the next request is undefined. *)
Fixpoint after_failures {G num} (L : interp G num) (r : request num) (n : nat) (s : lstate G num)
  : lstate G num :=
  match n with
  | 0 => s
  | S n' => match serve G num L r s with
            | Thrown _ s' | Done _ s' => after_failures L r n' s'
            | Undefined => s
            end
  end.

Theorem caught_errors_exhaust_stack_refuted :
  ~ (forall (G num : Type) (L : interp G num) r r' n g,
       raises_text L -> room [] r -> room [] r' ->
       serve G num L r' (after_failures L r n (mk_lstate G num g [])) <> Undefined).
Proof.
  set (lua := {| i_global g n := Nil; i_field g t m := Nil; i_set g t m v := g;
    i_call g f args := (g, inl []); i_chunk g c := (g, None); i_file g f := (g, None);
    i_parse s := None; i_float z := z; i_show z := "number"%string;
    i_cfun s := Nil |} : interp unit Z).
  intros H. apply (H unit Z lua (AskHas Z "s" "mu") (AskHas Z "s" "mu") 20 tt).
  - intros g f args g' e K. discriminate.
  - apply Nat.leb_le; reflexivity.
  - apply Nat.leb_le; reflexivity.
  - vm_compute. reflexivity.
Qed.
Print Assumptions caught_errors_exhaust_stack_refuted.

(** A script that raises something other than a text or a number makes the program print a null
    pointer. *)
Theorem every_error_reported_refuted :
  ~ (forall (G num : Type) (L : interp G num) r g,
       room [] r -> serve G num L r (mk_lstate G num g []) <> Undefined).
Proof.
  intros H. apply (H nat Z (ex_lua None) (AskMember Z 1 "s" "raise_table" [1%Z; 2%Z]) 0).
  - apply Nat.leb_le; reflexivity.
  - vm_compute. reflexivity.
Qed.
Print Assumptions every_error_reported_refuted.

(** A script that stops half way with an error is used all the same: what it did not get to define
    has its default. *)
Theorem failed_script_stops_run_refuted :
  ~ (forall (G num : Type) (L : interp G num) dim q dir file table g0 sc s',
       seas_of_script G num L dim q dir file table (mk_lstate G num g0 []) = Done sc s' ->
       forall g, snd (i_file G num L g file) = None).
Proof.
  intros H. set (lua := ex_lua (Some (Str "a.lua:3: attempt to index nil"))).
  destruct (proj2 (seas_scenario_follows_script lua 2 2 "/home/a" "a.lua" "s" 0) 0 7)
    as (sc & E); [|reflexivity|].
  - exists 2, "./?.lua"%string, (Some (Str "a.lua:3: attempt to index nil")).
    repeat split. right. eexists. split; [reflexivity|discriminate].
  - specialize (H _ _ _ _ _ _ _ _ _ _ _ E 0). discriminate H.
Qed.
Print Assumptions failed_script_stops_run_refuted.

(** One script without lam is two different materials: lam is 0 in an earthquake sequence and 1 in a
    static problem. *)
Theorem default_lam_agrees_refuted :
  ~ (forall (G num : Type) (L : interp G num) dim q dir file table g0 seas static s1 s2 x tag,
       seas_of_script G num L dim q dir file table (mk_lstate G num g0 []) = Done seas s1 ->
       static_of_script G num L dim q dir file table (mk_lstate G num g0 []) = Done static s2 ->
       ss_lam G num seas x tag s1 = st_lam G num static x tag s2).
Proof.
  intros H.
  destruct (proj2 (seas_scenario_follows_script (ex_lua None) 2 2 "/home/a" "a.lua" "s" 0) 0 7
    ex_loaded eq_refl) as (sc & E1).
  destruct (proj2 (static_scenario_follows_script (ex_lua None) 2 2 "/home/a" "a.lua" "s" 0) 0 7
    ex_loaded eq_refl) as (st & E2).
  specialize (H _ _ _ _ _ _ _ _ _ _ _ _ _ [3%Z; 4%Z] 9%Z E1 E2).
  destruct (proj1 (seas_scenario_follows_script (ex_lua None) 2 2 "/home/a" "a.lua" "s" 0) _ _ E1)
    as (g & t & _ & T & K & (_ & _ & [_ A] & _)).
  destruct (proj1 (static_scenario_follows_script (ex_lua None) 2 2 "/home/a" "a.lua" "s" 0) _ _ E2)
    as (g2 & t2 & _ & T2 & K2 & (_ & _ & [_ B] & _)).
  injection T as <-. injection T2 as <-.
  rewrite (A eq_refl), (B eq_refl) in H. discriminate H.
Qed.
Print Assumptions default_lam_agrees_refuted.
