(** Tensors as values: every variable has its own entries; there is no memory. *)
Require Import ZArith Reals Arith List.
Require Import Verif.Base Verif.ManagedModel.
Import ListNotations.

(** A value; None for a variable whose value was moved away. *)
Record value := { v_size : nat; v_data : nat -> R }.
Definition values := nat -> option (option value).
(** What a statement does to the values; None: the program is wrong (variable not there, value moved away, index too large). *)
Definition does (s : values) (a : action) : option (values * list R) :=
  match a with
  | Default v => match s v with Some _ => None | None => Some (set s v (Some (Some {| v_size := 0; v_data := fun _ => 0%R |})), []) end
  | New v n g => match s v with Some _ => None | None => Some (set s v (Some (Some {| v_size := n; v_data := g |})), []) end
  | MoveNew v w => match s v, s w with None, Some (Some x) => Some (set (set s v (Some (Some x))) w (Some None), []) | _, _ => None end
  | MoveAssign v w => match s v, s w with
      | Some _, Some (Some x) => Some (if (v =? w)%nat then s else set (set s v (Some (Some x))) w (Some None), [])
      | _, _ => None end
  | Write v i x => match s v with
      | Some (Some y) => if (i <? v_size y)%nat
          then Some (set s v (Some (Some {| v_size := v_size y; v_data := fun j => if (j =? i)%nat then x else v_data y j |})), []) else None
      | _ => None end
  | Read v i => match s v with Some (Some y) => if (i <? v_size y)%nat then Some (s, [v_data y i]) else None | _ => None end
  | Destroy v => match s v with Some _ => Some (set s v None, []) | None => None end
  end.
Fixpoint does_all (s : values) (l : list action) : option (values * list R) :=
  match l with
  | [] => Some (s, [])
  | a :: t => match does s a with
      | Some (s', r) => match does_all s' t with Some (s'', r') => Some (s'', r ++ r') | None => None end
      | None => None end
  end.
Definition nothing : values := fun _ => None.
(** Every block of memory belongs to exactly one variable. *)
Definition owned_once (s : state) : Prop := forall p b, heap s p = Some b ->
  exists v, (exists o, objs s v = Some o /\ o_managed o = Some p) /\
            forall w o', objs s w = Some o' -> o_managed o' = Some p -> w = v.
