(** What tandem's documentation promises about an accepted configuration. *)
Require Import ZArith QArith Bool Ascii String List.
From Verif Require Import SchemaModel.
Import ListNotations.
Local Open Scope list_scope.
Local Open Scope Z_scope.

(** Member i holds a value with the property; an optional member may be empty. *)
Definition has (m : list (option val)) (i : nat) (P : val -> Prop) : Prop :=
  exists v, nth_error m i = Some (Some v) /\ P v.
Definition may (m : list (option val)) (i : nat) (P : val -> Prop) : Prop :=
  nth_error m i = Some None \/ has m i P.

Definition is_number (v : val) : Prop := exists f, v = VFloat f.
Definition is_text (v : val) : Prop := exists s, v = VStr s.
Definition is_truth (v : val) : Prop := exists b, v = VBool b.
Definition is_int (lo hi : Z) (v : val) : Prop := exists z, v = VInt z /\ lo <= z <= hi.
Definition one_of (ks : list nat) (v : val) : Prop := exists k, v = VEnum k /\ In k ks.
(** A number (not NaN), at least or above zero. *)
Definition ge0 (v : val) : Prop :=
  v = VFloat (DInf false) \/ exists q, v = VFloat (DRat q) /\ (0 <= q)%Q.
Definition gt0 (v : val) : Prop :=
  v = VFloat (DInf false) \/ exists q, v = VFloat (DRat q) /\ (0 < q)%Q.
Definition list_of (n : Z -> Prop) (P : val -> Prop) (v : val) : Prop :=
  exists l, v = VArr l /\ n (Z.of_nat (length l)) /\ forall x, In x l -> P x.
Definition struct (P : list (option val) -> Prop) (v : val) : Prop := exists m, v = VRec m /\ P m.

Section Spec.
Variable D : Z.
Variable enable_hdf5 : bool.
Variable exists_path : string -> bool.
Variable parent_path : string -> option string.

Definition existing (v : val) : Prop := exists p, v = VStr p /\ exists_path p = true.
Definition in_existing (v : val) : Prop :=
  exists p, v = VStr p /\ forall d, parent_path p = Some d -> exists_path d = true.

Definition valid_output (m : list (option val)) : Prop :=
  has m 0 in_existing /\ has m 1 ge0 /\ has m 2 ge0 /\ has m 3 ge0 /\ has m 4 gt0.
Definition valid_probes (m : list (option val)) : Prop :=
  valid_output m /\
  has m 5 (one_of (if enable_hdf5 then [0; 1; 2] else [0; 1])%nat) /\
  has m 6 (list_of (fun _ => True)
             (struct (fun p => has p 0 is_text /\ has p 1 (list_of (eq D) is_number)))).
Definition valid_mesh (m : list (option val)) : Prop :=
  has m 0 (list_of (eq D) (list_of (Z.le 2) is_number)) /\
  has m 1 (list_of (eq D) (list_of (fun _ => True)
    (struct (fun b => has b 0 (one_of [1; 3; 5]%nat) /\
                      has b 1 (is_int 0 18446744073709551615) /\
                      may b 2 (list_of (eq (D - 1)) (is_int 0 18446744073709551615)))))).
Definition valid_checkpoint (m : list (option val)) : Prop :=
  may m 0 existing /\ has m 1 in_existing /\ has m 2 (is_int 1 2147483647) /\
  has m 3 gt0 /\ has m 4 gt0 /\ has m 5 (one_of [0; 1; 2]%nat) /\ has m 6 (is_int 1 2147483647).

(** Members in the order of struct Config; enumerators by their number. *)
Definition valid_config (m : list (option val)) : Prop :=
  length m = 23%nat /\
  may m 0 gt0 /\                                     (* resolution *)
  has m 1 ge0 /\                                     (* final_time *)
  may m 2 existing /\                                (* mesh_file *)
  has m 3 gt0 /\                                     (* cfl *)
  has m 4 (one_of [1; 2; 3]%nat) /\                  (* mode *)
  has m 5 (one_of [1; 2]%nat) /\                     (* type *)
  has m 6 existing /\                                (* lib *)
  has m 7 is_text /\                                 (* scenario *)
  has m 8 (list_of (eq D) is_number) /\              (* up *)
  has m 9 (list_of (eq D) is_number) /\              (* ref_normal *)
  has m 10 is_truth /\ has m 11 is_truth /\          (* boundary_linear, matrix_free *)
  has m 12 (one_of [0; 1; 2]%nat) /\                 (* mg_strategy *)
  has m 13 (is_int 0 4294967295) /\                  (* mg_coarse_level *)
  may m 14 (struct valid_mesh) /\                    (* generate_mesh *)
  may m 15 (struct valid_output) /\                  (* fault_output *)
  may m 16 (struct (fun t => valid_output t /\ has t 5 (one_of [0; 1]%nat))) /\
  may m 17 (struct (fun t => valid_output t /\ has t 5 is_truth)) /\
  may m 18 (struct valid_probes) /\ may m 19 (struct valid_probes) /\
  may m 20 (struct valid_output) /\                  (* moment_rate_output *)
  may m 21 (struct (fun t => has t 0 is_text /\ has t 1 is_number)) /\
  has m 22 (struct valid_checkpoint).
End Spec.
