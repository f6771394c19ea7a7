(** Models src/form/DGOperator.h [local_cfl_time_step] and app/form/SeasFDOperator.cpp
    [cfl_time_step]: the time step bound of the wave equation.  The bound of one element is
    [ElasticityModel.cfl_dt].  Exact arithmetic. *)
Require Import List Arith Reals.
Import ListNotations.
Local Open Scope R_scope.

(** InverseInequality.h:48-58 and :60-70 [grad_constant], for D = 2 and D = 3; [None] where the code throws
    or, for other D, has no definition. *)
Definition grad_constant (D N : nat) : option R :=
  match D with
  | 2%nat => nth_error [0; 60000 / 10000; 225000 / 10000; 568879 / 10000; 1198047 / 10000; 2241195 / 10000;
      3852210 / 10000; 6208674 / 10000; 9512557 / 10000; 13990115 / 10000; 19891818 / 10000] N
  | 3%nat => option_map (fun c => 4 * c) (nth_error [0; 100000 / 10000; 315000 / 10000; 737490 / 10000; 1484089 / 10000; 2695513 / 10000;
      4520694 / 10000; 7177792 / 10000; 10858205 / 10000; 15878353 / 10000; 22458720 / 10000] N)
  | _ => None
  end.
(** DGOperator.h:262-270: minimum over the local elements; [dmax] is
    std::numeric_limits<double>::max(). *)
Definition local_cfl_time_step (dmax : R) (num_local : nat) (cfl_dt : nat -> R) : R :=
  fold_left Rmin (map cfl_dt (seq 0 num_local)) dmax.
(** SeasFDOperator.cpp:25-30: MPI_Allreduce with MPI_MIN over the ranks.  All local values are at most
    [dmax], so that starting from it changes nothing. *)
Definition cfl_time_step (dmax : R) (procs : nat) (local_dt : nat -> R) : R :=
  fold_left Rmin (map local_dt (seq 0 procs)) dmax.
