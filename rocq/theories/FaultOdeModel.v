(** Models the node loops of app/localoperator/RateAndState.h, the fault loops of
    app/form/FrictionOperator.h and the moment rates of app/form/AdapterOperator.h with the kernels of
    app/kernels/*_adapter.py.  The friction law of one node is [FrictionModel.slip_rate] and its
    neighbours.  Vectors over the fault are memories addressed as in the C++ code. *)
Require Import String Ascii List Arith Bool Reals.
Require Import Verif.Base Verif.LinAlg Verif.VecModel Verif.ZeroModel Verif.FrictionModel Verif.TopoModel Verif.FaultModel Verif.PoissonModel Verif.ElasticityModel.
Import ListNotations.
Local Open Scope R_scope.

(** A double: a number, or [None] for NaN. *)
Definition dbl := option R.
(** Memory of a vector over the fault. *)
Definition dmem := nat -> dbl.
Definition put (m : dmem) (i : nat) (v : dbl) : dmem := fun j => if (j =? i)%nat then v else m j.
(** std::max(a, b), which is a unless a < b; comparisons with NaN are false. *)
Definition std_max (a : R) (b : dbl) : R := match b with Some v => if Rlt_dec a v then v else a | None => a end.
Definition dplus (a b : dbl) : dbl := match a, b with Some x, Some y => Some (x + y) | _, _ => None end.

(** DieterichRuinaAgeing.h, DieterichRuinaSlip.h: which evolution law is compiled in. *)
Inductive evolution := Ageing | Slipping.
(** DieterichRuinaAgeing.h:23-26, DieterichRuinaSlip.h:23-26 [state_rhs]; NaN in, NaN out. *)
Definition state_rhs (k : evolution) (c : cparams) (p : params) (V : dbl) (psi : R) : dbl :=
  match V with
  | None => None
  | Some v => match k with Ageing => Some (ageing_rhs c p v psi) | Slipping => slip_rhs c p v psi end
  end.

(** What RateAndState holds: dimension, basis functions of a fault face, law and its parameters by node
    index, coordinates by node index (RateAndStateBase.h:53-60), optional functions of position and
    time (RateAndState.h:103-106).  std::array<double, D+1> is split into position and time. *)
Record rs_data := {
  rs_D : nat; rs_nbf : nat; rs_law : evolution; rs_c : cparams; rs_p : nat -> params; rs_x : nat -> list R;
  rs_delta_sn : option (list R -> R -> R);
  rs_delta_tau : option (list R -> R -> list R);
  rs_source : option (list R -> R -> R) }.

Section RateAndState.
Variable S : rs_data.
(** Machine epsilon, bound on the iterations of the root finder and log10 of the smallest positive
    double: see [FrictionModel.slip_rate]. *)
Variables (eps : R) (fuel : nat) (Va_min : R).
(** What slip_rate returns for a state that is NaN: not modelled. *)
Variable nan_rate : nat -> rate.
Local Notation D := (rs_D S). Local Notation nbf := (rs_nbf S).
(** RateAndStateBase.h:28-30. *)
Definition tangential : nat := D - 1.
Definition num_quantities : nat := tangential + 1.
Definition psi_index : nat := tangential.
(** RateAndState.h:69-76 [state_mat], [traction_mat]: entry (node, q) of the block of fault f in a
    vector of blocks; the matrices are stored by columns (tensor/Reshape.h). *)
Definition mat_entry (cols f node q : nat) : nat := f * (nbf * cols) + (node + q * nbf).

(** RateAndState.h:77-83 [get_tau] with :140-143, :176-179 (delta_tau). *)
Definition tau_at (time : R) (tr : nat -> R) (f node : nat) : list R :=
  let tau := map (fun t => tr (mat_entry D f node (t + 1))) (seq 0 tangential) in
  match rs_delta_tau S with Some g => vadd tau (g (rs_x S (f * nbf + node)) time) | None => tau end.
(** RateAndState.h:136-139, :171-174. *)
Definition sn_at (time : R) (tr : nat -> R) (f node : nat) : R :=
  let sn := tr (mat_entry D f node 0) in
  match rs_delta_sn S with Some g => sn + g (rs_x S (f * nbf + node)) time | None => sn end.

Definition rate_entry (r : rate) (t : nat) : dbl := match r with Rate v _ => Some (nth t v 0) | _ => None end.
Definition rate_norm (r : rate) : dbl := match r with Rate v _ => Some (norm v) | _ => None end.
Definition rate_ierr (r : rate) : nat := match r with Rate _ e => e | Rate_nan e => e | Rate_unfinished => 0 end.
Definition finished (r : rate) : bool := match r with Rate_unfinished => false | _ => true end.

(** RateAndState.h:109-121 [pre_init]. *)
Definition pre_init_node (f : nat) (m : dmem) (node : nat) : dmem :=
  fold_left (fun m t => put m (mat_entry num_quantities f node t) (Some (nth t (pSinit (rs_p S (f * nbf + node))) 0))) (seq 0 tangential) m.
Definition pre_init_block (m : dmem) (f : nat) : dmem := fold_left (pre_init_node f) (seq 0 nbf) m.
(** FrictionOperator.h:51-58. *)
Definition pre_init (num : nat) (m : dmem) : dmem := fold_left pre_init_block (seq 0 num) m.

(** The local variables of init and rhs: the vector written, VMax, ierr_max.  [None]: the root finder
    has not finished. *)
Definition acc := (dmem * R * nat)%type.
(** RateAndState.h:146-148, :182-184. *)
Definition new_max (ierr ierr_max : nat) : nat := if (ierr_max <? ierr)%nat then ierr else ierr_max.
(** RateAndState.h:134-151, body of the loop of [init]. *)
Definition init_node (time : R) (tr : nat -> R) (f : nat) (a : option acc) (node : nat) : option acc :=
  match a with
  | None => None
  | Some (m, vmax, emax) =>
      let i := (f * nbf + node)%nat in
      let sn := sn_at time tr f node in let tau := tau_at time tr f node in
      let psi := psi_init (rs_c S) (rs_p S i) sn tau in
      let r := match psi with Some x => slip_rate eps fuel Va_min (rs_c S) (rs_p S i) sn tau x | None => nan_rate i end in
      if finished r then
        Some (put m (mat_entry num_quantities f node psi_index) psi, std_max vmax (rate_norm r), new_max (rate_ierr r) emax)
      else None
  end.
Definition init_block (time : R) (tr : nat -> R) (f : nat) (m : dmem) : option acc :=
  fold_left (init_node time tr f) (seq 0 nbf) (Some (m, 0, 0%nat)).

(** RateAndState.h:168-192, body of the loop of [rhs]. *)
Definition rhs_node (time : R) (tr st : nat -> R) (f : nat) (a : option acc) (node : nat) : option acc :=
  match a with
  | None => None
  | Some (m, vmax, emax) =>
      let i := (f * nbf + node)%nat in
      let sn := sn_at time tr f node in
      let psi := st (mat_entry num_quantities f node psi_index) in
      let tau := tau_at time tr f node in
      let r := slip_rate eps fuel Va_min (rs_c S) (rs_p S i) sn tau psi in
      if finished r then
        let V := rate_norm r in
        let m1 := fold_left (fun m t => put m (mat_entry num_quantities f node t) (rate_entry r t)) (seq 0 tangential) m in
        Some (put m1 (mat_entry num_quantities f node psi_index) (state_rhs (rs_law S) (rs_c S) (rs_p S i) V psi),
              std_max vmax V, new_max (rate_ierr r) emax)
      else None
  end.
(** RateAndState.h:193-201. *)
Definition source_node (g : list R -> R -> R) (time : R) (f : nat) (m : dmem) (node : nat) : dmem :=
  let e := mat_entry num_quantities f node psi_index in
  put m e (dplus (m e) (Some (g (rs_x S (f * nbf + node)) time))).
(** RateAndState.h:156-204 [rhs]. *)
Definition rhs_block (time : R) (tr st : nat -> R) (f : nat) (m : dmem) : option acc :=
  match fold_left (rhs_node time tr st f) (seq 0 nbf) (Some (m, 0, 0%nat)) with
  | None => None
  | Some (m1, vmax, emax) =>
      let m2 := match rs_source S with Some g => fold_left (source_node g time f) (seq 0 nbf) m1 | None => m1 end in
      Some (m2, vmax, emax)
  end.

(** The loops of FrictionOperator.h:60-87 [init] and :89-128 [rhs] over the faults of a rank: the
    vector written, VMax_ and the flag init_success or rhs_success. *)
Definition over_faults (block : nat -> dmem -> option acc) (num : nat) (m : dmem) : option (dmem * R * bool) :=
  fold_left (fun a f => match a with
    | None => None
    | Some (m, vmax, ok) => match block f m with
        | None => None
        | Some (m1, v, e) => Some (m1, std_max vmax (Some v), if (e =? 2)%nat then false else ok)
        end
    end) (seq 0 num) (Some (m, 0, true)).
(** Outcome: the vector and VMax_, or the program ends (throw without an exception, :85, :126). *)
Inductive friction_outcome := Done (m : dmem) (vmax : R) | Terminated.
Definition conclude (r : option (dmem * R * bool)) : option friction_outcome :=
  match r with
  | None => None
  | Some (m, vmax, ok) => Some (if ok : bool then Done m vmax else Terminated)
  end.
Definition friction_init (num : nat) (time : R) (tr : nat -> R) (m : dmem) : option friction_outcome :=
  conclude (over_faults (init_block time tr) num m).
Definition friction_rhs (num : nat) (time : R) (tr st : nat -> R) (m : dmem) : option friction_outcome :=
  conclude (over_faults (rhs_block time tr st) num m).

(** A decimal digit: %lu of a component number, which is 0 or 1. *)
Definition digit (t : nat) : string := String (ascii_of_nat (48 + t)) EmptyString.
(** RateAndState.h:206-226 [state_prototype]. *)
Definition state_names : list string :=
  ["state"%string] ++ map (fun t => append "slip" (digit t)) (seq 0 tangential)
  ++ map (fun t => append "traction" (digit t)) (seq 0 tangential)
  ++ map (fun t => append "slip-rate" (digit t)) (seq 0 tangential) ++ ["normal-stress"%string].
(** RateAndState.h:228-265 [state]: the values written to columns 0, 1, ... of row [node]. *)
Definition state_row (time : R) (tr st : nat -> R) (f node : nat) : list dbl :=
  let i := (f * nbf + node)%nat in
  let sn := sn_at time tr f node in let tau := tau_at time tr f node in
  let psi := st (mat_entry num_quantities f node psi_index) in
  let r := slip_rate eps fuel Va_min (rs_c S) (rs_p S i) sn tau psi in
  let th := match r with Rate v _ => Some (tau_hat (rs_p S i) tau v) | _ => None end in
  [Some psi] ++ map (fun t => Some (st (mat_entry num_quantities f node t))) (seq 0 tangential)
  ++ map (fun t => match th with Some l => Some (nth t l 0) | None => None end) (seq 0 tangential)
  ++ map (fun t => rate_entry r t) (seq 0 tangential)
  ++ [Some (sn_hat (rs_p S i) sn)].
(** DieterichRuinaBase.h:178-193 [param_names], :195-206 [params]. *)
Definition param_names : list string :=
  ["a"; "eta"; "L"; "sn_pre"]%string ++ map (fun t => append "tau_pre" (digit t)) (seq 0 tangential).
Definition param_row (f node : nat) : list R :=
  let p := rs_p S (f * nbf + node) in [pa p; peta p; pL p; psn p] ++ ptau p.
(** RateAndState.h:238-264, :277-280, FrictionOperator.h:158-181, :198-213: row after row, fault after
    fault; element out_no of the output is fault [first + out_no]. *)
Definition state_output (time : R) (tr st : nat -> R) (faults : list nat) : list (list (list dbl)) :=
  map (fun f => map (state_row time tr st f) (seq 0 nbf)) faults.
Definition param_output (faults : list nat) : list (list (list R)) :=
  map (fun f => map (param_row f) (seq 0 nbf)) faults.
End RateAndState.

(** ** Moment rates *)

(** What compute_moment_rates needs: adapter data of the fault faces (NormalLength), the fault space and
    the facets. *)
Section Moments.
Variables (dim nq : nat) (FS : fault_space).
Variable nl : nat -> nat -> R.                  (* NormalLength, faultNo q *)
Variable info : nat -> facet_info.              (* topo_->info(fault_map_->fctNo(faultNo)) *)
Local Notation nbf := (fs_nbf FS).
(** The kernel evaluate_moment_rate (elasticity_adapter.py:30-35, poisson_adapter.py:20-25). *)
Definition moment_rate_kernel (nlq : nat -> R) (slip_rate : nat -> R) (mu : nat -> R) (p : nat) : R :=
  rsum nq (fun q => rsum nbf (fun l => fs_w FS q * fs_e FS l q * slip_rate (l + nbf * p)%nat * nlq q * mu q)).
(** Elasticity.cpp:1020-1033 [mu_avg]; [None]: the assertion on facets of the boundary. *)
Definition elasticity_mu_avg (E : edata) (x : facet_info) : option (nat -> R) :=
  if (fi_up0 x =? fi_up1 x)%nat then None else Some (fun q => 1 / 2 * (mu_q E x 0 q + mu_q E x 1 q)).
(** Poisson.cpp:723-736 [mu_avg]: reads the storage of the material from the first value of the
    element on.  [storage] is all of it, [N] values per element (Poisson.cpp:120-122). *)
Definition poisson_mu_avg (N : nat) (storage : nat -> R) (x : facet_info) : option (nat -> R) :=
  if (fi_up0 x =? fi_up1 x)%nat then None
  else Some (fun q => 1 / 2 * (storage (fi_up0 x * N + q)%nat + storage (fi_up1 x * N + q)%nat)).
(** AdapterOperator.h:82-98 [compute_moment_rates]: the slip rates are read in blocks of nbf * dim. *)
Definition compute_moment_rates (mu_avg : facet_info -> option (nat -> R)) (num : nat) (slip_rates : nat -> R) : option (list R) :=
  match map_opt (fun f => match mu_avg (info f) with
      | None => None
      | Some mu => Some (map (fun p => moment_rate_kernel (nl f) (fun i => slip_rates (f * (nbf * dim) + i)%nat) mu p) (seq 0 (dim - 1)))
      end) (seq 0 num) with
  | None => None
  | Some l => Some (concat l)
  end.
End Moments.
