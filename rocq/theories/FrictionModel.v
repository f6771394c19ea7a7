(** Models app/localoperator/DieterichRuinaBase.h, DieterichRuinaAgeing.h, DieterichRuinaSlip.h
    and the node loops of RateAndState.h, in exact real arithmetic. *)
Require Import List Reals Arith.
Require Import Verif.VecModel Verif.ZeroModel.
Import ListNotations.
Local Open Scope R_scope.

(** DieterichRuinaBase.h:24-28. *)
Record cparams := { cV0 : R; cb : R; cf0 : R }.
(** DieterichRuinaBase.h:29-37. *)
Record params := { pa : R; peta : R; pL : R; psn : R; ptau : list R; pVinit : list R; pSinit : list R }.

(** std::log10 for positive arguments and std::pow(10.0, x). *)
Definition log10 (x : R) : R := ln x / ln 10.
Definition pow10 (x : R) : R := exp (x * ln 10).

(** DieterichRuinaBase.h:209-214. *)
Definition fric (c : cparams) (p : params) (snAbs V psi : R) : R :=
  let e := exp (psi / pa p) in
  let f := pa p * arcsinh (V / (2 * cV0 c) * e) in
  snAbs * f.

(** DieterichRuinaBase.h:216-224. *)
Definition fric_inv (c : cparams) (p : params) (snAbs tauAbs psi : R) : R :=
  let r := tauAbs / snAbs in
  cV0 c * (exp ((r - psi) / pa p) - exp (- (r + psi) / pa p)).

(** A real or "not a number" (log of a non-positive number, division by zero). *)
Definition real_or_nan := option R.

(** DieterichRuinaBase.h:51-64. *)
Definition psi_init (c : cparams) (p : params) (sn : R) (tau : list R) : real_or_nan :=
  let snAbs := - sn + psn p in
  let tauAbs := norm (vadd tau (ptau p)) in
  let Vi := norm (pVinit p) in
  if Req_EM_T Vi 0 then Some (cf0 c)
  else if Req_EM_T (pa p * snAbs) 0 then None
  else
    let s := sinh ((tauAbs - peta p * Vi) / (pa p * snAbs)) in
    if Rlt_dec 0 (2 * cV0 c / Vi * s) then Some (pa p * ln (2 * cV0 c / Vi * s)) else None.

(** DieterichRuinaBase.h:69. *)
Definition sn_hat (p : params) (sn : R) : R := - sn + psn p.
(** DieterichRuinaBase.h:75-78. *)
Definition tau_hat (p : params) (tau V : list R) : list R :=
  vadd (vadd tau (ptau p)) (vscale (peta p) V).

(** The function handed to the root finder, DieterichRuinaBase.h:105-108. *)
Definition residual (c : cparams) (p : params) (snAbs tauAbs psi Ve : R) : R :=
  tauAbs - fric c p snAbs (pow10 Ve) psi - peta p * pow10 Ve.

(** What slip_rate returns: a vector with the error code, NaN entries with the error code, or
    (in the model only) the root finder exceeding the iteration bound. *)
Inductive rate := Rate (v : list R) (ierr : nat) | Rate_nan (ierr : nat) | Rate_unfinished.

(** DieterichRuinaBase.h:174 -(V / tauAbs) * tauAbsVec; 0/0 is NaN. *)
Definition directed (V tauAbs : R) (T : list R) (ierr : nat) : rate :=
  if Req_EM_T tauAbs 0 then Rate_nan ierr else Rate (vscale (- (V / tauAbs)) T) ierr.

(** DieterichRuinaBase.h:113-119, 122-128: zeroIn on the interval with end points [l] and Vb. *)
Definition attempt (f : R -> R) (eps : R) (fuel : nat) (l Vb : R) : outcome :=
  if Rlt_dec Vb l then fst (zeroIn f eps 0 fuel Vb l) else fst (zeroIn f eps 0 fuel l Vb).

(** DieterichRuinaBase.h:81-175.  [eps] is the machine epsilon, [fuel] bounds the iterations of the
    root finder, [Va_min] is log10 of the smallest positive double.  For tauAbs = 0 and eta > 0
    the upper end point is log10(0) = -inf, which the root finder returns as an exact zero of the
    residual; the slip rate 0/0 is then NaN.  (A negative eta, for which log10 is NaN, is given the
    same outcome.) *)
Definition slip_rate (eps : R) (fuel : nat) (Va_min : R) (c : cparams) (p : params)
    (sn : R) (tau : list R) (psi : R) : rate :=
  let T := vadd tau (ptau p) in
  let snAbs := - sn + psn p in
  let tauAbs := norm T in
  if Req_EM_T (peta p) 0 then
    if Req_EM_T snAbs 0 then Rate_nan 0
    else directed (fric_inv c p snAbs tauAbs psi) tauAbs T 0
  else if Rle_dec snAbs 0 then directed (tauAbs / peta p) tauAbs T 1
  else if Rle_dec (tauAbs / peta p) 0 then Rate_nan 0
  else
    let f := residual c p snAbs tauAbs psi in
    let Vb := log10 (tauAbs / peta p) in
    match attempt f eps fuel (-32) Vb with
    | Ret Ve => directed (pow10 Ve) tauAbs T 0
    | Throw =>
        match attempt f eps fuel Va_min Vb with
        | Ret Ve => directed (pow10 Ve) tauAbs T 0
        | Throw => Rate_nan 2
        | _ => Rate_unfinished
        end
    | _ => Rate_unfinished
    end.

(** DieterichRuinaAgeing.h:23-26. *)
Definition ageing_rhs (c : cparams) (p : params) (V psi : R) : R :=
  cb c * cV0 c / pL p * (exp ((cf0 c - psi) / cb c) - V / cV0 c).

(** DieterichRuinaSlip.h:23-26; NaN if V/V0 is not positive (log). *)
Definition slip_rhs (c : cparams) (p : params) (V psi : R) : real_or_nan :=
  if Rlt_dec 0 (V / cV0 c) then
    Some (- cb c * V / pL p * (ln (V / cV0 c) + (psi - cf0 c) / cb c))
  else None.
