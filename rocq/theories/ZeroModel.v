(** Models src/util/Zero.cpp (zeroIn, Brent's root finder) in exact real arithmetic.  There is
    no NaN or infinity in this model, so the checks Zero.cpp:21-26 and 93-95 never fire. *)
Require Import List Reals.
Import ListNotations.
Local Open Scope R_scope.

(** std::copysign for reals (a real zero counts as positive, there is no negative zero). *)
Definition copysign (x y : R) : R := if Rle_dec 0 y then Rabs x else - Rabs x.

(** The variables of the loop, Zero.cpp:30-33. *)
Record zstate := { za : R; zb : R; zc : R; zd : R; ze : R; Fa : R; Fb : R; Fc : R }.

Inductive outcome :=
| Throw               (* std::logic_error, Zero.cpp:28 *)
| Ret (x : R)
| Div_zero            (* a division whose denominator is zero *)
| Out_of_fuel.

(** Zero.cpp:35-40: the sign of F(b) is that of F(c), so [a,b] becomes the bracket. *)
Definition rebracket (s : zstate) : zstate :=
  if Req_EM_T (copysign (Fb s) (Fc s)) (Fb s) then
    {| za := za s; zb := zb s; zc := za s; zd := zb s - za s; ze := zb s - za s;
       Fa := Fa s; Fb := Fb s; Fc := Fa s |}
  else s.

(** Zero.cpp:41-48: b becomes the end point with the smaller residual. *)
Definition order_ends (s : zstate) : zstate :=
  if Rlt_dec (Rabs (Fc s)) (Rabs (Fb s)) then
    {| za := zb s; zb := zc s; zc := zb s; zd := zd s; ze := ze s;
       Fa := Fb s; Fb := Fc s; Fc := Fb s |}
  else s.

(** Zero.cpp:59-79: interpolation step, the new (d, e); None if a denominator is zero. *)
Definition interpolate (s : zstate) (xm tol1 : R) : option (R * R) :=
  if Req_EM_T (Fa s) 0 then None else
  let sv := Fb s / Fa s in
  let pq :=
    if Req_EM_T (za s) (zc s) then Some (2 * xm * sv, 1 - sv)
    else if Req_EM_T (Fc s) 0 then None else
      let q := Fa s / Fc s in
      let r := Fb s / Fc s in
      Some (sv * (2 * xm * q * (q - r) - (zb s - za s) * (r - 1)),
            (q - 1) * (r - 1) * (sv - 1)) in
  match pq with
  | None => None
  | Some (p0, q0) =>
      let p := if Rlt_dec 0 p0 then p0 else - p0 in
      let q := if Rlt_dec 0 p0 then - q0 else q0 in
      if Rlt_dec (2 * p) (3 * xm * q - Rabs (tol1 * q)) then
        if Rlt_dec p (Rabs (1 / 2 * ze s * q)) then
          if Req_EM_T q 0 then None else Some (p / q, zd s)
        else Some (xm, xm)
      else Some (xm, xm)
  end.

(** Zero.cpp:54-85: the choice between bisection and interpolation. *)
Definition choose (s : zstate) (xm tol1 : R) : option (R * R) :=
  if Rlt_dec (Rabs (ze s)) tol1 then Some (xm, xm)
  else if Rle_dec (Rabs (Fa s)) (Rabs (Fb s)) then Some (xm, xm)
  else interpolate s xm tol1.

Section ZeroIn.
  Variable F : R -> R.
  Variables eps tol : R.

  (** Zero.cpp:34-96: the loop; [fuel] bounds the number of iterations.  The second component
      lists the points at which F is evaluated, in order. *)
  Fixpoint zloop (fuel : nat) (s : zstate) : outcome * list R :=
    if Req_EM_T (Fb s) 0 then (Ret (zb s), []) else
    match fuel with
    | O => (Out_of_fuel, [])
    | S n =>
        let s := order_ends (rebracket s) in
        let xm := 1 / 2 * (zc s - zb s) in
        let tol1 := 2 * eps * Rabs (zb s) + 1 / 2 * tol in
        if Rle_dec (Rabs xm) tol1 then (Ret (zb s), [])
        else if Req_EM_T (Fb s) 0 then (Ret (zb s), [])
        else match choose s xm tol1 with
             | None => (Div_zero, [])
             | Some (d, e) =>
                 let b' := if Rlt_dec tol1 (Rabs d) then zb s + d
                           else zb s + copysign tol1 xm in
                 let '(o, ev) := zloop n {| za := zb s; zb := b'; zc := zc s; zd := d; ze := e;
                                            Fa := Fb s; Fb := F b'; Fc := Fc s |} in
                 (o, b' :: ev)
             end
    end.

  (** Zero.cpp:13-98. *)
  Definition zeroIn (fuel : nat) (a b : R) : outcome * list R :=
    if Req_EM_T (F a) 0 then (Ret a, [a])
    else if Req_EM_T (F b) 0 then (Ret b, [a; b])
    else if Req_EM_T (copysign (F a) (F b)) (F a) then (Throw, [a; b])
    else let '(o, ev) := zloop fuel {| za := a; zb := b; zc := a; zd := b - a; ze := b - a;
                                       Fa := F a; Fb := F b; Fc := F a |} in
         (o, a :: b :: ev).
End ZeroIn.
