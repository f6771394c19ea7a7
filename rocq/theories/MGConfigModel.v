(** Models app/common/MGConfig.cpp. *)
Require Import List Arith.
Import ListNotations.

(** app/common/MGConfig.h, enum class MGStrategy. *)
Inductive mg_strategy := TwoLevel | Logarithmic | Full.

(** app/common/MGConfig.cpp:12-15, clamping of the coarse level. *)
Definition clamp_coarse (coarse_level max_degree : nat) : nat :=
  if max_degree <=? coarse_level then (if 0 <? max_degree then max_degree - 1 else 0)
  else coarse_level.

(** app/common/MGConfig.cpp:25-27, the while loop; the vector is kept reversed (back first), which
    is also the order after std::reverse (line 31).  [None]: more than [fuel] iterations. *)
Fixpoint log_loop (fuel coarse : nat) (rev_levels : list nat) : option (list nat) :=
  match rev_levels with
  | [] => None
  | back :: _ =>
      if coarse <? back then
        match fuel with O => None | S f => log_loop f coarse (back / 2 :: rev_levels) end
      else Some rev_levels
  end.

(** app/common/MGConfig.cpp:28-30: the last level becomes the coarse level. *)
Definition set_back (coarse : nat) (rev_levels : list nat) : list nat :=
  match rev_levels with [] => [] | back :: t => (if negb (back =? coarse) then coarse else back) :: t end.

(** app/common/MGConfig.cpp:11-42 [MGConfig::levels].  Degrees are naturals: max_degree -
    coarse_level never wraps because the coarse level was clamped. *)
Definition levels (fuel : nat) (s : mg_strategy) (coarse_level max_degree : nat) : option (list nat) :=
  let c := clamp_coarse coarse_level max_degree in
  match s with
  | TwoLevel => Some [c; max_degree]
  | Logarithmic => option_map (set_back c) (log_loop fuel c [max_degree])
  | Full => Some (seq c (max_degree - c + 1))
  end.
