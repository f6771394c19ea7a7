(** C70: the blending parameter. *)
Require Import List Arith Lia Reals Lra.
Require Import Verif.NodesModel.
Import ListNotations.
Local Open Scope R_scope.

(** src/basis/WarpAndBlend.cpp:27-35: the parameters of Warburton for degree 1, 2, ... *)
Definition alphaOpt2 : list R :=
  [0; 0; 1.4152; 0.1001; 0.2751; 0.9800; 1.0999; 1.2832; 1.3648; 1.4773; 1.4959; 1.5743; 1.5770; 1.6223; 1.6258;
   1.64831; 1.76303; 1.92727; 1.92962; 1.91251; 1.91289; 1.89479; 1.89255; 1.88016; 1.87555; 1.86613; 1.86106; 1.85368; 1.84874; 1.84319].
Definition alphaOpt3 : list R :=
  [0; 0; 0; 0.1002; 1.1332; 1.5608; 1.3413; 1.2577; 1.1603; 1.10153; 0.6080; 0.4523; 0.8856; 0.8717; 0.9655; 0.982344;
   0.827846; 0.700081; 0.725887].
(** C70: for every degree from 1 the blending parameter is the entry of the dimension's table for this degree, counted from 1,
    and 5/3 for degrees above the table; for degree 1 and 2 the nodes are not blended. *)
Theorem blending_parameter : forall d t, (d = 2 /\ t = alphaOpt2 \/ d = 3 /\ t = alphaOpt3)%nat ->
  (forall before a after, t = before ++ a :: after -> warpAndBlendAlpha alphaOpt2 alphaOpt3 d (S (length before)) = a) /\
  (forall degree, (length t < degree)%nat -> warpAndBlendAlpha alphaOpt2 alphaOpt3 d degree = 5 / 3) /\
  (forall degree, (1 <= degree <= 2)%nat -> warpAndBlendAlpha alphaOpt2 alphaOpt3 d degree = 0).
Proof.
  intros d t H.
  assert (E : forall degree, warpAndBlendAlpha alphaOpt2 alphaOpt3 d degree = if (degree <=? length t)%nat then nth (degree - 1) t 0 else 5 / 3).
  { destruct H as [[-> ->] | [-> ->]]; reflexivity. }
  split; [| split].
  - intros before a after Ht. rewrite E, Ht, app_length. cbn [length].
    replace (S (length before) <=? length before + S (length after))%nat with true by (symmetry; apply Nat.leb_le; lia).
    replace (S (length before) - 1)%nat with (length before) by lia. apply nth_middle.
  - intros degree Hd. rewrite E. replace (degree <=? length t)%nat with false; [reflexivity|]. symmetry. apply Nat.leb_gt. exact Hd.
  - intros degree Hd. rewrite E. assert (degree = 1 \/ degree = 2)%nat as [-> | ->] by lia; destruct H as [[_ ->] | [_ ->]]; reflexivity.
Qed.
Print Assumptions blending_parameter.
Example ex_alpha : warpAndBlendAlpha alphaOpt2 alphaOpt3 2 3 = 1.4152 /\ warpAndBlendAlpha alphaOpt2 alphaOpt3 3 20 = 5 / 3.
Proof. split; reflexivity. Qed.
