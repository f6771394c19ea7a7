(** Models src/geometry/Vector.h: small vectors as lists of reals.  The two operands always have
    the same (static) length in the C++ code; lists of different lengths are cut to the shorter. *)
Require Import List Reals Lra.
Import ListNotations.
Local Open Scope R_scope.

(** Vector.h:9-24. *)
Fixpoint zipR (f : R -> R -> R) (a b : list R) : list R :=
  match a, b with x :: a', y :: b' => f x y :: zipR f a' b' | _, _ => [] end.
Definition vadd := zipR Rplus.
Definition vsub := zipR Rminus.

(** Vector.h:26-38. *)
Definition vscale (s : R) (v : list R) : list R := map (Rmult s) v.

(** Vector.h:42-49. *)
Fixpoint dot (a b : list R) : R :=
  match a, b with x :: a', y :: b' => x * y + dot a' b' | _, _ => 0 end.

(** Vector.h:51-57 (norm). *)
Definition norm (v : list R) : R :=
  match v with [x] => Rabs x | _ => sqrt (dot v v) end.

(** Vector.h:59-62. *)
Definition normalize (v : list R) : list R := vscale (1 / norm v) v.

Lemma dot_nonneg : forall v, 0 <= dot v v.
Proof. induction v; cbn; [lra|]. pose proof (Rle_0_sqr a). unfold Rsqr in *. lra. Qed.

Lemma norm_sqrt : forall v, norm v = sqrt (dot v v).
Proof.
  intros [|x [|y v]]; try reflexivity. cbn. rewrite Rplus_0_r. symmetry. apply sqrt_Rsqr_abs.
Qed.

Lemma norm_nonneg : forall v, 0 <= norm v.
Proof. intro v. rewrite norm_sqrt. apply sqrt_pos. Qed.

Lemma dot_scale : forall s t v w, dot (vscale s v) (vscale t w) = s * t * dot v w.
Proof. induction v; intros [|y w]; cbn [vscale map dot]; try ring.
  change (map (Rmult s) v) with (vscale s v). change (map (Rmult t) w) with (vscale t w).
  rewrite IHv. ring.
Qed.

Lemma norm_scale : forall s v, norm (vscale s v) = Rabs s * norm v.
Proof.
  intros s v. rewrite !norm_sqrt, dot_scale, sqrt_mult_alt by apply Rle_0_sqr.
  f_equal. apply sqrt_Rsqr_abs.
Qed.

Lemma vscale_1 : forall v, vscale 1 v = v.
Proof.
  intro v. unfold vscale. rewrite (map_ext _ (fun x => x)) by (intro; apply Rmult_1_l).
  apply map_id.
Qed.

Lemma vscale_vscale : forall s t v, vscale s (vscale t v) = vscale (s * t) v.
Proof. intros s t v. unfold vscale. rewrite map_map. apply map_ext. intro. ring. Qed.

Lemma vadd_vscale : forall s t v, vadd (vscale s v) (vscale t v) = vscale (s + t) v.
Proof.
  unfold vadd, vscale. induction v; cbn; [reflexivity|]. rewrite IHv. f_equal. ring.
Qed.

Lemma dot_zero : forall v, dot v v = 0 -> forall x, In x v -> x = 0.
Proof.
  induction v as [|y v IH]; cbn; intros H x Hx; [contradiction|].
  pose proof (dot_nonneg v) as Hn. pose proof (Rle_0_sqr y) as Hy. unfold Rsqr in Hy.
  destruct Hx as [<-|Hx].
  - apply Rsqr_0_uniq. unfold Rsqr. lra.
  - apply IH; [lra|exact Hx].
Qed.
