(** Property C10: the scalar root finder keeps a bracket, converges and terminates. *)
Require Import List Reals Lra Psatz Ranalysis5.
Require Import Verif.ZeroModel.
Import ListNotations.
Local Open Scope R_scope.

(** ** Vocabulary *)

(** x lies in the closed interval with end points a and b, in whichever order. *)
Definition between (a b x : R) : Prop := Rmin a b <= x <= Rmax a b.

(** F changes sign between x and c (or vanishes at x). *)
Definition sign_change (F : R -> R) (x c : R) : Prop := F x = 0 \/ F x * F c < 0.

(** ** Auxiliary facts *)

Lemma copysign_same : forall x y, x <> 0 -> y <> 0 ->
  (copysign x y = x <-> 0 < x * y).
Proof.
  intros x y Hx Hy. unfold copysign. destruct (Rle_dec 0 y) as [H|H].
  - unfold Rabs. destruct (Rcase_abs x); split; intro; nra.
  - unfold Rabs. destruct (Rcase_abs x); split; intro; nra.
Qed.

Lemma copysign_spec : forall t x, 0 <= t -> x <> 0 ->
  0 <= copysign t x * x /\ Rabs (copysign t x) = t.
Proof.
  intros t x Ht Hx. unfold copysign. rewrite (Rabs_right t) by lra.
  destruct (Rle_dec 0 x).
  - split; [nra|]. apply Rabs_right. lra.
  - split; [nra|]. rewrite Rabs_Ropp. apply Rabs_right. lra.
Qed.

Lemma Rabs_cases : forall x, (0 <= x /\ Rabs x = x) \/ (x < 0 /\ Rabs x = - x).
Proof. intro x. unfold Rabs. destruct (Rcase_abs x); [right|left]; lra. Qed.

Section Proof.
  Variable F : R -> R.
  Variables eps tol delta lo hi : R.
  Hypothesis tol1_pos : forall x, lo <= x <= hi -> delta <= 2 * eps * Rabs x + 1 / 2 * tol.
  Hypothesis delta_pos : 0 <= delta.

  (** What holds between the end points of the current bracket. *)
  Record bracket (s : zstate) (L : R) : Prop := {
    br_sign : Fb s * Fc s < 0;
    br_b : lo <= zb s <= hi;
    br_c : lo <= zc s <= hi;
    br_Fb : Fb s = F (zb s);
    br_Fc : Fc s = F (zc s);
    br_Fa : Fa s <> 0;
    br_len : Rabs (zc s - zb s) <= L }.

  Lemma order_bracket : forall s L, bracket s L ->
    bracket (order_ends s) L /\ Rabs (Fb (order_ends s)) <= Rabs (Fc (order_ends s)).
  Proof.
    intros s L [H1 H2 H3 H4 H5 H6 H7]. unfold order_ends.
    destruct (Rlt_dec (Rabs (Fc s)) (Rabs (Fb s))) as [Hl|Hl]; cbn.
    - split; [|lra]. constructor; cbn; auto; try lra.
      + intro E. rewrite E in H1. lra.
      + rewrite Rabs_minus_sym. exact H7.
    - split; [|lra]. constructor; auto.
  Qed.

  Lemma choose_ok : forall s L xm tol1, bracket s L -> 0 <= tol1 -> tol1 < Rabs xm ->
    exists d e, choose s xm tol1 = Some (d, e) /\ 0 <= d * xm /\
                Rabs d <= 3 / 2 * Rabs xm - tol1 / 2.
  Proof.
    intros s L xm tol1 [H1 _ _ _ _ H6 _] Ht Hx.
    assert (Hbis : 0 <= xm * xm /\ Rabs xm <= 3 / 2 * Rabs xm - tol1 / 2).
    { split; [|lra]. destruct (Rabs_cases xm) as [[? ?]|[? ?]]; nra. }
    unfold choose. destruct (Rlt_dec (Rabs (ze s)) tol1); [exists xm, xm; split; [reflexivity|exact Hbis]|].
    destruct (Rle_dec (Rabs (Fa s)) (Rabs (Fb s))); [exists xm, xm; split; [reflexivity|exact Hbis]|].
    unfold interpolate. destruct (Req_EM_T (Fa s) 0) as [E|_]; [contradiction|].
    match goal with |- context [match ?X with Some _ => _ | None => None end] =>
      assert (Hpq : exists p0 q0, X = Some (p0, q0)) end.
    { destruct (Req_EM_T (za s) (zc s)); [eexists; eexists; reflexivity|].
      destruct (Req_EM_T (Fc s) 0) as [E|_]; [rewrite E in H1; lra|]. eexists; eexists; reflexivity. }
    destruct Hpq as (p0 & q0 & ->). cbv zeta.
    set (p := if Rlt_dec 0 p0 then p0 else - p0). set (q := if Rlt_dec 0 p0 then - q0 else q0).
    assert (Hp : 0 <= p) by (unfold p; destruct (Rlt_dec 0 p0); lra).
    clearbody p q.
    destruct (Rlt_dec (2 * p) (3 * xm * q - Rabs (tol1 * q))) as [Hc|_];
      [|exists xm, xm; split; [reflexivity|exact Hbis]].
    destruct (Rlt_dec p (Rabs (1 / 2 * ze s * q))) as [Hp2|_];
      [|exists xm, xm; split; [reflexivity|exact Hbis]].
    assert (Hq : q <> 0).
    { intro E. rewrite E, Rmult_0_r, Rabs_R0 in Hp2. lra. }
    assert (Hp0 : 0 < p \/ p = 0) by lra.
    destruct (Req_EM_T q 0) as [E|_]; [contradiction|].
    rewrite Rabs_mult, (Rabs_right tol1) in Hc by lra.
    assert (Hxq : 0 < xm * q).
    { pose proof (Rabs_pos q). nra. }
    assert (Ed : p = p / q * q) by (field; exact Hq).
    exists (p / q), (zd s). split; [reflexivity|]. set (d := p / q) in *. clearbody d.
    clear - Ed Hc Hxq Hp Hq Ht.
    destruct (Rabs_cases xm) as [[X ->]|[X ->]]; destruct (Rabs_cases q) as [[Q Eq]|[Q Eq]];
      rewrite Eq in Hc; destruct (Rabs_cases d) as [[D ->]|[D ->]]; split; nra.
  Qed.

  (** One iteration that does not finish. *)
  Lemma iterate : forall s L xm tol1 d,
    bracket s L -> xm = 1 / 2 * (zc s - zb s) -> tol1 = 2 * eps * Rabs (zb s) + 1 / 2 * tol ->
    tol1 < Rabs xm -> 0 <= d * xm -> Rabs d <= 3 / 2 * Rabs xm - tol1 / 2 ->
    let b' := if Rlt_dec tol1 (Rabs d) then zb s + d else zb s + copysign tol1 xm in
    lo <= b' <= hi /\
    forall e, F b' <> 0 ->
      bracket (rebracket {| za := zb s; zb := b'; zc := zc s; zd := d; ze := e;
                            Fa := Fb s; Fb := F b'; Fc := Fc s |}) (L - delta / 2).
  Proof.
    intros s L xm tol1 d [H1 H2 H3 H4 H5 H6 H7] Exm Et Hlt Hd1 Hd2 b'.
    assert (Htd : delta <= tol1) by (rewrite Et; apply tol1_pos; exact H2).
    assert (Hxm0 : xm <> 0). { intro E. rewrite E, Rabs_R0 in Hlt. lra. }
    assert (Ht : exists t, b' = zb s + t /\ 0 <= t * xm /\ tol1 <= Rabs t /\
                           Rabs t <= 3 / 2 * Rabs xm - tol1 / 2).
    { unfold b'. destruct (Rlt_dec tol1 (Rabs d)) as [Hl|Hl].
      - exists d. split; [reflexivity|]. split; [exact Hd1|lra].
      - destruct (copysign_spec tol1 xm) as [C1 C2]; [lra|exact Hxm0|].
        exists (copysign tol1 xm). split; [reflexivity|]. split; [exact C1|]. rewrite C2. lra. }
    clearbody b'. destruct Ht as (t & -> & T1 & T2 & T3).
    assert (Hl : Rabs (zc s - zb s) = 2 * Rabs xm).
    { replace (zc s - zb s) with (2 * xm) by lra. rewrite Rabs_mult, (Rabs_right 2) by lra. lra. }
    assert (Htc : Rabs (zc s - (zb s + t)) = 2 * Rabs xm - Rabs t).
    { replace (zc s - (zb s + t)) with (2 * xm - t) by lra.
      clear - T1 T2 T3 Htd delta_pos.
      destruct (Rabs_cases xm) as [[X EX]|[X EX]]; destruct (Rabs_cases t) as [[Q EQ]|[Q EQ]];
        destruct (Rabs_cases (2 * xm - t)) as [[Y ->]|[Y ->]]; nra. }
    assert (Hin : lo <= zb s + t <= hi).
    { clear - T1 T2 T3 Htd delta_pos H2 H3 Exm.
      destruct (Rabs_cases xm) as [[X EX]|[X EX]]; destruct (Rabs_cases t) as [[Q EQ]|[Q EQ]]; nra. }
    split; [exact Hin|]. intros e Hb'.
    assert (Hc0 : Fc s <> 0). { intro E. rewrite E in H1. lra. }
    assert (Hb0 : Fb s <> 0). { intro E. rewrite E in H1. lra. }
    unfold rebracket; cbn [za zb zc zd ze Fa Fb Fc].
    destruct (Req_EM_T (copysign (F (zb s + t)) (Fc s)) (F (zb s + t))) as [E|E].
    - apply copysign_same in E; [|exact Hb'|exact Hc0].
      constructor; cbn [za zb zc zd ze Fa Fb Fc]; auto.
      + clear - E H1. assert (A : 0 < Fc s \/ Fc s < 0) by (destruct (Rtotal_order (Fc s) 0) as [|[Z|]]; [right; auto| rewrite Z in H1; lra | left; auto]).
        destruct A; [assert (Fb s < 0) by nra|assert (0 < Fb s) by nra];
          [assert (0 < F (zb s + t)) by nra|assert (F (zb s + t) < 0) by nra]; nra.
      + replace (zb s - (zb s + t)) with (- t) by lra. rewrite Rabs_Ropp. lra.
    - assert (A : ~ 0 < F (zb s + t) * Fc s).
      { intro A. apply E. apply copysign_same; auto. }
      constructor; cbn [za zb zc zd ze Fa Fb Fc]; auto.
      + assert (F (zb s + t) * Fc s <> 0) by (apply Rmult_integral_contrapositive; auto). lra.
      + lra.
  Qed.

  Lemma zloop_ok : forall fuel s L,
    (Fb s <> 0 -> bracket (rebracket s) L) -> lo <= zb s <= hi -> Fb s = F (zb s) ->
    exists o ev, zloop F eps tol fuel s = (o, ev) /\
      Forall (fun y => lo <= y <= hi) ev /\
      ((o = Out_of_fuel /\ INR fuel * (delta / 2) <= L) \/
       exists x, o = Ret x /\ lo <= x <= hi /\
      (F x = 0 \/
       exists c, lo <= c <= hi /\ F x * F c < 0 /\ Rabs (F x) <= Rabs (F c) /\
                 Rabs (c - x) <= 4 * eps * Rabs x + tol)).
  Proof.
    assert (Z : forall s, lo <= zb s <= hi -> Fb s = F (zb s) -> Fb s = 0 -> forall n L,
      ((Ret (zb s) = Out_of_fuel /\ INR n * (delta / 2) <= L) \/
       exists x, Ret (zb s) = Ret x /\ lo <= x <= hi /\
        (F x = 0 \/ exists c, lo <= c <= hi /\ F x * F c < 0 /\ Rabs (F x) <= Rabs (F c) /\
                 Rabs (c - x) <= 4 * eps * Rabs x + tol))).
    { intros s H1 H2 H3 n L. right. exists (zb s). split; [reflexivity|]. split; [exact H1|].
      left. congruence. }
    induction fuel as [|n IH]; intros s L Hbr Hb HF.
    - cbn [zloop]. destruct (Req_EM_T (Fb s) 0) as [E|E].
      + exists (Ret (zb s)), []. split; [reflexivity|]. split; [constructor|]. apply Z; assumption.
      + exists Out_of_fuel, []. split; [reflexivity|]. split; [constructor|]. left.
        split; [reflexivity|]. pose proof (br_len _ _ (Hbr E)).
        pose proof (Rabs_pos (zc (rebracket s) - zb (rebracket s))). cbn [INR]. lra.
    - cbn [zloop]. destruct (Req_EM_T (Fb s) 0) as [E|E].
      { exists (Ret (zb s)), []. split; [reflexivity|]. split; [constructor|]. apply Z; assumption. }
      destruct (order_bracket _ _ (Hbr E)) as [Bs Hord]. clear Hbr Hb HF E.
      set (s1 := order_ends (rebracket s)) in *. clearbody s1. clear s. cbv zeta.
      set (xm := 1 / 2 * (zc s1 - zb s1)).
      set (tol1 := 2 * eps * Rabs (zb s1) + 1 / 2 * tol).
      destruct (Rle_dec (Rabs xm) tol1) as [Hle|Hgt].
      { exists (Ret (zb s1)), []. split; [reflexivity|]. split; [constructor|]. right.
        exists (zb s1). split; [reflexivity|].
        split; [apply (br_b _ _ Bs)|]. right. exists (zc s1).
        split; [apply (br_c _ _ Bs)|]. rewrite <- (br_Fb _ _ Bs), <- (br_Fc _ _ Bs).
        split; [apply (br_sign _ _ Bs)|]. split; [exact Hord|].
        replace (zc s1 - zb s1) with (2 * xm) by (unfold xm; lra).
        rewrite Rabs_mult, (Rabs_right 2) by lra. unfold tol1 in Hle. lra. }
      destruct (Req_EM_T (Fb s1) 0) as [E|E].
      { exfalso. pose proof (br_sign _ _ Bs) as H. rewrite E in H. lra. }
      assert (Htd : delta <= tol1) by (apply tol1_pos; apply (br_b _ _ Bs)).
      destruct (choose_ok s1 L xm tol1 Bs) as (d & e & Hch & D1 & D2); [lra|lra|].
      rewrite Hch.
      destruct (iterate s1 L xm tol1 d Bs) as [Hin Hnext]; auto; [lra|].
      set (b' := if Rlt_dec tol1 (Rabs d) then zb s1 + d else zb s1 + copysign tol1 xm) in *.
      clearbody b'.
      destruct (IH {| za := zb s1; zb := b'; zc := zc s1; zd := d; ze := e;
                      Fa := Fb s1; Fb := F b'; Fc := Fc s1 |} (L - delta / 2))
        as (o & ev & Hz & Hev & Hres).
      + intro Hn. apply Hnext. exact Hn.
      + exact Hin.
      + reflexivity.
      + rewrite Hz. exists o, (b' :: ev). split; [reflexivity|]. split; [constructor; assumption|].
        destruct Hres as [[Ho Hf]|Hres]; [left|right; exact Hres].
        split; [exact Ho|]. rewrite S_INR. lra.
  Qed.
End Proof.

(** ** The property *)

(** End points with the same sign are rejected. *)
Theorem zeroIn_rejects_same_sign : forall F eps tol fuel a b,
  0 < F a * F b -> zeroIn F eps tol fuel a b = (Throw, [a; b]).
Proof.
  intros F eps tol fuel a b H. unfold zeroIn.
  destruct (Req_EM_T (F a) 0) as [E|Ea]; [rewrite E in H; lra|].
  destruct (Req_EM_T (F b) 0) as [E|Eb]; [rewrite E in H; lra|].
  destruct (Req_EM_T (copysign (F a) (F b)) (F a)) as [E|E]; [reflexivity|].
  exfalso. apply E. apply copysign_same; auto.
Qed.

(** What the value returned for end points a, b is allowed to be: x in [a,b] which is a zero, or for
    which a c in [a,b] exists such that F changes sign between x and c, c is within the tolerance of
    x and has no smaller residual. *)
Definition good_value (F : R -> R) (eps tol a b x : R) : Prop :=
  between a b x /\
  exists c, between a b c /\ sign_change F x c /\ Rabs (F x) <= Rabs (F c) /\
            Rabs (c - x) <= 4 * eps * Rabs x + tol.

Lemma zeroIn_general : forall F eps tol delta fuel a b,
  0 <= delta -> (forall x, between a b x -> delta <= 2 * eps * Rabs x + 1 / 2 * tol) ->
  F a * F b <= 0 ->
  exists o ev, zeroIn F eps tol fuel a b = (o, ev) /\ Forall (between a b) ev /\
    ((o = Out_of_fuel /\ INR fuel * (delta / 2) <= Rabs (b - a)) \/
     exists x, o = Ret x /\ good_value F eps tol a b x).
Proof.
  intros F eps tol delta fuel a b Hd Htol Hs.
  assert (Ba : between a b a) by (unfold between, Rmin, Rmax; destruct (Rle_dec a b); lra).
  assert (Bb : between a b b) by (unfold between, Rmin, Rmax; destruct (Rle_dec a b); lra).
  assert (Z : forall x, between a b x -> F x = 0 -> good_value F eps tol a b x).
  { intros x Hx E. split; [exact Hx|]. exists x. split; [exact Hx|]. split; [left; exact E|].
    split; [lra|].
    rewrite Rminus_diag_eq by reflexivity. rewrite Rabs_R0. specialize (Htol x Hx). lra. }
  unfold zeroIn.
  destruct (Req_EM_T (F a) 0) as [Ea|Ea].
  { exists (Ret a), [a]. split; [reflexivity|]. split; [constructor; [exact Ba|constructor]|].
    right. exists a. split; [reflexivity|]. apply Z; assumption. }
  destruct (Req_EM_T (F b) 0) as [Eb|Eb].
  { exists (Ret b), [a; b]. split; [reflexivity|].
    split; [constructor; [exact Ba|constructor; [exact Bb|constructor]]|].
    right. exists b. split; [reflexivity|]. apply Z; assumption. }
  destruct (Req_EM_T (copysign (F a) (F b)) (F a)) as [E|E].
  { apply copysign_same in E; auto. lra. }
  destruct (zloop_ok F eps tol delta (Rmin a b) (Rmax a b) Htol Hd fuel
              {| za := a; zb := b; zc := a; zd := b - a; ze := b - a;
                 Fa := F a; Fb := F b; Fc := F a |} (Rabs (b - a)))
    as (o & ev & Hz & Hev & Hres); cbn [za zb zc zd ze Fa Fb Fc]; auto.
  { intros _. unfold rebracket; cbn [za zb zc zd ze Fa Fb Fc].
    assert (Hlt : F b * F a < 0).
    { assert (F a * F b <> 0) by (apply Rmult_integral_contrapositive; auto). lra. }
    destruct (Req_EM_T (copysign (F b) (F a)) (F b)); constructor; cbn [za zb zc zd ze Fa Fb Fc];
      auto; rewrite Rabs_minus_sym; lra. }
  rewrite Hz. exists o, (a :: b :: ev). split; [reflexivity|].
  split; [constructor; [exact Ba|constructor; [exact Bb|exact Hev]]|].
  destruct Hres as [Ho|(x & Ho & Hx & Hres)]; [left; exact Ho|].
  right. exists x. split; [exact Ho|].
  destruct Hres as [E0|(c & C1 & C2 & C3 & C4)]; [apply Z; assumption|].
  split; [exact Hx|]. exists c. split; [exact C1|]. split; [right; exact C2|]. split; assumption.
Qed.

(** With a sign change on [a,b] every point at which F is evaluated lies in [a,b], no division by
    zero and no exception occurs, and a value that is returned is good: this holds for every
    tolerance tol >= 0 and however many iterations are made. *)
Theorem zeroIn_safe : forall F eps tol fuel a b o ev,
  0 <= eps -> 0 <= tol -> F a * F b <= 0 -> zeroIn F eps tol fuel a b = (o, ev) ->
  Forall (between a b) ev /\ (o = Out_of_fuel \/ exists x, o = Ret x /\ good_value F eps tol a b x).
Proof.
  intros F eps tol fuel a b o ev He Ht Hs Hz.
  destruct (zeroIn_general F eps tol 0 fuel a b) as (o' & ev' & Hz' & Hev & Hres); auto.
  - lra.
  - intros x _. pose proof (Rabs_pos x). nra.
  - rewrite Hz in Hz'. injection Hz' as <- <-. split; [exact Hev|].
    destruct Hres as [[Ho _]|Hres]; [left; exact Ho|right; exact Hres].
Qed.

(** Termination: [delta] is a positive lower bound of the local tolerance 2 eps |x| + tol/2 on
    [a,b].  For tol > 0 it can be taken to be tol/2, see [zeroIn_terminates_tol]; for tol = 0 it
    exists if [a,b] does not contain 0. *)
Theorem zeroIn_correct : forall F eps tol delta fuel a b,
  0 < delta -> (forall x, between a b x -> delta <= 2 * eps * Rabs x + 1 / 2 * tol) ->
  F a * F b <= 0 -> Rabs (b - a) < INR fuel * (delta / 2) ->
  exists x ev, zeroIn F eps tol fuel a b = (Ret x, ev) /\
    Forall (between a b) ev /\ good_value F eps tol a b x.
Proof.
  intros F eps tol delta fuel a b Hd Htol Hs Hfuel.
  destruct (zeroIn_general F eps tol delta fuel a b) as (o & ev & Hz & Hev & Hres); auto; [lra|].
  destruct Hres as [[_ H]|(x & -> & Hx)]; [lra|]. exists x, ev. auto.
Qed.

(** If F is continuous on [a,b], a good value is within the tolerance of a root in [a,b]. *)
Theorem good_value_near_root : forall F eps tol a b x,
  0 <= eps -> 0 <= tol -> good_value F eps tol a b x ->
  (forall y, between a b y -> continuity_pt F y) ->
  exists z, between a b z /\ F z = 0 /\ Rabs (x - z) <= 4 * eps * Rabs x + tol.
Proof.
  intros F eps tol a b x He Ht (Hx & c & Bc & Sc & _ & Hdist) Hc.
  destruct Sc as [E|E].
  { exists x. split; [exact Hx|]. split; [exact E|].
    replace (x - x) with 0 by lra. rewrite Rabs_R0. pose proof (Rabs_pos x). nra. }
  assert (G : exists z, between x c z /\ F z = 0).
  { assert (Hsub : forall y, between x c y -> continuity_pt F y).
    { intros y Hy. apply Hc. clear - Hy Hx Bc. unfold between, Rmin, Rmax in *.
      destruct (Rle_dec x c), (Rle_dec a b); lra. }
    assert (IVT : forall u v G, (forall y, u <= y <= v -> continuity_pt G y) -> u < v ->
      G u * G v < 0 -> exists z, u <= z <= v /\ G z = 0).
    { clear. intros u v G Hcont Huv Hsgn.
      destruct (Rtotal_order (G u) 0) as [N|[N|N]].
      - destruct (IVT_interv G u v Hcont Huv) as (z & Hz1 & Hz2); [exact N|nra|]. exists z; auto.
      - rewrite N in Hsgn. lra.
      - destruct (IVT_interv (fun y => - G y) u v) as (z & Hz1 & Hz2); [|exact Huv|lra|nra|].
        + intros y Hy. apply (continuity_pt_opp G y). apply Hcont. exact Hy.
        + exists z. split; [exact Hz1|]. lra. }
    destruct (Rtotal_order x c) as [N|[N|N]].
    - destruct (IVT x c F) as (z & Hz1 & Hz2); auto.
      + intros y Hy. apply Hsub. unfold between, Rmin, Rmax. destruct (Rle_dec x c); lra.
      + exists z. split; [|exact Hz2]. unfold between, Rmin, Rmax. destruct (Rle_dec x c); lra.
    - subst c. nra.
    - destruct (IVT c x F) as (z & Hz1 & Hz2); auto; [|lra|].
      + intros y Hy. apply Hsub. unfold between, Rmin, Rmax. destruct (Rle_dec x c); lra.
      + exists z. split; [|exact Hz2]. unfold between, Rmin, Rmax. destruct (Rle_dec x c); lra. }
  destruct G as (z & Bz & Fz). exists z.
  split; [|split; [exact Fz|]].
  - clear - Bz Hx Bc. unfold between, Rmin, Rmax in *. destruct (Rle_dec x c), (Rle_dec a b); lra.
  - apply Rle_trans with (Rabs (c - x)); [|exact Hdist].
    clear - Bz. unfold between, Rmin, Rmax in Bz.
    destruct (Rabs_cases (x - z)) as [[? ->]|[? ->]]; destruct (Rabs_cases (c - x)) as [[? ->]|[? ->]];
      destruct (Rle_dec x c); lra.
Qed.

(** Both together. *)
Theorem zeroIn_near_root : forall F eps tol delta fuel a b,
  0 <= eps -> 0 <= tol ->
  0 < delta -> (forall x, between a b x -> delta <= 2 * eps * Rabs x + 1 / 2 * tol) ->
  F a * F b <= 0 -> Rabs (b - a) < INR fuel * (delta / 2) ->
  (forall x, between a b x -> continuity_pt F x) ->
  exists x ev z, zeroIn F eps tol fuel a b = (Ret x, ev) /\
    between a b z /\ F z = 0 /\ Rabs (x - z) <= 4 * eps * Rabs x + tol.
Proof.
  intros F eps tol delta fuel a b He Ht Hd Htol Hs Hfuel Hc.
  destruct (zeroIn_correct F eps tol delta fuel a b Hd Htol Hs Hfuel) as (x & ev & Hz & _ & Hx).
  destruct (good_value_near_root F eps tol a b x He Ht Hx Hc) as (z & Hzz).
  exists x, ev, z. split; [exact Hz|exact Hzz].
Qed.

(** For a positive tolerance the number of iterations is bounded by 4 |b-a| / tol + 1. *)
Theorem zeroIn_terminates_tol : forall F eps tol fuel a b,
  0 <= eps -> 0 < tol -> F a * F b <= 0 -> 4 * Rabs (b - a) / tol < INR fuel ->
  exists x ev, zeroIn F eps tol fuel a b = (Ret x, ev).
Proof.
  intros F eps tol fuel a b He Ht Hs Hf.
  destruct (zeroIn_correct F eps tol (tol / 2) fuel a b) as (x & ev & Hz & _); auto.
  - lra.
  - intros x _. pose proof (Rabs_pos x). nra.
  - apply (Rmult_lt_compat_r (tol / 4)) in Hf; [|lra].
    replace (4 * Rabs (b - a) / tol * (tol / 4)) with (Rabs (b - a)) in Hf by (field; lra). lra.
  - exists x, ev. exact Hz.
Qed.

(** A value that is returned within some number of iterations is returned for every larger bound,
    so the bound is not part of the result. *)
Theorem zeroIn_fuel_irrelevant : forall F eps tol n m a b r ev,
  (n <= m)%nat -> zeroIn F eps tol n a b = (r, ev) -> r <> Out_of_fuel ->
  zeroIn F eps tol m a b = (r, ev).
Proof.
  intros F eps tol n m a b r ev Hnm.
  assert (G : forall n m s r ev, (n <= m)%nat -> zloop F eps tol n s = (r, ev) ->
                r <> Out_of_fuel -> zloop F eps tol m s = (r, ev)).
  { clear. induction n as [|n IH]; intros m s r ev Hnm Hz Hr.
    - destruct m; cbn [zloop] in *; destruct (Req_EM_T (Fb s) 0); auto; congruence.
    - destruct m as [|m]; [lia|]. cbn [zloop] in *. cbv zeta in *.
      destruct (Req_EM_T (Fb s) 0); auto.
      set (s1 := order_ends (rebracket s)) in *. clearbody s1.
      destruct (Rle_dec _ _); auto. destruct (Req_EM_T (Fb s1) 0); auto.
      destruct (choose _ _ _) as [[d e]|]; auto.
      match goal with |- context [zloop F eps tol m ?X] => set (s2 := X) in * end.
      destruct (zloop F eps tol n s2) as [r' ev'] eqn:E.
      rewrite (IH m s2 r' ev'); auto; [lia|congruence]. }
  unfold zeroIn. destruct (Req_EM_T (F a) 0); auto. destruct (Req_EM_T (F b) 0); auto.
  destruct (Req_EM_T _ _); auto.
  match goal with |- context [zloop F eps tol m ?X] => set (s2 := X) in * end.
  destruct (zloop F eps tol n s2) as [r' ev'] eqn:E. intros Hz Hr.
  rewrite (G n m s2 r' ev'); auto; congruence.
Qed.

Lemma INR_archimed_ex : forall r : R, exists n : nat, r < INR n.
Proof.
  intro r. destruct (archimed r) as [H _]. exists (Z.to_nat (up r)).
  apply Rlt_le_trans with (IZR (up r)); [exact H|].
  rewrite INR_IZR_INZ. apply IZR_le. lia.
Qed.

(** The hypotheses are met by F(x) = x^3 - 2 on [1, 2] with tolerance 0 and eps = 2^-52. *)
Example zeroIn_correct_example :
  exists fuel, exists x ev z,
    zeroIn (fun x => x * x * x - 2) (/ 4503599627370496) 0 fuel 1 2 = (Ret x, ev) /\
    between 1 2 z /\ z * z * z - 2 = 0 /\ Rabs (x - z) <= 4 * / 4503599627370496 * Rabs x + 0.
Proof.
  set (e := / 4503599627370496). assert (He : 0 < e) by (unfold e; lra). clearbody e.
  destruct (INR_archimed_ex (1 / e)) as [fuel Hf]. exists fuel.
  apply (zeroIn_near_root (fun x => x * x * x - 2) e 0 (2 * e) fuel 1 2); try lra.
  - intros x Hx. unfold between, Rmin, Rmax in Hx. destruct (Rle_dec 1 2); [|lra].
    rewrite Rabs_right by lra. nra.
  - apply (Rmult_lt_compat_r e) in Hf; [|lra]. replace (1 / e * e) with 1 in Hf by (field; lra).
    rewrite Rabs_right by lra. lra.
  - intros x _. reg.
Qed.

Example zeroIn_rejects_example : zeroIn (fun x => x * x + 1) 0 1 10 0 1 = (Throw, [0; 1]).
Proof. apply zeroIn_rejects_same_sign. lra. Qed.

Print Assumptions zeroIn_rejects_same_sign.
Print Assumptions zeroIn_correct.
Print Assumptions zeroIn_near_root.
Print Assumptions zeroIn_safe.
Print Assumptions good_value_near_root.
Print Assumptions zeroIn_terminates_tol.
Print Assumptions zeroIn_fuel_irrelevant.
