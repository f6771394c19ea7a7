(** Sharpness of the inverse trace inequality: a polynomial of degree at least one that attains it on
    all facets of the simplex is zero; polynomials with vanishing squares or gradients (C81). *)
Require Import List Arith Lia Bool Reals Lra Psatz.
Require Import Verif.Base Verif.LinAlg Verif.SimplexModel Verif.PoissonModel Verif.CoerciveProps Verif.GeometryModel Verif.MeshSpec
  Verif.BasisModel Verif.BasisSpec Verif.JacobiProofs Verif.IntegralSpec Verif.IntegralProofs Verif.OrthogonalProofs Verif.QuadratureModel Verif.QuadratureSpec Verif.QuadratureProps
  Verif.DubinerProofs Verif.SpanProofs Verif.ErrorExactProps Verif.RootsProps Verif.TraceProofs Verif.NodesConform Verif.DegreeSpec Verif.DegreeProofs Verif.DivergenceProofs.
Import ListNotations.
Local Open Scope R_scope.

(** A polynomial whose square has integral zero is zero. *)
Lemma square_zero D n p : (D = 1 \/ D = 2 \/ D = 3)%nat -> polynomial D n p -> is_simplex_integral D (fun x => p x * p x) 0 -> forall x, p x = 0.
Proof.
  intros HD Hp HI. destruct (multiindices_exist D n ltac:(lia)) as (js & Hjs). destruct (phi_span D n js ltac:(lia) Hjs p Hp) as (c & E).
  assert (E' : forall x, p x = rsum (length js) (fun j => c j * dub D (nth j js []) x)) by (intro x; rewrite E; apply rsum_ext; intros; now rewrite DubinerP_dub).
  pose proof (parseval D n js c HD Hjs) as PV.
  assert (HI' : is_simplex_integral D (fun x => p x * p x) (rsum (length js) (fun j => c j * c j * dub_norm D (nth j js [])))).
  { eapply simplex_ext; [| reflexivity | exact PV]. intros. cbv beta. now rewrite !E'. }
  pose proof (simplex_integral_unique D _ _ _ ltac:(lia) HI' HI) as Z.
  assert (C : forall j, (j < length js)%nat -> c j * c j * dub_norm D (nth j js []) = 0).
  { apply rsum_nonneg_zero; [|exact Z]. intros j _. pose proof (dub_norm_pos D (nth j js [])). pose proof (Rle_0_sqr (c j)) as S. unfold Rsqr in S. nra. }
  intro x. rewrite E'. apply rsum_zero. intros j Hj. specialize (C j Hj). pose proof (dub_norm_pos D (nth j js [])) as P.
  assert (c j = 0); [|rewrite H; ring]. destruct (Rmult_integral _ _ C) as [H|H]; [destruct (Rmult_integral _ _ H); auto|lra].
Qed.
Lemma mono_poly D d p q r : (D = 2 \/ D = 3)%nat -> expo D d (p, q, r) -> polynomial D d (mono p q r).
Proof.
  intros HD (H1 & _ & H3). assert (PW : forall e n, (e < D)%nat -> polynomial D n (fun x => x e ^ n)).
  { intros e n He. induction n as [|n IH]; [cbn; apply poly_const|]. apply (poly_eq D (1 + n) (fun x => x e * x e ^ n)); [reflexivity|]. apply (poly_mult D 1 n (fun x => x e)); [apply poly_coord; exact He|exact IH]. }
  apply (poly_le D (p + q + r)); [exact H1|]. unfold mono. destruct HD as [-> | ->].
  - assert (r = 0%nat) by auto. subst r. apply (poly_mult 2 (p + q) 0 (fun x => x 0%nat ^ p * x 1%nat ^ q) (fun _ => 1)); [|apply poly_const].
    apply (poly_mult 2 p q (fun x => x 0%nat ^ p)); apply PW; lia.
  - apply (poly_mult 3 (p + q) r (fun x => x 0%nat ^ p * x 1%nat ^ q) (fun x => x 2%nat ^ r)); [|apply PW; lia].
    apply (poly_mult 3 p q (fun x => x 0%nat ^ p)); apply PW; lia.
Qed.
(** The coordinate that vanishes on facet s. *)
Definition bary (D s : nat) (x : nat -> R) : R := if (s =? D)%nat then 1 - rsum D x else x (D - 1 - s)%nat.
Lemma bary_facet D s chi : (D = 2 \/ D = 3)%nat -> (s < D + 1)%nat -> bary D s (facet_param D (ref_facet D s) chi) = 0.
Proof.
  intros HD Hs. unfold bary. destruct HD as [-> | ->].
  - destruct ref_facets_2 as (E0 & E1 & E2). destruct s as [|[|[|s]]]; try lia; rewrite ?E0, ?E1, ?E2; cbn; unfold facet_param, ref_vertex; cbn; ring.
  - destruct ref_facets_3 as (E0 & E1 & E2 & E3). destruct s as [|[|[|[|s]]]]; try lia; rewrite ?E0, ?E1, ?E2, ?E3; cbn; unfold facet_param, ref_vertex; cbn; ring.
Qed.
Lemma bary_poly D s : (0 < D)%nat -> polynomial D 1 (bary D s).
Proof.
  intro HD. unfold bary. destruct (s =? D)%nat.
  - apply (poly_eq D 1 (fun x => 1 + (-1) * rsum D (fun i => x i))); [intro x; change (fun i => x i) with x; ring|]. apply poly_plus; [apply poly_const|]. apply poly_scale. apply poly_rsum. intros i Hi. apply poly_coord. exact Hi.
  - apply poly_coord. lia.
Qed.
Lemma bary_one D x : (D = 2 \/ D = 3)%nat -> rsum (D + 1) (fun s => bary D s x) = 1.
Proof. intros [-> | ->]; cbn; unfold bary; cbn; ring. Qed.

Section Sharp.
Variables (D k : nat) (xi chi : nat -> nat -> R) (phi : nat -> (nat -> R) -> R) (R_ : pdata).
Hypothesis HD : (D = 2 \/ D = 3)%nat.
Hypothesis RD : reference_of_degree D k xi chi phi R_.
Local Notation Fp s q := (facet_param D (ref_facet D s) (chi q)).
Definition over (f : (nat -> R) -> R) : R := rsum (p_Nq R_) (fun q => p_W R_ q * f (xi q)).
Definition over_facet (s : nat) (f : (nat -> R) -> R) : R := rsum (p_nq R_) (fun q => p_w R_ q * f (Fp s q)).
Lemma over_zero n p : (n <= k)%nat -> polynomial D n p -> over (fun x => p x * p x) = 0 -> forall x, p x = 0.
Proof.
  intros Hn Hp Z. apply (square_zero D n p ltac:(lia) Hp). rewrite <- Z. apply (rd_volume _ _ _ _ _ _ RD (fun x => p x * p x)). eapply poly_le; [|apply poly_mult; exact Hp]. lia.
Qed.
Lemma over_facet_zero n s p : (n <= k)%nat -> polynomial D n p -> over_facet s (fun x => p x * p x) = 0 -> forall c, p (facet_param D (ref_facet D s) c) = 0.
Proof.
  intros Hn Hp Z. pose proof (facet_points D HD s p n Hp) as Hq. cbv beta in Hq. apply (square_zero (D - 1) n (fun c => p (facet_param D (ref_facet D s) c)) ltac:(lia) Hq).
  rewrite <- Z. apply (rd_facet _ _ _ _ _ _ RD (fun c => p (facet_param D (ref_facet D s) c) * p (facet_param D (ref_facet D s) c))). eapply poly_le; [|apply poly_mult; exact Hq]. lia.
Qed.
Definition sharp_constant (n : nat) : R := inverse_trace D n * rsum (p_nq R_) (p_w R_) / rsum (p_Nq R_) (p_W R_).
Definition gap (n s : nat) (p z : (nat -> R) -> R) : R := sharp_constant n * over (fun x => p x * z x) - over_facet s (fun x => p x * z x).
Lemma gap_nonneg n s p : (n <= k)%nat -> (s < D + 1)%nat -> polynomial D n p -> 0 <= gap n s p p.
Proof.
  intros Hn Hs Hp. pose proof (squares_trace D k xi chi phi R_ HD RD n s (fun x => p x * p x) Hn Hs (sq_one D n p _ Hp (fun x => eq_refl))) as T.
  pose proof (weight_pos D k xi chi phi R_ HD RD) as W. unfold gap, sharp_constant. 
  change (over_facet s (fun x => p x * p x) * rsum (p_Nq R_) (p_W R_) <= inverse_trace D n * rsum (p_nq R_) (p_w R_) * over (fun x => p x * p x)) in T.
  apply (Rmult_le_reg_r (rsum (p_Nq R_) (p_W R_))); [exact W|]. rewrite Rmult_0_l, Rmult_minus_distr_r.
  replace (inverse_trace D n * rsum (p_nq R_) (p_w R_) / rsum (p_Nq R_) (p_W R_) * over (fun x => p x * p x) * rsum (p_Nq R_) (p_W R_)) with (inverse_trace D n * rsum (p_nq R_) (p_w R_) * over (fun x => p x * p x)) by (field; lra). lra.
Qed.
Lemma gap_expand n s p z t : gap n s (fun x => p x + t * z x) (fun x => p x + t * z x) = gap n s p p + 2 * t * gap n s p z + t * t * gap n s z z.
Proof.
  unfold gap, over, over_facet.
  rewrite (rsum_ext (p_Nq R_) (fun q => p_W R_ q * ((p (xi q) + t * z (xi q)) * _)) (fun q => p_W R_ q * (p (xi q) * p (xi q)) + (2 * t * (p_W R_ q * (p (xi q) * z (xi q))) + t * t * (p_W R_ q * (z (xi q) * z (xi q)))))) by (intros; ring).
  rewrite (rsum_ext (p_nq R_) (fun q => p_w R_ q * ((p (Fp s q) + t * z (Fp s q)) * _)) (fun q => p_w R_ q * (p (Fp s q) * p (Fp s q)) + (2 * t * (p_w R_ q * (p (Fp s q) * z (Fp s q))) + t * t * (p_w R_ q * (z (Fp s q) * z (Fp s q)))))) by (intros; ring).
  rewrite !rsum_plus, !rsum_scale. ring.
Qed.
Lemma gap_orthogonal n s p z : (n <= k)%nat -> (s < D + 1)%nat -> polynomial D n p -> polynomial D n z -> gap n s p p = 0 -> gap n s p z = 0.
Proof.
  intros Hn Hs Hp Hz Z. pose proof (gap_nonneg n s z Hn Hs Hz) as G2. set (b := gap n s p z). set (B := gap n s z z) in *.
  set (t := - b / (B + 1)). pose proof (gap_nonneg n s (fun x => p x + t * z x) Hn Hs ltac:(apply poly_plus; [exact Hp|apply poly_scale; exact Hz])) as G.
  rewrite gap_expand, Z in G. fold b B in G. assert (E : (0 + 2 * t * b + t * t * B) * ((B + 1) * (B + 1)) = - (b * b) * (B + 2)) by (unfold t; field; lra).
  assert (0 <= - (b * b) * (B + 2)) by (rewrite <- E; apply Rmult_le_pos; nra). nra.
Qed.
(** The inequality is attained on all facets only by zero. *)
Theorem sharp_zero n p : (1 <= n)%nat -> (n <= k)%nat -> polynomial D n p -> (forall s, (s < D + 1)%nat -> gap n s p p = 0) -> forall x, p x = 0.
Proof.
  intros H1 Hn Hp Z. pose proof (weight_pos D k xi chi phi R_ HD RD) as W.
  assert (Cp : sharp_constant n <> 0).
  { unfold sharp_constant. pose proof (ref_area D k xi chi phi R_ HD RD) as A. assert (rsum (p_nq R_) (p_w R_) <> 0) by (intro E; rewrite E in A; lra).
    assert (0 < inverse_trace D n) by (unfold inverse_trace; apply Rdiv_lt_0_compat; [apply Rmult_lt_0_compat|]; apply lt_0_INR; lia).
    apply Rmult_integral_contrapositive. split; [nra|apply Rinv_neq_0_compat; lra]. }
  (* orthogonal to what has a factor that vanishes on a facet *)
  assert (L : forall s y, (s < D + 1)%nat -> polynomial D (n - 1) y -> over (fun x => p x * (bary D s x * y x)) = 0).
  { intros s y Hs Hy. pose proof (gap_orthogonal n s p (fun x => bary D s x * y x) Hn Hs Hp) as Gp.
    assert (Pz : polynomial D n (fun x => bary D s x * y x)) by (apply (poly_le D (1 + (n - 1))); [lia|]; apply poly_mult; [apply bary_poly; lia|exact Hy]).
    specialize (Gp Pz (Z s Hs)). unfold gap in Gp. unfold over_facet in Gp. rewrite rsum_zero in Gp by (intros q _; rewrite bary_facet by auto; ring).
    rewrite Rminus_0_r in Gp. destruct (Rmult_integral _ _ Gp); [contradiction|auto]. }
  assert (C : over (fun x => p x * 1) = 0).
  { transitivity (rsum (D + 1) (fun s => over (fun x => p x * (bary D s x * 1)))).
    - unfold over. rewrite rsum_swap. apply rsum_ext. intros q _.
      rewrite (rsum_ext (D + 1) _ (fun s => p_W R_ q * p (xi q) * bary D s (xi q))) by (intros; ring). rewrite rsum_scale, bary_one by auto. ring.
    - apply rsum_zero. intros s Hs. apply (L s (fun _ => 1) Hs). apply poly_const. }
  assert (M : forall a b c, expo D n (a, b, c) -> over (fun x => p x * mono a b c x) = 0).
  { intros a b c X. pose proof X as (X1 & _ & X3).
    assert (Q : forall e y, (e < D)%nat -> polynomial D (n - 1) y -> (forall x, mono a b c x = x e * y x) -> over (fun x => p x * mono a b c x) = 0).
    { intros e y He Hy Ey. transitivity (over (fun x => p x * (bary D (D - 1 - e) x * y x))); [|apply L; [lia|exact Hy]].
      apply rsum_ext. intros q _. rewrite Ey. unfold bary. destruct (Nat.eqb_spec (D - 1 - e) D); [lia|]. replace (D - 1 - (D - 1 - e))%nat with e by lia. reflexivity. }
    destruct a as [|a].
    - destruct b as [|b].
      + destruct c as [|c].
        * rewrite <- C. apply rsum_ext. intros. unfold mono. cbn. ring.
        * assert (3 <= D)%nat by (destruct (le_lt_dec 3 D); auto; specialize (X3 l); lia). apply (Q 2%nat (mono 0 0 c)); [lia| |intro; unfold mono; cbn; ring].
          apply mono_poly; auto. cbn. repeat split; lia.
      + apply (Q 1%nat (mono 0 b c)); [lia| |intro; unfold mono; cbn; ring]. apply mono_poly; auto. cbn. repeat split; lia.
    - apply (Q 0%nat (mono a b c)); [lia| |intro; unfold mono; cbn; ring]. apply mono_poly; auto. cbn. repeat split; lia. }
  apply (over_zero n p Hn Hp). destruct (polynomial_monos D ltac:(lia) n p Hp) as (l & Hl & E).
  assert (MS : over (fun x => p x * msum l x) = 0).
  { clear E. induction l as [|[v [[a b] c]] l IH].
    - apply rsum_zero. intros. cbn. ring.
    - transitivity (v * over (fun x => p x * mono a b c x) + over (fun x => p x * msum l x)).
      + unfold over. rewrite <- rsum_scale, <- rsum_plus. apply rsum_ext. intros. change (msum ((v, (a, b, c)) :: l) (xi i)) with (v * mono a b c (xi i) + msum l (xi i)). ring.
      + rewrite (M a b c) by (apply (Hl (v, (a, b, c))); left; reflexivity). rewrite IH; [ring|]. intros t Ht. apply Hl. right. exact Ht. }
  rewrite <- MS. apply rsum_ext. intros. now rewrite <- E.
Qed.
End Sharp.

(** A polynomial whose partial derivatives vanish is constant. *)
Lemma partials_zero D d p : (D = 2 \/ D = 3)%nat -> polynomial D d p -> (forall e x, (e < D)%nat -> partial_derivative p e x 0) -> forall x y, p x = p y.
Proof.
  intros HD Hp Z. assert (L : forall e x t, (e < D)%nat -> p (with_coord x e t) = p x).
  { intros e x t He. set (f u := p (with_coord x e u)).
    assert (Df : forall u, derivable_pt_lim f u 0).
    { intro u. specialize (Z e (with_coord x e u) He). unfold partial_derivative in Z. assert (Eu : with_coord x e u e = u) by (unfold with_coord; now rewrite Nat.eqb_refl). rewrite Eu in Z.
      apply (derivable_pt_lim_ext_eq (fun t0 => p (with_coord (with_coord x e u) e t0)) f u 0 0); [|reflexivity|exact Z]. intro v. unfold f. f_equal. apply FunctionalExtensionality.functional_extensionality. intro d'. unfold with_coord. destruct (d' =? e)%nat; reflexivity. }
    assert (Cf : forall u v, f u = f v).
    { intros u v. assert (pr : derivable f) by (intro u'; exists 0; apply Df). apply (null_derivative_1 f pr). intro u'. apply derive_pt_eq_0. apply Df. }
    transitivity (f (x e)); [apply Cf|]. unfold f. apply (poly_ext D d p Hp). intros e' _. unfold with_coord. destruct (Nat.eqb_spec e' e); [subst; reflexivity|reflexivity]. }
  intros x y. destruct HD as [-> | ->].
  - rewrite <- (L 0%nat x (y 0%nat)), <- (L 1%nat (with_coord x 0 (y 0%nat)) (y 1%nat)) by lia. apply (poly_ext 2 d p Hp). intros [|[|e]] He; [reflexivity|reflexivity|lia].
  - rewrite <- (L 0%nat x (y 0%nat)), <- (L 1%nat (with_coord x 0 (y 0%nat)) (y 1%nat)), <- (L 2%nat (with_coord (with_coord x 0 (y 0%nat)) 1 (y 1%nat)) (y 2%nat)) by lia.
    apply (poly_ext 3 d p Hp). intros [|[|[|e]]] He; [reflexivity|reflexivity|reflexivity|lia].
Qed.
