(** Property C74: moment rates of fault faces. *)
Require Import List Arith Bool Reals Lra Lia.
Require Import Verif.Base Verif.LinAlg Verif.TopoModel Verif.FaultModel Verif.PoissonModel Verif.ElasticityModel Verif.FaultOdeModel Verif.FaultOdeSpec Verif.ElasticModeProps.
Import ListNotations.
Local Open Scope R_scope.

Section Moment.
Variables (dim nq : nat) (FS : fault_space) (nl : nat -> nat -> R) (info : nat -> facet_info).
Local Notation nbf := (fs_nbf FS).
(** Component [t] of the slip rate at point q of fault face f, for nodal values V. *)
Definition slip_rate_at (V : nat -> R) (f t q : nat) : R := rsum nbf (fun l => V (entry nbf dim f l t) * fs_e FS l q).

Lemma kernel_integral : forall f V mu t,
  moment_rate_kernel nq FS (nl f) (fun i => V (f * (nbf * dim) + i)%nat) mu t = face_integral nq (fs_w FS) (nl f) (fun q => mu q * slip_rate_at V f t q).
Proof.
  intros. unfold moment_rate_kernel, face_integral, slip_rate_at. apply rsum_ext. intros q _.
  rewrite <- (rsum_scale nbf (mu q)), <- (rsum_scale nbf (fs_w FS q * nl f q)). apply rsum_ext. intros l _.
  replace (f * (nbf * dim) + (l + nbf * t))%nat with (entry nbf dim f l t) by (unfold entry; nia). ring.
Qed.

Lemma concat_blocks : forall (A : Type) (d : A) k (l : list (list A)), (forall x, In x l -> length x = k) ->
  length (concat l) = (length l * k)%nat /\
  forall f i, (f < length l)%nat -> (i < k)%nat -> nth (f * k + i) (concat l) d = nth i (nth f l []) d.
Proof.
  induction l as [|x l IH]; intro H; cbn [concat length].
  - split; [reflexivity|intros; lia].
  - destruct IH as [I1 I2]; [intros; apply H; right; assumption|]. assert (Lx : length x = k) by (apply H; left; reflexivity).
    rewrite app_length, I1, Lx. split; [cbn; lia|]. intros [|f] i F I.
    + cbn [Nat.mul Nat.add nth]. rewrite app_nth1 by lia. reflexivity.
    + rewrite app_nth2 by (rewrite Lx; cbn; lia). rewrite Lx. replace (Datatypes.S f * k + i - k)%nat with (f * k + i)%nat by (cbn; lia).
      cbn [nth]. apply I2; lia.
Qed.

Lemma map_opt_seq : forall (A : Type) (g : nat -> option A) n l, map_opt g (seq 0 n) = Some l ->
  length l = n /\ forall i d, (i < n)%nat -> g i = Some (nth i l d).
Proof.
  intros A g n l H.
  assert (G : forall s n l, map_opt g (seq s n) = Some l -> length l = n /\ forall i d, (i < n)%nat -> g (s + i)%nat = Some (nth i l d)).
  { clear. intros s n. revert s. induction n as [|n IH]; intros s l H; cbn in H.
    - injection H as <-. split; [reflexivity|intros; lia].
    - unfold Base.bind in H. destruct (g s) as [x|] eqn:E; [|discriminate]. cbn in H. destruct (map_opt g (seq (Datatypes.S s) n)) as [r|] eqn:E2; [|discriminate].
      cbn in H. injection H as <-. destruct (IH _ _ E2) as [I1 I2]. split; [cbn; lia|]. intros [|i] d Hi.
      + rewrite Nat.add_0_r. exact E.
      + cbn [nth]. rewrite <- I2 by lia. f_equal. lia. }
  destruct (G 0%nat n l H) as [G1 G2]. split; [exact G1|]. intros i d Hi. exact (G2 i d Hi).
Qed.

(** Any material: the list has dim - 1 numbers per fault face, which are the integrals over the face of
    slip rate times the averaged modulus at the quadrature points. *)
Lemma moment_rates_integrals : forall mu_avg num V,
  (compute_moment_rates dim nq FS nl info mu_avg num V = None <-> exists f, (f < num)%nat /\ mu_avg (info f) = None) /\
  forall l, compute_moment_rates dim nq FS nl info mu_avg num V = Some l ->
    length l = (num * (dim - 1))%nat /\
    forall f t, (f < num)%nat -> (t < dim - 1)%nat -> exists mu, mu_avg (info f) = Some mu /\
      nth (f * (dim - 1) + t) l 0 = face_integral nq (fs_w FS) (nl f) (fun q => mu q * slip_rate_at V f t q).
Proof.
  intros mu_avg num V. unfold compute_moment_rates. split.
  - destruct (map_opt _ (seq 0 num)) as [r|] eqn:E.
    + split; [discriminate|]. intros (f & F & X). destruct (map_opt_seq _ _ _ _ E) as [_ M]. specialize (M f [] F). cbv beta in M. rewrite X in M. discriminate.
    + split; [intros _|reflexivity].
      assert (Q : forall s n, map_opt (fun f => match mu_avg (info f) with None => None | Some mu => Some (map (fun p => moment_rate_kernel nq FS (nl f) (fun i => V (f * (nbf * dim) + i)%nat) mu p) (seq 0 (dim - 1))) end) (seq s n) = None ->
                exists f, (f < s + n)%nat /\ mu_avg (info f) = None).
      { intros s n. revert s. induction n as [|n IH]; intros s H; cbn in H; [discriminate|]. unfold Base.bind in H. destruct (mu_avg (info s)) as [mu|] eqn:Es.
        - cbn in H. destruct (map_opt _ (seq (Datatypes.S s) n)) eqn:E2; [discriminate|]. destruct (IH _ E2) as (f & F & X). exists f. split; [lia|exact X].
        - exists s. split; [lia|exact Es]. }
      apply (Q 0%nat num E).
  - intros l H. destruct (map_opt _ (seq 0 num)) as [r|] eqn:E; [|discriminate]. injection H as <-. destruct (map_opt_seq _ _ _ _ E) as [L M].
    destruct (concat_blocks R 0 (dim - 1) r) as [C1 C2].
    { intros x Hx. destruct (In_nth r x [] Hx) as (i & Hi & <-). rewrite L in Hi. specialize (M i [] Hi). cbv beta in M.
      destruct (mu_avg (info i)); [|discriminate]. injection M as M. rewrite <- M, map_length, seq_length. reflexivity. }
    rewrite C1, L. split; [reflexivity|]. intros f t F T. rewrite C2 by lia. specialize (M f [] F). cbv beta in M.
    destruct (mu_avg (info f)) as [mu|] eqn:Em; [|discriminate]. injection M as M. exists mu. split; [reflexivity|].
    rewrite <- M, (nth_indep _ 0 (moment_rate_kernel nq FS (nl f) (fun i => V (f * (nbf * dim) + i)%nat) mu 0)) by (rewrite map_length, seq_length; exact T).
    rewrite (map_nth (fun p => moment_rate_kernel nq FS (nl f) (fun i => V (f * (nbf * dim) + i)%nat) mu p)), seq_nth by exact T. apply kernel_integral.
Qed.

(** The shear modulus of the element on a side of a facet at point q: interpolation of nodal values. *)
Definition modulus_at (P : pdata) (values : nat -> nat -> R) (el local q : nat) : R := rsum (p_N P) (fun m => values el m * p_matE P local q m).

(** C74, elasticity: for every number of fault faces between two elements each, slip rates and material,
    entry t of face f is the integral of slip rate component t times the mean of the two shear moduli. *)
Theorem moment_rates_elasticity : forall (E : edata) num V, (forall f, (f < num)%nat -> fi_up0 (info f) <> fi_up1 (info f)) ->
  exists l, compute_moment_rates dim nq FS nl info (elasticity_mu_avg E) num V = Some l /\ length l = (num * (dim - 1))%nat /\
    forall f t, (f < num)%nat -> (t < dim - 1)%nat -> nth (f * (dim - 1) + t) l 0 =
      face_integral nq (fs_w FS) (nl f) (fun q =>
        (modulus_at (e_geo E) (e_mu E) (fi_up0 (info f)) (fi_local0 (info f)) q + modulus_at (e_geo E) (e_mu E) (fi_up1 (info f)) (fi_local1 (info f)) q) / 2 * slip_rate_at V f t q).
Proof.
  intros E num V I. destruct (moment_rates_integrals (elasticity_mu_avg E) num V) as [N S].
  destruct (compute_moment_rates dim nq FS nl info (elasticity_mu_avg E) num V) as [l|].
  - exists l. split; [reflexivity|]. destruct (S l eq_refl) as [L H]. split; [exact L|]. intros f t F T. destruct (H f t F T) as (mu & Em & ->).
    unfold elasticity_mu_avg in Em. destruct (fi_up0 (info f) =? fi_up1 (info f))%nat; [discriminate|]. injection Em as <-.
    unfold face_integral. apply rsum_ext. intros q _. f_equal. f_equal. unfold mu_q, modulus_at. cbn [local_side up_side].
    rewrite (rsum_ext _ (fun m => e_mu E (fi_up0 (info f)) m * _) (fun m => p_matE (e_geo E) (fi_local0 (info f)) q m * e_mu E (fi_up0 (info f)) m)) by (intros; ring).
    rewrite (rsum_ext _ (fun m => e_mu E (fi_up1 (info f)) m * _) (fun m => p_matE (e_geo E) (fi_local1 (info f)) q m * e_mu E (fi_up1 (info f)) m)) by (intros; ring).
    field.
  - exfalso. destruct (proj1 N eq_refl) as (f & F & X). specialize (I f F). unfold elasticity_mu_avg in X.
    destruct (Nat.eqb_spec (fi_up0 (info f)) (fi_up1 (info f))); [contradiction|discriminate].
Qed.

(** C74, uniform slip: with a uniform modulus and uniform slip rate the moment rate is modulus times area
    times slip rate. *)
Theorem moment_rate_uniform : forall (E : edata) num V mu0 v f t,
  (forall f, (f < num)%nat -> fi_up0 (info f) <> fi_up1 (info f)) -> (f < num)%nat -> (t < dim - 1)%nat ->
  (forall m, (m < p_N (e_geo E))%nat -> e_mu E (fi_up0 (info f)) m = mu0 /\ e_mu E (fi_up1 (info f)) m = mu0) ->
  (forall q, (q < nq)%nat -> rsum (p_N (e_geo E)) (p_matE (e_geo E) (fi_local0 (info f)) q) = 1 /\ rsum (p_N (e_geo E)) (p_matE (e_geo E) (fi_local1 (info f)) q) = 1) ->
  (forall q, (q < nq)%nat -> rsum nbf (fun l => fs_e FS l q) = 1) ->
  (forall l, (l < nbf)%nat -> V (entry nbf dim f l t) = v) ->
  exists l, compute_moment_rates dim nq FS nl info (elasticity_mu_avg E) num V = Some l /\
    nth (f * (dim - 1) + t) l 0 = mu0 * face_integral nq (fs_w FS) (nl f) (fun _ => 1) * v.
Proof.
  intros E num V mu0 v f t I F T HM HE HS HV. destruct (moment_rates_elasticity E num V I) as (l & El & _ & H).
  exists l. split; [exact El|]. rewrite H by assumption. unfold face_integral.
  rewrite Rmult_comm, <- Rmult_assoc, <- (rsum_scale nq (v * mu0)). apply rsum_ext. intros q Q. destruct (HE q Q) as [E0 E1].
  unfold modulus_at, slip_rate_at.
  rewrite (rsum_ext nbf _ (fun l => v * fs_e FS l q)) by (intros m M; rewrite HV by exact M; reflexivity).
  rewrite (rsum_ext (p_N (e_geo E)) (fun m => e_mu E (fi_up0 (info f)) m * _) (fun m => mu0 * p_matE (e_geo E) (fi_local0 (info f)) q m)) by (intros m M; destruct (HM m M) as [-> _]; reflexivity).
  rewrite (rsum_ext (p_N (e_geo E)) (fun m => e_mu E (fi_up1 (info f)) m * _) (fun m => mu0 * p_matE (e_geo E) (fi_local1 (info f)) q m)) by (intros m M; destruct (HM m M) as [_ ->]; reflexivity).
  rewrite !rsum_scale, E0, E1, HS by exact Q.
  field.
Qed.

(** C74, Poisson: the same holds for a material that is constant in each element, if a facet has no more
    quadrature points than an element has nodes. *)
Theorem moment_rates_poisson : forall (P : pdata) num V, (forall f, (f < num)%nat -> fi_up0 (info f) <> fi_up1 (info f)) ->
  (nq <= p_N P)%nat ->
  (forall f m, (f < num)%nat -> (m < p_N P)%nat -> p_K P (fi_up0 (info f)) m = p_K P (fi_up0 (info f)) 0 /\ p_K P (fi_up1 (info f)) m = p_K P (fi_up1 (info f)) 0) ->
  (forall f q, (f < num)%nat -> (q < nq)%nat -> rsum (p_N P) (p_matE P (fi_local0 (info f)) q) = 1 /\ rsum (p_N P) (p_matE P (fi_local1 (info f)) q) = 1) ->
  exists l, compute_moment_rates dim nq FS nl info (poisson_mu_avg (p_N P) (fun i => p_K P (i / p_N P) (i mod p_N P))) num V = Some l /\ length l = (num * (dim - 1))%nat /\
    forall f t, (f < num)%nat -> (t < dim - 1)%nat -> nth (f * (dim - 1) + t) l 0 =
      face_integral nq (fs_w FS) (nl f) (fun q =>
        (modulus_at P (p_K P) (fi_up0 (info f)) (fi_local0 (info f)) q + modulus_at P (p_K P) (fi_up1 (info f)) (fi_local1 (info f)) q) / 2 * slip_rate_at V f t q).
Proof.
  intros P num V I HN HK HE. set (mu := poisson_mu_avg (p_N P) (fun i => p_K P (i / p_N P) (i mod p_N P))).
  destruct (moment_rates_integrals mu num V) as [N S].
  destruct (compute_moment_rates dim nq FS nl info mu num V) as [l|].
  - exists l. split; [reflexivity|]. destruct (S l eq_refl) as [L H]. split; [exact L|]. intros f t F T. destruct (H f t F T) as (m & Em & ->).
    unfold mu, poisson_mu_avg in Em. destruct (fi_up0 (info f) =? fi_up1 (info f))%nat; [discriminate|]. injection Em as <-.
    unfold face_integral. apply rsum_ext. intros q Q. f_equal. f_equal.
    rewrite !Nat.div_add_l, Nat.div_small, !Nat.add_0_r by lia.
    rewrite !(Nat.add_comm (_ * p_N P)), !Nat.mod_add, Nat.mod_small by lia.
    destruct (HK f q F ltac:(lia)) as [-> ->]. destruct (HE f q F Q) as [E0 E1]. unfold modulus_at.
    rewrite (rsum_ext (p_N P) (fun m => p_K P (fi_up0 (info f)) m * _) (fun m => p_K P (fi_up0 (info f)) 0 * p_matE P (fi_local0 (info f)) q m)) by (intros m M; destruct (HK f m F M) as [-> _]; reflexivity).
    rewrite (rsum_ext (p_N P) (fun m => p_K P (fi_up1 (info f)) m * _) (fun m => p_K P (fi_up1 (info f)) 0 * p_matE P (fi_local1 (info f)) q m)) by (intros m M; destruct (HK f m F M) as [_ ->]; reflexivity).
    rewrite !rsum_scale, E0, E1.
    field.
  - exfalso. destruct (proj1 N eq_refl) as (f & F & X). specialize (I f F). unfold mu, poisson_mu_avg in X.
    destruct (Nat.eqb_spec (fi_up0 (info f)) (fi_up1 (info f))); [contradiction|discriminate].
Qed.

(** Finding: a fault face on the boundary, for which tractions are computed, has no moment rate: the
    assertion fails, and without assertions values that were never set are averaged. *)
Theorem moment_rate_boundary_refuted : forall (E : edata) num V f, (f < num)%nat -> fi_up0 (info f) = fi_up1 (info f) ->
  compute_moment_rates dim nq FS nl info (elasticity_mu_avg E) num V = None.
Proof.
  intros E num V f F X. apply (proj1 (moment_rates_integrals (elasticity_mu_avg E) num V)). exists f. split; [exact F|].
  unfold elasticity_mu_avg. rewrite X, Nat.eqb_refl. reflexivity.
Qed.
End Moment.
Print Assumptions moment_rates_elasticity.
Print Assumptions moment_rate_uniform.
Print Assumptions moment_rates_poisson.
Print Assumptions moment_rate_boundary_refuted.
