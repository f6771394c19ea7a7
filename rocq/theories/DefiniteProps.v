(** Property theorems: the assembled equations have exactly one solution (C81). *)
Require Import List Arith Lia Bool Reals Lra Psatz Classical Sorting.Sorted.
Require Import Verif.Base Verif.LinAlg Verif.SimplexModel Verif.SimplexProofs Verif.LocalMeshModel Verif.TopoModel Verif.TopoSpec Verif.TopoProofs Verif.TopoProps
  Verif.AssembleModel Verif.AssembleSpec Verif.AssembleProofs Verif.AssembleProps Verif.MatFree Verif.FaultModel Verif.PoissonModel Verif.PenaltyModel
  Verif.SipSpec Verif.SipProofs Verif.SipRank Verif.SipProps Verif.CoerciveProps
  Verif.GeometryModel Verif.GeometryProofs Verif.GeometrySpec Verif.GeometryProps Verif.GeometryStraight Verif.MeshSpec Verif.MeshProofs Verif.MeshPoissonProps
  Verif.BasisSpec Verif.IntegralSpec Verif.QuadratureProps Verif.DubinerProofs Verif.NodesConform Verif.DegreeSpec Verif.DegreeProofs Verif.DegreeProps Verif.DivergenceProofs
  Verif.TensorModel Verif.BasisModel Verif.QuadratureModel Verif.QuadratureSpec Verif.RefElementSpec Verif.RefElementModel Verif.RefElementProps Verif.OperatorRefModel Verif.OperatorRefProps
  Verif.ElasticModeProps Verif.ConsistencySpec Verif.ConsistencyProofs Verif.ConsistencyProps Verif.DefiniteSpec Verif.DefiniteProofs Verif.DefiniteForm Verif.DefiniteMesh Verif.SolveProofs.
Import ListNotations.
Local Open Scope R_scope.

Section Definite.
Variables (G : geo_setup) (procs : nat) (elems facets : list (list nat)) (bc : list nat -> nat) (m : nat -> topo_mesh).
Local Notation D := (gs_D G).
Hypothesis ST : straight G.
Hypothesis MP : mesh_parts D procs elems facets bc m.
Hypothesis VG : valid_geometry G elems facets.
Variables (k : nat) (phi : nat -> (nat -> R) -> R) (R_ : pdata).
Hypothesis Hk : (1 <= k)%nat.
Hypothesis RD : reference_of_degree D k (gs_xi G) (gs_chi G) phi R_.
Hypothesis K0 : forall g l, (g < length elems)%nat -> (l < p_N R_)%nat -> 0 < p_K R_ g l.
Hypothesis KR : forall g, (g < length elems)%nat -> in_range D R_ (p_K R_ g).
Local Notation Q := (mesh_problem G elems R_ k).
Local Notation Fp s q := (facet_param D (ref_facet D s) (gs_chi G q)).
Let HD := dims G elems facets VG.
Let Hd := rd_dim _ _ _ _ _ _ RD.
Lemma trace_fem f g u q : In f facets -> In g (elements_of elems f) -> (q < p_nq R_)%nat -> trace Q f g u q = fem phi R_ u (Fp (facet_number D elems f g) q).
Proof.
  intros Hf Hg Hq. pose proof (facet_number_lt G procs elems facets bc m MP VG f g Hf Hg) as Hs.
  unfold trace, fem. cbn [pb_ref pb_loc mesh_problem with_geometry p_N p_E]. apply rsum_ext. intros l Hl. rewrite (rd_E _ _ _ _ _ _ RD) by auto. ring.
Qed.
Section Zero.
Variable U : nat -> nat -> R.
(** The gradients of U vanish. *)
Hypothesis GQ : forall g i q, (g < length elems)%nat -> (i < D)%nat -> (q < p_Nq R_)%nat -> grad Q g (U g) i q = 0.
Hypothesis GF : forall f g i q, In f facets -> In g (elements_of elems f) -> (i < D)%nat -> (q < p_nq R_)%nat -> grad_on Q f g (U g) i q = 0.
Lemma flat_vol g V : (g < length elems)%nat -> vol_term Q g U V = 0.
Proof.
  intro Hg. apply rsum_zero. intros q Hq. rewrite rsum_zero; [ring|]. intros i Hi. change (p_dim (pb_ref Q)) with (p_dim R_) in Hi. rewrite Hd in Hi. rewrite GQ by auto. ring.
Qed.
Lemma flat_int f g h V : In f facets -> elements_of elems f = [g; h] -> int_term Q f g h U V =
  rsum (p_nq R_) (fun q => p_w R_ q * ((trace Q f g (U g) q - trace Q f h (U h) q) * (pb_pen Q f * pb_nl Q f q * (trace Q f g (V g) q - trace Q f h (V h) q)
     - rsum D (fun i => mean_flux Q f g h V i q * pb_n Q f g i q)))).
Proof.
  intros Hf El. assert (Hg : In g (elements_of elems f)) by (rewrite El; cbn; auto). assert (Hh : In h (elements_of elems f)) by (rewrite El; cbn; auto).
  destruct (mesh_good G procs elems facets bc m MP VG R_ Hd) as (NN & _).
  apply rsum_ext. intros q Hq. change (p_dim (pb_ref Q)) with (p_dim R_). rewrite Hd. change (p_w (pb_ref Q)) with (p_w R_).
  rewrite (rsum_zero D (fun i => mean_flux Q f g h U i q * jump Q f g h V i q)) by (intros i Hi; unfold mean_flux; rewrite !GF by auto; ring).
  rewrite (rsum_ext D (fun i => mean_flux Q f g h V i q * jump Q f g h U i q) (fun i => (trace Q f g (U g) q - trace Q f h (U h) q) * (mean_flux Q f g h V i q * pb_n Q f g i q))).
  - rewrite rsum_scale. ring.
  - intros i Hi. unfold jump. change (pb_n Q f h i q) with (mesh_normal G elems f h i q). rewrite (NN f g h i q Hf El). change (mesh_normal G elems f g i q) with (pb_n Q f g i q). ring.
Qed.
Lemma flat_bnd f g V : In f facets -> elements_of elems f = [g] -> bnd_term Q f g U V =
  rsum (p_nq R_) (fun q => p_w R_ q * (trace Q f g (U g) q * (pb_pen Q f * pb_nl Q f q * trace Q f g (V g) q
     - rsum D (fun i => kappa_on Q f g q * grad_on Q f g (V g) i q * pb_n Q f g i q)))).
Proof.
  intros Hf El. assert (Hg : In g (elements_of elems f)) by (rewrite El; cbn; auto).
  apply rsum_ext. intros q Hq. change (p_dim (pb_ref Q)) with (p_dim R_). rewrite Hd. change (p_w (pb_ref Q)) with (p_w R_).
  rewrite (rsum_zero D (fun i => kappa_on Q f g q * grad_on Q f g (U g) i q * _)) by (intros i Hi; rewrite GF by auto; ring).
  rewrite (rsum_ext D (fun i => kappa_on Q f g q * grad_on Q f g (V g) i q * (trace Q f g (U g) q * pb_n Q f g i q)) (fun i => trace Q f g (U g) q * (kappa_on Q f g q * grad_on Q f g (V g) i q * pb_n Q f g i q))) by (intros; ring).
  rewrite rsum_scale. ring.
Qed.
End Zero.

(** A function for which the form vanishes is zero on anchored elements. *)
Lemma zero_on_anchored U : sip_form Q elems facets bc U U = 0 -> forall g, anchored elems facets bc g -> forall x, fem phi R_ (U g) x = 0.
Proof.
  intro Z.
  assert (ZG : forall g, (g < length elems)%nat -> _) by exact (fun g Hg => zero_gradient G procs elems facets bc m ST MP VG k phi R_ Hk RD K0 KR U g Z Hg).
  assert (GQ : forall g i q, (g < length elems)%nat -> (i < D)%nat -> (q < p_Nq R_)%nat -> grad Q g (U g) i q = 0).
  { intros g i q Hg Hi Hq. destruct (ZG g Hg) as (dx & _ & _ & E & _). apply E; auto. }
  assert (GF : forall f g i q, In f facets -> In g (elements_of elems f) -> (i < D)%nat -> (q < p_nq R_)%nat -> grad_on Q f g (U g) i q = 0).
  { intros f g i q Hf Hg Hi Hq. destruct (ZG g (in_elems elems f g Hg)) as (dx & _ & _ & _ & E & _). apply E; auto. }
  assert (CT : forall g x y, (g < length elems)%nat -> fem phi R_ (U g) x = fem phi R_ (U g) y).
  { intros g x y Hg. destruct (ZG g Hg) as (dx & _ & E & _). apply (partials_zero D k (fem phi R_ (U g)) HD (fem_poly G k phi R_ RD (U g)) E). }
  pose proof (GE G procs elems facets bc m MP VG k phi R_ RD K0 KR) as GEo.
  assert (PP : forall f, In f facets -> 0 < pb_pen Q f).
  { intros f Hf. destruct (PEN G procs elems facets bc m MP VG k phi R_ Hk RD f Hf) as [P1 P2].
    assert (PO : forall g, In g (elements_of elems f) -> 0 < pen_of Q k f g) by (intros g Hg; apply (pen_pos Q elems facets k GEo); auto; apply (Hdim G elems facets VG k phi R_ Hk RD)).
    destruct (facet_one_or_two _ _ _ _ _ _ MP f Hf) as (g & h & [El|El]).
    - rewrite (P1 g El). apply PO. rewrite El. cbn. auto.
    - rewrite (proj1 (P2 g h El)). pose proof (PO g). pose proof (PO h). rewrite El in *. cbn in *. assert (0 < pen_of Q k f g) by auto. assert (0 < pen_of Q k f h) by auto. lra. }
  destruct (rd_w _ _ _ _ _ _ RD) as (W0 & q0 & Hq0 & Wq0).
  (* the jumps *)
  set (jf f := match elements_of elems f with [g] => if (bc f =? BC_Natural)%nat then 0 else fem phi R_ (U g) (fun _ => 0) | [g; h] => fem phi R_ (U g) (fun _ => 0) - fem phi R_ (U h) (fun _ => 0) | _ => 0 end).
  assert (FT : forall f, In f facets -> facet_term Q elems bc f U U = jf f * jf f * (pb_pen Q f * rsum (p_nq R_) (fun q => p_w R_ q * pb_nl Q f q))).
  { intros f Hf. destruct (facet_one_or_two _ _ _ _ _ _ MP f Hf) as (g & h & [El|El]); unfold facet_term, jf; rewrite El.
    - destruct (bc f =? BC_Natural)%nat; [ring|]. rewrite (flat_bnd U GF f g U Hf El), <- !rsum_scale. apply rsum_ext. intros q Hq.
      assert (Hg : In g (elements_of elems f)) by (rewrite El; cbn; auto).
      rewrite trace_fem by auto. rewrite (CT g (Fp (facet_number D elems f g) q) (fun _ => 0) (in_elems elems f g Hg)).
      rewrite rsum_zero by (intros i Hi; rewrite GF by auto; ring). ring.
    - rewrite (flat_int U GF f g h U Hf El), <- !rsum_scale. apply rsum_ext. intros q Hq.
      assert (Hg : In g (elements_of elems f)) by (rewrite El; cbn; auto). assert (Hh : In h (elements_of elems f)) by (rewrite El; cbn; auto).
      rewrite !trace_fem by auto. rewrite (CT g (Fp (facet_number D elems f g) q) (fun _ => 0) (in_elems elems f g Hg)), (CT h (Fp (facet_number D elems f h) q) (fun _ => 0) (in_elems elems f h Hh)).
      rewrite rsum_zero by (intros i Hi; unfold mean_flux; rewrite !GF by auto; ring). ring. }
  assert (AP : forall f, In f facets -> 0 < pb_pen Q f * rsum (p_nq R_) (fun q => p_w R_ q * pb_nl Q f q)).
  { intros f Hf. apply Rmult_lt_0_compat; [apply PP; exact Hf|]. apply (ge_area _ _ _ GEo f Hf). }
  assert (JZ : forall f, In f facets -> jf f = 0).
  { intros f Hf. unfold sip_form in Z. rewrite lsum_zero in Z by (intros g Hg; apply in_seq in Hg; apply (flat_vol U GQ); lia). rewrite Rplus_0_l in Z.
    assert (T : facet_term Q elems bc f U U = 0).
    { apply (lsum_nonneg_zero (fun f => facet_term Q elems bc f U U) facets); auto. intros f' Hf'. rewrite FT by exact Hf'. pose proof (AP f' Hf'). pose proof (Rle_0_sqr (jf f')) as S. unfold Rsqr in S. nra. }
    rewrite FT in T by exact Hf. pose proof (AP f Hf). apply Rmult_integral in T as [T|T]; [apply Rmult_integral in T; tauto|lra]. }
  intros g Ag. induction Ag as [f g Hf El Nn | f g h Hf Hg Hh Ag IH].
  - intro x. specialize (JZ f Hf). unfold jf in JZ. rewrite El in JZ. apply Nat.eqb_neq in Nn. rewrite Nn in JZ. rewrite <- JZ. apply CT. apply (in_elems elems f g). rewrite El. cbn. auto.
  - intro x. specialize (JZ f Hf). unfold jf in JZ. pose proof (in_elems elems f h Hh) as Hhl. specialize (IH (fun _ => 0)).
    destruct (facet_one_or_two _ _ _ _ _ _ MP f Hf) as (a & b & [El|El]); rewrite El in *; cbn in Hg, Hh.
    + assert (g = h) by (destruct Hg as [<-|[]]; destruct Hh as [<-|[]]; reflexivity). subst h. rewrite <- IH. apply CT. exact Hhl.
    + rewrite (CT h x (fun _ => 0) Hhl). destruct Hg as [<-|[<-|[]]]; destruct Hh as [<-|[<-|[]]]; lra.
Qed.
End Definite.

(** The pairing with a matrix and a vector of which the ranks add blocks. *)
Lemma pairing_left n A c U V W : pairing n A (fun g l => c * U g l + V g l) W = c * pairing n A U W + pairing n A V W.
Proof.
  unfold pairing. rewrite <- lsum_scale, <- lsum_plus. apply lsum_ext. intros [[i j] B] _. rewrite <- rsum_scale, <- rsum_plus. apply rsum_ext. intros. ring.
Qed.
Lemma pairing_right n A c U V W : pairing n A W (fun g l => c * U g l + V g l) = c * pairing n A W U + pairing n A W V.
Proof.
  unfold pairing. rewrite <- lsum_scale, <- lsum_plus. apply lsum_ext. intros [[i j] B] _. rewrite <- rsum_scale, <- rsum_plus. apply rsum_ext. intros k _.
  rewrite (rsum_ext n _ (fun l => c * (B k l * U j l) + B k l * V j l)) by (intros; ring). rewrite rsum_plus, rsum_scale. ring.
Qed.
Lemma vpairing_linear n b c U V : vpairing n b (fun g l => c * U g l + V g l) = c * vpairing n b U + vpairing n b V.
Proof.
  unfold vpairing. rewrite <- lsum_scale, <- lsum_plus. apply lsum_ext. intros [i B] _. rewrite <- rsum_scale, <- rsum_plus. apply rsum_ext. intros. ring.
Qed.
Lemma blocks_in_range D procs elems facets bc m (B : Type) (a : nat -> list (nat * nat * B)) A : mesh_parts D procs elems facets bc m ->
  (forall p, (p < procs)%nat -> map_opt (to_global (m p)) (a p) = Some (A p)) -> forall i j b, In (i, j, b) (flat_map A (seq 0 procs)) -> (i < length elems)%nat /\ (j < length elems)%nat.
Proof.
  intros MP HA i j b H. apply in_flat_map in H as (p & Hp & Hi). apply in_seq in Hp. specialize (HA p ltac:(lia)).
  destruct (map_opt_in_inv _ _ _ _ HA Hi) as ([[i' j'] b'] & _ & E). unfold to_global in E.
  destruct (nth_error (tm_l2cg (m p)) i') as [gi|] eqn:Ei; [|discriminate]. destruct (nth_error (tm_l2cg (m p)) j') as [gj|] eqn:Ej; [|discriminate]. cbn in E. injection E as <- <- <-.
  split; [apply (mp_elem _ _ _ _ _ _ MP p _ _ ltac:(lia) Ei)|apply (mp_elem _ _ _ _ _ _ MP p _ _ ltac:(lia) Ej)].
Qed.
Lemma rows_in_range D procs elems facets bc m (B : Type) (a : nat -> list (nat * B)) A : mesh_parts D procs elems facets bc m ->
  (forall p, (p < procs)%nat -> map_opt (to_global_row (m p)) (a p) = Some (A p)) -> forall i b, In (i, b) (flat_map A (seq 0 procs)) -> (i < length elems)%nat.
Proof.
  intros MP HA i b H. apply in_flat_map in H as (p & Hp & Hi). apply in_seq in Hp. specialize (HA p ltac:(lia)).
  destruct (map_opt_in_inv _ _ _ _ HA Hi) as ([i' b'] & _ & E). unfold to_global_row in E. cbn [fst snd] in E.
  destruct (nth_error (tm_l2cg (m p)) i') as [gi|] eqn:Ei; [|discriminate]. cbn in E. injection E as <- <-. apply (mp_elem _ _ _ _ _ _ MP p _ _ ltac:(lia) Ei).
Qed.
(** Matrices that are definite have exactly one solution. *)
Lemma solvable ne n A b : (forall i j B, In (i, j, B) A -> (i < ne)%nat /\ (j < ne)%nat) -> (forall i B, In (i, B) b -> (i < ne)%nat) ->
  (forall U, pairing n A U U = 0 -> forall g l, (g < ne)%nat -> (l < n)%nat -> U g l = 0) ->
  exists U, solves n A b U /\ forall U', solves n A b U' -> forall g l, (g < ne)%nat -> (l < n)%nat -> U' g l = U g l.
Proof.
  intros RA Rb Df. apply (exactly_one_solution ne n (fun U V => pairing n A V U) (vpairing n b)).
  - intros. apply pairing_right.
  - intros. apply pairing_left.
  - intros. apply vpairing_linear.
  - intros U V W E. apply lsum_ext. intros [[i j] B] HB. destruct (RA i j B HB) as [Hi Hj]. apply rsum_ext. intros k Hk. f_equal. apply rsum_ext. intros l Hl. rewrite E by auto. reflexivity.
  - intros U V W E. apply lsum_ext. intros [[i j] B] HB. destruct (RA i j B HB) as [Hi Hj]. apply rsum_ext. intros k Hk. rewrite E by auto. reflexivity.
  - intros U V E. apply lsum_ext. intros [i B] HB. apply rsum_ext. intros k Hk. rewrite E by (auto; apply (Rb i B HB)). reflexivity.
  - exact Df.
Qed.

(** C81: on every mesh of straight triangles or tetrahedra on which every element is connected, through
    facets, with a boundary where values are prescribed, for every polynomial degree, number of ranks
    and partition, the matrix that the ranks assemble for the Poisson problem is positive definite. *)
Theorem anchored_mesh_positive_definite : forall G k phi procs elems facets bc m R_ fi P,
  mesh_parts (gs_D G) procs elems facets bc m -> straight G -> valid_geometry G elems facets -> (1 <= k)%nat ->
  reference_of_degree (gs_D G) k (gs_xi G) (gs_chi G) phi R_ -> linearly_independent (p_N R_) phi ->
  (forall g l, (g < length elems)%nat -> (l < p_N R_)%nat -> 0 < p_K R_ g l) -> (forall g, (g < length elems)%nat -> in_range (gs_D G) R_ (p_K R_ g)) ->
  (forall g, (g < length elems)%nat -> anchored elems facets bc g) ->
  (forall p, (p < procs)%nat -> poisson_rank G R_ k (m p) (fi p) (P p)) ->
  exists A, (forall p, (p < procs)%nat -> map_opt (to_global (m p)) (assemble (m p) (fi p) (poisson_mat (P p))) = Some (A p)) /\
    (forall U V, pairing (p_N R_) (flat_map A (seq 0 procs)) V U = pairing (p_N R_) (flat_map A (seq 0 procs)) U V) /\
    (forall U, nonzero (length elems) (p_N R_) U -> 0 < pairing (p_N R_) (flat_map A (seq 0 procs)) U U).
Proof.
  intros G k phi procs elems facets bc m R_ fi P MP ST VG Hk RD LI K0 KR AN RK.
  destruct (straight_mesh_positive_every_degree G k phi procs elems facets bc m R_ fi P MP ST VG Hk RD K0 KR RK) as (A & HA & HF & HS & HP).
  exists A. split; [exact HA|]. split; [exact HS|]. intros U (g & l & Hg & Hl & Ne). destruct (HP U) as [H|H]; [exact H|]. exfalso. apply Ne.
  apply (LI (U g)); [|exact Hl]. intro x. apply (zero_on_anchored G procs elems facets bc m ST MP VG k phi R_ Hk RD K0 KR U); [rewrite <- HF; auto|apply AN; exact Hg].
Qed.
Print Assumptions anchored_mesh_positive_definite.

(** C81b: so the equations A U = b that the ranks assemble have exactly one solution, whatever the force,
    the slip and the boundary values are. *)
Theorem exactly_one_discrete_solution : forall G k phi procs elems facets bc m R_ fi P slip value,
  mesh_parts (gs_D G) procs elems facets bc m -> straight G -> valid_geometry G elems facets -> (1 <= k)%nat ->
  reference_of_degree (gs_D G) k (gs_xi G) (gs_chi G) phi R_ -> linearly_independent (p_N R_) phi ->
  (forall g l, (g < length elems)%nat -> (l < p_N R_)%nat -> 0 < p_K R_ g l) -> (forall g, (g < length elems)%nat -> in_range (gs_D G) R_ (p_K R_ g)) ->
  (forall g, (g < length elems)%nat -> anchored elems facets bc g) ->
  (forall p, (p < procs)%nat -> poisson_rank G R_ k (m p) (fi p) (P p) /\ holds_data (gs_D G) R_ slip value (m p) (P p)) ->
  (forall f g h q, In f facets -> elements_of elems f = [g; h] -> slip f h q = - slip f g q) ->
  exists A b U, (forall p, (p < procs)%nat -> map_opt (to_global (m p)) (assemble (m p) (fi p) (poisson_mat (P p))) = Some (A p)) /\
    (forall p, (p < procs)%nat -> map_opt (to_global_row (m p)) (rhs (m p) (fi p) (poisson_vec (P p))) = Some (b p)) /\
    solves (p_N R_) (flat_map A (seq 0 procs)) (flat_map b (seq 0 procs)) U /\
    forall U', solves (p_N R_) (flat_map A (seq 0 procs)) (flat_map b (seq 0 procs)) U' -> forall g l, (g < length elems)%nat -> (l < p_N R_)%nat -> U' g l = U g l.
Proof.
  intros G k phi procs elems facets bc m R_ fi P slip value MP ST VG Hk RD LI K0 KR AN RK SL. set (Q := data_problem G elems R_ k slip value).
  pose proof (rd_dim _ _ _ _ _ _ RD) as Hd. pose proof (rd_N _ _ _ _ _ _ RD) as HN.
  assert (PO : problem_ok (gs_D G) elems facets Q).
  { destruct (mesh_problem_ok G procs elems facets bc m MP VG R_ Hd k) as [L Nn _]. split; [exact L|exact Nn|exact SL]. }
  destruct (assembly_is_interior_penalty (gs_D G) procs elems facets bc m Q P fi MP PO) as (A & b & HA & Hb & _).
  { intros p Hp. apply (data_rank G procs elems facets bc m R_ k fi P slip value p MP VG Hd Hk HN (fun p Hp => proj1 (RK p Hp)) Hp (proj2 (RK p Hp))). }
  destruct (anchored_mesh_positive_definite G k phi procs elems facets bc m R_ fi P MP ST VG Hk RD LI K0 KR AN (fun p Hp => proj1 (RK p Hp))) as (A' & HA' & _ & PD).
  assert (EA : flat_map A (seq 0 procs) = flat_map A' (seq 0 procs)).
  { apply flat_map_ext_in. intros p Hp. apply in_seq in Hp. pose proof (HA p ltac:(lia)). pose proof (HA' p ltac:(lia)). congruence. }
  destruct (solvable (length elems) (p_N R_) (flat_map A (seq 0 procs)) (flat_map b (seq 0 procs))) as (U & S1 & S2).
  - intros i j B. apply (blocks_in_range (gs_D G) procs elems facets bc m _ _ A MP HA).
  - intros i B. apply (rows_in_range (gs_D G) procs elems facets bc m _ _ b MP Hb).
  - intros U Z g l Hg Hl. apply NNPP. intro Ne. rewrite EA in Z. pose proof (PD U (ex_intro _ g (ex_intro _ l (conj Hg (conj Hl Ne))))). lra.
  - exists A, b, U. auto.
Qed.
Print Assumptions exactly_one_discrete_solution.

Lemma dubiner_independent D N mi : (D = 2 \/ D = 3)%nat -> runs_through D N mi -> linearly_independent (length mi) (fun l => DubinerP D (nth l mi [])).
Proof.
  intros HD RT u Z l Hl. destruct (modal_ref_element D N mi ltac:(lia) RT) as (_ & _ & Sp & _).
  destruct (Sp (fun _ => 0)) as (c & Hc & Un); [apply poly_const|].
  rewrite (Un u) by (auto; intro; symmetry; apply Z). symmetry. apply (Un (fun _ => 0)); [|exact Hl]. intro x. rewrite rsum_zero by (intros; ring). reflexivity.
Qed.

(** C81c: for the operator that Poisson's constructor builds, with a coefficient that is a positive
    constant in each element, the assembled matrix is positive definite and the equations have exactly
    one solution. If they have a classical solution which is a polynomial of at most the degree of the
    elements in each element, then the computed solution is that one, at every point. *)
Theorem poisson_operator_exact : forall root wv2 js wv3 inverse m0 D N set mi nodes B X procs elems facets bc m fi P c slip value,
  constructor_data root wv2 js wv3 inverse D N set mi nodes -> (1 <= N)%nat ->
  let order := MinQuadOrder N set in
  let G := linear_setup D X (point (map fst (volRule root wv2 js wv3 D order))) (point (map fst (fctRule root wv2 js wv3 D order))) in
  mesh_parts D procs elems facets bc m -> valid_geometry G elems facets ->
  (forall g l, (g < length elems)%nat -> (l < length mi)%nat -> p_K B g l = c g) -> (forall g, (g < length elems)%nat -> 0 < c g) ->
  (forall g, (g < length elems)%nat -> anchored elems facets bc g) ->
  (forall f g h q, In f facets -> elements_of elems f = [g; h] -> slip f h q = - slip f g q) ->
  exists R_, Poisson_constructor root wv2 js wv3 inverse m0 D N set mi nodes B = Some R_ /\
  ((forall p, (p < procs)%nat -> poisson_rank G R_ N (m p) (fi p) (P p) /\ holds_data D R_ slip value (m p) (P p)) ->
   exists A b U, (forall p, (p < procs)%nat -> map_opt (to_global (m p)) (assemble (m p) (fi p) (poisson_mat (P p))) = Some (A p)) /\
    (forall p, (p < procs)%nat -> map_opt (to_global_row (m p)) (rhs (m p) (fi p) (poisson_vec (P p))) = Some (b p)) /\
    (forall V W, pairing (length mi) (flat_map A (seq 0 procs)) V W = pairing (length mi) (flat_map A (seq 0 procs)) W V) /\
    (forall V, nonzero (length elems) (length mi) V -> 0 < pairing (length mi) (flat_map A (seq 0 procs)) V V) /\
    solves (length mi) (flat_map A (seq 0 procs)) (flat_map b (seq 0 procs)) U /\
    (forall U', solves (length mi) (flat_map A (seq 0 procs)) (flat_map b (seq 0 procs)) U' -> forall g l, (g < length elems)%nat -> (l < length mi)%nat -> U' g l = U g l) /\
    forall w dw, (forall g, (g < length elems)%nat -> polynomial D N (w g)) ->
      classical_solution G elems facets bc (p_force B) slip value (p_Nq R_) (p_nq R_) (fun g _ => c g) w dw ->
      forall g x, (g < length elems)%nat -> rsum (length mi) (fun l => U g l * DubinerP D (nth l mi []) x) = w g (place_in G elems g x)).
Proof.
  intros root wv2 js wv3 inverse m0 D N set mi nodes B X procs elems facets bc m fi P c slip value CD HN order G MP VG HK Hc AN SL.
  destruct (poisson_reference_of_degree root wv2 js wv3 inverse m0 D N set mi nodes B CD) as (R_ & ER & EN & EK & RD & _ & CR).
  exists R_. split; [exact ER|]. intro RK. pose proof CD as (HD & RT & Ln & _).
  pose proof (dubiner_independent D N mi HD RT) as LI. rewrite <- EN in LI |- *.
  assert (K0 : forall g l, (g < length elems)%nat -> (l < p_N R_)%nat -> 0 < p_K R_ g l) by (intros g l Hg Hl; rewrite EK, (HK g l Hg) by lia; auto).
  assert (KR : forall g, (g < length elems)%nat -> in_range (gs_D G) R_ (p_K R_ g)) by (intros g Hg; apply (CR _ (c g)); intros l Hl; rewrite EK; apply HK; auto; lia).
  destruct (exactly_one_discrete_solution G N _ procs elems facets bc m R_ fi P slip value MP (linear_straight _ _ _ _) VG HN RD LI K0 KR AN RK SL) as (A & b & U & HA & Hb & S1 & S2).
  destruct (anchored_mesh_positive_definite G N _ procs elems facets bc m R_ fi P MP (linear_straight _ _ _ _) VG HN RD LI K0 KR AN (fun p Hp => proj1 (RK p Hp))) as (A' & HA' & SY & PD).
  assert (EA : flat_map A (seq 0 procs) = flat_map A' (seq 0 procs)).
  { apply flat_map_ext_in. intros p Hp. apply in_seq in Hp. pose proof (HA p ltac:(lia)). pose proof (HA' p ltac:(lia)). congruence. }
  exists A, b, U. split; [exact HA|]. split; [exact Hb|]. split; [rewrite EA; intros; apply SY|]. split; [rewrite EA; exact PD|]. split; [exact S1|]. split; [exact S2|].
  intros w dw Hw CS g x Hg.
  destruct (poisson_operator_reproduces_polynomials root wv2 js wv3 inverse m0 D N set mi nodes B X procs elems facets bc m fi P (fun g _ => c g) w dw slip value CD HN MP VG) as (R' & ER' & H).
  - intros g' Hg'. split; [apply poly_const|apply Hw; exact Hg'].
  - intros g' l Hg' Hl. apply HK; [exact Hg'|lia].
  - exact SL.
  - assert (R' = R_) by congruence. subst R'. destruct (H CS RK) as (W & A2 & b2 & E & HA2 & Hb2 & S3).
    etransitivity; [|exact (E g x Hg)]. rewrite EN. apply rsum_ext. intros l Hl. f_equal. symmetry. apply S2; [|exact Hg|lia].
    assert (EA2 : flat_map A (seq 0 procs) = flat_map A2 (seq 0 procs)).
    { apply flat_map_ext_in. intros p Hp. apply in_seq in Hp. pose proof (HA p ltac:(lia)). pose proof (HA2 p ltac:(lia)). congruence. }
    assert (Eb2 : flat_map b (seq 0 procs) = flat_map b2 (seq 0 procs)).
    { apply flat_map_ext_in. intros p Hp. apply in_seq in Hp. pose proof (Hb p ltac:(lia)). pose proof (Hb2 p ltac:(lia)). congruence. }
    unfold solves. rewrite EA2, Eb2, EN. exact S3.
Qed.
Print Assumptions poisson_operator_exact.

(** C81d: the condition is needed: when an element is not connected with a boundary where values are
    prescribed, the assembled matrix maps functions other than zero to zero. *)
Theorem floating_elements_singular : forall G k phi procs elems facets bc m R_ fi P one g0,
  mesh_parts (gs_D G) procs elems facets bc m -> straight G -> valid_geometry G elems facets -> (1 <= k)%nat ->
  reference_of_degree (gs_D G) k (gs_xi G) (gs_chi G) phi R_ -> (forall x, rsum (p_N R_) (fun l => one l * phi l x) = 1) ->
  (g0 < length elems)%nat -> ~ anchored elems facets bc g0 ->
  (forall p, (p < procs)%nat -> poisson_rank G R_ k (m p) (fi p) (P p)) ->
  exists A U, (forall p, (p < procs)%nat -> map_opt (to_global (m p)) (assemble (m p) (fi p) (poisson_mat (P p))) = Some (A p)) /\
    nonzero (length elems) (p_N R_) U /\ (forall V, pairing (p_N R_) (flat_map A (seq 0 procs)) V U = 0).
Proof.
  intros G k phi procs elems facets bc m R_ fi P one g0 MP ST VG Hk RD ON Hg0 NA RK.
  set (Q := mesh_problem G elems R_ k). pose proof (rd_dim _ _ _ _ _ _ RD) as Hd. pose proof (rd_N _ _ _ _ _ _ RD) as HN.
  destruct (mesh_gives_interior_penalty G procs elems facets bc m R_ k fi P MP VG Hd Hk HN RK) as (A & HA & HF & _).
  destruct (finite_choice (length elems) (nat -> R) (fun _ => 0) (fun g u => (anchored elems facets bc g -> u = fun _ => 0) /\ (~ anchored elems facets bc g -> u = one))) as (U & HU).
  { intros g Hg. destruct (classic (anchored elems facets bc g)); [exists (fun _ => 0)|exists one]; tauto. }
  exists A, U. split; [exact HA|]. split.
  { apply NNPP. intro Z. assert (rsum (p_N R_) (fun l => one l * phi l (fun _ => 0)) = 0); [|rewrite ON in H; lra].
    apply rsum_zero. intros l Hl. assert (one l = 0) as ->; [|ring]. apply NNPP. intro Ne. apply Z. exists g0, l. repeat split; auto. rewrite (proj2 (HU g0 Hg0) NA). exact Ne. }
  intro V. rewrite HF. change (sip_form Q elems facets bc U V = 0).
  assert (CT : forall g, (g < length elems)%nat -> exists c, (forall x, fem phi R_ (U g) x = c) /\ (anchored elems facets bc g -> c = 0) /\ (~ anchored elems facets bc g -> c = 1)).
  { intros g Hg. destruct (HU g Hg) as [H1 H2]. destruct (classic (anchored elems facets bc g)) as [Y|Y].
    - exists 0. split; [|tauto]. intro x. unfold fem. rewrite (H1 Y). apply rsum_zero. intros; ring.
    - exists 1. split; [|tauto]. intro x. unfold fem. rewrite (H2 Y). apply ON. }
  assert (DZ : forall g e x d, (g < length elems)%nat -> partial_derivative (fem phi R_ (U g)) e x d -> d = 0).
  { intros g e x d Hg Hdv. destruct (CT g Hg) as (c & Hc & _). unfold partial_derivative in Hdv. eapply uniqueness_limite; [exact Hdv|].
    eapply JacobiProofs.derivable_pt_lim_ext_eq; [| |apply (derivable_pt_lim_const c)]; [intro; unfold fct_cte; rewrite Hc; reflexivity|reflexivity]. }
  assert (GQ : forall g i q, (g < length elems)%nat -> (i < gs_D G)%nat -> (q < p_Nq R_)%nat -> grad Q g (U g) i q = 0).
  { intros g i q Hg Hi Hq. destruct (grad_is G procs elems facets bc m ST MP VG k phi R_ RD g (U g)) as (du & dx & E1 & E2 & _ & E3 & _).
    unfold Q. rewrite E3, E2 by auto. apply rsum_zero. intros e He. rewrite (DZ g e _ _ Hg (proj2 (E1 e He) _)). ring. }
  assert (GF : forall f g i q, In f facets -> In g (elements_of elems f) -> (i < gs_D G)%nat -> (q < p_nq R_)%nat -> grad_on Q f g (U g) i q = 0).
  { intros f g i q Hf Hg Hi Hq. destruct (grad_is G procs elems facets bc m ST MP VG k phi R_ RD g (U g)) as (du & dx & E1 & E2 & _ & _ & E3).
    unfold Q. rewrite E3, E2 by auto. apply rsum_zero. intros e He. rewrite (DZ g e _ _ (in_elems elems f g Hg) (proj2 (E1 e He) _)). ring. }
  unfold sip_form. rewrite lsum_zero by (intros g Hg; apply in_seq in Hg; apply (flat_vol G elems k phi R_ RD U GQ); lia). rewrite Rplus_0_l. apply lsum_zero. intros f Hf.
  destruct (facet_one_or_two _ _ _ _ _ _ MP f Hf) as (g & h & [El|El]); unfold facet_term; rewrite El.
  - destruct (bc f =? BC_Natural)%nat eqn:Eb; [reflexivity|]. apply Nat.eqb_neq in Eb. assert (Hg : In g (elements_of elems f)) by (rewrite El; cbn; auto).
    unfold Q. rewrite (flat_bnd G elems facets k phi R_ RD U GF f g V Hf El). apply rsum_zero. intros q Hq.
    rewrite (trace_fem G procs elems facets bc m MP VG k phi R_ RD f g (U g) q) by auto. destruct (CT g (in_elems elems f g Hg)) as (c & Hc & C0 & _).
    rewrite Hc, C0 by (apply (anchored_boundary elems facets bc f g); auto). ring.
  - assert (Hg : In g (elements_of elems f)) by (rewrite El; cbn; auto). assert (Hh : In h (elements_of elems f)) by (rewrite El; cbn; auto).
    unfold Q. rewrite (flat_int G procs elems facets bc m MP VG k phi R_ RD U GF f g h V Hf El). apply rsum_zero. intros q Hq.
    rewrite !(trace_fem G procs elems facets bc m MP VG k phi R_ RD f) by auto.
    destruct (CT g (in_elems elems f g Hg)) as (c & Hc & C0 & C1). destruct (CT h (in_elems elems f h Hh)) as (c' & Hc' & C0' & C1'). rewrite Hc, Hc'.
    assert (c = c') as ->; [|ring]. destruct (classic (anchored elems facets bc g)) as [Y|Y].
    + rewrite C0, C0' by (auto; apply (anchored_neighbour elems facets bc f g h); auto). reflexivity.
    + rewrite C1, C1' by (auto; intro Y'; apply Y; apply (anchored_neighbour elems facets bc f h g); auto). reflexivity.
Qed.
Print Assumptions floating_elements_singular.
