(** Property theorems: polynomial equilibria of linear elasticity solve the discrete equations (C80). *)
Require Import List Arith Lia Bool Reals Lra FunctionalExtensionality Sorting.Sorted.
Require Import Verif.Base Verif.LinAlg Verif.SimplexModel Verif.SimplexProofs Verif.LocalMeshModel Verif.TopoModel Verif.TopoSpec Verif.TopoProofs Verif.TopoProps
  Verif.AssembleModel Verif.AssembleSpec Verif.AssembleProofs Verif.AssembleProps Verif.MatFree Verif.FaultModel Verif.PoissonModel Verif.PenaltyModel
  Verif.SipSpec Verif.SipProofs Verif.SipRank Verif.SipProps Verif.CoerciveProps
  Verif.GeometryModel Verif.GeometryProofs Verif.GeometrySpec Verif.GeometryProps Verif.GeometryStraight Verif.MeshSpec Verif.MeshProofs Verif.MeshPoissonProps
  Verif.BasisSpec Verif.IntegralSpec Verif.DubinerProofs Verif.NodesConform Verif.ErrorSpec Verif.ErrorProofs Verif.DegreeSpec Verif.DegreeProofs Verif.DegreeProps
  Verif.TensorModel Verif.BasisModel Verif.QuadratureModel Verif.QuadratureSpec Verif.RefElementSpec Verif.RefElementModel Verif.RefElementProps Verif.OperatorRefModel Verif.OperatorRefProps
  Verif.ElasticityModel Verif.ElasticFormSpec Verif.ElasticFormProofs Verif.ElasticFormProps Verif.MeshElasticSpec Verif.MeshElasticProps
  Verif.ConsistencySpec Verif.ConsistencyProofs Verif.ConsistencyProps Verif.ElasticConsistencySpec.
Import ListNotations.
Local Open Scope R_scope.

Section Consistent.
Variables (G : geo_setup) (procs : nat) (elems facets : list (list nat)) (bc : list nat -> nat) (m : nat -> topo_mesh).
Local Notation D := (gs_D G).
Hypothesis ST : straight G.
Hypothesis MP : mesh_parts D procs elems facets bc m.
Hypothesis VG : valid_geometry G elems facets.
Variables (k : nat) (phi : nat -> (nat -> R) -> R) (E_ : edata).
Local Notation R_ := (e_geo E_).
Hypothesis Hk : (1 <= k)%nat.
Hypothesis RD : reference_of_degree D k (gs_xi G) (gs_chi G) phi R_.
Variables (L : loads) (lam mu : nat -> vec -> R) (w : nat -> vec -> nat -> R) (dw : nat -> vec -> nat -> vec) (U : nat -> nat -> R).
Hypothesis EQ : equilibrium G elems facets bc L (p_Nq R_) (p_nq R_) lam mu w dw.
Hypothesis LO : parameter_is G elems facets R_ (e_lam E_) lam.
Hypothesis MO : parameter_is G elems facets R_ (e_mu E_) mu.
Hypothesis P1 : forall g, (g < length elems)%nat -> polynomial D 1 (lam g) /\ polynomial D 1 (mu g).
Hypothesis RU : represents_displacement G elems R_ phi w U.
Local Notation Q := (load_problem G elems E_ k L).
Local Notation N := (p_N R_). Local Notation Xi q := (gs_xi G q). Local Notation Fp s q := (facet_param D (ref_facet D s) (gs_chi G q)).
Local Notation edges g := (edge_matrix (gs_X G) (nth g elems [])).
Local Notation sig := (sigma G lam mu dw).
Let HD := dims G elems facets VG.
Let Hdim : p_dim R_ = D := rd_dim _ _ _ _ _ _ RD.

Lemma disp_is V q i : (q < p_Nq R_)%nat -> disp Q V q i = fem phi R_ (coef Q V i) (Xi q).
Proof. intro Hq. unfold disp, fem. cbn [load_problem mesh_eproblem ep_ref with_egeometry e_geo with_geometry p_N p_EQ]. apply rsum_ext. intros l Hl. rewrite (rd_EQ _ _ _ _ _ _ RD) by auto. ring. Qed.
Lemma disp_on_is f g V q i : In f facets -> In g (elements_of elems f) -> (q < p_nq R_)%nat -> disp_on Q f g V q i = fem phi R_ (coef Q V i) (Fp (facet_number D elems f g) q).
Proof.
  intros Hf Hg Hq. pose proof (facet_number_lt G procs elems facets bc m MP VG f g Hf Hg) as Hs.
  unfold disp_on, fem. cbn [load_problem mesh_eproblem ep_ref ep_loc with_egeometry e_geo with_geometry p_N p_E]. apply rsum_ext. intros l Hl. rewrite (rd_E _ _ _ _ _ _ RD) by auto. ring.
Qed.
Lemma disp_exact f g q i : In f facets -> In g (elements_of elems f) -> (q < p_nq R_)%nat -> (i < D)%nat -> disp_on Q f g (U g) q i = w g (place_on G elems f g q) i.
Proof. intros Hf Hg Hq Hi. rewrite disp_on_is by auto. apply (RU g i). apply (in_elems elems f g Hg). exact Hi. Qed.
(** The gradients of the discrete displacement with coefficients U are dw. *)
Lemma exact_gradient g p : (g < length elems)%nat -> (p < D)%nat ->
  exists dx : nat -> vec -> R, (forall i, (i < D)%nat -> polynomial D (k - 1) (dx i)) /\ (forall i xi, (i < D)%nat -> dx i xi = dw g (place_in G elems g xi) p i) /\
    (forall i q, (i < D)%nat -> (q < p_Nq R_)%nat -> dgrad Q g (U g) q p i = dx i (Xi q)) /\
    (forall f i q, (i < D)%nat -> In f facets -> In g (elements_of elems f) -> (q < p_nq R_)%nat -> dgrad_on Q f g (U g) q p i = dx i (Fp (facet_number D elems f g) q)).
Proof.
  intros Hg Hp. destruct (fem_gradient G elems facets ST VG k phi R_ RD g (coef Q (U g) p)) as (du & dx & H1 & H2 & H3 & H4). exists dx.
  split; [|split; [|split]].
  - intros i Hi. apply (poly_eq D (k - 1) (fun x => rsum D (fun e => geo_inverse D (edges g) e i * du e x))); [intro; symmetry; apply H2|].
    apply poly_rsum. intros e He. apply poly_scale. apply (H1 e He).
  - intros i xi Hi. rewrite H2. rewrite (rsum_ext D _ (fun e => geo_inverse D (edges g) e i * rsum D (fun j => dw g (place_in G elems g xi) p j * edges g j e))).
    + apply inverse_contract; auto. apply (det_nonzero G procs elems facets bc m ST MP VG k phi R_ RD). exact Hg.
    + intros e He. f_equal. apply (place_chain G elems ST g (fem phi R_ (coef Q (U g) p)) (fun y => w g y p) xi); auto.
      * intro x. symmetry. apply (RU g p x Hg Hp).
      * apply (eq_gradient _ _ _ _ _ _ _ _ _ _ _ EQ g _ p Hg Hp).
      * apply (H1 e He).
  - intros i q Hi Hq. rewrite <- H3 by auto. unfold dgrad. cbn [load_problem mesh_eproblem ep_ref with_egeometry e_geo with_geometry p_N p_dim p_GQ p_DxiQ]. rewrite Hdim. reflexivity.
  - intros f i q Hi Hf Hgf Hq. rewrite <- H4 by (auto; apply (facet_number_lt G procs elems facets bc m MP VG f g Hf Hgf)).
    unfold dgrad_on. cbn [load_problem mesh_eproblem ep_ref ep_loc ep_G with_egeometry e_geo with_geometry p_N p_dim p_Dxi]. rewrite Hdim. reflexivity.
Qed.
Lemma dgrad_exact g p i q : (g < length elems)%nat -> (p < D)%nat -> (i < D)%nat -> (q < p_Nq R_)%nat -> dgrad Q g (U g) q p i = dw g (place_in G elems g (Xi q)) p i.
Proof. intros Hg Hp Hi Hq. destruct (exact_gradient g p Hg Hp) as (dx & _ & E & F & _). rewrite F by auto. apply E; auto. Qed.
Lemma dgrad_on_exact f g p i q : (p < D)%nat -> (i < D)%nat -> In f facets -> In g (elements_of elems f) -> (q < p_nq R_)%nat -> dgrad_on Q f g (U g) q p i = dw g (place_on G elems f g q) p i.
Proof.
  intros Hp Hi Hf Hg Hq. destruct (exact_gradient g p (in_elems elems f g Hg) Hp) as (dx & _ & E & _ & F). rewrite F by auto. apply E; auto.
Qed.
Lemma hooke_isotropic l u H H' i j : (i < D)%nat -> (j < D)%nat -> (forall a b, (a < D)%nat -> (b < D)%nat -> H a b = H' a b) -> hooke Q l u H i j = isotropic D l u H' i j.
Proof.
  intros Hi Hj E. unfold hooke, isotropic. change (p_dim (e_geo (ep_ref Q))) with (p_dim R_). rewrite Hdim, (rsum_ext D _ (fun r => H' r r)) by auto. rewrite !E by auto. destruct (i =? j)%nat; ring.
Qed.
Lemma stress_exact g i j q : (g < length elems)%nat -> (i < D)%nat -> (j < D)%nat -> (q < p_Nq R_)%nat -> stress Q g (U g) q i j = sig g (place_in G elems g (Xi q)) i j.
Proof.
  intros Hg Hi Hj Hq. unfold stress, sigma. rewrite <- (proj1 LO g q Hg Hq), <- (proj1 MO g q Hg Hq). apply hooke_isotropic; auto. intros. apply dgrad_exact; auto.
Qed.
Lemma stress_on_exact f g i j q : (i < D)%nat -> (j < D)%nat -> In f facets -> In g (elements_of elems f) -> (q < p_nq R_)%nat -> stress_on Q f g (U g) q i j = sig g (place_on G elems f g q) i j.
Proof.
  intros Hi Hj Hf Hg Hq. unfold stress_on, sigma. rewrite <- (proj2 LO f g q Hf Hg Hq), <- (proj2 MO f g q Hf Hg Hq). apply hooke_isotropic; auto. intros. apply dgrad_on_exact; auto.
Qed.
(** The stress is a polynomial of degree k on the reference element. *)
Lemma sigma_poly g p j : (g < length elems)%nat -> (p < D)%nat -> (j < D)%nat -> polynomial D k (fun xi => sig g (place_in G elems g xi) p j).
Proof.
  intros Hg Hp Hj. assert (PL : forall c, polynomial D 1 c -> polynomial D 1 (fun xi => c (place_in G elems g xi))).
  { intros c Hc. apply (poly_through D D); [exact Hc|]. intros i Hi. apply place_poly; auto. }
  assert (PD : forall a b, (a < D)%nat -> (b < D)%nat -> polynomial D (k - 1) (fun xi => dw g (place_in G elems g xi) a b)).
  { intros a b Ha Hb. destruct (exact_gradient g a Hg Ha) as (dx & X1 & X2 & _). apply (poly_eq D (k - 1) (dx b)); [intro; apply X2; auto|apply X1; auto]. }
  destruct (P1 g Hg) as [Pl Pm]. unfold sigma, isotropic. apply poly_plus.
  - destruct (p =? j)%nat; [|apply poly_const]. apply (poly_le D (1 + (k - 1))); [lia|]. apply poly_mult; [apply PL; exact Pl|]. apply poly_rsum. intros r Hr. apply PD; auto.
  - apply (poly_le D (1 + (k - 1))); [lia|]. apply poly_mult; [apply PL; exact Pm|]. apply poly_plus; apply PD; auto.
Qed.

(** Traction of the solution on facet t of element g, against V. *)
Definition side_work (V : nat -> nat -> R) (g t : nat) : R :=
  rsum D (fun p => rsum (p_nq R_) (fun q => p_w R_ q * (rsum D (fun j => side_normal G elems g t j * sig g (place_in G elems g (Fp t q)) p j) * fem phi R_ (coef Q (V g) p) (Fp t q)))).
Lemma element_parts V g : (g < length elems)%nat -> evol_term Q g U V = evol_load Q g V + rsum (D + 1) (side_work V g).
Proof.
  intro Hg. destruct (eq_balance _ _ _ _ _ _ _ _ _ _ _ EQ) as (ds & F1 & F2).
  assert (LE : evol_load Q g V = rsum D (fun p => rsum (p_Nq R_) (fun q => p_W R_ q * volume_element G elems g * (ld_body L g p q * fem phi R_ (coef Q (V g) p) (Xi q))))).
  { rewrite rsum_swap. unfold evol_load. change (e_force (ep_ref Q)) with (ld_force L). change (p_dim (e_geo (ep_ref Q))) with (p_dim R_). rewrite Hdim.
    unfold ld_body. destruct (ld_force L) as [F|].
    - change (p_Nq (e_geo (ep_ref Q))) with (p_Nq R_). apply rsum_ext. intros q Hq. change (p_J (e_geo (ep_ref Q)) g q) with (p_J (with_geometry G elems R_) g q). rewrite (const_J G elems facets ST VG).
      change (p_W (e_geo (ep_ref Q)) q) with (p_W R_ q). rewrite <- rsum_scale. apply rsum_ext. intros p Hp. rewrite disp_is by auto. reflexivity.
    - symmetry. apply rsum_zero. intros q Hq. apply rsum_zero. intros p Hp. ring. }
  assert (TE : evol_term Q g U V = rsum D (fun p => rsum (p_Nq R_) (fun q => p_W R_ q * volume_element G elems g * rsum D (fun j => sig g (place_in G elems g (Xi q)) p j * dgrad Q g (V g) q p j)))).
  { rewrite rsum_swap. unfold evol_term, contract. change (p_Nq (e_geo (ep_ref Q))) with (p_Nq R_). change (p_dim (e_geo (ep_ref Q))) with (p_dim R_). rewrite Hdim.
    apply rsum_ext. intros q Hq. change (p_J (e_geo (ep_ref Q)) g q) with (p_J (with_geometry G elems R_) g q). rewrite (const_J G elems facets ST VG).
    change (p_W (e_geo (ep_ref Q)) q) with (p_W R_ q). rewrite <- rsum_scale. apply rsum_ext. intros p Hp. f_equal. apply rsum_ext. intros j Hj. rewrite stress_exact by auto. reflexivity. }
  unfold side_work. rewrite TE, LE, (rsum_swap (D + 1) D), <- rsum_plus. apply rsum_ext. intros p Hp.
  destruct (fem_gradient G elems facets ST VG k phi R_ RD g (coef Q (V g) p)) as (dv & dxv & V1 & V2 & V3 & _).
  rewrite <- (flux_parts G procs elems facets bc m ST MP VG k phi R_ Hk RD g (fun x j => sig g x p j) (fun x j => ds g x p j) (coef Q (V g) p) dv dxv Hg); auto.
  - rewrite <- rsum_plus. apply rsum_ext. intros q Hq. rewrite (F2 g p q Hg Hp Hq).
    rewrite (rsum_ext D (fun j => sig g (place_in G elems g (Xi q)) p j * dgrad Q g (V g) q p j) (fun j => sig g (place_in G elems g (Xi q)) p j * dxv j (Xi q))).
    + ring.
    + intros j Hj. f_equal. rewrite <- V3 by auto. unfold dgrad. cbn [load_problem mesh_eproblem ep_ref with_egeometry e_geo with_geometry p_N p_dim p_GQ p_DxiQ]. rewrite Hdim. reflexivity.
  - intros j Hj. apply sigma_poly; auto.
Qed.
Local Notation trac f g n p q := (traction_of G elems lam mu dw f g n p q).
Lemma side_work_on V f g : In f facets -> In g (elements_of elems f) ->
  side_work V g (facet_number D elems f g) = rsum (p_nq R_) (fun q => p_w R_ q * rsum D (fun p => trac f g g p q * disp_on Q f g (V g) q p)).
Proof.
  intros Hf Hg. unfold side_work. rewrite rsum_swap. apply rsum_ext. intros q Hq. rewrite <- rsum_scale. apply rsum_ext. intros p Hp. rewrite disp_on_is by auto. do 2 f_equal.
  apply rsum_ext. intros j Hj. rewrite (mesh_side_normal G elems facets ST VG f g j q Hj). unfold place_on. ring.
Qed.
(** Contraction of the stress of U with v (x) n. *)
Lemma contract_traction f g n q v : In f facets -> In g (elements_of elems f) -> (q < p_nq R_)%nat ->
  contract Q (stress_on Q f g (U g) q) (fun i j => v i * ep_n Q f n j q) = rsum D (fun p => trac f g n p q * v p).
Proof.
  intros Hf Hg Hq. unfold contract. change (p_dim (e_geo (ep_ref Q))) with (p_dim R_). rewrite Hdim. apply rsum_ext. intros p Hp. unfold traction_of. rewrite <- rsum_scale_r.
  apply rsum_ext. intros j Hj. rewrite stress_on_exact by auto. change (ep_n Q f n j q) with (mesh_normal G elems f n j q). ring.
Qed.
Lemma contract_ext A A' B B' : (forall i j, (i < D)%nat -> (j < D)%nat -> A i j = A' i j) -> (forall i j, (i < D)%nat -> (j < D)%nat -> B i j = B' i j) -> contract Q A B = contract Q A' B'.
Proof.
  intros EA EB. unfold contract. change (p_dim (e_geo (ep_ref Q))) with (p_dim R_). rewrite Hdim. apply rsum_ext. intros i Hi. apply rsum_ext. intros j Hj. rewrite EA, EB by auto. reflexivity.
Qed.
Lemma facet_consistent V f : In f facets ->
  efacet_term Q elems bc f U V + lsum (fun g => side_work V g (facet_number D elems f g)) (elements_of elems f) = efacet_load Q elems bc f V.
Proof.
  intro Hf. destruct (facet_one_or_two _ _ _ _ _ _ MP f Hf) as (g & h & [E|E]); unfold efacet_term, efacet_load; rewrite E; cbn [lsum]; change (ehas_data Q (bc f)) with (ld_on L (bc f)).
  - assert (Hg : In g (elements_of elems f)) by (rewrite E; left; reflexivity). rewrite (side_work_on V f g Hf Hg), Rplus_0_r.
    destruct (bc f =? BC_Natural)%nat eqn:B.
    + apply Nat.eqb_eq in B. assert (HN : ld_on L (bc f) = false) by (rewrite B; reflexivity). rewrite HN, Rplus_0_l. apply rsum_zero. intros q Hq.
      rewrite rsum_zero; [ring|]. intros p Hp. rewrite (eq_natural _ _ _ _ _ _ _ _ _ _ _ EQ f g p q Hf E Hp Hq B). ring.
    + apply Nat.eqb_neq in B. unfold ebnd_term, ebnd_load. change (p_nq (e_geo (ep_ref Q))) with (p_nq R_). change (p_w (e_geo (ep_ref Q))) with (p_w R_). rewrite <- rsum_plus.
      change (p_dim (e_geo (ep_ref Q))) with (p_dim R_). rewrite Hdim. set (val p q := if ld_on L (bc f) then ld_value L f p q else 0).
      transitivity (rsum (p_nq R_) (fun q => p_w R_ q * (- contract Q (stress_on Q f g (V g) q) (fun i j => val i q * ep_n Q f g j q) + ep_pen Q f * ep_nl Q f q * rsum D (fun i => val i q * disp_on Q f g (V g) q i)))).
      * apply rsum_ext. intros q Hq.
        assert (X : forall i, (i < D)%nat -> disp_on Q f g (U g) q i = val i q) by (intros i Hi; rewrite disp_exact by auto; apply (eq_boundary _ _ _ _ _ _ _ _ _ _ _ EQ f g i q Hf E Hi Hq B)).
        rewrite contract_traction by auto.
        rewrite (contract_ext (stress_on Q f g (V g) q) (stress_on Q f g (V g) q) (fun i j => disp_on Q f g (U g) q i * ep_n Q f g j q) (fun i j => val i q * ep_n Q f g j q)) by (intros; rewrite ?X by auto; reflexivity).
        rewrite (rsum_ext D (fun i => disp_on Q f g (U g) q i * disp_on Q f g (V g) q i) (fun i => val i q * disp_on Q f g (V g) q i)) by (intros; rewrite X by auto; reflexivity). ring.
      * unfold val. destruct (ld_on L (bc f)); [reflexivity|]. apply rsum_zero. intros q Hq.
        rewrite (rsum_zero D) by (intros; ring). unfold contract. rewrite rsum_zero; [ring|]. intros i Hi. apply rsum_zero. intros; ring.
  - assert (Hg : In g (elements_of elems f)) by (rewrite E; left; reflexivity). assert (Hh : In h (elements_of elems f)) by (rewrite E; right; left; reflexivity).
    rewrite (side_work_on V f g Hf Hg), (side_work_on V f h Hf Hh), Rplus_0_r. rewrite <- rsum_plus.
    destruct (mesh_good G procs elems facets bc m MP VG R_ Hdim) as (NN & _).
    assert (Nh : forall i q, ep_n Q f h i q = - ep_n Q f g i q) by (intros; apply (NN f g h); auto).
    unfold eint_term, eint_load. change (p_nq (e_geo (ep_ref Q))) with (p_nq R_). change (p_w (e_geo (ep_ref Q))) with (p_w R_). rewrite <- rsum_plus.
    change (p_dim (e_geo (ep_ref Q))) with (p_dim R_). rewrite Hdim. set (jmp p q := if ld_on L (bc f) then ld_jump L f g p q else 0).
    transitivity (rsum (p_nq R_) (fun q => p_w R_ q * (- contract Q (mean_stress Q f g h V q) (fun i j => jmp i q * ep_n Q f g j q)
       + ep_pen Q f * ep_nl Q f q * rsum D (fun i => jmp i q * (disp_on Q f g (V g) q i - disp_on Q f h (V h) q i))))).
    + apply rsum_ext. intros q Hq.
      assert (J1 : forall i, (i < D)%nat -> disp_on Q f g (U g) q i - disp_on Q f h (U h) q i = jmp i q) by (intros i Hi; rewrite !disp_exact by auto; apply (eq_inner _ _ _ _ _ _ _ _ _ _ _ EQ f g h i q Hf E Hi Hq)).
      assert (J2 : forall i, (i < D)%nat -> trac f g g i q = trac f h g i q) by (intros i Hi; apply (eq_inner _ _ _ _ _ _ _ _ _ _ _ EQ f g h i q Hf E Hi Hq)).
      assert (J3 : forall i, trac f h h i q = - trac f h g i q).
      { intro i. unfold traction_of. rewrite (rsum_ext D (fun j => _ * mesh_normal G elems f h j q) (fun j => -1 * (sig h (place_on G elems f h q) i j * mesh_normal G elems f g j q))).
        - rewrite rsum_scale. ring.
        - intros j Hj. change (mesh_normal G elems f h j q) with (ep_n Q f h j q). rewrite Nh. change (ep_n Q f g j q) with (mesh_normal G elems f g j q). ring. }
      assert (M : contract Q (mean_stress Q f g h U q) (djump Q f g h V q) = rsum D (fun p => trac f g g p q * (disp_on Q f g (V g) q p - disp_on Q f h (V h) q p))).
      { transitivity (1 / 2 * contract Q (stress_on Q f g (U g) q) (fun i j => (disp_on Q f g (V g) q i - disp_on Q f h (V h) q i) * ep_n Q f g j q)
                    + 1 / 2 * contract Q (stress_on Q f h (U h) q) (fun i j => (disp_on Q f g (V g) q i - disp_on Q f h (V h) q i) * ep_n Q f g j q)).
        - unfold contract. rewrite <- !rsum_scale, <- rsum_plus. apply rsum_ext. intros i _. rewrite <- !rsum_scale, <- rsum_plus. apply rsum_ext. intros j _. unfold mean_stress, djump. rewrite Nh. ring.
        - rewrite !(contract_traction f _ g q (fun i => disp_on Q f g (V g) q i - disp_on Q f h (V h) q i)) by auto.
          rewrite (rsum_ext D (fun p => trac f h g p q * _) (fun p => trac f g g p q * (disp_on Q f g (V g) q p - disp_on Q f h (V h) q p))) by (intros p Hp; rewrite J2 by auto; reflexivity). field. }
      assert (M2 : contract Q (mean_stress Q f g h V q) (djump Q f g h U q) = contract Q (mean_stress Q f g h V q) (fun i j => jmp i q * ep_n Q f g j q)).
      { apply contract_ext; [reflexivity|]. intros i j Hi Hj. unfold djump. rewrite Nh, <- (J1 i Hi). ring. }
      rewrite M, M2. rewrite (rsum_ext D (fun p => trac f h h p q * disp_on Q f h (V h) q p) (fun p => -1 * (trac f g g p q * disp_on Q f h (V h) q p))) by (intros p Hp; rewrite J3, <- (J2 p Hp); ring).
      rewrite rsum_scale.
      rewrite (rsum_ext D (fun p => trac f g g p q * (disp_on Q f g (V g) q p - disp_on Q f h (V h) q p)) (fun p => trac f g g p q * disp_on Q f g (V g) q p - trac f g g p q * disp_on Q f h (V h) q p)) by (intros; ring).
      rewrite rsum_minus. rewrite (rsum_ext D (fun i => (disp_on Q f g (U g) q i - disp_on Q f h (U h) q i) * _) (fun i => jmp i q * (disp_on Q f g (V g) q i - disp_on Q f h (V h) q i))) by (intros i Hi; rewrite J1 by auto; reflexivity). ring.
    + unfold jmp. destruct (ld_on L (bc f)); [reflexivity|]. apply rsum_zero. intros q Hq.
      rewrite (rsum_zero D) by (intros; ring). unfold contract. rewrite rsum_zero; [ring|]. intros i Hi. apply rsum_zero. intros; ring.
Qed.
Theorem elastic_form_consistent V : elastic_form Q elems facets bc U V = elastic_load Q elems facets bc V.
Proof.
  unfold elastic_form, elastic_load.
  rewrite (lsum_ext (fun g => evol_term Q g U V) (fun g => evol_load Q g V + rsum (D + 1) (side_work V g))) by (intros g Hg; apply element_parts; apply in_seq in Hg; lia).
  rewrite lsum_plus, (facets_of_elements D procs elems facets bc m MP), Rplus_assoc, <- lsum_plus. f_equal. apply lsum_ext. intros f Hf. rewrite Rplus_comm. apply facet_consistent. exact Hf.
Qed.
End Consistent.

(** Ranks with prescribed values hold their part of the problem. *)
Lemma load_rank G procs elems facets bc m E_ degree fi E L p :
  mesh_parts (gs_D G) procs elems facets bc m -> valid_geometry G elems facets -> p_dim (e_geo E_) = gs_D G -> (1 <= degree)%nat -> (0 < p_N (e_geo E_))%nat ->
  (forall p, (p < procs)%nat -> elastic_rank G E_ degree (m p) (fi p) (E p)) -> (p < procs)%nat -> holds_loads (gs_D G) L (m p) (E p) ->
  erank_data (gs_D G) (load_problem G elems E_ degree L) (m p) (E p) /\ p_method (e_geo (E p)) = IP /\ facet_table (gs_D G) (m p) = Some (fi p).
Proof.
  intros MP VG Hd Hdeg HN RK Hp HL. destruct (mesh_erank_data G procs elems facets bc m MP VG E_ Hd degree Hdeg fi E RK HN p Hp) as (RD & M & T).
  split; [|split; [exact M|exact T]]. destruct RD as [a1 a2 a3 a4 a5 a6 a7 a8 a9 a10 a11 a12 RE _ RF _ _]. constructor; auto.
  - exact (hl_force _ _ _ _ HL).
  - exact (hl_slip _ _ _ _ HL).
  - exact (hl_dir _ _ _ _ HL).
Qed.

(** C80: on every mesh of straight triangles or tetrahedra, for every polynomial degree k, every number of
    ranks and partition: if the displacement that balances the forces -- with Lame parameters linear in each
    element, prescribed slip and boundary displacement -- is in each element a polynomial that the basis
    represents, then its coefficients solve the system that the ranks assemble. *)
Theorem polynomial_equilibria_are_discrete_solutions : forall G k phi procs elems facets bc m E_ fi E L lam mu w dw U,
  mesh_parts (gs_D G) procs elems facets bc m -> straight G -> valid_geometry G elems facets -> (1 <= k)%nat ->
  reference_of_degree (gs_D G) k (gs_xi G) (gs_chi G) phi (e_geo E_) ->
  (forall p, (p < procs)%nat -> elastic_rank G E_ k (m p) (fi p) (E p) /\ holds_loads (gs_D G) L (m p) (E p)) ->
  (forall f g h i q, In f facets -> elements_of elems f = [g; h] -> ld_jump L f h i q = - ld_jump L f g i q) ->
  equilibrium G elems facets bc L (p_Nq (e_geo E_)) (p_nq (e_geo E_)) lam mu w dw ->
  (forall g, (g < length elems)%nat -> polynomial (gs_D G) 1 (lam g) /\ polynomial (gs_D G) 1 (mu g)) ->
  parameter_is G elems facets (e_geo E_) (e_lam E_) lam -> parameter_is G elems facets (e_geo E_) (e_mu E_) mu ->
  represents_displacement G elems (e_geo E_) phi w U ->
  exists A b, (forall p, (p < procs)%nat -> map_opt (to_global (m p)) (assemble (m p) (fi p) (elasticity_mat (E p))) = Some (A p)) /\
    (forall p, (p < procs)%nat -> map_opt (to_global_row (m p)) (rhs (m p) (fi p) (elasticity_vec (E p))) = Some (b p)) /\
    forall V, pairing (block_size E_) (flat_map A (seq 0 procs)) V U = vpairing (block_size E_) (flat_map b (seq 0 procs)) V.
Proof.
  intros G k phi procs elems facets bc m E_ fi E L lam mu w dw U MP ST VG Hk RD RK SL EQ P1 LO MO RU. set (Q := load_problem G elems E_ k L).
  pose proof (rd_dim _ _ _ _ _ _ RD) as Hd. pose proof (rd_N _ _ _ _ _ _ RD) as HN.
  assert (PO : eproblem_ok (gs_D G) elems facets Q).
  { destruct (mesh_eproblem_ok G procs elems facets bc m MP VG E_ Hd k) as [La Nn _]. split; [exact La|exact Nn|exact SL]. }
  destruct (elasticity_assembly_is_interior_penalty (gs_D G) procs elems facets bc m Q E fi MP PO) as (A & b & HA & Hb & EE).
  { intros p Hp. apply (load_rank G procs elems facets bc m E_ k fi E L p MP VG Hd Hk HN (fun p Hp => proj1 (RK p Hp)) Hp (proj2 (RK p Hp))). }
  exists A, b. split; [exact HA|]. split; [exact Hb|]. intro V. destruct (EE U V) as [E1 E2]. change (block_size (ep_ref Q)) with (block_size E_) in E1, E2. rewrite E1, E2.
  apply (elastic_form_consistent G procs elems facets bc m ST MP VG k phi E_ Hk RD L lam mu w dw U EQ LO MO P1 RU V).
Qed.
Print Assumptions polynomial_equilibria_are_discrete_solutions.

(** With what the constructor of the operator computes: if the displacement is a polynomial of degree N in
    each element, and the ranks have the nodal values of Lame parameters linear in each element, then the
    nodal values of the displacement solve the assembled system. *)
Theorem elastic_operator_reproduces_polynomials : forall root wv2 js wv3 inverse m0 D N set mi nodes B X procs elems facets bc m fi E E_ L lam mu w dw,
  constructor_data root wv2 js wv3 inverse D N set mi nodes -> (1 <= N)%nat ->
  let order := MinQuadOrder N set in
  let G := linear_setup D X (point (map fst (volRule root wv2 js wv3 D order))) (point (map fst (fctRule root wv2 js wv3 D order))) in
  mesh_parts D procs elems facets bc m -> valid_geometry G elems facets ->
  (forall g, (g < length elems)%nat -> polynomial D 1 (lam g) /\ polynomial D 1 (mu g) /\ forall p, (p < D)%nat -> polynomial D N (fun x => w g x p)) ->
  (forall f g h i q, In f facets -> elements_of elems f = [g; h] -> ld_jump L f h i q = - ld_jump L f g i q) ->
  let n := length nodes in
  exists R_, Elasticity_constructor root wv2 js wv3 inverse m0 D N set mi nodes B = Some R_ /\
  (e_geo E_ = R_ ->
   (forall g l, (g < length elems)%nat -> (l < n)%nat -> e_lam E_ g l = lam g (place_in G elems g (point nodes l)) /\ e_mu E_ g l = mu g (place_in G elems g (point nodes l))) ->
   equilibrium G elems facets bc L (p_Nq R_) (p_nq R_) lam mu w dw ->
   (forall p, (p < procs)%nat -> elastic_rank G E_ N (m p) (fi p) (E p) /\ holds_loads D L (m p) (E p)) ->
   forall U, (forall g l p, (g < length elems)%nat -> (l < n)%nat -> (p < D)%nat -> U g (l + n * p)%nat = w g (place_in G elems g (point nodes l)) p) ->
   exists A b, (forall p, (p < procs)%nat -> map_opt (to_global (m p)) (assemble (m p) (fi p) (elasticity_mat (E p))) = Some (A p)) /\
    (forall p, (p < procs)%nat -> map_opt (to_global_row (m p)) (rhs (m p) (fi p) (elasticity_vec (E p))) = Some (b p)) /\
    forall V, pairing (n * D) (flat_map A (seq 0 procs)) V U = vpairing (n * D) (flat_map b (seq 0 procs)) V).
Proof.
  intros root wv2 js wv3 inverse m0 D N set mi nodes B X procs elems facets bc m fi E E_ L lam mu w dw CD HN order G MP VG HP SL n.
  destruct CD as (HD & RT & Ln & Un & HI & HS & Q1 & Q2 & PW) eqn:ECD. assert (HD3 : (D = 1 \/ D = 2 \/ D = 3)%nat) by lia.
  destruct (nodal_basis_exists_unique inverse D N mi nodes HD3 RT Ln Un HI) as (psi & Hpsi & _ & Rep & _).
  destruct (elastic_reference_of_degree root wv2 js wv3 inverse m0 D N set mi nodes psi B CD Hpsi) as (R_ & ER & EN & _ & RD & M1 & M2 & _).
  exists R_. split; [exact ER|]. intros EE HK EQ RK U HU. subst R_.
  assert (ST : straight G) by apply linear_straight.
  assert (PL : forall g d f, polynomial D d f -> polynomial D d (fun xi => f (place_in G elems g xi))).
  { intros g d f Hf. apply (poly_through D D); [exact Hf|]. intros i Hi. apply (place_poly G elems ST g i Hi). }
  assert (V : forall K c, (forall g, (g < length elems)%nat -> polynomial D 1 (c g)) ->
     (forall g l, (g < length elems)%nat -> (l < n)%nat -> K g l = c g (place_in G elems g (point nodes l))) -> parameter_is G elems facets (e_geo E_) K c).
  { intros K c Hc HKc. assert (W : forall g x, (g < length elems)%nat -> rsum (p_N (e_geo E_)) (fun t => psi t x * K g t) = c g (place_in G elems g x)).
    { intros g x Hg. rewrite (Rep (fun xi => c g (place_in G elems g xi))) by (apply (poly_le D 1); [exact HN|]; apply PL, (Hc g Hg)).
      rewrite EN. apply rsum_ext. intros t Ht. rewrite HKc by auto. ring. }
    split.
    - intros g q Hg Hq. rewrite <- W by auto. apply rsum_ext. intros t Ht. rewrite M1 by auto. reflexivity.
    - intros f g q Hf Hg Hq. unfold place_on. rewrite <- W by (apply (in_elems elems f g Hg)). apply rsum_ext. intros t Ht.
      rewrite M2 by (auto; apply (facet_number_lt G procs elems facets bc m MP VG f g Hf Hg)). reflexivity. }
  destruct (polynomial_equilibria_are_discrete_solutions G N psi procs elems facets bc m E_ fi E L lam mu w dw U MP ST VG HN RD RK SL EQ) as (A & b & HA & Hb & EF).
  - intros g Hg. destruct (HP g Hg) as (H1 & H2 & _). auto.
  - apply V; [intros g Hg; apply (HP g Hg)|]. intros g l Hg Hl. apply (HK g l Hg Hl).
  - apply V; [intros g Hg; apply (HP g Hg)|]. intros g l Hg Hl. apply (HK g l Hg Hl).
  - intros g p xi Hg Hp. destruct (HP g Hg) as (_ & _ & H3). rewrite (Rep (fun x => w g (place_in G elems g x) p)) by (apply (PL g N (fun x => w g x p)); apply H3; exact Hp).
    rewrite EN. apply rsum_ext. intros l Hl. fold n. rewrite HU by auto. ring.
  - exists A, b. split; [exact HA|]. split; [exact Hb|]. intro V'. specialize (EF V'). unfold block_size in EF. rewrite (rd_dim _ _ _ _ _ _ RD), EN in EF. exact EF.
Qed.
Print Assumptions elastic_operator_reproduces_polynomials.
