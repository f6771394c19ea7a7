(** The points of the code as lattice points. *)
Require Import List Arith Bool Lia Reals Lra.
Require Import Verif.Base Verif.VecModel Verif.EquidistantModel Verif.EquidistantProofs.
Import ListNotations.
Local Open Scope R_scope.

Fixpoint sumR (n : nat) (f : nat -> R) : R := match n with O => 0 | S m => sumR m f + f m end.
Lemma sumR_ext : forall n f g, (forall i, (i < n)%nat -> f i = g i) -> sumR n f = sumR n g.
Proof. induction n as [|n IH]; intros f g H; cbn; auto. rewrite (IH f g), H by (auto; intros; apply H; lia). reflexivity. Qed.
Lemma sumR_plus : forall n f g, sumR n (fun i => f i + g i) = sumR n f + sumR n g.
Proof. induction n; intros; cbn; [ring|]. rewrite IHn. ring. Qed.
Lemma sumR_scal : forall n c f, sumR n (fun i => c * f i) = c * sumR n f.
Proof. induction n; intros; cbn; [ring|]. rewrite IHn. ring. Qed.
Lemma sumR_zero : forall n, sumR n (fun _ => 0) = 0.
Proof. induction n; cbn; auto. rewrite IHn. ring. Qed.
Lemma sumR_delta : forall n k f, (k < n)%nat -> sumR n (fun i => if Nat.eqb i k then f i else 0) = f k.
Proof.
  induction n as [|n IH]; intros k f H; [lia|]. cbn. destruct (Nat.eqb_spec n k).
  - subst. rewrite (sumR_ext k _ (fun _ => 0)), sumR_zero; [ring|]. intros i Hi. destruct (Nat.eqb_spec i k); [lia|auto].
  - rewrite IH by lia. ring.
Qed.
Lemma sumR_swap : forall n m f, sumR n (fun i => sumR m (fun j => f i j)) = sumR m (fun j => sumR n (fun i => f i j)).
Proof.
  induction n; intros; cbn; [rewrite sumR_zero; auto|]. rewrite IHn, <- sumR_plus. reflexivity.
Qed.
Lemma sumR_shift : forall n f, sumR (S n) f = f O + sumR n (fun i => f (S i)).
Proof. induction n; intros f; [cbn; ring|]. cbn [sumR] in *. rewrite IHn. ring. Qed.
Lemma sumR_INR : forall a, sumR (length a) (fun j => INR (entry a j)) = INR (list_sum a).
Proof.
  induction a as [|x a IH]; [reflexivity|]. cbn [length]. rewrite sumR_shift, sum_cons, plus_INR, <- IH. reflexivity.
Qed.

Section Lat.
  Variable D : nat.
  Definition coord (x : point) (d : nat) : R := nth d x 0.
  Definition dims (vs : list point) : Prop := forall v, In v vs -> length v = D.
  (** sum_j a_j / N v_j *)
  Definition lat (N : nat) (vs : list point) (a : list nat) : point :=
    map (fun d => sumR (length vs) (fun j => INR (entry a j) / INR N * coord (vert vs j) d)) (seq 0 D).

  Lemma point_ext : forall x y : point, length x = D -> length y = D ->
    (forall d, (d < D)%nat -> coord x d = coord y d) -> x = y.
  Proof. intros x y Hx Hy H. apply nth_ext with (d := 0) (d' := 0); [congruence|]. intros d Hd. apply H. lia. Qed.
  Lemma coord_map : forall (f : nat -> R) d, (d < D)%nat -> coord (map f (seq 0 D)) d = f d.
  Proof.
    intros f d H. unfold coord. rewrite nth_indep with (d' := f O) by (rewrite map_length, seq_length; auto).
    rewrite map_nth, seq_nth by auto. reflexivity.
  Qed.
  Lemma lat_length : forall N vs a, length (lat N vs a) = D.
  Proof. intros. unfold lat. rewrite map_length, seq_length. auto. Qed.
  Lemma zip_length : forall f a b, length (zipR f a b) = Nat.min (length a) (length b).
  Proof. induction a; intros [|y b]; cbn; auto. Qed.
  Lemma coord_zip : forall f a b d, (d < length a)%nat -> (d < length b)%nat -> coord (zipR f a b) d = f (coord a d) (coord b d).
  Proof. induction a as [|x a IH]; intros [|y b] [|d]; cbn; intros; try lia; auto. apply IH; lia. Qed.
  Lemma coord_scale : forall s v d, coord (vscale s v) d = s * coord v d.
  Proof.
    intros s v d. unfold coord, vscale. replace 0 with (s * 0) at 1 by ring. apply map_nth.
  Qed.
  Lemma scale_length : forall s v, length (vscale s v) = length v.
  Proof. intros. apply map_length. Qed.
  Lemma vert_dim : forall vs i, dims vs -> (i < length vs)%nat -> length (vert vs i) = D.
  Proof. intros vs i H Hi. apply H. apply nth_In. auto. Qed.

  Lemma fold_comb : forall (g : nat -> R) (w : nat -> point) n (z : point),
    length z = D -> (forall j, (j < n)%nat -> length (w j) = D) ->
    let r := fold_left (fun result j => vadd result (vscale (g j) (w j))) (seq 0 n) z in
    length r = D /\ forall d, (d < D)%nat -> coord r d = coord z d + sumR n (fun j => g j * coord (w j) d).
  Proof.
    intros g w n z Hz. induction n as [|n IH]; intros Hw.
    - cbn [seq fold_left sumR]. cbv zeta. split; auto. intros; ring.
    - rewrite seq_S, fold_left_app. cbn [fold_left Nat.add].
      unfold vadd in *. destruct IH as [I1 I2]; [intros; apply Hw; lia|]. specialize (Hw n ltac:(lia)). split.
      + rewrite zip_length, scale_length, Hw. rewrite I1. lia.
      + intros d Hd. rewrite coord_zip by (rewrite ?scale_length, ?Hw; rewrite ?I1; auto).
        rewrite I2 by auto. rewrite coord_scale. cbn. ring.
  Qed.

  Lemma shrink_spec : forall factor vs, (0 < length vs)%nat -> dims vs ->
    length (shrinkAndShift D factor vs) = length vs /\ dims (shrinkAndShift D factor vs) /\
    forall i d, (i < length vs)%nat -> (d < D)%nat ->
      coord (vert (shrinkAndShift D factor vs) i) d =
      sumR (length vs) (fun j => (if Nat.eqb i j then 1 - INR (length vs - 1) * factor else factor) * coord (vert vs j) d).
  Proof.
    intros factor vs Hl Hd. unfold shrinkAndShift. replace (length vs - 1 + 1)%nat with (length vs) by lia.
    assert (Hz : length (repeat 0 D) = D) by apply repeat_length.
    assert (Hc0 : forall d, coord (repeat 0 D) d = 0).
    { intros d. unfold coord. clear. revert d. induction D; intros [|d]; cbn; auto. }
    split; [rewrite map_length, seq_length; auto|]. split.
    - intros v Hv. apply in_map_iff in Hv as (i & <- & Hi).
      apply (fold_comb (fun j => if Nat.eqb i j then 1 - INR (length vs - 1) * factor else factor) (vert vs)); auto.
      intros; apply vert_dim; auto.
    - intros i d Hi Hdd. unfold vert at 1.
      set (F := fun i : nat => fold_left _ _ _).
      rewrite nth_indep with (d' := F O) by (rewrite map_length, seq_length; auto).
      rewrite map_nth, seq_nth by auto. unfold F. cbn [Nat.add].
      destruct (fold_comb (fun j => if Nat.eqb i j then 1 - INR (length vs - 1) * factor else factor) (vert vs)
        (length vs) (repeat 0 D) Hz) as [_ H]; [intros; apply vert_dim; auto|].
      cbv beta zeta in H |- *. rewrite H by auto. rewrite Hc0. ring.
  Qed.

  (** A point of the shrunk simplex is the lattice point with all weights increased by one. *)
  Lemma lat_shrink : forall m vs b, (0 < length vs)%nat -> dims vs -> (0 < m)%nat ->
    length b = length vs -> list_sum b = m ->
    lat m (shrinkAndShift D (1 / INR (m + length vs)) vs) b = lat (m + length vs) vs (map S b).
  Proof.
    intros m vs b Hl Hd Hm Hb Hs. set (K := length vs) in *. set (n := (m + K)%nat).
    destruct (shrink_spec (1 / INR n) vs Hl Hd) as (S1 & S2 & S3). fold K in S1, S3.
    apply point_ext; try apply lat_length. intros d Hdd. unfold lat. rewrite !coord_map by auto. rewrite S1. fold K.
    assert (Hn0 : INR n <> 0) by (apply not_0_INR; lia).
    assert (Hm0 : INR m <> 0) by (apply not_0_INR; lia).
    assert (En : INR n = INR m + INR K) by (unfold n; rewrite plus_INR; auto).
    assert (EK : INR (K - 1) = INR K - 1) by (rewrite minus_INR by lia; reflexivity).
    rewrite (sumR_ext K _ (fun i => sumR K (fun j => INR (entry b i) / INR m *
       ((if Nat.eqb i j then 1 - INR (K - 1) * (1 / INR n) else 1 / INR n) * coord (vert vs j) d)))).
    2:{ intros i Hi. rewrite S3 by auto. rewrite <- sumR_scal. reflexivity. }
    rewrite sumR_swap. apply sumR_ext. intros j Hj.
    rewrite (sumR_ext K _ (fun i => coord (vert vs j) d / INR m * (1 / INR n) * INR (entry b i) +
      (if Nat.eqb i j then INR (entry b i) / INR m * (1 - INR K / INR n) * coord (vert vs j) d else 0))).
    2:{ intros i Hi. rewrite EK. destruct (Nat.eqb i j); field; auto. }
    rewrite sumR_plus, sumR_scal. rewrite (sumR_delta K j (fun i => INR (entry b i) / INR m * (1 - INR K / INR n) * coord (vert vs j) d)) by auto.
    assert (EsK : sumR K (fun i => INR (entry b i)) = INR m) by (rewrite <- Hb, sumR_INR, Hs; auto). rewrite EsK.
    assert (Es : INR (entry (map S b) j) = INR (entry b j) + 1).
    { unfold entry. rewrite nth_indep with (d' := S 0) by (rewrite map_length; lia). rewrite map_nth, S_INR. reflexivity. }
    rewrite Es. rewrite En in *. field. auto.
  Qed.
  (** ... also if the shrunk simplex is a single point. *)
  Lemma lat_shrink0 : forall vs, (0 < length vs)%nat -> dims vs ->
    vert (shrinkAndShift D (1 / INR (length vs)) vs) 0 = lat (length vs) vs (repeat 1%nat (length vs)).
  Proof.
    intros vs Hl Hd. set (K := length vs) in *.
    destruct (shrink_spec (1 / INR K) vs Hl Hd) as (S1 & S2 & S3). fold K in S1, S3.
    apply point_ext; [apply vert_dim; auto; lia|apply lat_length|]. intros d Hdd. rewrite S3 by auto.
    unfold lat. rewrite coord_map by auto. fold K. apply sumR_ext. intros j Hj.
    assert (HK : INR K <> 0) by (apply not_0_INR; lia).
    assert (EK : INR (K - 1) = INR K - 1) by (rewrite minus_INR by lia; reflexivity).
    assert (Ee : entry (repeat 1%nat K) j = 1%nat).
    { unfold entry. clear - Hj. revert j Hj. induction K; intros [|j] Hj; cbn; try lia. apply IHK; lia. }
    rewrite Ee, EK. cbn [INR]. destruct (Nat.eqb 0 j); field; auto.
  Qed.

  (** Weights on some of the vertices. *)
  Lemma sum_weight : forall F b K (g : nat -> R), (forall f, In f F -> (f < K)%nat) -> length b = length F ->
    sumR (length F) (fun j => INR (entry b j) * g (nth j F O)) = sumR K (fun i => INR (weight_at F b i) * g i).
  Proof.
    induction F as [|f F IH]; intros [|x b] K g HF Hl; try discriminate.
    - cbn. rewrite (sumR_ext K _ (fun _ => 0)), sumR_zero; [auto|]. intros; ring.
    - cbn [length]. rewrite sumR_shift. cbn [weight_at nth entry].
      rewrite (sumR_ext K _ (fun i => (if Nat.eqb i f then INR x * g i else 0) + INR (weight_at F b i) * g i)).
      2:{ intros i Hi. rewrite plus_INR. destruct (Nat.eqb i f); cbn [INR]; ring. }
      rewrite sumR_plus, (sumR_delta K f (fun i => INR x * g i)) by (apply HF; left; auto).
      rewrite <- (IH b K g) by (auto; intros; apply HF; right; auto). reflexivity.
  Qed.
  Lemma lat_embed : forall N vs F b, (forall f, In f F -> (f < length vs)%nat) -> length b = length F ->
    lat N (map (vert vs) F) b = lat N vs (embed (length vs) F b).
  Proof.
    intros N vs F b HF Hl. unfold lat. apply map_ext. intros d. rewrite map_length.
    rewrite (sumR_ext (length F) _ (fun j => INR (entry b j) * (/ INR N * coord (vert vs (nth j F O)) d))).
    2:{ intros j Hj. unfold vert at 1. rewrite nth_indep with (d' := vert vs O) by (rewrite map_length; auto).
        rewrite map_nth. unfold Rdiv. ring. }
    rewrite (sum_weight F b (length vs) (fun i => / INR N * coord (vert vs i) d)) by auto.
    apply sumR_ext. intros i Hi. unfold entry, embed.
    rewrite nth_indep with (d' := weight_at F b O) by (rewrite map_length, seq_length; auto).
    rewrite map_nth, seq_nth by auto. cbn [Nat.add]. unfold Rdiv. ring.
  Qed.
  Lemma lat_vertex : forall n vs i, (0 < n)%nat -> dims vs -> (i < length vs)%nat ->
    vert vs i = lat n vs (embed (length vs) [i] [n]).
  Proof.
    intros n vs i Hn Hd Hi. rewrite <- lat_embed; [|intros f [<- |[]]; auto|auto].
    apply point_ext; [apply vert_dim; auto|apply lat_length|]. intros d Hdd. unfold lat. rewrite coord_map by auto.
    cbn [map length sumR entry nth vert]. unfold vert. field. apply not_0_INR; lia.
  Qed.
  Lemma lat_edge : forall n vs i j, (0 < n)%nat -> dims vs -> (i < length vs)%nat -> (j < length vs)%nat ->
    edge (n - 1) [vert vs i; vert vs j] = map (lat n vs) (map (embed (length vs) [i; j]) (inner2 n)).
  Proof.
    intros n vs i j Hn Hd Hi Hj. unfold edge, inner2. rewrite !map_map. apply map_ext_in. intros k Hk. apply in_seq in Hk.
    rewrite <- lat_embed; [|intros f [<- |[<- |[]]]; auto|auto].
    assert (En : INR (n - 1) + 1 = INR n) by (rewrite minus_INR by lia; cbn; ring). rewrite En.
    assert (Li : length (vert vs i) = D) by (apply vert_dim; auto).
    assert (Lj : length (vert vs j) = D) by (apply vert_dim; auto).
    cbn [map vert nth]. fold (vert vs i). fold (vert vs j).
    apply point_ext.
    - unfold vadd. rewrite zip_length, !scale_length. lia.
    - apply lat_length.
    - intros d Hdd. unfold vadd. rewrite coord_zip by (rewrite scale_length; lia). rewrite !coord_scale.
      unfold lat. rewrite coord_map by auto. cbn [length sumR entry nth vert]. rewrite minus_INR by lia.
      assert (INR n <> 0) by (apply not_0_INR; lia). cbn [INR]. field. auto.
  Qed.

  (** ** Triangles *)
  Lemma triangle_lattice : forall n vs, (0 < n)%nat -> length vs = 3%nat -> dims vs ->
    triangle D n vs = map (lat n vs) (tri_idx n).
  Proof.
    intros n. induction n as [n IH] using lt_wf_ind. intros vs Hn Hl Hd. destruct n as [|n']; [lia|].
    assert (Hin : match S n' with S (S (S m)) => triangle D m (shrinkAndShift D (1 / INR (S n')) vs) | _ => [] end =
                  map (lat (S n') vs) (inner3 (S n'))).
    { unfold inner3. destruct n' as [|[|m]]; try reflexivity.
      destruct m as [|m'].
      - cbn [triangle app]. cbn [tri_idx map]. f_equal.
        replace (INR 3) with (INR (length vs)) by (rewrite Hl; auto). rewrite lat_shrink0 by (auto; lia). rewrite Hl. reflexivity.
      - set (m := S m') in *. destruct (shrink_spec (1 / INR (S (S (S m)))) vs) as (S1 & S2 & _); [lia|auto|].
        rewrite IH by (auto; lia). rewrite map_map. apply map_ext_in. intros b Hb.
        apply (proj2 (tri_enumerates m)) in Hb as [B1 B2].
        replace (S (S (S m))) with (m + length vs)%nat by lia. apply lat_shrink; auto; lia. }
    refine (eq_trans (f_equal (fun X => [vert vs 0] ++ ([vert vs 1; vert vs 2] ++ edge n' [vert vs 0; vert vs 1] ++
      edge n' [vert vs 1; vert vs 2] ++ edge n' [vert vs 2; vert vs 0]) ++ X) Hin) _).
    clear Hin. set (n := S n') in *. replace n' with (n - 1)%nat by lia.
    assert (Et : tri_idx n = flat_map (fun F => map (embed 3 F) (inner1 n)) [[0]; [1]; [2]]%nat ++
      flat_map (fun F => map (embed 3 F) (inner2 n)) [[0; 1]; [1; 2]; [2; 0]]%nat ++ inner3 n) by reflexivity.
    rewrite Et, !map_app. unfold inner1. cbn [flat_map map app]. rewrite !app_nil_r, !map_app.
    rewrite !(lat_edge n vs) by (auto; lia). rewrite Hl.
    rewrite <- Hl. rewrite <- !lat_vertex by (auto; lia). rewrite Hl. rewrite <- !app_assoc. reflexivity.
  Qed.

  (** ** Tetrahedra *)
  Lemma map_flat_map : forall A B C (f : B -> C) (g : A -> list B) l, map f (flat_map g l) = flat_map (fun x => map f (g x)) l.
  Proof. induction l; cbn; auto. rewrite map_app, IHl. auto. Qed.
  Lemma flat_map_ext_in : forall A B (f g : A -> list B) l, (forall x, In x l -> f x = g x) -> flat_map f l = flat_map g l.
  Proof. induction l; intros H; cbn; auto. rewrite H, IHl by (cbn; auto; intros; apply H; right; auto). auto. Qed.
  Lemma edges_ok : forall c e, In e (tet_edge_convention c) -> exists i j, e = [i; j] /\ (i < 4)%nat /\ (j < 4)%nat.
  Proof. intros [] e H; cbn in H; repeat (destruct H as [<- |H]; [do 2 eexists; split; [reflexivity|lia]|]); destruct H. Qed.
  Lemma faces_ok : forall c f, In f (tet_face_convention c) -> length f = 3%nat /\ forall i, In i f -> (i < 4)%nat.
  Proof. intros [] f H; cbn in H; repeat (destruct H as [<- |H]; [split; [reflexivity|cbn; intuition lia]|]); destruct H. Qed.

  Lemma tet_lattice : forall conv n vs, (0 < n)%nat -> length vs = 4%nat -> dims vs ->
    tet D conv n vs = map (lat n vs) (tet_idx conv n).
  Proof.
    intros conv n. induction n as [n IH] using lt_wf_ind. intros vs Hn Hl Hd. destruct n as [|n']; [lia|].
    assert (Hin : match S n' with S (S (S (S m))) => tet D conv m (shrinkAndShift D (1 / INR (S n')) vs) | _ => [] end =
                  map (lat (S n') vs) (inner4 conv (S n'))).
    { unfold inner4. destruct n' as [|[|[|m]]]; try reflexivity.
      destruct m as [|m'].
      - cbn [tet app]. cbn [tet_idx map]. f_equal.
        replace (INR 4) with (INR (length vs)) by (rewrite Hl; auto). rewrite lat_shrink0 by (auto; lia). rewrite Hl. reflexivity.
      - set (m := S m') in *. destruct (shrink_spec (1 / INR (S (S (S (S m))))) vs) as (S1 & S2 & _); [lia|auto|].
        rewrite IH by (auto; lia). rewrite map_map. apply map_ext_in. intros b Hb.
        apply (proj2 (tet_enumerates conv m)) in Hb as [B1 B2].
        replace (S (S (S (S m)))) with (m + length vs)%nat by lia. apply lat_shrink; auto; lia. }
    assert (Hfc : match S n' with
                  | S (S (S m)) => flat_map (fun f => triangle D m (shrinkAndShift D (1 / INR (S n')) (map (vert vs) f))) (tet_face_convention conv)
                  | _ => [] end =
                  map (lat (S n') vs) (flat_map (fun F => map (embed 4 F) (inner3 (S n'))) (tet_face_convention conv))).
    { rewrite map_flat_map. destruct n' as [|[|m]]; try (cbn [inner3 map]; destruct conv; reflexivity).
      apply flat_map_ext_in. intros f Hf. apply faces_ok in Hf as [F1 F2].
      assert (L3 : length (map (vert vs) f) = 3%nat) by (rewrite map_length; auto).
      assert (D3 : dims (map (vert vs) f)).
      { intros v Hv. apply in_map_iff in Hv as (i & <- & Hi). apply vert_dim; auto. rewrite Hl. auto. }
      assert (Emb : forall b, length b = 3%nat -> lat (S (S (S m))) vs (embed 4 f b) = lat (S (S (S m))) (map (vert vs) f) b).
      { intros b Hb. rewrite <- Hl. rewrite lat_embed; auto; [intros i Hi; rewrite Hl; auto|congruence]. }
      cbn [inner3]. rewrite !map_map. destruct m as [|m'].
      - cbn [triangle app tri_idx map]. f_equal. rewrite Emb by reflexivity.
        replace (INR 3) with (INR (length (map (vert vs) f))) by (rewrite L3; auto).
        rewrite lat_shrink0 by (auto; lia). rewrite L3. reflexivity.
      - set (m := S m') in *. destruct (shrink_spec (1 / INR (S (S (S m)))) (map (vert vs) f)) as (S1 & S2 & _); [lia|auto|].
        rewrite triangle_lattice by (auto; lia). apply map_ext_in. intros b Hb.
        apply (proj2 (tri_enumerates m)) in Hb as [B1 B2]. rewrite Emb by (rewrite map_length; auto).
        replace (S (S (S m))) with (m + length (map (vert vs) f))%nat by lia. apply lat_shrink; auto; lia. }
    refine (eq_trans (f_equal2 (fun X Y => [vert vs 0] ++ ([vert vs 1; vert vs 2; vert vs 3] ++
      flat_map (fun e => edge n' (map (vert vs) e)) (tet_edge_convention conv) ++ Y) ++ X) Hin Hfc) _).
    clear Hin Hfc. set (n := S n') in *. replace n' with (n - 1)%nat by lia.
    assert (Et : tet_idx conv n = flat_map (fun F => map (embed 4 F) (inner1 n)) [[0]; [1]; [2]; [3]]%nat ++
      flat_map (fun F => map (embed 4 F) (inner2 n)) (tet_edge_convention conv) ++
      flat_map (fun F => map (embed 4 F) (inner3 n)) (tet_face_convention conv) ++ inner4 conv n) by reflexivity.
    rewrite Et, !map_app.
    assert (Ee : flat_map (fun e => edge (n - 1) (map (vert vs) e)) (tet_edge_convention conv) =
                 map (lat n vs) (flat_map (fun F => map (embed 4 F) (inner2 n)) (tet_edge_convention conv))).
    { rewrite map_flat_map. apply flat_map_ext_in. intros e He. apply edges_ok in He as (i & j & -> & Hi & Hj).
      cbn [map]. rewrite (lat_edge n vs) by (auto; lia). rewrite Hl. reflexivity. }
    rewrite Ee. unfold inner1. cbn [flat_map map app].
    rewrite <- Hl. rewrite <- !lat_vertex by (auto; lia). rewrite <- !app_assoc. reflexivity.
  Qed.
End Lat.
