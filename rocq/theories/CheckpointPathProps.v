(** Property theorems: directories of checkpoints (C77). *)
Require DecimalNat DecimalFacts.
Require Import String Ascii Arith Bool Lia DecimalString List.
Require Import Verif.Base Verif.CheckpointPathModel.
Import ListNotations.
Local Open Scope list_scope.

(** * Specification *)
Definition prefix_of (p q : list text) : Prop := exists r, q = p ++ r.
Definition prefix_dec (p q : list text) : {prefix_of p q} + {~ prefix_of p q}.
Proof.
  revert q. induction p as [|x p IH]; intros q; [left; exists q; reflexivity|].
  destruct q as [|y q]; [right; intros (r & E); discriminate|].
  destruct (text_dec x y) as [<-|N]; [|right; intros (r & E); injection E; congruence].
  destruct (IH q) as [H|H]; [left; destruct H as (r & ->); exists r; reflexivity|right; intros (r & E); injection E as E; apply H; exists r; exact E].
Defined.
(** [fs] with [q] and all directories above it. *)
Definition with_directory (fs : fsys) (q : list text) (p : list text) : option node := if prefix_dec p q then Some Dir else fs p.

(** * Splitting *)
Lemma split_nonempty s : split s <> [].
Proof. destruct s as [|c r]; cbn; [discriminate|]. destruct (Ascii.eqb c slash); [discriminate|]. destruct (split r); discriminate. Qed.
Lemma split_app_slash s r : split (s ++ slash :: r) = split s ++ split r.
Proof.
  induction s as [|c s IH]; cbn; [reflexivity|]. destruct (Ascii.eqb c slash); cbn; [now rewrite IH|]. rewrite IH.
  pose proof (split_nonempty s). destruct (split s); [congruence|reflexivity].
Qed.
Lemma split_app_char s c : Ascii.eqb c slash = false -> split (s ++ [c]) = removelast (split s) ++ [last (split s) [] ++ [c]].
Proof.
  intro Hc. induction s as [|a s IH].
  - cbn. rewrite Hc. reflexivity.
  - pose proof (split_nonempty s) as N. change ((a :: s) ++ [c]) with (a :: (s ++ [c])). cbn [split]. destruct (Ascii.eqb a slash).
    + rewrite IH. destruct (split s) as [|h t]; [congruence|]. reflexivity.
    + rewrite IH. destruct (split s) as [|h t]; [congruence|]. destruct t as [|h' t]; reflexivity.
Qed.
Lemma comps_app_slash s r : comps (s ++ slash :: r) = comps s ++ comps r.
Proof. unfold comps. rewrite split_app_slash. apply filter_app. Qed.
Lemma comps_name (s : text) : (forall c, In c s -> c <> slash) -> names_something s = true -> comps s = [s].
Proof.
  intros H N. assert (split s = [s]); [|unfold comps; rewrite H0; cbn; now rewrite N]. clear N. induction s as [|c s IH]; [reflexivity|]. cbn.
  destruct (Ascii.eqb_spec c slash); [exfalso; apply (H c); [left; reflexivity|assumption]|]. rewrite IH; [reflexivity|]. intros; apply H; right; assumption.
Qed.
(** Names before the last slash. *)
Definition heads (s : text) : list text := filter names_something (removelast (split s)).
Lemma comps_heads s : comps s = heads s ++ filter names_something [last (split s) []].
Proof. unfold comps, heads. rewrite <- filter_app, <- app_removelast_last by apply split_nonempty. reflexivity. Qed.
Lemma heads_slash s : heads (s ++ [slash]) = comps s.
Proof. unfold heads. rewrite split_app_slash. cbn [split]. rewrite removelast_app by discriminate. cbn. now rewrite app_nil_r. Qed.
Lemma heads_char s c : Ascii.eqb c slash = false -> heads (s ++ [c]) = heads s.
Proof. intro H. unfold heads. rewrite split_app_char by exact H. rewrite removelast_app by discriminate. cbn. now rewrite app_nil_r. Qed.

(** * mkdir *)
Lemma parents_spec l p : In p (parents l) <-> prefix_of p l /\ p <> l.
Proof.
  revert p. induction l as [|x l IH]; intros p; cbn.
  - split; [intros []|intros [(r & E) N]]. symmetry in E. apply app_eq_nil in E as [-> _]. congruence.
  - split.
    + intros [<- | H]; [split; [exists (x :: l); reflexivity|discriminate]|]. apply in_map_iff in H as (q & <- & H). apply IH in H as [(r & ->) N].
      split; [exists r; reflexivity|congruence].
    + intros [(r & E) N]. destruct p as [|y p]; [left; reflexivity|right]. injection E as <- E. apply in_map_iff. exists p. split; [reflexivity|]. apply IH. split; [exists r; exact E|congruence].
Qed.
Lemma fold_error (fs : fsys) l e : fold_left (fun e p => match e with Some _ => e | None => match fs p with Some Dir => None | Some File => Some ENOTDIR | None => Some ENOENT end end) l (Some e) = Some e.
Proof. induction l; cbn; auto. Qed.
Lemma parent_error_none fs l : parent_error fs l = None <-> forall p, In p l -> fs p = Some Dir.
Proof.
  unfold parent_error. induction l as [|a l IH]; cbn; [split; [intros _ p []|reflexivity]|].
  destruct (fs a) as [[|]|] eqn:E; [|rewrite fold_error|rewrite fold_error].
  - rewrite IH. split; [intros H p [<-|Hp]; auto|intros H p Hp; auto].
  - split; [discriminate|]. intro H. specialize (H a (or_introl eq_refl)). congruence.
  - split; [discriminate|]. intro H. specialize (H a (or_introl eq_refl)). congruence.
Qed.

Section Create.
Variables (path_max : nat) (deny : list text -> option errno) (cwd : list text).
Notation mkdir := (mkdir deny cwd). Notation call := (mkdir_call deny cwd).
(** The directory that relative names start from. *)
Definition start (s : text) : list text := match s with c :: _ => if Ascii.eqb c slash then [] else cwd | [] => cwd end.
Lemma resolve_start s : resolve cwd s = start s ++ comps s.
Proof. destruct s as [|c s]; [reflexivity|]. unfold resolve, start. destruct (Ascii.eqb c slash); reflexivity. Qed.
Lemma start_app s r : s <> [] -> start (s ++ r) = start s.
Proof. destruct s; [congruence|reflexivity]. Qed.

Section Good.
Variables (fs0 : fsys) (target : list text).
Hypothesis Hfile : forall p, prefix_of p target -> fs0 p <> Some File.
Hypothesis Hdeny : forall p, prefix_of p target -> fs0 p = None -> deny p = None.
(** A call for a directory right below one that is there. *)
Lemma call_ok s q (fs : fsys) e : s <> [] -> (forall p, fs p = with_directory fs0 q p) -> prefix_of (resolve cwd s) target ->
  (resolve cwd s = q \/ exists x, resolve cwd s = q ++ [x]) ->
  exists (fs' : fsys) e' ok, call s (fs, e) = (fs', e', ok) /\ (forall p, fs' p = with_directory fs0 (resolve cwd s) p) /\ (e' = e \/ e' = EEXIST).
Proof.
  intros Hs Hfs HT HQ. set (t := resolve cwd s) in *. unfold mkdir_call, CheckpointPathModel.mkdir. destruct s as [|c s]; [congruence|]. cbn [fst snd]. fold t.
  assert (PE : parent_error fs (parents t) = None).
  { apply parent_error_none. intros p Hp. apply parents_spec in Hp as [Pp Np]. rewrite Hfs. unfold with_directory. destruct (prefix_dec p q) as [_|N]; [reflexivity|]. exfalso. apply N.
    destruct HQ as [<-|(x & Ex)]; [exact Pp|]. destruct Pp as (r & Er). rewrite Ex in Er. destruct (@exists_last _ r) as (r' & y & ->).
    { intros ->. apply Np. rewrite Ex, Er. now rewrite app_nil_r. }
    rewrite app_assoc in Er. apply app_inj_tail in Er as [-> _]. exists r'. reflexivity. }
  rewrite PE. destruct HQ as [Et|(x & Ex)].
  - assert (F : fs t = Some Dir) by (rewrite Hfs, Et; unfold with_directory; destruct (prefix_dec q q) as [_|N]; [reflexivity|exfalso; apply N; exists []; now rewrite app_nil_r]).
    rewrite F. exists fs, EEXIST, false. split; [reflexivity|]. rewrite Et. auto.
  - assert (Up : forall p, with_directory fs0 t p = if path_dec p t then Some Dir else with_directory fs0 q p).
    { intro p. unfold with_directory. destruct (path_dec p t) as [-> |N].
      - destruct (prefix_dec t t) as [_|M]; [reflexivity|exfalso; apply M; exists []; now rewrite app_nil_r].
      - destruct (prefix_dec p t) as [P|P], (prefix_dec p q) as [Q|Q]; try reflexivity; exfalso.
        + apply Q. destruct P as (r & Er). rewrite Ex in Er. destruct (@exists_last _ r) as (r' & y & ->); [intros ->; apply N; rewrite Ex, Er; now rewrite app_nil_r|].
          rewrite app_assoc in Er. apply app_inj_tail in Er as [-> _]. exists r'. reflexivity.
        + apply P. destruct Q as (r & ->). exists (r ++ [x]). rewrite Ex. now rewrite app_assoc. }
    destruct (fs t) as [[|]|] eqn:F.
    + exists fs, EEXIST, false. split; [reflexivity|]. split; [|auto]. intro p. rewrite Up. destruct (path_dec p t) as [-> |]; auto.
    + exfalso. rewrite Hfs in F. unfold with_directory in F. destruct (prefix_dec t q); [discriminate|]. apply (Hfile t HT F).
    + assert (Dn : deny t = None). { apply Hdeny; [exact HT|]. rewrite Hfs in F. unfold with_directory in F. destruct (prefix_dec t q); [discriminate|exact F]. }
      rewrite Dn. eexists _, _, _. split; [reflexivity|]. split; [|auto]. intro p. cbv beta. cbn [fst]. rewrite Up. destruct (path_dec p t); auto.
Qed.
Lemma call_heads s (fs : fsys) e : s <> [] -> (forall p, fs p = with_directory fs0 (start s ++ heads s) p) -> prefix_of (resolve cwd s) target ->
  exists (fs' : fsys) e' ok, call s (fs, e) = (fs', e', ok) /\ (forall p, fs' p = with_directory fs0 (resolve cwd s) p) /\ (e' = e \/ e' = EEXIST).
Proof.
  intros Hs Hfs HT. apply (call_ok s (start s ++ heads s)); auto. rewrite resolve_start, comps_heads. cbn [filter]. destruct (names_something _).
  - right. eexists. now rewrite app_assoc.
  - left. now rewrite app_nil_r.
Qed.
Lemma prefix_comps s r : prefix_of (comps s) (comps (s ++ slash :: r)).
Proof. rewrite comps_app_slash. eexists. reflexivity. Qed.
Lemma loop_ok rest : forall done (fs : fsys) e, done <> [] -> (forall p, fs p = with_directory fs0 (start done ++ heads done) p) -> resolve cwd (done ++ rest) = target ->
  exists (fs' : fsys) e', mkdir_loop deny cwd done rest (fs, e) = (fs', e') /\ (forall p, fs' p = with_directory fs0 (start (done ++ rest) ++ heads (done ++ rest)) p) /\ (e' = e \/ e' = EEXIST).
Proof.
  induction rest as [|c r IH]; intros done fs e Hd Hfs HT; cbn [mkdir_loop].
  - rewrite app_nil_r. exists fs, e. auto.
  - assert (Hd' : done ++ [c] <> []) by (intro E; apply app_eq_nil in E as [_ E]; discriminate).
    assert (HT' : resolve cwd ((done ++ [c]) ++ r) = target) by (rewrite <- app_assoc; exact HT).
    destruct (Ascii.eqb_spec c slash) as [-> |Hc].
    + destruct (call_heads done fs e Hd Hfs) as (fs1 & e1 & ok & Ec & H1 & H2).
      { rewrite <- HT, !resolve_start, start_app by auto. destruct (prefix_comps done r) as (z & ->). exists z. now rewrite app_assoc. }
      rewrite Ec. cbn [fst]. destruct (IH (done ++ [slash]) fs1 e1 Hd') as (fs' & e' & E & A & B); auto.
      { intro p. rewrite H1, resolve_start, start_app, heads_slash by auto. reflexivity. }
      exists fs', e'. rewrite <- app_assoc in A. cbn [app] in A. split; [exact E|]. split; [exact A|]. destruct B as [-> | ->]; auto.
    + destruct (IH (done ++ [c]) fs e Hd') as (fs' & e' & E & A & B); auto.
      { intro p. rewrite Hfs, start_app, heads_char by (auto; now apply Ascii.eqb_neq). reflexivity. }
      exists fs', e'. rewrite <- app_assoc in A. auto.
Qed.
End Good.

Lemma copy_path_spec dir : dir <> [] -> (length dir < path_max)%nat -> exists tmp, copy_path path_max dir = Some tmp /\ (dir = tmp \/ dir = tmp ++ [slash]) /\ (tmp = [] -> dir = [slash]).
Proof.
  intros Hd Hl. unfold copy_path. rewrite firstn_all2 by lia. destruct dir as [|c r] eqn:E; [congruence|]. rewrite <- E in *. clear E. eexists. split; [reflexivity|].
  destruct (Ascii.eqb_spec (last dir slash) slash) as [L|L].
  - assert (A : dir = removelast dir ++ [slash]) by (pose proof (app_removelast_last slash Hd) as A; rewrite L in A; exact A). split; [right; exact A|]. intro Z. rewrite Z in A. exact A.
  - split; [left; reflexivity|congruence].
Qed.

(** C77a: if nothing but directories lies on the way and the system lets missing directories be created,
    the directory and all above it exist afterwards and nothing else has changed; the program goes on,
    on every rank, unless errno was a fatal error before. *)
Theorem directories_created : forall dir (fs : fsys) e, dir <> [] -> dir <> [slash] -> (length dir < path_max)%nat ->
  let target := resolve cwd dir in
  (forall p, prefix_of p (start dir) -> fs p = Some Dir) ->
  (forall p, prefix_of p target -> fs p <> Some File) -> (forall p, prefix_of p target -> fs p = None -> deny p = None) ->
  exists fs' e' abort, MPICreateDirectory path_max deny cwd dir (fs, e) = Some (fs', e', abort) /\
    (forall p, prefix_of p target -> fs' p = Some Dir) /\ (forall p, ~ prefix_of p target -> fs' p = fs p) /\
    (e' = e \/ e' = EEXIST) /\ (fatal e = false -> forall rank, abort rank = false).
Proof.
  intros dir fs e Hd Hs Hl target Hst Hfi Hde. destruct (copy_path_spec dir Hd Hl) as (tmp & Ecp & Et & Hnil).
  assert (Htmp : tmp <> []) by (intro Z; apply Hs; auto).
  assert (ET : resolve cwd tmp = target).
  { unfold target. destruct Et as [-> |E]; [reflexivity|]. rewrite E, !resolve_start, start_app by auto. now rewrite comps_app_slash; cbn; rewrite app_nil_r. }
  assert (ES : start tmp = start dir) by (destruct Et as [-> |E]; [reflexivity|rewrite E; symmetry; now apply start_app]).
  unfold MPICreateDirectory, recursive_mkdir. rewrite Ecp. cbn [bind].
  assert (L : exists (fs1 : fsys) e1, (match tmp with [] => (fs, e) | c :: r => mkdir_loop deny cwd [c] r (fs, e) end) = (fs1, e1) /\
    (forall p, fs1 p = with_directory fs (start tmp ++ heads tmp) p) /\ (e1 = e \/ e1 = EEXIST)).
  { destruct tmp as [|c r]; [congruence|]. destruct (loop_ok fs target Hfi Hde r [c] fs e) as (fs1 & e1 & E & A & B); auto; [discriminate| |exists fs1, e1; auto].
    intro p. assert (Hh : heads [c] = []) by (unfold heads; cbn; destruct (Ascii.eqb c slash); reflexivity). rewrite Hh, app_nil_r. unfold with_directory.
    destruct (prefix_dec p (start [c])) as [P|P]; [|reflexivity]. apply Hst. rewrite <- ES. exact P. }
  destruct L as (fs1 & e1 & -> & A1 & B1).
  destruct (call_heads fs target Hfi Hde tmp fs1 e1 Htmp A1) as (fs2 & e2 & ok & -> & A2 & B2); [rewrite ET; exists []; now rewrite app_nil_r|].
  eexists _, _, _. split; [reflexivity|]. split; [|split; [|split]].
  - intros p P. rewrite A2, ET. unfold with_directory. destruct (prefix_dec p target); [reflexivity|contradiction].
  - intros p P. rewrite A2, ET. unfold with_directory. destruct (prefix_dec p target); [contradiction|reflexivity].
  - destruct B2 as [-> | ->]; auto.
  - intros F rank. destruct B2 as [-> | ->]; [destruct B1 as [-> | ->]|]; auto.
Qed.

(** C77b: whatever the file system holds, the call changes nothing but that missing directories on the
    way, whose creation is not denied, appear. *)
Lemma call_frame s (fs : fsys) e fs' e' ok : call s (fs, e) = (fs', e', ok) ->
  forall p, fs' p = fs p \/ (fs p = None /\ fs' p = Some Dir /\ p = resolve cwd s /\ deny p = None).
Proof.
  unfold mkdir_call, CheckpointPathModel.mkdir. cbn [fst snd]. destruct s as [|c s]; [intros E; injection E as <- _ _; auto|].
  destruct (parent_error _ _); [intros E; injection E as <- _ _; auto|]. destruct (fs _) eqn:F; [intros E; injection E as <- _ _; auto|].
  destruct (deny _) eqn:Dn; [intros E; injection E as <- _ _; auto|]. intros E. injection E as <- _ _. intro p. destruct (path_dec p _) as [-> |]; auto.
Qed.
Theorem directories_frame : forall dir (fs : fsys) e fs' e' abort, MPICreateDirectory path_max deny cwd dir (fs, e) = Some (fs', e', abort) -> (length dir < path_max)%nat ->
  forall p, fs' p = fs p \/ (fs p = None /\ fs' p = Some Dir /\ prefix_of p (resolve cwd dir) /\ deny p = None).
Proof.
  intros dir fs e fs' e' abort E Hl. assert (Hd : dir <> []) by (intros ->; unfold MPICreateDirectory, recursive_mkdir, copy_path in E; rewrite firstn_nil in E; discriminate).
  destruct (copy_path_spec dir Hd Hl) as (tmp & Ecp & Et & Hnil). unfold MPICreateDirectory, recursive_mkdir in E. rewrite Ecp in E. cbn [bind] in E.
  assert (PT : forall s, s <> [] -> (exists r, tmp = s ++ r /\ (r = [] \/ exists r', r = slash :: r')) -> prefix_of (resolve cwd s) (resolve cwd dir)).
  { intros s Hs (r & Er & Hr).
    assert (A : prefix_of (resolve cwd s) (resolve cwd tmp)).
    { subst tmp. rewrite !resolve_start, start_app by auto. destruct Hr as [-> |(r' & ->)]; [rewrite app_nil_r; exists []; now rewrite app_nil_r|]. rewrite comps_app_slash. eexists. rewrite app_assoc. reflexivity. }
    assert (B : resolve cwd dir = resolve cwd tmp).
    { destruct Et as [-> | ->]; [reflexivity|]. destruct s as [|a s]; [congruence|]. rewrite !resolve_start, start_app by (intros ->; discriminate). now rewrite comps_app_slash; cbn; rewrite app_nil_r. }
    rewrite B. exact A. }
  assert (LF : forall r done (fs1 : fsys) e1 fs2 e2, done <> [] -> tmp = done ++ r -> mkdir_loop deny cwd done r (fs1, e1) = (fs2, e2) ->
    forall p, fs2 p = fs1 p \/ (fs1 p = None /\ fs2 p = Some Dir /\ prefix_of p (resolve cwd dir) /\ deny p = None)).
  { induction r as [|c r IH]; intros done fs1 e1 fs2 e2 Hdn Etmp El p; cbn [mkdir_loop] in El; [injection El as <- _; auto|].
    assert (Hd' : done ++ [c] <> []) by (intro Z; apply app_eq_nil in Z as [_ Z]; discriminate).
    destruct (Ascii.eqb_spec c slash) as [-> |Hc].
    - destruct (call done (fs1, e1)) as [[fsm em] ok] eqn:Ec. cbn [fst] in El. pose proof (call_frame _ _ _ _ _ _ Ec p) as C1.
      destruct (IH (done ++ [slash]) fsm em fs2 e2 Hd') with (p := p) as [C2|(C2 & C3 & C4 & C5)]; auto; [now rewrite <- app_assoc| |].
      + destruct C1 as [C1|(C1 & C6 & -> & C7)]; [left; congruence|right]. split; [exact C1|]. split; [congruence|]. split; [|exact C7]. apply PT; [exact Hdn|]. exists (slash :: r). eauto.
      + destruct C1 as [C1|(C1 & C6 & _)]; [|congruence]. right. rewrite <- C1. auto.
    - apply (IH (done ++ [c]) fs1 e1 fs2 e2 Hd'); auto. now rewrite <- app_assoc. }
  set (st1 := match tmp with [] => (fs, e) | c :: r => mkdir_loop deny cwd [c] r (fs, e) end) in *.
  assert (L : forall p, fst st1 p = fs p \/ (fs p = None /\ fst st1 p = Some Dir /\ prefix_of p (resolve cwd dir) /\ deny p = None)).
  { intro p. unfold st1. destruct tmp as [|c r] eqn:ETmp; [auto|]. destruct (mkdir_loop deny cwd [c] r (fs, e)) as [fs2 e2] eqn:El. cbn [fst]. apply (LF r [c] fs e fs2 e2); auto. discriminate. }
  destruct st1 as [fs1 e1]. cbn [fst] in L. destruct (call tmp (fs1, e1)) as [[fs2 e2] ok] eqn:Ec. injection E as <- _ _. intro p.
  destruct (call_frame _ _ _ _ _ _ Ec p) as [C1|(C1 & C2 & -> & C3)].
  - rewrite C1. apply L.
  - destruct (L (resolve cwd tmp)) as [C4|(C4 & C5 & _)]; [|congruence]. right. rewrite <- C4. split; [exact C1|]. split; [exact C2|]. split; [|exact C3].
    apply PT; [|exists []; rewrite app_nil_r; auto]. intros ->. unfold mkdir_call in Ec. cbn in Ec. injection Ec as <- _ _. congruence.
Qed.

(** C77c: if all directories above exist and the system refuses to create the last, for a
    reason the program knows (EACCES, EBADF, EDQUOT, EFAULT, EINVAL, ELOOP, EMLINK, ENOMEM, ENOSPC,
    ENOTDIR, EPERM, EROFS), every rank ends the program. *)
Theorem refused_directory_aborts : forall dir (fs : fsys) e err, dir <> [] -> dir <> [slash] -> (length dir < path_max)%nat ->
  let target := resolve cwd dir in
  (forall p, prefix_of p target -> p <> target -> fs p = Some Dir) -> (forall p, prefix_of p (start dir) -> fs p = Some Dir) ->
  fs target = None -> deny target = Some err -> ~ In err [ENONE; ENOENT; EEXIST; EOTHER] ->
  exists fs' e' abort, MPICreateDirectory path_max deny cwd dir (fs, e) = Some (fs', e', abort) /\ (forall p, fs' p = fs p) /\ forall rank, abort rank = true.
Proof.
  intros dir fs e err Hd Hs Hl target HP Hst HN HDn HF. destruct (copy_path_spec dir Hd Hl) as (tmp & Ecp & Et & Hnil).
  assert (Htmp : tmp <> []) by (intro Z; apply Hs; auto).
  assert (ET : resolve cwd tmp = target).
  { unfold target. destruct Et as [-> |E]; [reflexivity|]. rewrite E, !resolve_start, start_app by auto. now rewrite comps_app_slash; cbn; rewrite app_nil_r. }
  unfold MPICreateDirectory, recursive_mkdir. rewrite Ecp. cbn [bind].
  assert (NT : forall s (fs1 : fsys) e1, s <> [] -> (forall p, fs1 p = fs p) -> prefix_of (resolve cwd s) target -> exists (fs2 : fsys) e2 ok, call s (fs1, e1) = (fs2, e2, ok) /\ (forall p, fs2 p = fs p) /\ (resolve cwd s = target -> e2 = err)).
  { intros s fs1 e1 Hns H1 HTp. unfold mkdir_call, CheckpointPathModel.mkdir. cbn [fst snd]. destruct s as [|a s]; [congruence|].
    assert (PE : parent_error fs1 (parents (resolve cwd (a :: s))) = None).
    { apply parent_error_none. intros p Hp. apply parents_spec in Hp as [P1 N1]. rewrite H1. apply HP.
      - destruct P1 as (r1 & E1), HTp as (r2 & E2). exists (r1 ++ r2). rewrite E2, E1. now rewrite app_assoc.
      - intros ->. destruct P1 as (r1 & E1), HTp as (r2 & E2). apply N1. rewrite E1 in E2. rewrite <- app_assoc in E2. rewrite <- (app_nil_r target) in E2 at 1. apply app_inv_head in E2. symmetry in E2. apply app_eq_nil in E2 as [-> _]. rewrite app_nil_r in E1. auto. }
    rewrite PE, H1. destruct (path_dec (resolve cwd (a :: s)) target) as [Eq|Ne].
    - rewrite Eq, HN, HDn. exists fs1, err, false. auto.
    - rewrite (HP _ HTp Ne). exists fs1, EEXIST, false. split; [reflexivity|]. split; [exact H1|]. congruence. }
  assert (LF : forall r done (fs1 : fsys) e1, done <> [] -> tmp = done ++ r -> (forall p, fs1 p = fs p) -> forall p, fst (mkdir_loop deny cwd done r (fs1, e1)) p = fs p).
  { induction r as [|c r IH]; intros done fs1 e1 Hdn Etmp H1 p; cbn [mkdir_loop]; [apply H1|].
    assert (Hd' : done ++ [c] <> []) by (intro Z; apply app_eq_nil in Z as [_ Z]; discriminate).
    destruct (Ascii.eqb_spec c slash) as [-> |Hc]; [|apply IH; auto; now rewrite <- app_assoc].
    destruct (NT done fs1 e1 Hdn H1) as (fs2 & e2 & ok & -> & H2 & _).
    { rewrite <- ET, Etmp, !resolve_start, start_app by auto. rewrite comps_app_slash. eexists. rewrite app_assoc. reflexivity. }
    cbn [fst]. apply IH; auto. now rewrite <- app_assoc. }
  set (st1 := match tmp with [] => (fs, e) | c :: r => mkdir_loop deny cwd [c] r (fs, e) end).
  assert (L : forall p, fst st1 p = fs p) by (intro p; unfold st1; destruct tmp as [|c r]; [reflexivity|apply LF; auto; discriminate]).
  destruct st1 as [fs1 e1]. cbn [fst] in L. destruct (NT tmp fs1 e1 Htmp L) as (fs2 & e2 & ok & -> & H2 & H3); [rewrite ET; exists []; now rewrite app_nil_r|].
  eexists _, _, _. split; [reflexivity|]. split; [exact H2|]. intro rank. rewrite H3 by exact ET. destruct err; cbn in HF |- *; try reflexivity; exfalso; tauto.
Qed.
End Create.

(** * Names *)
Lemma uint_chars d c : In c (list_ascii_of_string (NilEmpty.string_of_uint d)) -> c <> slash.
Proof. induction d; cbn; [intros []|..]; (intros [<- |H]; [discriminate|auto]). Qed.
Lemma to_uint_nonnil n : Nat.to_uint n <> Decimal.Nil.
Proof. pose proof (DecimalNat.Unsigned.to_of (Nat.to_uint n)) as E. rewrite DecimalNat.Unsigned.of_to in E. rewrite E. apply DecimalFacts.unorm_nonnil. Qed.
Lemma decimal_chars n c : In c (decimal n) -> c <> slash.
Proof.
  unfold decimal, chars. pose proof (to_uint_nonnil n) as N. intro H. apply (uint_chars (Nat.to_uint n)).
  unfold NilZero.string_of_uint in H. destruct (Nat.to_uint n); [congruence|exact H..].
Qed.
Lemma decimal_inj i j : decimal i = decimal j -> i = j.
Proof.
  unfold decimal, chars. intro E. apply (f_equal string_of_list_ascii) in E. rewrite !string_of_list_ascii_of_string in E.
  apply (f_equal NilZero.uint_of_string) in E. rewrite !NilZero.usu in E by apply to_uint_nonnil. injection E as E. apply DecimalNat.Unsigned.to_uint_inj. exact E.
Qed.
(** The name of the directory of checkpoint [i]. *)
Definition checkpoint_name (m : storage_mode) (i : nat) : text := basename m ++ decimal i.
Lemma name_chars m i c : In c (checkpoint_name m i) -> c <> slash.
Proof. intro H. apply in_app_or in H as [H|H]; [|now apply (decimal_chars i)]. destruct m; cbn in H; intuition (subst; discriminate). Qed.
Lemma name_something m i : names_something (checkpoint_name m i) = true.
Proof. destruct m; reflexivity. Qed.
Lemma name_inj m i m' j : checkpoint_name m i = checkpoint_name m' j -> m = m' /\ i = j.
Proof. unfold checkpoint_name. destruct m, m'; cbn; intro E; try discriminate; injection E as E; split; auto using decimal_inj. Qed.
Lemma comps_checkpoint m i : comps (checkpoint_name m i) = [checkpoint_name m i].
Proof. apply comps_name; [apply name_chars|apply name_something]. Qed.
Lemma last_slash (s : text) d : s <> [] -> last s d = slash -> s = removelast s ++ [slash].
Proof. intros Hs L. rewrite <- L. now apply app_removelast_last. Qed.

Definition fits (size : nat) (prefix : text) (m : storage_mode) (i : nat) : Prop := (length prefix + 1 + length (checkpoint_name m i) <= size - 2)%nat.
Lemma path_step_fits size prefix m i : fits size prefix m i -> path_step size prefix m i =
  match prefix with [] => checkpoint_name m i | _ => if Ascii.eqb (last prefix "000"%char) slash then prefix ++ checkpoint_name m i else prefix ++ slash :: checkpoint_name m i end.
Proof.
  unfold path_step, fits. fold (checkpoint_name m i). intro H. apply firstn_all2. destruct prefix as [|a l]; [cbn in *; lia|]. destruct (Ascii.eqb _ _); rewrite !app_length; cbn [length app] in *; lia.
Qed.
(** C77d: the directory of a checkpoint lies in the directory that was asked for (the working directory if
    none was) and is called step or chkpnt and the number; different numbers give different directories. *)
Theorem checkpoint_directory : forall cwd size prefix m i, fits size prefix m i ->
  resolve cwd (path_step size prefix m i) = resolve cwd prefix ++ [basename m ++ decimal i].
Proof.
  intros cwd size prefix m i H. rewrite (path_step_fits _ _ _ _ H). fold (checkpoint_name m i). rewrite !resolve_start. destruct prefix as [|a l].
  - rewrite comps_checkpoint. cbn. rewrite app_nil_r. destruct m; reflexivity.
  - destruct (Ascii.eqb_spec (last (a :: l) "000"%char) slash) as [L|L].
    + pose proof (last_slash (a :: l) _ ltac:(discriminate) L) as E. rewrite start_app by discriminate. rewrite <- app_assoc. f_equal.
      rewrite E. rewrite <- app_assoc. cbn [app]. rewrite !comps_app_slash, comps_checkpoint. cbn. now rewrite app_nil_r.
    + rewrite start_app by discriminate. rewrite comps_app_slash, comps_checkpoint. now rewrite app_assoc.
Qed.
Theorem checkpoint_directories_distinct : forall cwd size prefix m i m' j, fits size prefix m i -> fits size prefix m' j ->
  resolve cwd (path_step size prefix m i) = resolve cwd (path_step size prefix m' j) -> m = m' /\ i = j.
Proof.
  intros cwd size prefix m i m' j Hi Hj E. rewrite !checkpoint_directory in E by assumption. apply app_inj_tail in E as [_ E]. now apply name_inj.
Qed.
Lemma file_in_ok cwd size (dir : text) name : dir <> [] -> (length dir + 1 + String.length name <= size - 2)%nat -> comps (chars name) = [chars name] ->
  resolve cwd (file_in size dir name) = resolve cwd dir ++ [chars name].
Proof.
  intros Hd Hl Hn. unfold file_in. rewrite firstn_all2.
  2:{ rewrite !app_length. unfold chars. cbn [length]. assert (E : forall s, length (list_ascii_of_string s) = String.length s) by (induction s; cbn; auto). rewrite E. lia. }
  cbn [app]. rewrite !resolve_start, start_app, comps_app_slash, Hn by exact Hd. now rewrite app_assoc.
Qed.
(** C77e: the files of a checkpoint lie in its directory, and the file that names the last checkpoint
    beside the directories of the checkpoints; no two of them are the same. *)
Theorem checkpoint_files : forall cwd size prefix m i, fits size prefix m i ->
  (length (path_step size prefix m i) + 20 <= size - 2)%nat -> (length prefix + 20 <= size - 2)%nat ->
  let dir := resolve cwd prefix ++ [basename m ++ decimal i] in let file := fun n => resolve cwd (file_in size (path_step size prefix m i) n) in
  file "ts.bin"%string = dir ++ [chars "ts.bin"] /\ file "ts_impl.bin"%string = dir ++ [chars "ts_impl.bin"] /\ file "state.vec"%string = dir ++ [chars "state.vec"] /\
  file "checkpoint_info.csv"%string = dir ++ [chars "checkpoint_info.csv"] /\
  (prefix <> [] -> resolve cwd (pointer_path size prefix) = resolve cwd prefix ++ [chars "last_checkpoint.txt"] /\
    forall m' j, resolve cwd (pointer_path size prefix) <> resolve cwd prefix ++ [basename m' ++ decimal j]).
Proof.
  intros cwd size prefix m i H L1 L2 dir file. unfold dir, file. rewrite <- (checkpoint_directory cwd size prefix m i H).
  assert (N : path_step size prefix m i <> []).
  { rewrite (path_step_fits _ _ _ _ H). destruct prefix as [|a l]; [destruct m; discriminate|]. destruct (Ascii.eqb _ _); discriminate. }
  repeat split; try (apply file_in_ok; [exact N|cbn; lia|reflexivity]).
  - unfold pointer_path. apply file_in_ok; [assumption|cbn; lia|reflexivity].
  - intros m' j. unfold pointer_path. rewrite file_in_ok; [|assumption|cbn; lia|reflexivity]. intro E. apply app_inj_tail in E as [_ E].
    destruct m'; cbn in E; discriminate.
Qed.

(** * A run *)
Section Run.
Variables (path_max size : nat) (deny : list text -> option errno) (cwd : list text) (prefix : text) (m : storage_mode).
(** The run goes on only if no rank aborts. *)
Definition unless_abort (r : option (fsys * errno * (nat -> bool))) : option (fsys * errno) :=
  match r with Some (fs, e, abort) => if abort 0%nat then None else Some (fs, e) | None => None end.
(** The directories made for a sequence of checkpoints after the configuration. *)
Fixpoint make_all (is : list nat) (st : fsys * errno) : option (fsys * errno) :=
  match is with
  | [] => Some st
  | i :: r => match unless_abort (MPICreateDirectory path_max deny cwd (path_step size prefix m i) st) with Some st' => make_all r st' | None => None end
  end.
Definition checkpoint_run (is : list nat) (st : fsys * errno) : option (fsys * errno) :=
  match unless_abort (configure_directory path_max deny cwd prefix m st) with Some st' => make_all is st' | None => None end.

Lemma prefix_trans p q r : prefix_of p q -> prefix_of q r -> prefix_of p r.
Proof. intros (a & ->) (b & ->). exists (a ++ b). now rewrite app_assoc. Qed.
Lemma prefix_snoc p q (x : text) : prefix_of p (q ++ [x]) -> prefix_of p q \/ p = q ++ [x].
Proof.
  intros (r & E). destruct (list_eq_dec text_dec r []) as [-> |N]; [right; now rewrite app_nil_r in E|]. destruct (@exists_last _ r N) as (r' & y & ->). rewrite app_assoc in E. apply app_inj_tail in E as [-> _]. left. exists r'. reflexivity.
Qed.
(** C77f: in a run whose directories can be created, each checkpoint finds its directory, and no rank ends
    the program. *)
Theorem checkpoint_directories_ready : forall is (fs : fsys) e, prefix <> [slash] -> m <> NoStorage -> (size < path_max)%nat -> (length prefix < path_max)%nat -> (forall i, In i is -> fits size prefix m i) ->
  let dir := fun i => resolve cwd prefix ++ [basename m ++ decimal i] in
  (forall p, prefix_of p (start cwd prefix) -> fs p = Some Dir) ->
  (forall p, prefix_of p (resolve cwd prefix) \/ (exists i, In i is /\ p = dir i) -> fs p <> Some File /\ (fs p = None -> deny p = None)) ->
  fatal e = false ->
  exists fs' e', checkpoint_run is (fs, e) = Some (fs', e') /\ (forall i p, In i is -> prefix_of p (dir i) -> fs' p = Some Dir) /\
    (forall p, fs' p = fs p \/ (fs p = None /\ (prefix_of p (resolve cwd prefix) \/ exists i, In i is /\ p = dir i))).
Proof.
  intros is fs e Hp Hm Hsz Hlp Hfit dir Hst Hok He.
  assert (A : exists (fs1 : fsys) e1, unless_abort (configure_directory path_max deny cwd prefix m (fs, e)) = Some (fs1, e1) /\ (forall p, prefix_of p (resolve cwd prefix) -> fs1 p = Some Dir) /\ (forall p, ~ prefix_of p (resolve cwd prefix) -> fs1 p = fs p) /\ fatal e1 = false).
  { destruct prefix as [|a l] eqn:EP.
    - exists fs, e. split; [destruct m; [congruence|reflexivity..]|]. split; [|auto]. intros p P. apply Hst. cbn in *. now rewrite app_nil_r in P.
    - destruct (directories_created path_max deny cwd (a :: l) fs e) as (fs1 & e1 & ab & E & H1 & H2 & H3 & H4); auto; [discriminate|intros p P; apply (Hok p); auto|intros p P; apply (Hok p); auto|].
      exists fs1, e1. split; [|split; [exact H1|split; [exact H2|]]].
      + unfold configure_directory. destruct m; [congruence|..]; rewrite E; cbn; rewrite H4 by exact He; reflexivity.
      + destruct H3 as [-> | ->]; auto. }
  destruct A as (fs1 & e1 & E1 & D1 & F1 & Fe1). unfold checkpoint_run. rewrite E1.
  assert (B : forall js (fs2 : fsys) e2, (forall i, In i js -> In i is) -> fatal e2 = false -> (forall p, prefix_of p (resolve cwd prefix) -> fs2 p = Some Dir) ->
    (forall p, ~ prefix_of p (resolve cwd prefix) -> (forall i, In i is -> p <> dir i) -> fs2 p = fs p) -> (forall i, In i is -> fs2 (dir i) = Some Dir \/ fs2 (dir i) = fs (dir i)) ->
    exists (fs' : fsys) e', make_all js (fs2, e2) = Some (fs', e') /\ (forall p, fs2 p = Some Dir -> fs' p = Some Dir) /\ (forall i, In i js -> fs' (dir i) = Some Dir) /\
      (forall p, ~ prefix_of p (resolve cwd prefix) -> (forall i, In i is -> p <> dir i) -> fs' p = fs p)).
  { induction js as [|i js IH]; intros fs2 e2 Hin Fe D F K.
    - exists fs2, e2. split; [reflexivity|]. split; [auto|]. split; [intros i []|exact F].
    - assert (Ii : In i is) by (apply Hin; left; reflexivity). pose proof (Hfit i Ii) as Fi.
      pose proof (checkpoint_directory cwd size prefix m i Fi) as RD. fold (dir i) in RD.
      assert (LP : path_step size prefix m i <> [] /\ path_step size prefix m i <> [slash] /\ start cwd (path_step size prefix m i) = start cwd prefix).
      { rewrite (path_step_fits _ _ _ _ Fi). destruct prefix as [|a l]; [destruct m; repeat split; discriminate|]. destruct (Ascii.eqb _ _); (split; [discriminate|]; split; [|reflexivity]).
        - intro Z. injection Z as _ Z. apply app_eq_nil in Z as [_ Z]. destruct m; discriminate.
        - intro Z. injection Z as _ Z. apply app_eq_nil in Z as [_ Z]. discriminate. }
      destruct LP as (N1 & N2 & S1).
      assert (LL : (length (path_step size prefix m i) < path_max)%nat) by (unfold path_step; rewrite firstn_length; lia).
      destruct (directories_created path_max deny cwd (path_step size prefix m i) fs2 e2 N1 N2 LL) as (fs3 & e3 & ab & E3 & G1 & G2 & G3 & G4).
      + rewrite S1. intros p P. apply D. eapply prefix_trans; [exact P|]. rewrite resolve_start. eexists. reflexivity.
      + rewrite RD. intros p P. apply prefix_snoc in P as [P | ->]; [rewrite D by exact P; discriminate|]. fold (dir i). destruct (K i Ii) as [-> | ->]; [discriminate|]. apply (Hok (dir i)). right. eauto.
      + rewrite RD. intros p P. apply prefix_snoc in P as [P | ->]; [rewrite D by exact P; discriminate|]. fold (dir i). destruct (K i Ii) as [-> | ->]; [discriminate|]. apply (Hok (dir i)). right. eauto.
      + rewrite RD in *. cbn [make_all]. rewrite E3. cbn. rewrite G4 by exact Fe.
        assert (Mono : forall p, fs2 p = Some Dir -> fs3 p = Some Dir) by (intros p Q; destruct (prefix_dec p (dir i)); [apply G1; assumption|rewrite G2; assumption]).
        destruct (IH fs3 e3) as (fs' & e' & E' & I1 & I2 & I3).
        * intros; apply Hin; right; assumption.
        * destruct G3 as [-> | ->]; auto.
        * auto.
        * intros p P Q. rewrite G2; [auto|]. intro Z. apply prefix_snoc in Z as [Z|Z]; [auto|apply (Q i Ii Z)].
        * intros j Ij. destruct (prefix_dec (dir j) (dir i)) as [Z|Z]; [left; auto|]. rewrite G2 by exact Z. destruct (K j Ij); auto.
        * exists fs', e'. split; [exact E'|]. split; [auto|]. split; [|exact I3]. intros j [<- |Ij]; [|auto]. apply I1, G1. exists []. now rewrite app_nil_r. }
  destruct (B is fs1 e1) as (fs' & e' & E' & I1 & I2 & I3); auto.
  { intros i Ii. right. apply F1. intros (r & Z). unfold dir in Z. apply (f_equal (@length _)) in Z. rewrite !app_length in Z. cbn in Z. lia. }
  exists fs', e'. split; [exact E'|]. split.
  - intros i p Ii P. apply prefix_snoc in P as [P | ->]; [auto|]. apply (I2 i Ii).
  - intro p. destruct (prefix_dec p (resolve cwd prefix)) as [P|P].
    + destruct (fs p) as [[|]|] eqn:Fp; [left; rewrite (I1 p (D1 p P)); congruence|exfalso; apply (Hok p (or_introl P)); exact Fp|right; auto].
    + destruct (in_dec path_dec p (map dir is)) as [Q|Q].
      * apply in_map_iff in Q as (i & Ei & Ii). destruct (fs p) as [[|]|] eqn:Fp; [left; subst p; rewrite (I2 i Ii); congruence|exfalso; refine (proj1 (Hok p _) Fp); right; eauto|right; split; eauto].
      * left. apply I3; [exact P|]. intros i Ii ->. apply Q. apply in_map. exact Ii.
Qed.
End Run.

(** * Where the code does not do what one would want *)
Definition only (l : list (list text)) (n : node) (fs : fsys) : fsys := fun p => if in_dec path_dec p l then Some n else fs p.
Definition root : fsys := only [[]] Dir (fun _ => None).
Lemma outcome (r : option (fsys * errno * (nat -> bool))) (P : fsys -> errno -> (nat -> bool) -> Prop) :
  match r with Some (fs, e, ab) => P fs e ab | None => False end -> exists fs e ab, r = Some (fs, e, ab) /\ P fs e ab.
Proof. destruct r as [[[fs e] ab]|]; [intro H; exists fs, e, ab; auto|intros []]. Qed.
(** A directory above that cannot be created goes unnoticed: the last error is that it is missing. *)
Theorem refused_parent_refuted : exists deny dir, (exists p err, prefix_of p (resolve [] dir) /\ deny p = Some err /\ fatal err = true) /\
  exists fs' e' abort, MPICreateDirectory 100 deny [] dir (root, ENONE) = Some (fs', e', abort) /\ fs' (resolve [] dir) = None /\ forall rank, abort rank = false.
Proof.
  exists (fun _ => Some EACCES), (chars "/a/b"). split; [exists [chars "a"], EACCES; split; [exists [chars "b"]; reflexivity|auto]|].
  apply (outcome _ (fun fs _ ab => _ /\ _)). vm_compute. split; reflexivity.
Qed.
(** errno is not reset: an error from before ends the program although the directory was created. *)
Theorem old_error_aborts_refuted : exists dir fs' e' abort, MPICreateDirectory 100 (fun _ => None) [] dir (root, ENOSPC) = Some (fs', e', abort) /\
  fs' (resolve [] dir) = Some Dir /\ forall rank, abort rank = true.
Proof. exists (chars "/a"). apply (outcome _ (fun fs _ ab => _ /\ _)). vm_compute. split; reflexivity. Qed.
(** A file where the directory should be goes unnoticed. *)
Theorem file_in_place_refuted : exists dir fs fs' e' abort, MPICreateDirectory 100 (fun _ => None) [] dir (fs, ENONE) = Some (fs', e', abort) /\
  fs' (resolve [] dir) = Some File /\ forall rank, abort rank = false.
Proof. exists (chars "/a"), (only [[chars "a"]] File root). apply (outcome _ (fun fs _ ab => _ /\ _)). vm_compute. split; reflexivity. Qed.
(** Without a prefix the checkpoints lie in the working directory, but the file that names the last of
    them in the root directory. *)
Theorem pointer_without_prefix_refuted : forall cwd m i, fits 100 [] m i ->
  resolve cwd (path_step 100 [] m i) = cwd ++ [basename m ++ decimal i] /\ resolve cwd (pointer_path 100 []) = [chars "last_checkpoint.txt"].
Proof. intros cwd m i H. split; [|reflexivity]. rewrite checkpoint_directory by exact H. cbn. now rewrite app_nil_r. Qed.

(** * A case *)
Definition home : fsys := only [[]; [chars "home"]; [chars "home"; chars "me"]] Dir (fun _ => None).
Definition me : list text := [chars "home"; chars "me"].
Lemma prefix_me p : prefix_of p me -> p = [] \/ p = [chars "home"] \/ p = me.
Proof. intros (r & E). destruct p as [|a [|b [|c p]]]; [auto|injection E as <- _; auto|injection E as <- <- _; auto|injection E; discriminate]. Qed.
Lemma run_outcome (r : option (fsys * errno)) (P : fsys -> Prop) : match r with Some (fs, e) => P fs | None => False end -> exists fs e, r = Some (fs, e) /\ P fs.
Proof. destruct r as [[fs e]|]; [intro H; exists fs, e; auto|intros []]. Qed.
Example relative_run : exists fs' e', checkpoint_run 100 90 (fun _ => None) me (chars "run/cp/") LimitedStorage [0; 1; 2; 0]%nat (home, ENONE) = Some (fs', e') /\
  fs' (me ++ [chars "run"; chars "cp"; chars "chkpnt2"]) = Some Dir /\ fs' (me ++ [chars "run"; chars "cp"; chars "chkpnt3"]) = None.
Proof. apply (run_outcome _ (fun fs => _ /\ _)). vm_compute. split; reflexivity. Qed.
Example ready_applies : exists fs' e', checkpoint_run 100 90 (fun _ => None) me (chars "run/cp/") LimitedStorage [0; 1; 2; 0]%nat (home, ENONE) = Some (fs', e') /\
  forall i p, In i [0; 1; 2; 0]%nat -> prefix_of p (me ++ [chars "run"; chars "cp"; chars "chkpnt" ++ decimal i]) -> fs' p = Some Dir.
Proof.
  destruct (checkpoint_directories_ready 100 90 (fun _ => None) me (chars "run/cp/") LimitedStorage [0; 1; 2; 0]%nat home ENONE) as (fs' & e' & E & H & _).
  - discriminate.
  - discriminate.
  - lia.
  - cbn. lia.
  - intros i Hi. unfold fits. apply Nat.leb_le. repeat destruct Hi as [<- |Hi]; try (vm_compute; reflexivity). destruct Hi.
  - intros p P. change (prefix_of p me) in P. apply prefix_me in P as [-> |[-> | ->]]; vm_compute; reflexivity.
  - intros p _. split; [|reflexivity]. unfold home, only. destruct (in_dec _ _ _); discriminate.
  - reflexivity.
  - exists fs', e'. split; [exact E|]. intros i p Hi P. apply (H i p Hi). exact P.
Qed.
Example refused_applies : exists fs' e' abort, MPICreateDirectory 100 (fun p => if path_dec p (me ++ [chars "cp"]) then Some EDQUOT else None) me (chars "cp") (home, ENONE) = Some (fs', e', abort) /\ (forall p, fs' p = home p) /\ forall rank, abort rank = true.
Proof.
  apply (refused_directory_aborts 100 _ me (chars "cp") home ENONE EDQUOT).
  - discriminate.
  - discriminate.
  - cbn. lia.
  - intros p P N. apply prefix_snoc in P as [P|P]; [|contradiction]. apply prefix_me in P as [-> |[-> | ->]]; vm_compute; reflexivity.
  - intros p P. change (prefix_of p me) in P. apply prefix_me in P as [-> |[-> | ->]]; vm_compute; reflexivity.
  - vm_compute. reflexivity.
  - vm_compute. reflexivity.
  - cbn. intuition discriminate.
Qed.
Print Assumptions directories_created.
Print Assumptions directories_frame.
Print Assumptions refused_directory_aborts.
Print Assumptions checkpoint_directory.
Print Assumptions checkpoint_directories_distinct.
Print Assumptions checkpoint_files.
Print Assumptions checkpoint_directories_ready.
