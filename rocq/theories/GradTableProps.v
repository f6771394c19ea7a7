(** The table of constants of the time step.  Correctness of the entries for degree one is MeshWaveProps's subject; a constant that holds for
    polynomials of some degree holds for those of lower degree, so that a table that did not increase would have a wrong or wasteful entry. *)
Require Import List Arith Lia Reals Lra.
Require Import Verif.ElasticCflModel.
Import ListNotations.
Local Open Scope R_scope.

(** C64.  The constant exists exactly for degrees 0 to 10 in two and three dimensions, is 0 only for degree 0, and increases with the degree. *)
Theorem grad_constant_table : forall D, (D = 2 \/ D = 3)%nat ->
  (forall N, (N <= 10)%nat <-> grad_constant D N <> None) /\
  grad_constant D 0 = Some 0 /\
  (forall N N' C C', (N < N')%nat -> grad_constant D N = Some C -> grad_constant D N' = Some C' -> C < C').
Proof.
  intros D HD.
  assert (K : forall N C C', grad_constant D N = Some C -> grad_constant D (S N) = Some C' -> C < C').
  { intros N C C'. destruct HD as [-> | ->]; cbn [grad_constant]; do 11 (destruct N as [|N];
      [cbn; intros H1 H2; first [discriminate | injection H1 as <-; injection H2 as <-; lra]|]);
      cbn; destruct N; discriminate. }
  assert (E : forall N, (N <= 10)%nat <-> grad_constant D N <> None).
  { intros N. destruct HD as [-> | ->]; cbn [grad_constant].
    - rewrite nth_error_Some. cbn. lia.
    - split.
      + intros H. destruct (nth_error _ N) eqn:F; [discriminate|]. apply nth_error_None in F. cbn in F. lia.
      + intros H. destruct (nth_error _ N) eqn:F in H; [|exfalso; apply H; reflexivity].
        assert (H' : nth_error [0; 100000 / 10000; 315000 / 10000; 737490 / 10000; 1484089 / 10000; 2695513 / 10000;
          4520694 / 10000; 7177792 / 10000; 10858205 / 10000; 15878353 / 10000; 22458720 / 10000] N <> None) by (rewrite F; discriminate).
        apply nth_error_Some in H'. cbn in H'. lia. }
  split; [exact E|]. split.
  - destruct HD as [-> | ->]; cbn; [reflexivity|]. f_equal. lra.
  - intros N N' C C' HN. revert C C'. induction HN as [|m HN IH]; intros C C' H1 H2; [apply (K N); assumption|].
    destruct (grad_constant D m) as [Cm|] eqn:Em.
    + apply (Rlt_trans _ Cm); [apply IH; [exact H1|reflexivity]|apply (K m); assumption].
    + exfalso. apply (proj1 (E m)); [|exact Em]. assert (S m <= 10)%nat by (apply E; congruence). lia.
Qed.
Print Assumptions grad_constant_table.

Example triangle_constants : grad_constant 2 1 = Some (60000 / 10000) /\ grad_constant 2 2 = Some (225000 / 10000) /\ grad_constant 3 11 = None.
Proof. repeat split. Qed.
