(** Properties C55, C63: convergence and line minimization of the eigensolvers. *)
From Coq Require Import List ZArith Reals Lra Lia Bool.
From Verif Require Import Base RC M_Conv L_Conv.
Local Open Scope R_scope.

(* ------------------------------------------------------------------ *)
(** * C55 *)

(** When the solver stops as converged, the last change of the trace is below the tolerance
    times the mean of the last two traces (plus a tiny absolute term), and this is the first
    iteration for which it is so. *)
Theorem C55_settled : forall E tol mx n, solver_iterations (conv_lobpcg tol) E mx = Val n -> (0 < n < mx)%nat /\
  Rabs (E n - E (n - 1)%nat) < tol * ((E n + E (n - 1)%nat) / 2 + / 20000000) /\
  forall m, (0 < m < n)%nat -> tol * ((E m + E (m - 1)%nat) / 2 + / 20000000) <= Rabs (E m - E (m - 1)%nat).
Proof.
  intros E tol mx n H. destruct (solver_sound _ _ _ _ H) as (A & B & C). split; [exact A|]. split.
  - unfold conv_lobpcg in B. match type of B with Rltb ?a ?b = _ => destruct (Rltb_spec a b) as [Q|]; [|discriminate] end. lra.
  - intros m Hm. specialize (C m Hm). unfold conv_lobpcg in C. match type of C with Rltb ?a ?b = _ => destruct (Rltb_spec a b) as [|Q]; [discriminate|] end. lra.
Qed.
Print Assumptions C55_settled.
Theorem C55_settled_davidson : forall E tol mx n, solver_iterations (conv_davidson tol) E mx = Val n -> (0 < n < mx)%nat /\
  Rabs (E n - E (n - 1)%nat) < tol * ((Rabs (E n) + Rabs (E (n - 1)%nat)) / 2 + / 20000000) /\
  forall m, (0 < m < n)%nat -> tol * ((Rabs (E m) + Rabs (E (m - 1)%nat)) / 2 + / 20000000) <= Rabs (E m - E (m - 1)%nat).
Proof.
  intros E tol mx n H. destruct (solver_sound _ _ _ _ H) as (A & B & C). split; [exact A|]. split.
  - unfold conv_davidson in B. match type of B with Rltb ?a ?b = _ => destruct (Rltb_spec a b) as [Q|]; [|discriminate] end. lra.
  - intros m Hm. specialize (C m Hm). unfold conv_davidson in C. match type of C with Rltb ?a ?b = _ => destruct (Rltb_spec a b) as [|Q]; [discriminate|] end. lra.
Qed.
Print Assumptions C55_settled_davidson.

(** The Davidson solver stops for every convergent sequence of traces, if enough iterations
    are allowed. *)
Theorem C55_davidson : forall E l tol, Un_cv E l -> 0 < tol -> exists N, forall mx, (N < mx)%nat -> exists n, solver_iterations (conv_davidson tol) E mx = Val n.
Proof. exact davidson_converges. Qed.
Print Assumptions C55_davidson.
(** The main solver stops if the limit is not negative. *)
Theorem C55_converges_partial : forall E l tol, Un_cv E l -> 0 < tol -> - / 20000000 < l -> exists N, forall mx, (N < mx)%nat -> exists n, solver_iterations (conv_lobpcg tol) E mx = Val n.
Proof. exact lobpcg_converges. Qed.
Print Assumptions C55_converges_partial.
(** With negative traces (negative dielectric constants are allowed as an option) it never
    stops, however well the sequence has converged and however large the tolerance. *)
Theorem C55_negative_refuted : forall E tol, 0 < tol -> (forall n, (0 < n)%nat -> E n + E (n - 1)%nat <= - / 10000000) ->
  forall mx, solver_iterations (conv_lobpcg tol) E mx = Abort.
Proof. exact lobpcg_never. Qed.
Print Assumptions C55_negative_refuted.
Example C55_negative_example : Un_cv (fun _ => -1) (-1) /\ forall mx, solver_iterations (conv_lobpcg (/ 10)) (fun _ => -1) mx = Abort.
Proof.
  split; [intros e He; exists O; intros n _; unfold R_dist; rewrite Rminus_diag_eq, Rabs_R0 by reflexivity; exact He|].
  apply lobpcg_never; [lra|]. intros n _. lra.
Qed.
Example C55_example : solver_iterations (conv_lobpcg (/ 10)) (fun n => match n with O => 5 | _ => 1 end) 3 = Val 2%nat.
Proof.
  unfold solver_iterations. cbn. unfold conv_lobpcg. replace (1 - 5) with (-4) by lra. rewrite (Rabs_left (-4)) by lra.
  match goal with |- context [Rltb ?a ?b] => destruct (Rltb_spec a b); [exfalso; lra|] end.
  replace (1 - 1) with 0 by lra. rewrite Rabs_R0. match goal with |- context [Rltb ?a ?b] => destruct (Rltb_spec a b); [reflexivity|exfalso; lra] end.
Qed.

(* ------------------------------------------------------------------ *)
(** * C63 *)

(** On a trace that is quadratic along the line and convex, an accepted approximate step is
    the minimum along the line. *)
Theorem C63_minimum : forall E prev_E dE c prev_theta forced x, 0 < c -> prev_theta <> 0 ->
  let f t := E + dE * t + / 2 * c * t * t in
  - / 2 * dE * (- dE / c) <= 20 * Rabs (E - prev_E) ->
  exists d, approx_linmin f E prev_E dE prev_theta forced = Val (d, false) /\ f d <= f x.
Proof.
  intros E prev_E dE c pt forced x Hc Hp f Hs. unfold approx_linmin. set (t := trial_step dE pt).
  assert (Ht : t <> 0) by (unfold t, trial_step; pose proof (Rabs_pos_lt pt Hp); destruct (Rltb dE 0); lra).
  assert (Tt : / 2 * t * t <> 0) by (intros Z; apply Rmult_integral in Z; lra).
  rewrite fdiv_nz by exact Tt. cbn [bind]. replace ((f t - E - dE * t) / (/ 2 * t * t)) with c by (unfold f; field; lra).
  rewrite fdiv_nz by lra. cbn [bind]. destruct (Rltb_spec c 0); [lra|]. cbn [orb].
  destruct (Rltb_spec (20 * Rabs (E - prev_E)) (- / 2 * dE * (- dE / c))); [lra|]. eexists. split; [reflexivity|].
  replace (t + (- dE / c - t)) with (- dE / c) by ring. exact (quad_min E dE c x Hc).
Qed.
Print Assumptions C63_minimum.

(** The first trial step of the approximate line minimization, commented as downhill, is
    uphill for every nonzero slope. *)
Theorem C63_downhill_refuted : forall dE prev_theta, dE <> 0 -> prev_theta <> 0 -> 0 < dE * trial_step dE prev_theta.
Proof.
  intros dE pt H Hp. pose proof (Rabs_pos_lt pt Hp). unfold trial_step. destruct (Rltb_spec dE 0); nra.
Qed.
Print Assumptions C63_downhill_refuted.
(** It matters when the approximate method is forced and the prediction is rejected: the
    eigenvectors stay at the uphill point, and the trace of a convex function increases. *)
Theorem C63_increase_refuted : forall E prev_E dE c prev_theta, 0 < c -> prev_theta <> 0 ->
  let f t := E + dE * t + / 2 * c * t * t in
  20 * Rabs (E - prev_E) < - / 2 * dE * (- dE / c) ->
  exists d, approx_linmin f E prev_E dE prev_theta true = Val (d, false) /\ f 0 < f d.
Proof.
  intros E prev_E dE c pt Hc Hp f Hs. assert (HdE : dE <> 0) by (intros Z; rewrite Z in Hs; pose proof (Rabs_pos (E - prev_E)); lra).
  pose proof (C63_downhill_refuted dE pt HdE Hp) as U. unfold approx_linmin. set (t := trial_step dE pt) in *.
  assert (Ht : t <> 0) by (intros Z; rewrite Z in U; lra).
  assert (Tp : 0 < t * t) by nra.
  rewrite fdiv_nz by nra. cbn [bind]. replace ((f t - E - dE * t) / (/ 2 * t * t)) with c by (unfold f; field; lra).
  rewrite fdiv_nz by lra. cbn [bind]. destruct (Rltb_spec c 0); [lra|]. cbn [orb].
  destruct (Rltb_spec (20 * Rabs (E - prev_E)) (- / 2 * dE * (- dE / c))); [|contradiction].
  exists t. split; [reflexivity|]. unfold f. assert (0 < c * (t * t)) by (apply Rmult_lt_0_compat; assumption). lra.
Qed.
Print Assumptions C63_increase_refuted.
(** When not forced, a rejected step is taken back. *)
Theorem C63_taken_back : forall f E prev_E dE prev_theta d, approx_linmin f E prev_E dE prev_theta false = Val (d, true) -> d = 0.
Proof.
  intros f E pE dE pt d. unfold approx_linmin. destruct (fdiv _ (/ 2 * trial_step dE pt * trial_step dE pt)) as [d2E| | |]; cbn [bind]; try discriminate.
  destruct (fdiv (- dE) d2E) as [th| | |]; cbn [bind]; try discriminate. destruct (_ || _); [intros [= <-]; ring|discriminate].
Qed.
Print Assumptions C63_taken_back.
(** The starting angle of the exact line minimization points downhill (or is zero at a
    stationary point), so that it lies in the search interval, and is below pi unless the
    previous angle was not. *)
Theorem C63_start : forall dE d2E prev_theta, d2E <> 0 -> exists th, start_angle dE d2E prev_theta = Val th /\
  (0 < dE -> th <= 0) /\ (dE < 0 -> 0 <= th) /\ (Rabs prev_theta < PI -> Rabs th < PI).
Proof.
  intros dE d2E pt H. unfold start_angle. rewrite fdiv_nz by exact H. cbn [bind]. eexists. split; [reflexivity|].
  pose proof (Rabs_pos pt) as P.
  set (th1 := if Rltb d2E 0 then if Rltb 0 dE then - Rabs pt else Rabs pt else - dE / d2E).
  assert (T1 : 0 < dE -> th1 <= 0).
  { intros D. unfold th1. destruct (Rltb_spec d2E 0).
    - destruct (Rltb_spec 0 dE); [lra|contradiction].
    - assert (0 < / d2E) by (apply Rinv_0_lt_compat; lra). unfold Rdiv. nra. }
  assert (T2 : dE < 0 -> 0 <= th1).
  { intros D. unfold th1. destruct (Rltb_spec d2E 0).
    - destruct (Rltb_spec 0 dE); [lra|exact P].
    - assert (0 < / d2E) by (apply Rinv_0_lt_compat; lra). unfold Rdiv. nra. }
  destruct (Rleb_spec PI (Rabs th1)).
  - destruct (Rltb_spec 0 dE).
    + split; [intros; lra|]. split; [intros; lra|]. intros Q. rewrite Rabs_Ropp, Rabs_Rabsolu. exact Q.
    + split; [intros; lra|]. split; [intros; exact P|]. intros Q. rewrite Rabs_Rabsolu. exact Q.
  - split; [exact T1|]. split; [exact T2|]. intros _. lra.
Qed.
Print Assumptions C63_start.

Example C63_increase_example : 20 * Rabs (1 - 2) < - / 2 * -10 * (- -10 / 1).
Proof. rewrite Rabs_left by lra. lra. Qed.
Example C63_example : trial_step (-1) (/ 2) = - / 2.
Proof. unfold trial_step. destruct (Rltb_spec (-1) 0); [|lra]. rewrite Rabs_right by lra. reflexivity. Qed.
