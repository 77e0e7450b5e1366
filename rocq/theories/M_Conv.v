(** Model of the control of the eigensolvers: convergence test and approximate line
    minimization (eigensolver.c, eigensolver_davidson.c). *)
From Coq Require Import List ZArith Reals Bool.
From Verif Require Import Base RC.
Local Open Scope R_scope.

(** eigensolver.c 421-422. *)
Definition conv_lobpcg (tolerance E prev_E : R) : bool := Rltb (Rabs (E - prev_E)) (tolerance * / 2 * (E + prev_E + / 10000000)).
(** eigensolver_davidson.c 164-166. *)
Definition conv_davidson (tolerance E prev_E : R) : bool :=
  Rltb (Rabs (E - prev_E)) (tolerance * / 2 * (Rabs E + Rabs prev_E + / 10000000)).

(** eigensolver.c 310-313, 392, 421-423, 754, 794-799; davidson 108-230: the iteration, with
    the trace [E i] computed in iteration i (by the linear algebra, not modelled here) and
    at most [left] further iterations.  The number of iterations, or the failed CHECK. *)
Fixpoint iterate (test : R -> R -> bool) (E : nat -> R) (left : nat) (iteration : nat) (prev_E : R) : outcome nat :=
  match left with
  | O => Abort
  | S l => if negb (Nat.eqb iteration 0) && test (E iteration) prev_E then Val iteration
           else iterate test E l (S iteration) (E iteration)
  end.
Definition solver_iterations (test : R -> R -> bool) (E : nat -> R) (max_iterations : nat) : outcome nat := iterate test E max_iterations 0 0.

(** eigensolver.c 565-645: the approximate line minimization.  [f t]: the trace at Y + t D/|D|
    (E2 of 600); dE: its slope at 0 (583); [forced]: EIGS_FORCE_APPROX_LINMIN.  The result is
    the final displacement and whether the exact line minimization takes over. *)
Definition trial_step (dE prev_theta : R) : R := if Rltb dE 0 then - Rabs prev_theta else Rabs prev_theta.
Definition approx_linmin (f : R -> R) (E prev_E dE prev_theta : R) (forced : bool) : outcome (R * bool) :=
  let t := trial_step dE prev_theta in
  let E2 := f t in
  let! d2E := fdiv (E2 - E - dE * t) (/ 2 * t * t) in
  let! theta := fdiv (- dE) d2E in
  if Rltb d2E 0 || Rltb (20 * Rabs (E - prev_E)) (- / 2 * dE * theta)
  then if forced then Val (t, false) else Val (t - t, true)
  else Val (t + (theta - t), false).

(** eigensolver.c 703-719: starting angle of the exact line minimization. *)
Definition start_angle (dE d2E prev_theta : R) : outcome R :=
  let! theta := fdiv (- dE) d2E in
  let theta := if Rltb d2E 0 then (if Rltb 0 dE then - Rabs prev_theta else Rabs prev_theta) else theta in
  Val (if Rleb PI (Rabs theta) then (if Rltb 0 dE then - Rabs prev_theta else Rabs prev_theta) else theta).
