(** Vocabulary for the approximate line minimization. *)
From Coq Require Import Reals.
From Verif Require Import Base RC M_Eig S_Eig.
Local Open Scope R_scope.

(** The fields Y shifted by x times D. *)
Definition shifted (x : R) (Y D : mat) : mat := madd Y (mscal x D).
(** dE is the derivative at 0 of the trace along Y + t D. *)
Definition trace_slope (n p : nat) (A B Y D : mat) (dE : R) : Prop :=
  forall f, (forall t e, rayleigh n p A B (shifted t Y D) e -> f t = e) -> derivable_pt_lim f 0 dE.
(** D has norm one on average over the p fields. *)
Definition unit_norm (n p : nat) (B D : mat) : Prop := re (mtr p (form n B D D)) = INR p.
(** The parabola E + dE x + c x^2/2 that passes through E2 at t has its minimum at x, and predicts a
    decrease of at most twenty times the last change of the trace. *)
Definition fitted (E prev_E dE t E2 x : R) : Prop :=
  exists c, 0 < c /\ t <> 0 /\ E2 = E + dE * t + c * (t * t) / 2 /\ dE + c * x = 0 /\ E - (E + dE * x + c * (x * x) / 2) <= 20 * Rabs (E - prev_E).
