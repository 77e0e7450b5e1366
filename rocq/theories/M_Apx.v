(** Model of the eigensolver of src/matrices/eigensolver.c with both kinds of line minimization:
    the exact one (M_Eig) and the approximate one (565-645), and the choice between them
    (313-314, 756-793).  The rest is as in M_Eig. *)
From Coq Require Import List ZArith Reals Bool.
From Verif Require Import Base RC M_Evect M_Lin M_Eig.
Import ListNotations.
Local Open Scope Z_scope.

Section Lapack.
Variable potr : Z -> list C -> option (list C).
Variable heev : Z -> list C -> list C * list R.
Section Solver.
Variable opA : emat C -> outcome (emat C).
Variable opB : option (emat C -> outcome (emat C)).
Variable opK : option (emat C -> emat C -> smat C -> outcome (emat C)).
Variable constraint : option (emat C -> outcome (emat C)).
Variables (cg pr project reorth : bool) (reset : Z -> bool) (tolerance : R).
(** The flags EIGS_FORCE_APPROX_LINMIN and EIGS_FORCE_EXACT_LINMIN; [quick i]: the times measured up
    to the end of iteration i say that the approximate line minimization is worth while (779), left
    open. *)
Variables (force only : bool) (quick : Z -> bool).

(** 576-600: the slope dE along the direction of norm d_norm, the shift by t, the shifted fields, the
    inverse of their Y^+ B Y (a CHECK) and their trace. *)
Record trial := { tr_norm : R; tr_dE : R; tr_t : R; tr_Y : emat C; tr_U : smat C; tr_E2 : R }.
Definition try_shift (Y D prev_G : emat C) (prev_theta : R) : outcome trial :=
  let W := create_sq (ep Y) in
  let! BD := apply_B opB D in
  let! t := traceXtY BD D in
  let! q := fdiv (re t) (IZR (ep Y)) in
  let! d_norm := fsqrt q in
  let! g := traceXtY prev_G D in
  let! dE := fdiv (2 * re g) d_norm in
  let t := if Rltb dE 0 then (- Rabs prev_theta)%R else Rabs prev_theta in
  let! a := fdiv t d_norm in
  let! Y := evectmatrix_aXpbY 1 Y a D in
  let! BY := apply_B opB Y in
  let! U := gram opB Y BY in
  let! o := invert potr U in
  match o with
  | None => Abort
  | Some U =>
      let! G := opA Y in
      let! S1 := XtY W Y G W in
      let! e := sqmatrix_traceAtB S1 U in
      Val {| tr_norm := d_norm; tr_dE := dE; tr_t := t; tr_Y := Y; tr_U := U; tr_E2 := re e |}
  end.

(** 613-644: what becomes of the trial.  A second derivative of zero makes theta infinite (then the
    predicted change is infinite too) or, if dE is zero, not a number.  With [force] an infinite
    theta would be the next shift (586), unless the next iteration is the last: not a number here. *)
Inductive judged := Shift (theta : R) | Keep (theta : R) | GiveUp.
Definition judge (E prev_E dE t E2 : R) : outcome judged :=
  let! d2E := fdiv (E2 - E - dE * t) (/ 2 * t * t) in
  if Reqb d2E 0 then (if Reqb dE 0 || force then NonFin else Val GiveUp)
  else
    let theta := (- dE / d2E)%R in
    if Rltb d2E 0 || Rltb (20 * Rabs (E - prev_E)) (- / 2 * dE * theta)
    then Val (if force then Keep theta else GiveUp)
    else Val (Shift theta).

(** The variables kept from one iteration to the next: those of M_Eig, use_linmin, whether the flag
    EIGS_FORCE_EXACT_LINMIN is (now) set, and linmin_improvement. *)
Record ast := { a_s : est; a_linmin : bool; a_only : bool; a_impr : R }.

(** 756-793: the choice for the next iteration. *)
Definition choose (it : Z) (s : est) (linmin only : bool) (impr theta : R) : ast :=
  if negb only && Rltb 0 impr && Rleb impr (/ 20) && quick it
  then {| a_s := s; a_linmin := false; a_only := only; a_impr := impr |}
  else if negb force
  then {| a_s := {| s_Y := s_Y s; s_D := s_D s; s_prev_G := s_prev_G s; s_d_scale := s_d_scale s; s_prev_traceGtX := s_prev_traceGtX s;
                    s_prev_theta := atan theta; s_prev_E := s_prev_E s |}; a_linmin := true; a_only := only; a_impr := impr |}
  else {| a_s := s; a_linmin := linmin; a_only := only; a_impr := impr |}.

Inductive moved := MConverged (E : R) (h : headed) | MAgain (E : R) (s : ast) | MRestarted.

(** 646-751, 735: the exact line minimization from the fields of [h] along D, with [h_U h] the
    contents of U.  An improvement with E + new_E = 0 is infinite or not a number: the test of
    777-778 fails, as it does for 0. *)
Definition exact (fuel : nat) (it : Z) (only : bool) (E : R) (h : headed) (YtAYU : smat C) (D : emat C) (traceGtX : R) (prev_G : emat C) (prev_theta : R) : option (outcome moved) :=
  match line_data opA opB h YtAYU D with
  | Val (D, tf, d_scale, dE, d2E) =>
      match line_min potr tolerance fuel tf E dE (first_theta dE d2E prev_theta) with
      | None => None
      | Some r => Some (
          let! r := r in
          let theta := r_x r in
          let impr := if Reqb (E + r_f r) 0 then 0%R else (Rabs (E - r_f r) * 2 / Rabs (E + r_f r))%R in
          let! Y := evectmatrix_aXpbY (cos theta) (h_Y h) (sin theta) D in
          let! Y := constrain constraint Y in
          Val (MAgain E (choose it {| s_Y := Y; s_D := D; s_prev_G := prev_G; s_d_scale := d_scale; s_prev_traceGtX := traceGtX; s_prev_theta := theta; s_prev_E := E |} true only impr theta)))
      end
  | Abort => Some Abort | UB => Some UB | NonFin => Some NonFin
  end.

(** 565-645, 749-793: the approximate line minimization; if it gives up, Y is shifted back (633) and
    the exact one takes over (with U that of the shifted fields). *)
Definition approximate (fuel : nat) (it : Z) (w : ast) (E : R) (h : headed) (YtAYU : smat C) (D : emat C) (traceGtX : R) (prev_G : emat C) : option (outcome moved) :=
  let s := a_s w in
  let leave Y theta := let! Y := constrain constraint Y in
    Val (MAgain E (choose it {| s_Y := Y; s_D := D; s_prev_G := prev_G; s_d_scale := 1; s_prev_traceGtX := traceGtX; s_prev_theta := theta; s_prev_E := E |} false (a_only w) (a_impr w) theta)) in
  match try_shift (h_Y h) D prev_G (s_prev_theta s) with
  | Val tr =>
      match judge E (s_prev_E s) (tr_dE tr) (tr_t tr) (tr_E2 tr) with
      | Val (Keep theta) => Some (leave (tr_Y tr) theta)
      | Val (Shift theta) => Some (let! a := fdiv (theta - tr_t tr) (tr_norm tr) in let! Y := evectmatrix_aXpbY 1 (tr_Y tr) a D in leave Y theta)
      | Val GiveUp =>
          match (let! a := fdiv (- tr_t tr) (tr_norm tr) in evectmatrix_aXpbY 1 (tr_Y tr) a D) with
          | Val Y => exact fuel it true E {| h_Y := Y; h_BY := h_BY h; h_YtBY := h_YtBY h; h_U := tr_U tr; h_re := h_re h |} YtAYU D traceGtX prev_G (atan (s_prev_theta s))
          | Abort => Some Abort | UB => Some UB | NonFin => Some NonFin
          end
      | Abort => Some Abort | UB => Some UB | NonFin => Some NonFin
      end
  | Abort => Some Abort | UB => Some UB | NonFin => Some NonFin
  end.

(** One iteration (310-793). *)
Definition move (fuel : nat) (it : Z) (w : ast) : option (outcome moved) :=
  match aim potr heev opA opB opK constraint cg pr project reorth reset tolerance it (a_s w) with
  | Val ARestart => Some (Val MRestarted)
  | Val (AConverged E h) => Some (Val (MConverged E h))
  | Val (AAimed E h YtAYU D traceGtX prev_G) =>
      if a_linmin w && negb force                                               (* 313-314 *)
      then exact fuel it (a_only w) E h YtAYU D traceGtX prev_G (s_prev_theta (a_s w))
      else approximate fuel it w E h YtAYU D traceGtX prev_G
  | Abort => Some Abort | UB => Some UB | NonFin => Some NonFin
  end.

(** 310-799, as [loop] in M_Eig. *)
Fixpoint moves (n : nat) (fuel : nat) (it : Z) (w : ast) (Es : list R) : option (outcome (list R * option headed)) :=
  match n with
  | O => Some Abort
  | S n' =>
      match move fuel it w with
      | None => None
      | Some (Val MRestarted) => Some (Val (Es, None))
      | Some (Val (MConverged E h)) => Some (Val (E :: Es, Some h))
      | Some (Val (MAgain E w')) => moves n' fuel (it + 1) w' (E :: Es)
      | Some Abort => Some Abort | Some UB => Some UB | Some NonFin => Some NonFin
      end
  end.

(** 198-823 eigensolver_lagrange without a Lagrange operator. *)
Definition full_solver (n fuel : nat) (Y : emat C) : option (outcome (option (list R * emat C * list R))) :=
  match start constraint Y with
  | Val s =>
      match moves n fuel 0 {| a_s := s; a_linmin := true; a_only := only; a_impr := 0 |} [] with
      | None => None
      | Some r => Some (let! r := r in
          match r with
          | (_, None) => Val None
          | (Es, Some h) => let! (Y, e) := finish potr heev opA opB h in Val (Some (Es, Y, e))
          end)
      end
  | Abort => Some Abort | UB => Some UB | NonFin => Some NonFin
  end.
End Solver.
End Lapack.
