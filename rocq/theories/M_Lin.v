(** Model of the line search: dcsrch and dcstep of src/matrices/minpack2-linmin.c and linmin of
    src/matrices/linmin.c.  Exact arithmetic; an operation that gives an infinity or a
    not-a-number in C ends the search with [NonFin] here. *)
From Coq Require Import List ZArith Reals Bool.
From Verif Require Import Base RC.
Import ListNotations.
Local Open Scope R_scope.

(** The texts left in [task]: minpack2-linmin.c 284-305 (errors), 333, 436 (FG), 365-375
    (warnings), 379.  The program only looks at their beginnings. *)
Inductive warning := Rounding | XTol | StpMax | StpMin.
Inductive task := FG | Warn (w : warning) | Conv | Err.

(** The variables kept in isave, dsave (438-457), less ginit, gtest, finit that do not change. *)
Record lsave := { brackt : bool; stage : Z; gx : R; gy : R; fx : R; fy : R; stx : R; sty : R;
  stmin : R; stmax : R; width : R; width1 : R }.
(** The arguments that stay the same during a search, with finit and ginit (314-315). *)
Record lpar := { ftol : R; gtol : R; xtol : R; stpmin : R; stpmax : R; finit : R; ginit : R }.
(** 316. *)
Definition gtest (p : lpar) : R := ftol p * ginit p.

(** 102-103. *)
Definition MIN (a b : R) : R := if Rltb a b then a else b.
Definition MAX (a b : R) : R := if Rltb b a then a else b.
(** sqrt of the C library: not-a-number below zero. *)
Definition fsqrt (x : R) : outcome R := if Rltb x 0 then NonFin else Val (sqrt x).

(** 572-576, 601-605, 631-635, 695-699: theta and s. *)
Definition cubic_theta (fa fb da db h : R) : outcome R := let! t := fdiv ((fa - fb) * 3) h in Val (t + da + db).
Definition cubic_s (theta da db : R) : R := MAX (MAX (Rabs theta) (Rabs da)) (Rabs db).
(** 578-579, 607-608, 701-702. *)
Definition cubic_gamma (theta s da db : R) : outcome R :=
  let! t := fdiv theta s in let! a := fdiv da s in let! b := fdiv db s in let! g := fsqrt (t * t - a * b) in Val (s * g).

(** 569-595, first case. *)
Definition case1 (stx fx dx stp fp dp : R) : outcome R :=
  let! theta := cubic_theta fx fp dx dp (stp - stx) in
  let s := cubic_s theta dx dp in
  let! gamma := cubic_gamma theta s dx dp in
  let gamma := if Rltb stp stx then - gamma else gamma in
  let p := gamma - dx + theta in
  let q := gamma - dx + gamma + dp in
  let! r := fdiv p q in
  let stpc := stx + r * (stp - stx) in
  let! u := fdiv (fx - fp) (stp - stx) in
  let! v := fdiv dx (u + dx) in
  let stpq := stx + v / 2 * (stp - stx) in
  Val (if Rltb (Rabs (stpc - stx)) (Rabs (stpq - stx)) then stpc else stpc + (stpq - stpc) / 2).

(** 601-623, second case. *)
Definition case2 (stx fx dx stp fp dp : R) : outcome R :=
  let! theta := cubic_theta fx fp dx dp (stp - stx) in
  let s := cubic_s theta dx dp in
  let! gamma := cubic_gamma theta s dx dp in
  let gamma := if Rltb stx stp then - gamma else gamma in
  let p := gamma - dp + theta in
  let q := gamma - dp + gamma + dx in
  let! r := fdiv p q in
  let stpc := stp + r * (stx - stp) in
  let! v := fdiv dp (dp - dx) in
  let stpq := stp + v * (stx - stp) in
  Val (if Rltb (Rabs (stpq - stp)) (Rabs (stpc - stp)) then stpc else stpq).

(** 631-688, third case. *)
Definition case3 (stx fx dx sty stp fp dp : R) (brackt : bool) (lo hi : R) : outcome R :=
  let! theta := cubic_theta fx fp dx dp (stp - stx) in
  let s := cubic_s theta dx dp in
  let! t := fdiv theta s in let! a := fdiv dx s in let! b := fdiv dp s in
  let gamma := s * sqrt (MAX 0 (t * t - a * b)) in
  let gamma := if Rltb stx stp then - gamma else gamma in
  let p := gamma - dp + theta in
  let q := gamma + (dx - dp) + gamma in
  let! r := fdiv p q in
  let stpc := if Rltb r 0 && negb (Reqb gamma 0) then stp + r * (stx - stp) else if Rltb stx stp then hi else lo in
  let! v := fdiv dp (dp - dx) in
  let stpq := stp + v * (stx - stp) in
  Val (if brackt
       then let stpf := if Rltb (Rabs (stpc - stp)) (Rabs (stpq - stp)) then stpc else stpq in
            let d := stp + (sty - stp) * (66 / 100) in
            if Rltb stx stp then MIN d stpf else MAX d stpf
       else let stpf := if Rltb (Rabs (stpq - stp)) (Rabs (stpc - stp)) then stpc else stpq in
            MAX lo (MIN hi stpf)).

(** 694-716, fourth case. *)
Definition case4 (stx sty fy dy stp fp dp : R) (brackt : bool) (lo hi : R) : outcome R :=
  if brackt then
    let! theta := cubic_theta fp fy dy dp (sty - stp) in
    let s := cubic_s theta dy dp in
    let! gamma := cubic_gamma theta s dy dp in
    let gamma := if Rltb sty stp then - gamma else gamma in
    let p := gamma - dp + theta in
    let q := gamma - dp + gamma + dy in
    let! r := fdiv p q in
    Val (stp + r * (sty - stp))
  else Val (if Rltb stx stp then hi else lo).

(** An end of the interval: step, value, derivative. *)
Definition pt : Type := (R * R * R)%type.
(** 463-735: dcstep; (x, y, new step, brackt) on exit. *)
Definition dcstep (x y : pt) (stp fp dp : R) (brackt : bool) (lo hi : R) : outcome (pt * pt * R * bool) :=
  let '(stx, fx, dx) := x in let '(sty, fy, dy) := y in
  let! sgn := fdiv dx (Rabs dx) in
  let sgnd := dp * sgn in
  let! (stpf, brackt) :=
    (if Rltb fx fp then let! s := case1 stx fx dx stp fp dp in Val (s, true)
     else if Rltb sgnd 0 then let! s := case2 stx fx dx stp fp dp in Val (s, true)
     else if Rltb (Rabs dp) (Rabs dx) then let! s := case3 stx fx dx sty stp fp dp brackt lo hi in Val (s, brackt)
     else let! s := case4 stx sty fy dy stp fp dp brackt lo hi in Val (s, brackt)) in
  Val (if Rltb fx fp then (x, (stp, fp, dp), stpf, brackt)
       else if Rltb sgnd 0 then ((stp, fp, dp), x, stpf, brackt)
       else ((stp, fp, dp), y, stpf, brackt)).

(** 281-334: the call with task = START; f, g are finit, ginit. *)
Definition dcsrch_start (p : lpar) (stp : R) : option lsave :=
  if Rltb stp (stpmin p) || Rltb (stpmax p) stp || Rleb 0 (ginit p) || Rltb (ftol p) 0 || Rltb (gtol p) 0
     || Rltb (xtol p) 0 || Rltb (stpmin p) 0 || Rltb (stpmax p) (stpmin p) then None
  else Some {| brackt := false; stage := 1; gx := ginit p; gy := ginit p; fx := finit p; fy := finit p; stx := 0; sty := 0;
               stmin := 0; stmax := stp + stp * 4; width := stpmax p - stpmin p; width1 := (stpmax p - stpmin p) / (1 / 2) |}.

(** 359. *)
Definition ftest (p : lpar) (stp : R) : R := finit p + stp * gtest p.
(** 363-380: of several texts the last remains. *)
Definition verdict (p : lpar) (v : lsave) (stp f g : R) : task :=
  if Rleb f (ftest p stp) && Rleb (Rabs g) (gtol p * - ginit p) then Conv
  else if Reqb stp (stpmin p) && (Rltb (ftest p stp) f || Rleb (gtest p) g) then Warn StpMin
  else if Reqb stp (stpmax p) && Rleb f (ftest p stp) && Rleb g (gtest p) then Warn StpMax
  else if brackt v && Rleb (stmax v - stmin v) (xtol p * stmax v) then Warn XTol
  else if brackt v && (Rleb stp (stmin v) || Rleb (stmax v) stp) then Warn Rounding
  else FG.

(** 386-409: the interval and the step before the bounds are enforced. *)
Definition update (p : lpar) (v : lsave) (stage : Z) (stp f g : R) : outcome (pt * pt * R * bool) :=
  let gt := gtest p in
  if (stage =? 1)%Z && Rleb f (fx v) && Rltb (ftest p stp) f then
    let! (x, y, s, b) := dcstep (stx v, fx v - stx v * gt, gx v - gt) (sty v, fy v - sty v * gt, gy v - gt) stp (f - stp * gt) (g - gt) (brackt v) (stmin v) (stmax v) in
    let '(sx, fxm, gxm) := x in let '(sy, fym, gym) := y in
    Val ((sx, fxm + sx * gt, gxm + gt), (sy, fym + sy * gt, gym + gt), s, b)
  else dcstep (stx v, fx v, gx v) (sty v, fy v, gy v) stp f g (brackt v) (stmin v) (stmax v).

(** 410-434: the saved state and the next step. *)
Definition next_step (p : lpar) (v : lsave) (stage : Z) (x y : pt) (stp : R) (b : bool) : lsave * R :=
  let '(sx, fx, gx) := x in let '(sy, fy, gy) := y in
  let w := Rabs (sy - sx) in
  let stp := if b && Rleb (width1 v * (66 / 100)) w then sx + (sy - sx) * (1 / 2) else stp in
  let '(w0, w1) := if b then (w, width v) else (width v, width1 v) in
  let '(lo, hi) := if b then (MIN sx sy, MAX sx sy) else (stp + (stp - sx) * (11 / 10), stp + (stp - sx) * 4) in
  let stp := MIN (MAX stp (stpmin p)) (stpmax p) in
  let stp := if (b && (Rleb stp lo || Rleb hi stp)) || (b && Rleb (hi - lo) (xtol p * hi)) then sx else stp in
  ({| brackt := b; stage := stage; gx := gx; gy := gy; fx := fx; fy := fy; stx := sx; sty := sy; stmin := lo; stmax := hi; width := w0; width1 := w1 |}, stp).

(** 335-436: a later call, with f and g at stp. *)
Definition dcsrch (p : lpar) (v : lsave) (stp f g : R) : outcome (task * lsave * R) :=
  let stage' := if (stage v =? 1)%Z && Rleb f (ftest p stp) && Rleb 0 g then 2%Z else stage v in
  match verdict p v stp f g with
  | FG => let! (x, y, s, b) := update p v stage' stp f g in
          let '(v, stp) := next_step p v stage' x y s b in Val (FG, v, stp)
  | t => Val (t, v, stp)
  end.

(* ------------------------------------------------------------------ *)
(** * linmin *)

Record lresult := { r_x : R; r_f : R; r_df : R; r_task : task }.

(** linmin.c 87-94: the function is an oracle, its n-th call at x gives [F n x] = (f, df); None
    if the search has not ended after [fuel] evaluations. *)
Fixpoint search (fuel : nat) (F : nat -> R -> R * R) (p : lpar) (n : nat) (v : lsave) (x : R) : option (outcome lresult) :=
  match fuel with
  | O => None
  | S k =>
    let '(f, df) := F n x in
    match dcsrch p v x f df with
    | Val (FG, v, x) => search k F p (S n) v x
    | Val (t, _, x) => Some (Val {| r_x := x; r_f := f; r_df := df; r_task := t |})
    | Abort => Some Abort | UB => Some UB | NonFin => Some NonFin
    end
  end.

(** linmin.c 76-108: a negative slope at the start. *)
Definition linmin_down (fuel : nat) (F : nat -> R -> R * R) (x_guess : R) (p : lpar) : option (outcome lresult) :=
  match dcsrch_start p x_guess with
  | None => Some Abort
  | Some v => search fuel F p 0 v x_guess
  end.

(** linmin.c 45-52. *)
Definition reverse_func (F : nat -> R -> R * R) (n : nat) (x : R) : R * R := let '(f, df) := F n (- x) in (f, - df).

(** linmin.c 54-109; the assertions that processes agree (89-90) are not modelled. *)
Definition linmin (fuel : nat) (F : nat -> R -> R * R) (x_guess f_0 df_0 f_tol df_tol x_tol x_min x_max : R) : option (outcome lresult) :=
  if Rltb 0 df_0 then
    match linmin_down fuel (reverse_func F) (- x_guess) {| ftol := f_tol; gtol := df_tol; xtol := x_tol; stpmin := - x_min; stpmax := - x_max; finit := f_0; ginit := - df_0 |} with
    | Some (Val r) => Some (Val {| r_x := - r_x r; r_f := r_f r; r_df := - r_df r; r_task := r_task r |})
    | o => o
    end
  else if Reqb df_0 0 then Some (Val {| r_x := 0; r_f := f_0; r_df := df_0; r_task := Conv |})
  else linmin_down fuel F x_guess {| ftol := f_tol; gtol := df_tol; xtol := x_tol; stpmin := x_min; stpmax := x_max; finit := f_0; ginit := df_0 |}.
