(** Model of the conjugate-gradient eigensolver of src/matrices/eigensolver.c on several processes: every process
    holds some of the rows of each block of fields and runs the program of M_Eig; the small matrices and numbers are replicated.
    The replicated values are all computed from the results of mpi_allreduce in the same way (mpi_assert_equal checks it, 356, 394,
    and others) and are written once here. *)
From Coq Require Import List ZArith Reals Bool.
From Verif Require Import Base RC M_Evect M_Lin M_Eig.
Import ListNotations.
Local Open Scope Z_scope.

(** A block of fields: what each process holds of it. *)
Definition dmat : Type := list (emat C).
(** The number of bands, the same on all processes. *)
Definition dp (l : dmat) : Z := match l with [] => 0 | X :: _ => ep X end.
(** A statement every process executes on its own matrices. *)
Definition each (f : emat C -> outcome (emat C)) (l : dmat) : outcome dmat := mapM f l.
Definition each2 (f : emat C -> emat C -> outcome (emat C)) (l m : dmat) : outcome dmat :=
  mapM (fun q => f (fst q) (snd q)) (combine l m).

(** evectmatrix.c 140-166: the local product, then the sum over processes. *)
Definition XtX_local (U : smat C) (S : smat C) (X : emat C) : outcome (list C) :=
  let! _ := check ((ep X =? sp U) && (sp U <=? salloc S)) in
  let p := sp U in
  let! s := forZ 0 (p * p) (fun i d => wr d i C0) (sdata S) in
  let! s := herk (ep X) (en X) 1 (edata X) (ep X) 0 s p in
  mirror_upper p s.
Definition XtX_mpi (U : smat C) (X : dmat) (S : smat C) : outcome (smat C) :=
  let! ss := mapM (XtX_local U S) X in
  let! u := blas_copy (sp U * sp U) (allreduce_sum ss) 0 1 (sdata U) 0 1 in Val (sset U u).
(** evectmatrix.c 195-207 with 172-191: the same; the second scratch matrix is U. *)
Definition XtY_local (U : smat C) (S : smat C) (X Y : emat C) : outcome (list C) :=
  let! _ := check (ep X =? ep Y) in
  let! _ := check ((ep X <=? ep Y) && (en X =? en Y) && (ep X =? sp U) && (ep X <=? salloc S) && (ep X <=? salloc U)) in
  gemm true false (ep X) (ep X) (en X) 1 (edata X) 0 (ep X) (edata Y) 0 (ep Y) 0 (sdata S) 0 (ep X).
Definition XtY_mpi (U : smat C) (X Y : dmat) (S : smat C) : outcome (smat C) :=
  let! ss := mapM (fun q => XtY_local U S (fst q) (snd q)) (combine X Y) in
  let p := sp U in
  let! s2 := blas_copy (p * p) (allreduce_sum ss) 0 1 (sdata U) 0 1 in
  let! u := forZ 0 p (fun i u => forZ 0 p (fun j u => let! v := rd s2 (i * p + j) in wr u (i * p + j) v) u) (sdata U) in
  Val (sset U u).
(** evectmatrix.c 265-278. *)
Definition traceXtY_mpi (X Y : dmat) : outcome C :=
  let! ts := mapM (fun q => traceXtY (fst q) (snd q)) (combine X Y) in
  Val (fold_left Cadd ts C0).
(** evectmatrix.c 125-129, 132-137, 91-100. *)
Definition XeYS_mpi (X Y : dmat) (S : smat C) (sherm : bool) : outcome dmat := each2 (fun X Y => XeYS X Y S sherm) X Y.
Definition XpaYS_mpi (X : dmat) (a : R) (Y : dmat) (S : smat C) (sdagger : bool) : outcome dmat := each2 (fun X Y => XpaYS X a Y S sdagger) X Y.
Definition aXpbY_mpi (a : R) (X : dmat) (b : R) (Y : dmat) : outcome dmat := each2 (fun X Y => evectmatrix_aXpbY a X b Y) X Y.
(** eigensolver.c 372-373, 653-654: blasglue_rscal on the local data (Y.p * Y.n is the local size of every block). *)
Definition rscal_mpi (a : R) (X : dmat) : outcome dmat :=
  each (fun X => let! d := blas_rscal (ep X * en X) a (edata X) in Val (set_data X d)) X.

Section Lapack.
(** As in M_Eig. *)
Variable potr : Z -> list C -> option (list C).
Variable heev : Z -> list C -> list C * list R.
Section Solver.
(** The operators, now on divided blocks. *)
Variable opA : dmat -> outcome dmat.
Variable opB : option (dmat -> outcome dmat).
Variable opK : option (dmat -> dmat -> smat C -> outcome dmat).
Variable constraint : option (dmat -> outcome dmat).
Variables (cg pr project reorth : bool) (reset : Z -> bool) (tolerance : R).

Definition apply_B_mpi (Y : dmat) : outcome dmat := match opB with Some f => f Y | None => Val Y end.
(** eigensolver.c 316-322 and the like. *)
Definition gram_mpi (Y BY : dmat) : outcome (smat C) :=
  let W := create_sq (dp Y) in match opB with Some _ => XtY_mpi W Y BY W | None => XtX_mpi W Y W end.
Definition constrain_mpi (X : dmat) : outcome dmat := match constraint with Some f => f X | None => Val X end.

(** eigensolver.c 325-328, 369-374. *)
Definition normalize_mpi (Y BY : dmat) (YtBY : smat C) : outcome (dmat * dmat * smat C) :=
  let! t := sqmatrix_trace YtBY in
  let! q := fdiv (re t) (IZR (dp Y)) in
  let! y_norm := fsqrt q in
  let! i1 := fdiv 1 y_norm in let! i2 := fdiv 1 (y_norm * y_norm) in
  let! Y' := rscal_mpi i1 Y in
  let! BY := match opB with Some _ => rscal_mpi i1 BY | None => Val Y' end in
  let! b := blas_rscal (dp Y * dp Y) i2 (sdata YtBY) in
  Val (Y', BY, sset YtBY b).

Record headed_mpi := { mh_Y : dmat; mh_BY : dmat; mh_YtBY : smat C; mh_U : smat C; mh_re : bool }.

(** eigensolver.c 316-379, see M_Eig.head. *)
Definition head_mpi (Y : dmat) : outcome (option headed_mpi) :=
  let W := create_sq (dp Y) in
  let! BY := apply_B_mpi Y in
  let! YtBY := gram_mpi Y BY in
  let! (YBY, YtBY) := normalize_mpi Y BY YtBY in
  let '(Y, BY) := YBY in
  let! U := sqmatrix_copy W YtBY in
  let! o := invert potr U in
  match o with
  | None => Val None
  | Some U =>
      let! t := sqmatrix_trace U in
      if reorth && Rltb (100000000 * IZR (sp U)) (re t) then
        let! S1 := sqmatrix_sqrt heev W U W in
        let! G := XeYS_mpi Y Y S1 true in
        let! Y := each2 evectmatrix_copy Y G in
        let! BY := apply_B_mpi Y in
        let! YtBY := gram_mpi Y BY in
        let! (YBY, YtBY) := normalize_mpi Y BY YtBY in
        let '(Y, BY) := YBY in
        let! U := sqmatrix_copy W YtBY in
        let! o := invert potr U in
        match o with
        | None => Abort
        | Some U => Val (Some {| mh_Y := Y; mh_BY := BY; mh_YtBY := YtBY; mh_U := U; mh_re := true |})
        end
      else Val (Some {| mh_Y := Y; mh_BY := BY; mh_YtBY := YtBY; mh_U := U; mh_re := false |})
  end.

(** eigensolver.c 381-393. *)
Definition energy_mpi (h : headed_mpi) : outcome (dmat * smat C * R) :=
  let W := create_sq (dp (mh_Y h)) in
  let! X := opA (mh_Y h) in
  let! G := XeYS_mpi (mh_Y h) X (mh_U h) true in
  let! YtAYU := XtY_mpi W (mh_Y h) G W in
  let! t := sqmatrix_trace YtAYU in
  Val (G, YtAYU, re t).
(** eigensolver.c 425-427. *)
Definition gradient_mpi (h : headed_mpi) (G : dmat) (YtAYU : smat C) : outcome dmat :=
  let W := create_sq (dp (mh_Y h)) in
  let! S1 := sqmatrix_AeBC W (mh_U h) false YtAYU false in
  XpaYS_mpi G (-1) (mh_BY h) S1 true.
(** eigensolver.c 433-452. *)
Definition precondition_mpi (h : headed_mpi) (G : dmat) : outcome dmat :=
  let W := create_sq (dp (mh_Y h)) in
  let! X := match opK with Some f => f G (mh_Y h) (mh_YtBY h) | None => each2 evectmatrix_copy G G end in
  let! X := constrain_mpi X in
  if project then
    let! YtX := XtY_mpi W (mh_Y h) X W in
    let! S1 := sqmatrix_AeBC W (mh_U h) false YtX false in
    XpaYS_mpi X (-1) (mh_BY h) S1 false
  else Val X.

Record est_mpi := { ms_Y : dmat; ms_D : dmat; ms_prev_G : dmat; ms_d_scale : R; ms_prev_traceGtX : R; ms_prev_theta : R; ms_prev_E : R }.

(** eigensolver.c 460-481, 528-561. *)
Definition direction_mpi (it : Z) (s : est_mpi) (h : headed_mpi) (G X : dmat) : outcome (dmat * R * dmat) :=
  let! t := traceXtY_mpi G X in
  let traceGtX := re t in
  if cg then
    let! (num, prev_G) := (if pr then
        let! G' := each2 diff_data G (ms_prev_G s) in
        let! t := traceXtY_mpi G' X in Val (re t, G)
      else Val (traceGtX, G)) in
    let prev := if mh_re h then 0%R else ms_prev_traceGtX s in
    let! gamma := (if Reqb prev 0 then Val 0%R else fdiv num prev) in
    let gamma := if reset it then 0%R else gamma in
    let! D := aXpbY_mpi (gamma * ms_d_scale s) (ms_D s) 1 X in
    Val (D, traceGtX, prev_G)
  else Val (X, traceGtX, G).

(** eigensolver.c 648-681, 721-723. *)
Definition line_data_mpi (h : headed_mpi) (YtAYU : smat C) (D : dmat) : outcome (dmat * tfd * R * R * R) :=
  let W := create_sq (dp (mh_Y h)) in
  let Y := mh_Y h in let U := mh_U h in
  let! BD := apply_B_mpi D in
  let! t := traceXtY_mpi BD D in
  let! q := fdiv (re t) (IZR (dp Y)) in
  let! d_scale := fsqrt q in
  let! i1 := fdiv 1 d_scale in
  let! D := rscal_mpi i1 D in
  let! BD := match opB with Some _ => rscal_mpi i1 BD | None => Val D end in
  let! G := opA D in
  let! DtBD := gram_mpi D BD in
  let! DtAD := XtY_mpi W D G W in
  let! S1 := XtY_mpi W Y BD W in
  let! symYtBD := sqmatrix_symmetrize W S1 in
  let! S1 := XtY_mpi W Y G W in
  let! symYtAD := sqmatrix_symmetrize W S1 in
  let! S1 := sqmatrix_AeBC W U false symYtBD true in
  let! t1 := sqmatrix_traceAtB U symYtAD in
  let! t2 := sqmatrix_traceAtB YtAYU S1 in
  let dE := (2 * (re t1 - re t2))%R in
  let! S2 := sqmatrix_copy W DtBD in
  let! S2 := sqmatrix_ApaBC S2 (-4) symYtBD false S1 false in
  let! S3 := sqmatrix_AeBC W symYtAD false S1 false in
  let! S1 := sqmatrix_AeBC W U false S2 true in
  let! u1 := sqmatrix_traceAtB U DtAD in
  let! u2 := sqmatrix_traceAtB YtAYU S1 in
  let! u3 := sqmatrix_traceAtB U S3 in
  let d2E := (2 * (re u1 - re u2 - 4 * re u3))%R in
  let! S1 := sqmatrix_AeBC W YtAYU false (mh_YtBY h) true in
  Val (D, {| t_YtAY := S1; t_DtAD := DtAD; t_symYtAD := symYtAD; t_YtBY := mh_YtBY h; t_DtBD := DtBD; t_symYtBD := symYtBD;
             t_lag := 0; t_d_lag := 0; t_YtLY := 0; t_DtLD := 0; t_YtLD := 0 |}, d_scale, dE, d2E).

(** How an iteration ends, eigensolver.c 310-793 as in M_Eig (aim, prepare and step together). *)
Inductive stepped_mpi := MConverged (E : R) (h : headed_mpi) | MAgain (E : R) (s : est_mpi) | MRestarted.
Inductive prepared_mpi :=
  | MPConverged (E : R) (h : headed_mpi)
  | MPLine (E : R) (h : headed_mpi) (D : dmat) (traceGtX : R) (prev_G : dmat) (t : tfd) (d_scale dE d2E : R)
  | MPRestart.
Definition prepare_mpi (it : Z) (s : est_mpi) : outcome prepared_mpi :=
  let! o := head_mpi (ms_Y s) in
  match o with
  | None => Val MPRestart
  | Some h =>
      let! (GS, E) := energy_mpi h in
      let '(G, YtAYU) := GS in
      if (0 <? it) && Rltb (Rabs (E - ms_prev_E s)) (tolerance * / 2 * (E + ms_prev_E s + / 10000000))
      then Val (MPConverged E h)
      else
        let! G := gradient_mpi h G YtAYU in
        let! X := precondition_mpi h G in
        let! (Dt, prev_G) := direction_mpi it s h G X in
        let '(D, traceGtX) := Dt in
        let! (Dtf, d2E) := line_data_mpi h YtAYU D in
        let '(D, tf, d_scale, dE) := Dtf in
        Val (MPLine E h D traceGtX prev_G tf d_scale dE d2E)
  end.
Definition step_mpi (fuel : nat) (it : Z) (s : est_mpi) : option (outcome stepped_mpi) :=
  match prepare_mpi it s with
  | Val MPRestart => Some (Val MRestarted)
  | Val (MPConverged E h) => Some (Val (MConverged E h))
  | Val (MPLine E h D traceGtX prev_G tf d_scale dE d2E) =>
      match line_min potr tolerance fuel tf E dE (first_theta dE d2E (ms_prev_theta s)) with
      | None => None
      | Some r => Some (
          let! r := r in
          let theta := r_x r in
          let! Y := aXpbY_mpi (cos theta) (mh_Y h) (sin theta) D in
          let! Y := constrain_mpi Y in
          Val (MAgain E {| ms_Y := Y; ms_D := D; ms_prev_G := prev_G; ms_d_scale := d_scale; ms_prev_traceGtX := traceGtX;
                           ms_prev_theta := atan theta; ms_prev_E := E |}))
      end
  | Abort => Some Abort | UB => Some UB | NonFin => Some NonFin
  end.

(** eigensolver_utils.c 32-46. *)
Definition get_eigenvals_aux_mpi (Y : dmat) (U : smat C) : outcome (dmat * list R) :=
  let W := create_sq (dp Y) in
  let! Usqrt := sqmatrix_sqrt heev W U W in
  let! Work1 := XeYS_mpi Y Y Usqrt true in
  let! Work2 := opA Work1 in
  let! U := XtY_mpi W Work1 Work2 W in
  let '(V, e) := eigensolve heev U in
  let! Y := XeYS_mpi Y Work1 V true in
  Val (Y, e).
(** eigensolver.c 801-809. *)
Definition finish_mpi (h : headed_mpi) : outcome (dmat * list R) :=
  let! BY := apply_B_mpi (mh_Y h) in
  let! U := gram_mpi (mh_Y h) BY in
  let! o := invert potr U in
  match o with
  | None => Abort
  | Some U => get_eigenvals_aux_mpi (mh_Y h) U
  end.
(** eigensolver.c 310-799. *)
Fixpoint loop_mpi (n : nat) (fuel : nat) (it : Z) (s : est_mpi) (Es : list R) : option (outcome (list R * option headed_mpi)) :=
  match n with
  | O => Some Abort
  | S n' =>
      match step_mpi fuel it s with
      | None => None
      | Some (Val MRestarted) => Some (Val (Es, None))
      | Some (Val (MConverged E h)) => Some (Val (E :: Es, Some h))
      | Some (Val (MAgain E s')) => loop_mpi n' fuel (it + 1) s' (E :: Es)
      | Some Abort => Some Abort | Some UB => Some UB | Some NonFin => Some NonFin
      end
  end.
(** eigensolver.c 217-224, 240-257, 307-308. *)
Definition start_mpi (Y : dmat) : outcome est_mpi :=
  let z := map (fun Y => set_data Y (map (fun _ => C0) (edata Y))) Y in
  let! Y := constrain_mpi Y in
  Val {| ms_Y := Y; ms_D := z; ms_prev_G := z; ms_d_scale := 1; ms_prev_traceGtX := 0; ms_prev_theta := / 2; ms_prev_E := 0 |}.
(** eigensolver.c 198-823. *)
Definition eigensolver_mpi (n fuel : nat) (Y : dmat) : option (outcome (option (list R * dmat * list R))) :=
  match start_mpi Y with
  | Val s =>
      match loop_mpi n fuel 0 s [] with
      | None => None
      | Some r => Some (let! r := r in
          match r with
          | (_, None) => Val None
          | (Es, Some h) => let! (Y, e) := finish_mpi h in Val (Some (Es, Y, e))
          end)
      end
  | Abort => Some Abort | UB => Some UB | NonFin => Some NonFin
  end.
End Solver.
End Lapack.
