(** Model of the conjugate-gradient eigensolver of src/matrices/eigensolver.c with the operations
    of sqmatrix.c, evectmatrix.c and blasglue.c it uses, and of the final diagonalization in
    eigensolver_utils.c.  One process (mpi_allreduce is then a copy, mpi_assert_equal does
    nothing); exact arithmetic; the Hermitian-ness assertions (sqmatrix.c 35-58) are empty
    without DEBUG. *)
From Coq Require Import List ZArith Reals Bool.
From Verif Require Import Base RC M_Evect M_Lin.
Import ListNotations.
Local Open Scope Z_scope.

Definition sset (S : smat C) (d : list C) : smat C := {| sp := sp S; salloc := salloc S; sdata := d |}.
(** matrices.c create_sqmatrix: the contents, left unset by the program, are always overwritten
    before they are read and are zero here. *)
Definition create_sq (p : Z) : smat C := {| sp := p; salloc := p; sdata := repeat C0 (Z.to_nat (p * p)) |}.

(** blasglue.c 163-187: sum of conj(x) y over n entries. *)
Definition dotc (n : Z) (x y : list C) : outcome C :=
  forZ 0 n (fun i s => let! a := rd x i in let! b := rd y i in Val (s + Cconj a * b)%C) C0.

(** sqmatrix.c 61-65. *)
Definition sqmatrix_copy (A B : smat C) : outcome (smat C) :=
  let! _ := check (sp A =? sp B) in
  let! d := blas_copy (sp A * sp A) (sdata B) 0 1 (sdata A) 0 1 in Val (sset A d).
(** sqmatrix.c 112-128, for distinct arrays. *)
Definition sqmatrix_symmetrize (Asym A : smat C) : outcome (smat C) :=
  let! _ := check (sp Asym =? sp A) in
  let p := sp A in
  let! d := forZ 0 p (fun i d => forZ 0 p (fun j d =>
    let! v := (let! a := rd (sdata A) (i * p + j) in let! b := rd (sdata A) (j * p + i) in
               Val ((/ 2 * (re a + re b))%R, (/ 2 * (im a - im b))%R)) in
    wr d (i * p + j) v) d) (sdata Asym) in
  Val (sset Asym d).
(** sqmatrix.c 131-140. *)
Definition sqmatrix_trace (U : smat C) : outcome C :=
  forZ 0 (sp U) (fun i t => let! v := rd (sdata U) (i * sp U + i) in Val (t + v)%C) C0.
(** sqmatrix.c 143-152. *)
Definition sqmatrix_traceAtB (A B : smat C) : outcome C :=
  let! _ := check (sp A =? sp B) in dotc (sp A * sp A) (sdata A) (sdata B).
(** sqmatrix.c 160-167. *)
Definition sqmatrix_AeBC (A B : smat C) (bdagger : bool) (D : smat C) (ddagger : bool) : outcome (smat C) :=
  let! _ := check ((sp A =? sp B) && (sp A =? sp D)) in
  let! d := gemm bdagger ddagger (sp A) (sp A) (sp A) 1 (sdata B) 0 (sp B) (sdata D) 0 (sp D) 0 (sdata A) 0 (sp A) in
  Val (sset A d).
(** sqmatrix.c 170-177. *)
Definition sqmatrix_ApaBC (A : smat C) (a : R) (B : smat C) (bdagger : bool) (D : smat C) (ddagger : bool) : outcome (smat C) :=
  let! _ := check ((sp A =? sp B) && (sp A =? sp D)) in
  let! d := gemm bdagger ddagger (sp A) (sp A) (sp A) a (sdata B) 0 (sp B) (sdata D) 0 (sp D) 1 (sdata A) 0 (sp A) in
  Val (sset A d).
(** sqmatrix.c 180-185. *)
Definition sqmatrix_ApaB (A : smat C) (a : R) (B : smat C) : outcome (smat C) :=
  let! _ := check (sp A =? sp B) in
  let! d := blas_axpy (sp A * sp A) a (sdata B) (sdata A) in Val (sset A d).
(** sqmatrix.c 188-196. *)
Definition sqmatrix_aApbB (a : R) (A : smat C) (b : R) (B : smat C) : outcome (smat C) :=
  let! _ := check (sp A =? sp B) in
  let! d := (if Reqb a 1 then Val (sdata A) else blas_rscal (sp A * sp A) a (sdata A)) in
  let! d := blas_axpy (sp A * sp A) b (sdata B) d in Val (sset A d).

(** sqmatrix.c 238-243, evectmatrix.c 157-162: the conjugate of the upper half goes to the lower
    half. *)
Definition mirror_upper (p : Z) (d : list C) : outcome (list C) :=
  forZ 0 p (fun i d => forZ (i + 1) p (fun j d => let! v := rd d (i * p + j) in wr d (j * p + i) (Cconj v)) d) d.

(** blasglue.c 215-241 blasglue_herk('U', 'C', n, k, a, A, fdA, b, C, fdC): the upper half of
    a A^+ A + b C; BLAS herk is external and given its definition (the imaginary parts of the
    diagonal are zero anyway). *)
Definition herk (n k : Z) (a : R) (A : list C) (fdA : Z) (b : R) (Cm : list C) (fdC : Z) : outcome (list C) :=
  if n =? 0 then Val Cm
  else if k =? 0 then forZ 0 n (fun i c => forZ 0 n (fun j c => let! v := Val C0 in wr c (i * fdC + j) v) c) Cm
  else forZ 0 n (fun i c => forZ i n (fun j c =>
      let! s := forZ 0 k (fun l acc => let! x := rd A (l * fdA + i) in let! y := rd A (l * fdA + j) in Val (acc + Cconj x * y)%C) C0 in
      let! z := rd c (i * fdC + j) in wr c (i * fdC + j) (Cscal a s + Cscal b z)%C) c) Cm.

(** evectmatrix.c 106-122. *)
Definition aXpbYS_sub (a : R) (X : emat C) (b : R) (Y : emat C) (S : smat C) (Soffset : Z) (sdagger : bool) : outcome (emat C) :=
  if sp S =? 0 then evectmatrix_aXpbY a X b Y
  else
    let! _ := check ((en X =? en Y) && (ep X =? ep Y) && (ep X <=? sp S)) in
    let! _ := check (Soffset + (ep Y - 1) * sp S + ep Y <=? sp S * sp S) in
    let! d := gemm false sdagger (en X) (ep X) (ep X) b (edata Y) 0 (ep Y) (sdata S) Soffset (sp S) a (edata X) 0 (ep X) in
    Val (set_data X d).
(** evectmatrix.c 125-129. *)
Definition XeYS (X Y : emat C) (S : smat C) (sherm : bool) : outcome (emat C) :=
  let! _ := check ((sp S =? 0) || (sp S =? ep Y)) in aXpbYS_sub 0 X 1 Y S 0 sherm.
(** evectmatrix.c 132-137. *)
Definition XpaYS (X : emat C) (a : R) (Y : emat C) (S : smat C) (sdagger : bool) : outcome (emat C) :=
  let! _ := check ((sp S =? 0) || (sp S =? ep Y)) in aXpbYS_sub 1 X a Y S 0 sdagger.
(** evectmatrix.c 140-166; memset of line 151, then the sum over processes (a copy). *)
Definition XtX (U : smat C) (X : emat C) (S : smat C) : outcome (smat C) :=
  let! _ := check ((ep X =? sp U) && (sp U <=? salloc S)) in
  let p := sp U in
  let! s := forZ 0 (p * p) (fun i d => wr d i C0) (sdata S) in
  let! s := herk (ep X) (en X) 1 (edata X) (ep X) 0 s p in
  let! s := mirror_upper p s in
  let! u := blas_copy (p * p) s 0 1 (sdata U) 0 1 in Val (sset U u).
(** evectmatrix.c 195-207; the second scratch matrix of the slice product is U itself. *)
Definition XtY (U : smat C) (X Y : emat C) (S : smat C) : outcome (smat C) :=
  let! _ := check (ep X =? ep Y) in XtY_slice2 U X Y 0 0 (ep X) (ep X) 0 S U.
(** evectmatrix.c 265-278. *)
Definition traceXtY (X Y : emat C) : outcome C :=
  let! _ := check ((ep X =? ep Y) && (en X =? en Y)) in dotc (en X * ep X) (edata X) (edata Y).

Section Lapack.
(** The LAPACK routines, external: [potr p d] is potrf followed by potri (blasglue.c 248-270) on
    the p x p matrix d, [None] if either fails; only the upper half of the result is used.
    [heev p d] is lapackglue_heev (blasglue.c 306-322): eigenvectors and eigenvalues.  What is
    assumed of them is said with the theorems. *)
Variable potr : Z -> list C -> option (list C).
Variable heev : Z -> list C -> list C * list R.

(** sqmatrix.c 201-246 with positive_definite; [None]: the result zero. *)
Definition invert (U : smat C) : outcome (option (smat C)) :=
  match potr (sp U) (sdata U) with
  | None => Val None
  | Some d => let! d := mirror_upper (sp U) d in Val (Some (sset U d))
  end.

(** sqmatrix.c 255-291 with B.data NULL: the workspace is not modelled. *)
Definition eigensolve (U : smat C) : smat C * list R := let '(d, e) := heev (sp U) (sdata U) in (sset U d, e).

(** sqmatrix.c 318-347. *)
Definition sqmatrix_sqrt (Usqrt U W : smat C) : outcome (smat C) :=
  let! _ := check ((sp Usqrt =? sp U) && (sp U =? sp W)) in
  let '(V, e) := eigensolve U in
  let p := sp U in
  let! w := forZ 0 p (fun i w =>
      let! ev := rd e i in
      let! _ := check (Rltb 0 ev) in
      forZ 0 p (fun j w => let! v := rd (sdata V) (i * p + j) in wr w (i * p + j) (Cscal (sqrt ev) v)) w) (sdata W) in
  sqmatrix_AeBC Usqrt V true (sset W w) false.

(** eigensolver.c 107-110; the scratch matrices S1, S2, S3 are made afresh at each use. *)
Record tfd := { t_YtAY : smat C; t_DtAD : smat C; t_symYtAD : smat C; t_YtBY : smat C; t_DtBD : smat C; t_symYtBD : smat C;
  t_lag : R; t_d_lag : R; t_YtLY : R; t_DtLD : R; t_YtLD : R }.

(** eigensolver.c 128-138: the expansion used when a combination is numerically singular; x is the
    small one of cosine and sine, y the other, M the matrix that goes with y. *)
Definition taylor (d : tfd) (x y : R) (M : smat C) : outcome (smat C) :=
  let W := create_sq (sp M) in
  let! S1 := sqmatrix_copy W M in
  let! o := invert S1 in
  match o with
  | None => Abort
  | Some S1 =>
      let! S2 := sqmatrix_AeBC W S1 false (t_symYtBD d) true in
      let! S3 := sqmatrix_AeBC W S2 false S1 true in
      let! a := fdiv 1 (y * y) in let! b := fdiv (-2 * x) (y * y * y) in
      sqmatrix_aApbB a S1 b S3
  end.

(** eigensolver.c 119-144: the inverse of the combination of the B matrices. *)
Definition comb_inv (d : tfd) (c s : R) : outcome (smat C) :=
  let W := create_sq (sp (t_YtBY d)) in
  let! S1 := sqmatrix_copy W (t_YtBY d) in
  let! S1 := sqmatrix_aApbB (c * c) S1 (s * s) (t_DtBD d) in
  let! S1 := sqmatrix_ApaB S1 (2 * s * c) (t_symYtBD d) in
  let! o := invert S1 in
  match o with
  | Some S1 => Val S1
  | None =>
      if Rltb c (1 / 10000 * s) && negb (Reqb c 0) then taylor d c s (t_DtBD d)
      else if Rltb s (1 / 10000 * c) && negb (Reqb s 0) then taylor d s c (t_YtBY d)
      else Abort
  end.

(** eigensolver.c 146-154. *)
Definition trace_value (d : tfd) (c s : R) (S1 : smat C) : outcome (smat C * R) :=
  let W := create_sq (sp S1) in
  let! S2 := sqmatrix_copy W (t_YtAY d) in
  let! S2 := sqmatrix_aApbB (c * c) S2 (s * s) (t_DtAD d) in
  let! S2 := sqmatrix_ApaB S2 (2 * s * c) (t_symYtAD d) in
  let! t := sqmatrix_traceAtB S2 S1 in
  Val (S2, (re t + (c * c * t_YtLY d + s * s * t_DtLD d + 2 * s * c * t_YtLD d) * (c * t_lag d + s * t_d_lag d))%R).

(** eigensolver.c 112-179 with trace_deriv not null: the trace and its derivative. *)
Definition trace_func (d : tfd) (theta : R) : outcome (R * R) :=
  let c := cos theta in let s := sin theta in
  let! S1 := comb_inv d c s in
  let! (S2, trace) := trace_value d c s S1 in
  let c2 := cos (2 * theta) in let s2 := sin (2 * theta) in
  let W := create_sq (sp S1) in
  let! S3 := sqmatrix_copy W (t_YtAY d) in
  let! S3 := sqmatrix_ApaB S3 (-1) (t_DtAD d) in
  let! S3 := sqmatrix_aApbB (- / 2 * s2) S3 c2 (t_symYtAD d) in
  let! t1 := sqmatrix_traceAtB S1 S3 in
  let! S3 := sqmatrix_AeBC W S1 false S2 true in
  let! S2 := sqmatrix_AeBC W S3 false S1 true in
  let! S3 := sqmatrix_copy W (t_YtBY d) in
  let! S3 := sqmatrix_ApaB S3 (-1) (t_DtBD d) in
  let! S3 := sqmatrix_aApbB (- / 2 * s2) S3 c2 (t_symYtBD d) in
  let! t2 := sqmatrix_traceAtB S2 S3 in
  Val (trace, ((re t1 - re t2) * 2 +
    (- s2 * t_YtLY d + s2 * t_DtLD d + 2 * c2 * t_YtLD d) * (c * t_lag d + s * t_d_lag d) +
    (c * c * t_YtLY d + s * s * t_DtLD d + 2 * s * c * t_YtLD d) * (- s * t_lag d + c * t_d_lag d))%R).

Section Solver.
(** The operators: A, B (NULL or given) and the preconditioner K map fields to fields, the
    constraint changes them in place.  The arguments is_current_eigenvector and Work (scratch)
    are not passed. *)
Variable opA : emat C -> outcome (emat C).
Variable opB : option (emat C -> outcome (emat C)).
Variable opK : option (emat C -> emat C -> smat C -> outcome (emat C)).
Variable constraint : option (emat C -> outcome (emat C)).
(** usingConjugateGradient and use_polak_ribiere (240-257: enough work arrays), the flags
    PROJECT_PRECONDITIONING and REORTHOGONALIZE; [reset i]: at iteration i the direction is reset
    (536-554), left open.  The flags ORTHONORMALIZE_FIRST_STEP and ORTHOGONAL_PRECONDITIONER are
    off and the Lagrange operator L is absent (eigensolver, 825-836, passes none). *)
Variables (cg pr project reorth : bool) (reset : Z -> bool) (tolerance : R).

Definition apply_B (Y : emat C) : outcome (emat C) := match opB with Some f => f Y | None => Val Y end.
(** 316-322 and the like. *)
Definition gram (Y BY : emat C) : outcome (smat C) :=
  let W := create_sq (ep Y) in match opB with Some _ => XtY W Y BY W | None => XtX W Y W end.
Definition constrain (X : emat C) : outcome (emat C) := match constraint with Some f => f X | None => Val X end.

(** 325-328, 369-374: scale the fields so that the trace of Y^+ B Y is their number. *)
Definition normalize (Y BY : emat C) (YtBY : smat C) : outcome (emat C * emat C * smat C) :=
  let! t := sqmatrix_trace YtBY in
  let! q := fdiv (re t) (IZR (ep Y)) in
  let! y_norm := fsqrt q in
  let! i1 := fdiv 1 y_norm in let! i2 := fdiv 1 (y_norm * y_norm) in
  let! y := blas_rscal (ep Y * en Y) i1 (edata Y) in
  let! BY := match opB with Some _ => let! b := blas_rscal (ep Y * en Y) i1 (edata BY) in Val (set_data BY b) | None => Val (set_data Y y) end in
  let! b := blas_rscal (ep Y * ep Y) i2 (sdata YtBY) in
  Val (set_data Y y, BY, sset YtBY b).

(** What the head of an iteration leaves: Y, B Y, Y^+ B Y, its inverse, and whether the fields
    were orthonormalized again. *)
Record headed := { h_Y : emat C; h_BY : emat C; h_YtBY : smat C; h_U : smat C; h_re : bool }.

(** 316-379.  [None]: the emergency restart with random fields (331-345), not modelled beyond. *)
Definition head (Y : emat C) : outcome (option headed) :=
  let W := create_sq (ep Y) in
  let! BY := apply_B Y in
  let! YtBY := gram Y BY in
  let! (YBY, YtBY) := normalize Y BY YtBY in
  let '(Y, BY) := YBY in
  let! U := sqmatrix_copy W YtBY in
  let! o := invert U in
  match o with
  | None => Val None
  | Some U =>
      let! t := sqmatrix_trace U in
      if reorth && Rltb (100000000 * IZR (sp U)) (re t) then                 (* 354-378 *)
        let! S1 := sqmatrix_sqrt W U W in
        let! G := XeYS Y Y S1 true in
        let! Y := evectmatrix_copy Y G in
        let! BY := apply_B Y in
        let! YtBY := gram Y BY in
        let! (YBY, YtBY) := normalize Y BY YtBY in
        let '(Y, BY) := YBY in
        let! U := sqmatrix_copy W YtBY in
        let! o := invert U in
        match o with
        | None => Abort
        | Some U => Val (Some {| h_Y := Y; h_BY := BY; h_YtBY := YtBY; h_U := U; h_re := true |})
        end
      else Val (Some {| h_Y := Y; h_BY := BY; h_YtBY := YtBY; h_U := U; h_re := false |})
  end.

(** 381-393: G = A Y U, Y^+ A Y U and the trace E.  The storage of G is that of a field like Y. *)
Definition energy (h : headed) : outcome (emat C * smat C * R) :=
  let W := create_sq (ep (h_Y h)) in
  let! X := opA (h_Y h) in
  let! G := XeYS (h_Y h) X (h_U h) true in
  let! YtAYU := XtY W (h_Y h) G W in
  let! t := sqmatrix_trace YtAYU in
  Val (G, YtAYU, re t).

(** 425-427: G = (1 - BY U Y^+) A Y U. *)
Definition gradient (h : headed) (G : emat C) (YtAYU : smat C) : outcome (emat C) :=
  let W := create_sq (ep (h_Y h)) in
  let! S1 := sqmatrix_AeBC W (h_U h) false YtAYU false in
  XpaYS G (-1) (h_BY h) S1 true.

(** 433-452: the preconditioned gradient X. *)
Definition precondition (h : headed) (G : emat C) : outcome (emat C) :=
  let W := create_sq (ep (h_Y h)) in
  let! X := match opK with Some f => f G (h_Y h) (h_YtBY h) | None => evectmatrix_copy G G end in
  let! X := constrain X in
  if project then
    let! YtX := XtY W (h_Y h) X W in
    let! S1 := sqmatrix_AeBC W (h_U h) false YtX false in
    XpaYS X (-1) (h_BY h) S1 false
  else Val X.

(** 466-472: G - prev_G entry by entry. *)
Definition diff_data (G prev_G : emat C) : outcome (emat C) :=
  let! d := forZ 0 (en G * ep G) (fun i d => let! g := rd d i in let! q := rd (edata prev_G) i in wr d i (g - q)%C) (edata G) in
  Val (set_data G d).

(** The variables kept from one iteration to the next. *)
Record est := { s_Y : emat C; s_D : emat C; s_prev_G : emat C; s_d_scale : R; s_prev_traceGtX : R; s_prev_theta : R; s_prev_E : R }.

(** 460-481, 528-561: the direction D, tr G^+ X and prev_G. *)
Definition direction (it : Z) (s : est) (h : headed) (G X : emat C) : outcome (emat C * R * emat C) :=
  let! t := traceXtY G X in
  let traceGtX := re t in
  if cg then
    let! (num, prev_G) := (if pr then
        let! G' := diff_data G (s_prev_G s) in
        let! t := traceXtY G' X in Val (re t, G)
      else Val (traceGtX, G)) in
    let prev := if h_re h then 0%R else s_prev_traceGtX s in
    let! gamma := (if Reqb prev 0 then Val 0%R else fdiv num prev) in
    let gamma := if reset it then 0%R else gamma in
    let! D := evectmatrix_aXpbY (gamma * s_d_scale s) (s_D s) 1 X in
    Val (D, traceGtX, prev_G)
  else Val (X, traceGtX, G).

(** 648-681: the normalized direction, the matrices of the line minimization and the first and
    second derivative of the trace. *)
Definition line_data (h : headed) (YtAYU : smat C) (D : emat C) : outcome (emat C * tfd * R * R * R) :=
  let W := create_sq (ep (h_Y h)) in
  let Y := h_Y h in let U := h_U h in
  let! BD := apply_B D in
  let! t := traceXtY BD D in
  let! q := fdiv (re t) (IZR (ep Y)) in
  let! d_scale := fsqrt q in
  let! i1 := fdiv 1 d_scale in
  let! x := blas_rscal (ep Y * en Y) i1 (edata D) in
  let D := set_data D x in
  let! BD := match opB with Some _ => let! b := blas_rscal (ep Y * en Y) i1 (edata BD) in Val (set_data BD b) | None => Val D end in
  let! G := opA D in
  let! DtBD := gram D BD in
  let! DtAD := XtY W D G W in
  let! S1 := XtY W Y BD W in
  let! symYtBD := sqmatrix_symmetrize W S1 in
  let! S1 := XtY W Y G W in
  let! symYtAD := sqmatrix_symmetrize W S1 in
  let! S1 := sqmatrix_AeBC W U false symYtBD true in
  let! t1 := sqmatrix_traceAtB U symYtAD in
  let! t2 := sqmatrix_traceAtB YtAYU S1 in
  let dE := (2 * (re t1 - re t2))%R in
  let! S2 := sqmatrix_copy W DtBD in
  let! S2 := sqmatrix_ApaBC S2 (-4) symYtBD false S1 false in
  let! S3 := sqmatrix_AeBC W symYtAD false S1 false in
  let! S1 := sqmatrix_AeBC W U false S2 true in
  let! u1 := sqmatrix_traceAtB U DtAD in
  let! u2 := sqmatrix_traceAtB YtAYU S1 in
  let! u3 := sqmatrix_traceAtB U S3 in
  let d2E := (2 * (re u1 - re u2 - 4 * re u3))%R in
  let! S1 := sqmatrix_AeBC W YtAYU false (h_YtBY h) true in                  (* 721-723 *)
  Val (D, {| t_YtAY := S1; t_DtAD := DtAD; t_symYtAD := symYtAD; t_YtBY := h_YtBY h; t_DtBD := DtBD; t_symYtBD := symYtBD;
             t_lag := 0; t_d_lag := 0; t_YtLY := 0; t_DtLD := 0; t_YtLD := 0 |}, d_scale, dE, d2E).

(** 701-719: the first guess of the angle.  A quotient by zero is infinite (and replaced at 715) or
    not a number (dE = 0; it is then not used by linmin). *)
Definition first_theta (dE d2E prev_theta : R) : R :=
  let back := if Rltb 0 dE then (- Rabs prev_theta)%R else Rabs prev_theta in
  if Reqb d2E 0 then (if Reqb dE 0 then 0%R else back)
  else
    let theta := if Rltb d2E 0 then back else (- dE / d2E)%R in
    if Rleb PI (Rabs theta) then back else theta.

(** 726-739: linmin.  A trial angle at which trace_func stops the program is given the value zero
    here; [fuel] bounds the number of trials, [None] if they are not enough. *)
Definition line_func (t : tfd) (n : nat) (x : R) : R * R := match trace_func t x with Val r => r | _ => (0%R, 0%R) end.
Definition line_min (fuel : nat) (t : tfd) (E dE theta : R) : option (outcome lresult) :=
  match linmin fuel (line_func t) theta E dE (/ 10) (MIN tolerance (/ 1000000)) (/ 100000000000000) 0 (if Rltb 0 dE then - PI else PI)%R with
  | Some (Val r) => if Rleb (Rabs (r_x r)) PI then Some (Val r) else Some Abort
  | o => o
  end.

(** How an iteration ends. *)
Inductive stepped := Converged (E : R) (h : headed) | Again (E : R) (s : est) | Restarted.

(** One iteration (310-793) up to the direction (561): converged, or the direction D to follow from
    the fields of [h], with Y^+ A Y U, tr G^+ X and prev_G. *)
Inductive aimed :=
  | AConverged (E : R) (h : headed)
  | AAimed (E : R) (h : headed) (YtAYU : smat C) (D : emat C) (traceGtX : R) (prev_G : emat C)
  | ARestart.
Definition aim (it : Z) (s : est) : outcome aimed :=
  let! o := head (s_Y s) in
  match o with
  | None => Val ARestart
  | Some h =>
      let! (GS, E) := energy h in
      let '(G, YtAYU) := GS in
      if (0 <? it) && Rltb (Rabs (E - s_prev_E s)) (tolerance * / 2 * (E + s_prev_E s + / 10000000))          (* 421-423 *)
      then Val (AConverged E h)
      else
        let! G := gradient h G YtAYU in
        let! X := precondition h G in
        let! (Dt, prev_G) := direction it s h G X in
        let '(D, traceGtX) := Dt in
        Val (AAimed E h YtAYU D traceGtX prev_G)
  end.
(** The same with the matrices of the exact line minimization. *)
Inductive prepared :=
  | PConverged (E : R) (h : headed)
  | PLine (E : R) (h : headed) (D : emat C) (traceGtX : R) (prev_G : emat C) (t : tfd) (d_scale dE d2E : R)
  | PRestart.
Definition prepare (it : Z) (s : est) : outcome prepared :=
  let! o := aim it s in
  match o with
  | ARestart => Val PRestart
  | AConverged E h => Val (PConverged E h)
  | AAimed E h YtAYU D traceGtX prev_G =>
      let! (Dtf, d2E) := line_data h YtAYU D in
      let '(D, tf, d_scale, dE) := Dtf in
      Val (PLine E h D traceGtX prev_G tf d_scale dE d2E)
  end.

(** 701-793: the line minimization and the new fields, with the exact line minimization always in
    use (as if EIGS_FORCE_EXACT_LINMIN were given; 756-793 then leaves prev_theta = atan(theta)). *)
Definition step (fuel : nat) (it : Z) (s : est) : option (outcome stepped) :=
  match prepare it s with
  | Val PRestart => Some (Val Restarted)
  | Val (PConverged E h) => Some (Val (Converged E h))
  | Val (PLine E h D traceGtX prev_G tf d_scale dE d2E) =>
      match line_min fuel tf E dE (first_theta dE d2E (s_prev_theta s)) with
      | None => None
      | Some r => Some (
          let! r := r in
          let theta := r_x r in
          let! Y := evectmatrix_aXpbY (cos theta) (h_Y h) (sin theta) D in      (* 742 *)
          let! Y := constrain Y in                                             (* 749-750 *)
          Val (Again E {| s_Y := Y; s_D := D; s_prev_G := prev_G; s_d_scale := d_scale; s_prev_traceGtX := traceGtX;
                          s_prev_theta := atan theta; s_prev_E := E |}))
      end
  | Abort => Some Abort | UB => Some UB | NonFin => Some NonFin
  end.

(** eigensolver_utils.c 32-46: eigenvalues and eigenvectors within the space of the fields. *)
Definition get_eigenvals_aux (Y : emat C) (U : smat C) : outcome (emat C * list R) :=
  let W := create_sq (ep Y) in
  let! Usqrt := sqmatrix_sqrt W U W in
  let! Work1 := XeYS Y Y Usqrt true in
  let! Work2 := opA Work1 in
  let! U := XtY W Work1 Work2 W in
  let '(V, e) := eigensolve U in
  let! Y := XeYS Y Work1 V true in
  Val (Y, e).

(** 801-809: after convergence. *)
Definition finish (h : headed) : outcome (emat C * list R) :=
  let! BY := apply_B (h_Y h) in
  let! U := gram (h_Y h) BY in
  let! o := invert U in
  match o with
  | None => Abort
  | Some U => get_eigenvals_aux (h_Y h) U
  end.

(** 310-799: iterations until convergence; the traces found, the last first.  [n] bounds the
    number of iterations (EIGENSOLVER_MAX_ITERATIONS in the program, after which it stops). *)
Fixpoint loop (n : nat) (fuel : nat) (it : Z) (s : est) (Es : list R) : option (outcome (list R * option headed)) :=
  match n with
  | O => Some Abort
  | S n' =>
      match step fuel it s with
      | None => None
      | Some (Val Restarted) => Some (Val (Es, None))
      | Some (Val (Converged E h)) => Some (Val (E :: Es, Some h))
      | Some (Val (Again E s')) => loop n' fuel (it + 1) s' (E :: Es)
      | Some Abort => Some Abort | Some UB => Some UB | Some NonFin => Some NonFin
      end
  end.

(** 217-224, 240-257, 307-308: the start, with the initial fields Y; D and prev_G are zero. *)
Definition start (Y : emat C) : outcome est :=
  let z := set_data Y (map (fun _ => C0) (edata Y)) in
  let! Y := constrain Y in
  Val {| s_Y := Y; s_D := z; s_prev_G := z; s_d_scale := 1; s_prev_traceGtX := 0; s_prev_theta := / 2; s_prev_E := 0 |}.

(** 198-823 eigensolver_lagrange with the above settings: [None] at an emergency restart. *)
Definition eigensolver (n fuel : nat) (Y : emat C) : option (outcome (option (list R * emat C * list R))) :=
  match start Y with
  | Val s =>
      match loop n fuel 0 s [] with
      | None => None
      | Some r => Some (let! r := r in
          match r with
          | (_, None) => Val None
          | (Es, Some h) => let! (Y, e) := finish h in Val (Some (Es, Y, e))
          end)
      end
  | Abort => Some Abort | UB => Some UB | NonFin => Some NonFin
  end.
End Solver.
End Lapack.
