(** Model of the functions that change a loaded field as a whole: fix_field_phase and
    compute_field_divergence of mpb/fields.c, scale_eigenvector of mpb/matrix-smob.c. *)
From Coq Require Import List ZArith Reals Bool.
From Verif Require Import Base RC M_Tensor M_Evect M_Grid M_Op.
Import ListNotations.
Local Open Scope Z_scope.

(* ------------------------------------------------------------------ *)
(** * fix_field_phase *)

(** atan2 of the C library (C11 7.12.4.4), on numbers without signed zeros. *)
Definition atan2 (y x : R) : R :=
  if Rltb 0 x then atan (y / x)
  else if Rltb x 0 then (if Rltb y 0 then atan (y / x) - PI else atan (y / x) + PI)%R
  else if Rltb 0 y then (PI / 2)%R else if Rltb y 0 then (- (PI / 2))%R else 0%R.

(** fields.c 459-464, one process's sum of squares of the first [n] numbers. *)
Definition square_sum (n : Z) (f : list C) : outcome (R * R) :=
  forZ 0 n (fun i s => let! v := rd f i in
    Val (fst s + (re v * re v - im v * im v), snd s + 2 * re v * im v)%R) (0%R, 0%R).

(** fields.c 470-472: 0.5 * atan2(-sq_sum[1], sq_sum[0]). *)
Definition best_phase (s : R * R) : C :=
  let theta := (1 / 2 * atan2 (- snd s) (fst s))%R in (cos theta, sin theta).

(** fields.c 493, 504: the number whose sign decides, in complex and in real builds (495, 506). *)
Definition key_complex (phase v : C) : R := (re v * re phase - im v * im phase)%R.
Definition key_real (v : C) : R := (re v - im v)%R.

(** fields.c 491-499. *)
Definition max_abs (key : C -> R) (n : Z) (f : list C) : outcome R :=
  forZ 0 n (fun i m => let! v := rd f i in let r := Rabs (key v) in Val (if Rltb m r then r else m)) 0%R.

(** fields.c 502-513: from the last number down, stopping at the first with at least half of
    the maximum; index 0 and sign 1 if there is none. *)
Fixpoint last_big (key : C -> R) (maxabs : R) (f : list C) (n : nat) : outcome (option (Z * Z)) :=
  match n with
  | O => Val None
  | S n => let! v := rd f (Z.of_nat n) in
           let r := key v in
           if Rleb (1 / 2 * maxabs) (Rabs r) then Val (Some (Z.of_nat n, if Rltb r 0 then -1 else 1)) else last_big key maxabs f n
  end.

(** A process: mdata->local_y_start * nx * nz, the number of components, its part of the
    field.  fields.c 514-515 (the offset is added when the loop was left by break). *)
Definition candidate (key : C -> R) (maxabs : R) (p : Z * Z * list C) : outcome (Z * Z) :=
  let '(offset, n, f) := p in
  let! r := last_big key maxabs f (Z.to_nat n) in
  Val (match r with Some (i, s) => (i + offset, s) | None => (0, 1) end).

(** MPI_MAXLOC on pairs of integers (MPI standard, external): the largest first component, of
    equal ones the smallest second. *)
Definition maxloc2 (l : list (Z * Z)) : Z * Z :=
  match l with
  | [] => (0, 1)
  | x :: t => fold_left (fun best c => if fst best <? fst c then c else if (fst best =? fst c) && (snd c <? snd best) then c else best) t x
  end.

(** fields.c 491-524: the sign, over all processes. *)
Definition decide_sign (key : C -> R) (procs : list (Z * Z * list C)) : outcome Z :=
  let! ms := mapM (fun p => let '(_, n, f) := p in max_abs key n f) procs in
  let maxabs := fold_right Rmax 0%R ms in
  let! cs := mapM (candidate key maxabs) procs in
  Val (snd (maxloc2 cs)).

(** fields.c 455-526, complex fields: the final phase. *)
Definition choose_phase (procs : list (Z * Z * list C)) : outcome C :=
  let! ss := mapM (fun p => let '(_, n, f) := p in square_sum n f) procs in
  let s := fold_right (fun a b => (fst a + fst b, snd a + snd b)%R) (0%R, 0%R) ss in
  let phase := best_phase s in
  let! sign := decide_sign (key_complex phase) procs in
  Val (re phase * IZR sign, im phase * IZR sign)%R.

(** fields.c 535-540. *)
Definition turn_field (n : Z) (phase : C) (f : list C) : outcome (list C) :=
  forZ 0 n (fun i f => let! v := rd f i in
    wr f i (re v * re phase - im v * im phase, re v * im phase + im v * re phase)%R) f.

(** fields.c 541-544, the column of the band in the eigenvectors. *)
Definition turn_band (band : Z) (phase : C) (H : emat C) : outcome (emat C) :=
  let! d := forZ 0 (en H) (fun i d =>
    let! v := rd d (i * ep H + band - 1) in
    wr d (i * ep H + band - 1) (re v * re phase - im v * im phase, re v * im phase + im v * re phase)%R) (edata H) in
  Val (set_data H d).

(** fields.c 441-545 on one process, complex fields; [out] is fft_output_size.  The check of the
    type of the field is in M_Cur.v. *)
Definition fix_field_phase (out band : Z) (f : list C) (H : emat C) : outcome (list C * emat C) :=
  let n := out * 3 in
  let! phase := choose_phase [(0, n, f)] in
  let! f := turn_field n phase f in
  let! H := turn_band band phase H in
  Val (f, H).

(** The same in real builds: phase = 1 (474) times the sign; the eigenvectors are real. *)
Definition fix_field_phase_real (out band : Z) (f : list C) (H : emat R) : outcome (list C * emat R) :=
  let n := out * 3 in
  let! sign := decide_sign key_real [(0, n, f)] in
  let! f := turn_field n (RtoC (IZR sign)) f in
  let! d := forZ 0 (en H) (fun i d => let! v := rd d (i * ep H + band - 1) in wr d (i * ep H + band - 1) (v * IZR sign)%R) (edata H) in
  Val (f, set_data H d).

(* ------------------------------------------------------------------ *)
(** * compute_field_divergence *)

(** fields.c 393-395: the wave vector taken from its basis, as written there (the last line has
    my*nz where m x n has my*nx). *)
Definition div_k (k : kdata) : vec :=
  let '(mx, my, mz) := km k in let '(nx, ny, nz) := kn k in
  (kmag k * (my * nz - mz * ny), kmag k * (mz * nx - mx * nz), kmag k * (mx * ny - my * nz))%R.

(** fields.c 387-403, the numbers of the field in place. *)
Definition dot_k (d : mdata) (f : list C) : outcome (list C) :=
  forZ 0 (d_other d) (fun i f => forZ 0 (d_last d) (fun j f =>
    let ij := i * d_last_size d + j in
    let! k := rd (d_kG d) ij in
    let '(kx, ky, kz) := div_k k in
    let! v := rd3 f (3 * ij) in
    let '(v0, v1, v2) := v in
    wr f ij (re v0 * kx + re v1 * ky + re v2 * kz, im v0 * kx + im v1 * ky + im v2 * kz)%R) f) f.

(** fields.c 372-419, complex fields, one process, after the check of the type; [HN] is H.N. *)
Definition compute_field_divergence (d : mdata) (HN : R) (f : list C) : outcome (list C) :=
  let! f := compute_fft (-1) d f 3 3 1 in
  let! f := dot_k d f in
  let! f := compute_fft 1 d f 1 1 1 in
  let! scale := fdiv (2 * PI) HN in
  forZ 0 (d_out d) (fun i f => let! v := rd f i in wr f i (- im v * scale, re v * scale)%R) f.

(** The shape of mdata in real builds (maxwell.c 83-84): the last dimension of the
    Fourier-transformed array is padded, last_dim_size = 2 (last_dim / 2 + 1); the table
    k_plus_G has one entry per point (maxwell.c 235). *)
Definition real_shape (nx ny nz : Z) (kG : list kdata) (eps_inv : list sym) : mdata :=
  {| d_nx := nx; d_ny := ny; d_nz := nz; d_other := other_dims nx nx ny nz; d_last := last_dim nx ny nz;
     d_last_size := last_dim_size nx ny nz; d_out := other_dims nx nx ny nz * (last_dim_size nx ny nz / 2); d_nfb := 1;
     d_kG := kG; d_eps_inv := eps_inv; d_mu_inv := None; d_kn2 := []; d_eps_inv_mean := 1%R |}.

(* ------------------------------------------------------------------ *)
(** * scale_eigenvector *)

(** blasglue.c 144-147: BLAS scal with increment [inc] from offset [o] (external). *)
Definition blas_scal (n : Z) (a : C) (x : list C) (o inc : Z) : outcome (list C) :=
  forZ 0 n (fun i x => let! v := rd x (o + i * inc) in wr x (o + i * inc) (a * v)%C) x.
Definition blas_scal_real (n : Z) (a : R) (x : list R) (o inc : Z) : outcome (list R) :=
  forZ 0 n (fun i x => let! v := rd x (o + i * inc) in wr x (o + i * inc) (a * v)%R) x.

(** matrix-smob.c 335-349. *)
Definition scale_eigenvector (b : Z) (scale : C) (H : emat C) : outcome (emat C) :=
  let! _ := check ((0 <? b) && (b <=? ep H)) in
  let! d := blas_scal (en H) scale (edata H) (b - 1) (ep H) in Val (set_data H d).
(** In real builds (342-346): ASSIGN_SCALAR keeps the real part. *)
Definition scale_eigenvector_real (b : Z) (scale : C) (H : emat R) : outcome (emat R) :=
  let! _ := check ((0 <? b) && (b <=? ep H)) in
  let! _ := check (Rltb (Rabs (im scale * re scale)) (1 / 100000000000000)) in
  let! d := blas_scal_real (en H) (re scale) (edata H) (b - 1) (ep H) in Val (set_data H d).
