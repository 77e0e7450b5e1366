(** Model of src/maxwell/maxwell_op.c (the operator handed to the eigensolver and the steps
    it is made of) and of the preconditioners of src/maxwell/maxwell_pre.c: complex fields,
    one process.  The scratch arrays fft_data and fft_data2 are one and the same
    (maxwell.c 225-233), so every transform is in place. *)
From Coq Require Import List ZArith Reals Bool.
From Verif Require Import Base RC M_Tensor M_Evect M_Grid.
Import ListNotations.
Local Open Scope Z_scope.

(** maxwell.h 88-117, the fields used here; for one process and complex fields
    fft_output_size is nx * ny * nz (maxwell.c 69-81).  The pointer mu_inv is an option. *)
Record mdata := {
  d_nx : Z; d_ny : Z; d_nz : Z;
  d_other : Z; d_last : Z; d_last_size : Z; d_out : Z;
  d_nfb : Z;                                              (* num_fft_bands *)
  d_kG : list kdata; d_eps_inv : list sym; d_mu_inv : option (list sym);
  d_kn2 : list R; d_eps_inv_mean : R }.

(** maxwell.c 65, 74, 81: the shape create_maxwell_data gives. *)
Definition create_shape (nx ny nz nfb : Z) (kG : list kdata) (eps_inv : list sym) (mu_inv : option (list sym))
    (kn2 : list R) (eps_inv_mean : R) : mdata :=
  let last := last_dim nx ny nz in
  {| d_nx := nx; d_ny := ny; d_nz := nz; d_other := Z.quot (nx * ny * nz) last; d_last := last;
     d_last_size := last; d_out := nx * ny * nz; d_nfb := nfb; d_kG := kG; d_eps_inv := eps_inv; d_mu_inv := mu_inv;
     d_kn2 := kn2; d_eps_inv_mean := eps_inv_mean |}.

(** A Cartesian vector of complex numbers, a[0], a[1], a[2]. *)
Definition cvec : Type := (C * C * C)%type.

Definition lin (x y : R) (u v : C) : C := (x * re u + y * re v, x * im u + y * im v)%R.

(** maxwell_op.c 30-44. *)
Definition assign_t2c (k : kdata) (v0 v1 : C) : cvec :=
  let '(mx, my, mz) := km k in let '(nx, ny, nz) := kn k in
  (lin mx nx v0 v1, lin my ny v0 v1, lin mz nz v0 v1).

(** a . w for a real vector w. *)
Definition cdot3 (a : cvec) (w : vec) : C :=
  let '(a0, a1, a2) := a in let '(x, y, z) := w in
  (re a0 * x + re a1 * y + re a2 * z, im a0 * x + im a1 * y + im a2 * z)%R.

(** maxwell_op.c 47-56. *)
Definition project_c2t (scale : R) (k : kdata) (a : cvec) : C * C :=
  (Cscal scale (cdot3 a (km k)), Cscal scale (cdot3 a (kn k))).

(** maxwell_op.c 64-89. *)
Definition assign_cross_t2c (k : kdata) (v0 v1 : C) : cvec :=
  let '(mx, my, mz) := km k in let '(nx, ny, nz) := kn k in
  let f (n m : R) : C := ((re v0 * n - re v1 * m) * kmag k, (im v0 * n - im v1 * m) * kmag k)%R in
  (f nx mx, f ny my, f nz mz).

(** maxwell_op.c 97-130. *)
Definition assign_cross_c2t (scale : R) (k : kdata) (a : cvec) : C * C :=
  let at0 := cdot3 a (km k) in let at1 := cdot3 a (kn k) in
  let scale := (scale * kmag k)%R in
  (Cscal (- scale) at1, Cscal scale at0).

(** maxwell_op.c 134-164. *)
Definition assign_ucross_t2c (u : vec) (k : kdata) (v0 v1 : C) : cvec :=
  let '(u0, u1, u2) := u in
  let '(vx, vy, vz) := assign_t2c k v0 v1 in
  let f (a b : R) (p q : C) : C := (a * re p - b * re q, a * im p - b * im q)%R in
  (f u1 u2 vz vy, f u2 u0 vx vz, f u0 u1 vy vx).

(** maxwell_pre.c 36. *)
Definition FIX_DENOM (x : R) : R := if Reqb x 0 then 1%R else x.

(** maxwell_pre.c 150-172. *)
Definition assign_crossinv_t2c (k : kdata) (v0 v1 : C) : cvec :=
  let kmag_inv := (- 1 / FIX_DENOM (kmag k))%R in
  let '(mx, my, mz) := km k in let '(nx, ny, nz) := kn k in
  let f (n m : R) : C := ((re v0 * n - re v1 * m) * kmag_inv, (im v0 * n - im v1 * m) * kmag_inv)%R in
  (f nx mx, f ny my, f nz mz).

(** maxwell_pre.c 177-207. *)
Definition assign_crossinv_c2t (scale : R) (k : kdata) (a : cvec) : C * C :=
  let at0 := cdot3 a (km k) in let at1 := cdot3 a (kn k) in
  let scale := (- scale / FIX_DENOM (kmag k))%R in
  (Cscal (- scale) at1, Cscal scale at0).

(** maxwell_op.c 346-386, Hermitian tensors; with real tensors the entries have no
    imaginary part and the result is the same. *)
Definition assign_symmatrix_vector (m : sym) (v : cvec) : cvec :=
  let '(v0, v1, v2) := v in
  ((Cscal (m00 m) v0 + m01 m * v1 + m02 m * v2)%C,
   (Cscal (m11 m) v1 + Cconj (m01 m) * v0 + m12 m * v2)%C,
   (Cscal (m22 m) v2 + Cconj (m02 m) * v0 + Cconj (m12 m) * v1)%C).

(** &a[i] read or written as a vector. *)
Definition rd3 (a : list C) (i : Z) : outcome cvec :=
  let! x := rd a i in let! y := rd a (i + 1) in let! z := rd a (i + 2) in Val (x, y, z).
Definition wr3 (a : list C) (i : Z) (v : cvec) : outcome (list C) :=
  let '(x, y, z) := v in
  let! a := wr a i x in let! a := wr a (i + 1) y in wr a (i + 2) z.

(** FFTW's n-dimensional discrete Fourier transform (external; FFTW manual, "What FFTW
    Really Computes"): the factor of input point g in output point r, unnormalized, sign -1
    for FFTW_FORWARD (dir > 0 here) and +1 for FFTW_BACKWARD (dir < 0).  Points are numbered in
    row-major order. *)
Definition point (ny nz i : Z) : Z * Z * Z := (i / (ny * nz), (i / nz) mod ny, i mod nz).
Definition phase (nx ny nz g r : Z) : R :=
  let '(gx, gy, gz) := point ny nz g in let '(rx, ry, rz) := point ny nz r in
  (2 * PI * (IZR (gx * rx) / IZR nx + IZR (gy * ry) / IZR ny + IZR (gz * rz) / IZR nz))%R.
Definition kern (d : mdata) (dir g r : Z) : C :=
  let a := phase (d_nx d) (d_ny d) (d_nz d) g r in
  if dir <? 0 then (cos a, sin a) else (cos a, - sin a)%R.

(** maxwell_op.c 168-283, the transform it executes: [howmany] arrays, point i of array q at
    i * stride + q * dist, all outputs computed from the inputs.  Plan handling: M_Plan.v. *)
Definition compute_fft (dir : Z) (d : mdata) (a : list C) (howmany stride dist : Z) : outcome (list C) :=
  let N := d_nx d * d_ny d * d_nz d in
  forZ 0 N (fun r o => forZ 0 howmany (fun q o =>
    let! v := forZ 0 N (fun g s => let! x := rd a (g * stride + q * dist) in Val (s + kern d dir g r * x)%C) C0 in
    wr o (r * stride + q * dist) v) o) a.

(** The loops of maxwell_op.c 413-426 (and 524-536, 1311-1323; maxwell_pre.c 246-259): the bands
    [start, start + nb) of X, each plane wave taken to Cartesian components by [asg]. *)
Definition to_cartesian (asg : kdata -> C -> C -> cvec) (d : mdata) (X : emat C) (start nb : Z) (fft : list C) : outcome (list C) :=
  forZ 0 (d_other d) (fun i fft => forZ 0 (d_last d) (fun j fft =>
    let ij := i * d_last d + j in
    let ij2 := i * d_last_size d + j in
    let! k := rd (d_kG d) ij in
    forZ 0 nb (fun b fft =>
      let! v0 := rd (edata X) (ij * 2 * ep X + b + start) in
      let! v1 := rd (edata X) (ij * 2 * ep X + b + start + ep X) in
      wr3 fft (3 * (ij2 * nb + b)) (asg k v0 v1)) fft) fft) fft.

(** The loops of maxwell_op.c 490-502 (and 570-581; maxwell_pre.c 292-306): back to the
    transverse components, by [prj]. *)
Definition to_transverse (prj : kdata -> cvec -> C * C) (d : mdata) (X : emat C) (start nb : Z) (fft : list C) : outcome (emat C) :=
  let! dt := forZ 0 (d_other d) (fun i dt => forZ 0 (d_last d) (fun j dt =>
    let ij := i * d_last d + j in
    let ij2 := i * d_last_size d + j in
    let! k := rd (d_kG d) ij in
    forZ 0 nb (fun b dt =>
      let! a := rd3 fft (3 * (ij2 * nb + b)) in
      let '(v0, v1) := prj k a in
      let! dt := wr dt (ij * 2 * ep X + b + start) v0 in
      wr dt (ij * 2 * ep X + b + start + ep X) v1) dt) dt) (edata X) in
  Val (set_data X dt).

Definition band_range (X : emat C) (start nb : Z) : outcome unit := check ((0 <=? start) && (start + nb <=? ep X)).

(** maxwell_op.c 398-431. *)
Definition d_from_H (d : mdata) (H : emat C) (start nb : Z) (fft : list C) : outcome (list C) :=
  let! _ := band_range H start nb in
  let! fft := to_cartesian assign_cross_t2c d H start nb fft in
  compute_fft 1 d fft (nb * 3) (nb * 3) 1.

(** maxwell_op.c 437-454. *)
Definition e_from_d (d : mdata) (nb : Z) (tensors : list sym) (fft : list C) : outcome (list C) :=
  forZ 0 (d_out d) (fun i fft =>
    let! t := rd tensors i in
    forZ 0 nb (fun b fft =>
      let ib := 3 * (i * nb + b) in
      let! v := rd3 fft ib in
      wr3 fft ib (assign_symmatrix_vector t v)) fft) fft.

(** maxwell_op.c 469-503; the result is the field and the scratch array. *)
Definition H_from_e (d : mdata) (H : emat C) (start nb : Z) (scale : R) (fft : list C) : outcome (emat C * list C) :=
  let! _ := band_range H start nb in
  let! fft := compute_fft (-1) d fft (nb * 3) (nb * 3) 1 in
  let! H := to_transverse (assign_cross_c2t scale) d H start nb fft in
  Val (H, fft).

(** maxwell_op.c 508-542. *)
Definition h_from_H (d : mdata) (H : emat C) (start nb : Z) (fft : list C) : outcome (list C) :=
  let! _ := band_range H start nb in
  let! fft := to_cartesian assign_t2c d H start nb fft in
  compute_fft 1 d fft (nb * 3) (nb * 3) 1.

(** The number N of the matrix, matrices.h 28: all plane waves. *)
Definition mN (d : mdata) : R := IZR (d_nx d * d_ny d * d_nz d).

(** maxwell_op.c 544-582.  [same]: Bin and Hout have the same data pointer, and then
    the model is called with Bin = Hout. *)
Definition H_from_B (d : mdata) (same : bool) (B H : emat C) (bstart hstart nb : Z) (fft : list C) : outcome (emat C * list C) :=
  let! scale := fdiv 1 (mN d) in
  match d_mu_inv d with
  | None => if same then Val (H, fft) else let! H := evectmatrix_copy_slice H B hstart bstart nb in Val (H, fft)
  | Some mu_inv =>
      let! fft := h_from_H d B bstart nb fft in
      let! fft := e_from_d d nb mu_inv fft in
      let! fft := compute_fft (-1) d fft (nb * 3) (nb * 3) 1 in
      let! H := to_transverse (project_c2t scale) d H hstart nb fft in
      Val (H, fft)
  end.

(** maxwell_op.c 1201-1203 (and 1240-1242, 1306-1308; maxwell_pre.c 239-241): the batches of bands,
    num_fft_bands at a time; [None]: not finished within [fuel] iterations (with
    num_fft_bands = 0 the loop never ends). *)
Fixpoint batches (fuel : nat) (cur p nfb : Z) : option (list (Z * Z)) :=
  if cur <? p then
    match fuel with
    | O => None
    | S fuel' => option_map (cons (cur, Z.min nfb (p - cur))) (batches fuel' (cur + nfb) p nfb)
    end
  else Some [].

Fixpoint run {S X} (f : X -> S -> outcome S) (l : list X) (s : S) : outcome S :=
  match l with [] => Val s | x :: l => let! s := f x s in run f l s end.

(** maxwell_op.c 1204-1221: one batch, Xin and Xout distinct. *)
Definition operator_batch (d : mdata) (Xin : emat C) (scale : R) (bt : Z * Z) (s : emat C * list C) : outcome (emat C * list C) :=
  let '(start, nb) := bt in let '(Xout, fft) := s in
  let! s := (match d_mu_inv d with
    | None => let! fft := d_from_H d Xin start nb fft in Val (Xout, fft)
    | Some _ =>
        let! s := H_from_B d false Xin Xout start start nb fft in
        let '(Xout, fft) := s in
        let! fft := d_from_H d Xout start nb fft in Val (Xout, fft)
    end) in
  let '(Xout, fft) := s in
  let! fft := e_from_d d nb (d_eps_inv d) fft in
  let! s := H_from_e d Xout start nb scale fft in
  let '(Xout, fft) := s in
  H_from_B d true Xout Xout start start nb fft.

(** maxwell_op.c 1182-1222; Some result, or None if the batch loop does not end. *)
Definition maxwell_operator (fuel : nat) (d : mdata) (Xin Xout : emat C) (fft : list C) : option (outcome (emat C * list C)) :=
  option_map (fun l => let! scale := fdiv (-1) (mN d) in run (operator_batch d Xin scale) l (Xout, fft)) (batches fuel 0 (ep Xin) (d_nfb d)).

(** maxwell_op.c 1224-1247. *)
Definition muinv_operator (fuel : nat) (d : mdata) (Xin Xout : emat C) (fft : list C) : option (outcome (emat C * list C)) :=
  option_map (fun l => run (fun bt s => let '(Xo, f) := s in H_from_B d false Xin Xo (fst bt) (fst bt) (snd bt) f) l (Xout, fft))
    (batches fuel 0 (ep Xout) (d_nfb d)).

(** maxwell_op.c 1287-1334. *)
Definition ucross_batch (d : mdata) (u : vec) (Xin : emat C) (scale : R) (bt : Z * Z) (s : emat C * list C) : outcome (emat C * list C) :=
  let '(start, nb) := bt in let '(Xout, fft) := s in
  let! fft := to_cartesian (assign_ucross_t2c u) d Xin start nb fft in
  let! fft := compute_fft 1 d fft (nb * 3) (nb * 3) 1 in
  let! fft := e_from_d d nb (d_eps_inv d) fft in
  H_from_e d Xout start nb scale fft.
Definition ucross_op (fuel : nat) (d : mdata) (u : vec) (Xin Xout : emat C) (fft : list C) : option (outcome (emat C * list C)) :=
  option_map (fun l => let! scale := fdiv (-1) (mN d) in run (ucross_batch d u Xin scale) l (Xout, fft)) (batches fuel 0 (ep Xin) (d_nfb d)).

(** maxwell_pre.c 271-283: multiply by the inverse of the mean inverse dielectric constant. *)
Definition times_eps (d : mdata) (nb : Z) (fft : list C) : outcome (list C) :=
  forZ 0 (d_out d) (fun i fft =>
    let! t := rd (d_eps_inv d) i in
    let! eps := fdiv 3 (m00 t + m11 t + m22 t) in
    forZ 0 nb (fun b fft =>
      let ib := 3 * (i * nb + b) in
      let! v := rd3 fft ib in
      let '(x, y, z) := v in
      wr3 fft ib (Cscal eps x, Cscal eps y, Cscal eps z)) fft) fft.

(** maxwell_pre.c 212-311, after Xout has been set to Xin times YtY (229-230). *)
Definition precond2_batch (d : mdata) (scale : R) (bt : Z * Z) (s : emat C * list C) : outcome (emat C * list C) :=
  let '(start, nb) := bt in let '(Xout, fft) := s in
  let! fft := to_cartesian assign_crossinv_t2c d Xout start nb fft in
  let! fft := compute_fft 1 d fft (nb * 3) (nb * 3) 1 in
  let! fft := times_eps d nb fft in
  let! fft := compute_fft (-1) d fft (nb * 3) (nb * 3) 1 in
  let! Xout := to_transverse (assign_crossinv_c2t scale) d Xout start nb fft in
  Val (Xout, fft).
Definition preconditioner2 (fuel : nat) (d : mdata) (Xout : emat C) (fft : list C) : option (outcome (emat C * list C)) :=
  option_map (fun l => let! scale := fdiv (-1) (mN d) in run (precond2_batch d scale) l (Xout, fft)) (batches fuel 0 (ep Xout) (d_nfb d)).

(** maxwell_pre.c 38-73: maxwell_simple_precondition. *)
Definition simple_precondition (d : mdata) (X : emat C) : outcome (emat C) :=
  let! dt := forZ 0 (d_nx d * d_ny d * d_nz d) (fun i dt => forZ 0 2 (fun c dt => forZ 0 (ep X) (fun b dt =>
    let index := (i * 2 + c) * ep X + b in
    let! n2 := rd (d_kn2 d) i in
    let scale := (1 / FIX_DENOM (n2 * d_eps_inv_mean d))%R in
    let! v := rd dt index in
    wr dt index (Cscal scale v)) dt) dt) (edata X) in
  Val (set_data X dt).
