(** Model of the Maxwell operator in the builds where [scalar] is a real number (mpbi: SCALAR_COMPLEX
    undefined), one process, FFTW3: maxwell_op.c over the half-stored grid of maxwell.c 83-84. *)
From Coq Require Import List ZArith Reals Bool.
From Verif Require Import Base RC M_Tensor M_Evect M_Grid M_Op.
Import ListNotations.
Local Open Scope Z_scope.

(** maxwell.c 65, 74, 83-84: the shape create_maxwell_data gives; the last dimension of the array of scalars is
    padded, and half as many complex numbers fit into it. *)
Definition create_shape_real (nx ny nz nfb : Z) (kG : list kdata) (eps_inv : list sym) (mu_inv : option (list sym))
    (kn2 : list R) (eps_inv_mean : R) : mdata :=
  let last := last_dim nx ny nz in
  let other := Z.quot (nx * ny * nz) last in
  let size := 2 * (Z.quot last 2 + 1) in
  {| d_nx := nx; d_ny := ny; d_nz := nz; d_other := other; d_last := last;
     d_last_size := size; d_out := Z.quot (other * size) 2; d_nfb := nfb; d_kG := kG; d_eps_inv := eps_inv; d_mu_inv := mu_inv;
     d_kn2 := kn2; d_eps_inv_mean := eps_inv_mean |}.

(** A Cartesian vector of real scalars. *)
Definition rvec : Type := (R * R * R)%type.

(** maxwell_op.c 30-44 with real scalars (ASSIGN_SCALAR keeps the real part, scalar.h 189-191). *)
Definition assign_t2c_r (k : kdata) (v0 v1 : R) : rvec :=
  let '(mx, my, mz) := km k in let '(nx, ny, nz) := kn k in
  (v0 * mx + v1 * nx, v0 * my + v1 * ny, v0 * mz + v1 * nz)%R.
Definition rdot3 (a : rvec) (w : vec) : R :=
  let '(a0, a1, a2) := a in let '(x, y, z) := w in (a0 * x + a1 * y + a2 * z)%R.
(** maxwell_op.c 47-56. *)
Definition project_c2t_r (scale : R) (k : kdata) (a : rvec) : R * R :=
  (scale * rdot3 a (km k), scale * rdot3 a (kn k))%R.
(** maxwell_op.c 64-89. *)
Definition assign_cross_t2c_r (k : kdata) (v0 v1 : R) : rvec :=
  let '(mx, my, mz) := km k in let '(nx, ny, nz) := kn k in
  ((v0 * nx - v1 * mx) * kmag k, (v0 * ny - v1 * my) * kmag k, (v0 * nz - v1 * mz) * kmag k)%R.
(** maxwell_op.c 97-130. *)
Definition assign_cross_c2t_r (scale : R) (k : kdata) (a : rvec) : R * R :=
  let at0 := rdot3 a (km k) in let at1 := rdot3 a (kn k) in
  let scale := (scale * kmag k)%R in
  (- scale * at1, scale * at0)%R.

(** &a[i] read or written as a vector of scalars. *)
Definition rdr3 (a : list R) (i : Z) : outcome rvec :=
  let! x := rd a i in let! y := rd a (i + 1) in let! z := rd a (i + 2) in Val (x, y, z).
Definition wrr3 (a : list R) (i : Z) (v : rvec) : outcome (list R) :=
  let '(x, y, z) := v in let! a := wr a i x in let! a := wr a (i + 1) y in wr a (i + 2) z.
(** ((scalar_complex * ) a)[i]: the same memory as complex numbers (maxwell_op.c 402, 438). *)
Definition rdc (a : list R) (i : Z) : outcome C := let! x := rd a (2 * i) in let! y := rd a (2 * i + 1) in Val (x, y).
Definition wrc (a : list R) (i : Z) (v : C) : outcome (list R) := let! a := wr a (2 * i) (re v) in wr a (2 * i + 1) (im v).
Definition rdc3 (a : list R) (i : Z) : outcome cvec :=
  let! x := rdc a i in let! y := rdc a (i + 1) in let! z := rdc a (i + 2) in Val (x, y, z).
Definition wrc3 (a : list R) (i : Z) (v : cvec) : outcome (list R) :=
  let '(x, y, z) := v in let! a := wrc a i x in let! a := wrc a (i + 1) y in wrc a (i + 2) z.

(** Number of complex numbers stored per row, nr[rnk-1] / 2 of maxwell_op.c 218. *)
Definition stored (d : mdata) : Z := Z.quot (d_last d) 2 + 1.
(** Where grid point or plane wave g is in the padded array of scalars (nr, 217-218), and the grid
    point the complex number h stands for. *)
Definition padded (d : mdata) (g : Z) : Z := g / d_last d * d_last_size d + g mod d_last d.
Definition unstored (d : mdata) (h : Z) : Z := h / stored d * d_last d + h mod stored d.
(** The opposite grid point. *)
Definition against (n i : Z) : Z := if i =? 0 then 0 else n - i.
Definition opposite (d : mdata) (r : Z) : Z :=
  let '(x, y, z) := point (d_ny d) (d_nz d) r in
  (against (d_nx d) x * d_ny d + against (d_ny d) y) * d_nz d + against (d_nz d) z.

(** FFTW's transforms of real data (external; FFTW manual, "What FFTW Really Computes", "Multi-dimensional
    Transforms").  Real to complex, executed for dir > 0 (maxwell_op.c 238-241, 265-266): the forward transform, of which
    the first half in the last dimension is stored. *)
Definition fft_r2c (d : mdata) (a : list R) (howmany stride dist : Z) : outcome (list R) :=
  forZ 0 (d_other d * stored d) (fun h o => forZ 0 howmany (fun q o =>
    let! v := forZ 0 (d_nx d * d_ny d * d_nz d) (fun g s =>
      let! x := rd a (padded d g * stride + q * dist) in Val (s + kern d 1 g (unstored d h) * RtoC x)%C) C0 in
    wrc o (h * stride + q * dist) v) o) a.
(** The number at grid point r of the array of which the first half is stored and the second is its conjugate
    at the opposite points. *)
Definition hermitian_at (d : mdata) (a : list R) (stride dist q r : Z) : outcome C :=
  let at_ (r : Z) := rdc a ((r / d_last d * stored d + r mod d_last d) * stride + q * dist) in
  if r mod d_last d <? stored d then at_ r else let! v := at_ (opposite d r) in Val (Cconj v).
(** Complex to real, executed for dir <= 0 (234-237, 267-268): the backward transform of that array.  It is real for the arrays the manual
    allows, those that are their own conjugate at opposite points; for others the model takes the real part. *)
Definition fft_c2r (d : mdata) (a : list R) (howmany stride dist : Z) : outcome (list R) :=
  forZ 0 (d_nx d * d_ny d * d_nz d) (fun g o => forZ 0 howmany (fun q o =>
    let! v := forZ 0 (d_nx d * d_ny d * d_nz d) (fun r s =>
      let! x := hermitian_at d a stride dist q r in Val (s + kern d (-1) r g * x)%C) C0 in
    wr o (padded d g * stride + q * dist) (re v)) o) a.
(** maxwell_op.c 168-283, the transform it executes. *)
Definition compute_fft_r (dir : Z) (d : mdata) (a : list R) (howmany stride dist : Z) : outcome (list R) :=
  if 0 <? dir then fft_r2c d a howmany stride dist else fft_c2r d a howmany stride dist.

(** The loops of maxwell_op.c 413-426 and 524-536. *)
Definition to_cartesian_r (asg : kdata -> R -> R -> rvec) (d : mdata) (X : emat R) (start nb : Z) (fft : list R) : outcome (list R) :=
  forZ 0 (d_other d) (fun i fft => forZ 0 (d_last d) (fun j fft =>
    let ij := i * d_last d + j in
    let ij2 := i * d_last_size d + j in
    let! k := rd (d_kG d) ij in
    forZ 0 nb (fun b fft =>
      let! v0 := rd (edata X) (ij * 2 * ep X + b + start) in
      let! v1 := rd (edata X) (ij * 2 * ep X + b + start + ep X) in
      wrr3 fft (3 * (ij2 * nb + b)) (asg k v0 v1)) fft) fft) fft.
(** The loops of maxwell_op.c 490-502 and 570-581. *)
Definition to_transverse_r (prj : kdata -> rvec -> R * R) (d : mdata) (X : emat R) (start nb : Z) (fft : list R) : outcome (emat R) :=
  let! dt := forZ 0 (d_other d) (fun i dt => forZ 0 (d_last d) (fun j dt =>
    let ij := i * d_last d + j in
    let ij2 := i * d_last_size d + j in
    let! k := rd (d_kG d) ij in
    forZ 0 nb (fun b dt =>
      let! a := rdr3 fft (3 * (ij2 * nb + b)) in
      let '(v0, v1) := prj k a in
      let! dt := wr dt (ij * 2 * ep X + b + start) v0 in
      wr dt (ij * 2 * ep X + b + start + ep X) v1) dt) dt) (edata X) in
  Val (set_data X dt).

Definition band_range_r (X : emat R) (start nb : Z) : outcome unit := check ((0 <=? start) && (start + nb <=? ep X)).

(** maxwell_op.c 398-431. *)
Definition d_from_H_r (d : mdata) (H : emat R) (start nb : Z) (fft : list R) : outcome (list R) :=
  let! _ := band_range_r H start nb in
  let! fft := to_cartesian_r assign_cross_t2c_r d H start nb fft in
  compute_fft_r 1 d fft (nb * 3) (nb * 3) 1.
(** maxwell_op.c 437-454: at the stored points, in the complex numbers. *)
Definition e_from_d_r (d : mdata) (nb : Z) (tensors : list sym) (fft : list R) : outcome (list R) :=
  forZ 0 (d_out d) (fun i fft =>
    let! t := rd tensors i in
    forZ 0 nb (fun b fft =>
      let ib := 3 * (i * nb + b) in
      let! v := rdc3 fft ib in
      wrc3 fft ib (assign_symmatrix_vector t v)) fft) fft.
(** maxwell_op.c 469-503. *)
Definition H_from_e_r (d : mdata) (H : emat R) (start nb : Z) (scale : R) (fft : list R) : outcome (emat R * list R) :=
  let! _ := band_range_r H start nb in
  let! fft := compute_fft_r (-1) d fft (nb * 3) (nb * 3) 1 in
  let! H := to_transverse_r (assign_cross_c2t_r scale) d H start nb fft in
  Val (H, fft).
(** maxwell_op.c 508-542. *)
Definition h_from_H_r (d : mdata) (H : emat R) (start nb : Z) (fft : list R) : outcome (list R) :=
  let! _ := band_range_r H start nb in
  let! fft := to_cartesian_r assign_t2c_r d H start nb fft in
  compute_fft_r 1 d fft (nb * 3) (nb * 3) 1.
(** maxwell_op.c 544-582, as in M_Op.v. *)
Definition H_from_B_r (d : mdata) (same : bool) (B H : emat R) (bstart hstart nb : Z) (fft : list R) : outcome (emat R * list R) :=
  let! scale := fdiv 1 (mN d) in
  match d_mu_inv d with
  | None => if same then Val (H, fft) else let! H := evectmatrix_copy_slice H B hstart bstart nb in Val (H, fft)
  | Some mu_inv =>
      let! fft := h_from_H_r d B bstart nb fft in
      let! fft := e_from_d_r d nb mu_inv fft in
      let! fft := compute_fft_r (-1) d fft (nb * 3) (nb * 3) 1 in
      let! H := to_transverse_r (project_c2t_r scale) d H hstart nb fft in
      Val (H, fft)
  end.
(** maxwell_op.c 1204-1221. *)
Definition operator_batch_r (d : mdata) (Xin : emat R) (scale : R) (bt : Z * Z) (s : emat R * list R) : outcome (emat R * list R) :=
  let '(start, nb) := bt in let '(Xout, fft) := s in
  let! s := (match d_mu_inv d with
    | None => let! fft := d_from_H_r d Xin start nb fft in Val (Xout, fft)
    | Some _ =>
        let! s := H_from_B_r d false Xin Xout start start nb fft in
        let '(Xout, fft) := s in
        let! fft := d_from_H_r d Xout start nb fft in Val (Xout, fft)
    end) in
  let '(Xout, fft) := s in
  let! fft := e_from_d_r d nb (d_eps_inv d) fft in
  let! s := H_from_e_r d Xout start nb scale fft in
  let '(Xout, fft) := s in
  H_from_B_r d true Xout Xout start start nb fft.
(** maxwell_op.c 1182-1222. *)
Definition maxwell_operator_r (fuel : nat) (d : mdata) (Xin Xout : emat R) (fft : list R) : option (outcome (emat R * list R)) :=
  option_map (fun l => let! scale := fdiv (-1) (mN d) in run (operator_batch_r d Xin scale) l (Xout, fft)) (batches fuel 0 (ep Xin) (d_nfb d)).
(** maxwell_op.c 1224-1247. *)
Definition muinv_operator_r (fuel : nat) (d : mdata) (Xin Xout : emat R) (fft : list R) : option (outcome (emat R * list R)) :=
  option_map (fun l => run (fun bt s => let '(Xo, f) := s in H_from_B_r d false Xin Xo (fst bt) (fst bt) (snd bt) f) l (Xout, fft))
    (batches fuel 0 (ep Xout) (d_nfb d)).
