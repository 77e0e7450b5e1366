(** Model of the Maxwell operator of the parallel builds (HAVE_MPI), complex fields, FFTW3: each
    process holds the plane waves of a slab in x and the grid points of a slab in y.  All processes
    run the same program; between two collective calls they touch only their own memory, so the model advances
    them together. *)
From Coq Require Import List ZArith Reals Bool.
From Verif Require Import Base RC M_Tensor M_Evect M_Grid M_Op.
Import ListNotations.
Local Open Scope Z_scope.

(** maxwell.h 88-117: the data of a process; px0 = local_x_start, pnx = local_nx, py0 = local_y_start,
    pny = local_ny. *)
Record proc := { pd : mdata; px0 : Z; pnx : Z; py0 : Z; pny : Z }.

(** maxwell.c 65, 134-155: the shape create_maxwell_data gives, from the slabs FFTW's
    mpi_local_size_transposed returns. *)
Definition create_shape_mpi (nx ny nz nfb x0 lnx y0 lny : Z) (kG : list kdata) (eps_inv : list sym) (mu_inv : option (list sym))
    (kn2 : list R) (eps_inv_mean : R) : proc :=
  let last := last_dim nx ny nz in
  let local_N := lnx * ny * nz in
  {| pd := {| d_nx := nx; d_ny := ny; d_nz := nz; d_other := Z.quot local_N last; d_last := last; d_last_size := last;
              d_out := nx * lny * nz; d_nfb := nfb; d_kG := kG; d_eps_inv := eps_inv; d_mu_inv := mu_inv; d_kn2 := kn2; d_eps_inv_mean := eps_inv_mean |};
     px0 := x0; pnx := lnx; py0 := y0; pny := lny |}.

(** A process in the middle of an operator: its data, its parts of the input and output blocks, its
    scratch array. *)
Record pst := { s_p : proc; s_in : emat C; s_out : emat C; s_fft : list C }.
Definition set_fft (s : pst) (f : list C) : pst := {| s_p := s_p s; s_in := s_in s; s_out := s_out s; s_fft := f |}.
Definition set_out (s : pst) (X : emat C) : pst := {| s_p := s_p s; s_in := s_in s; s_out := X; s_fft := s_fft s |}.

(** Grid point or plane wave number i of the slab in x of a process (row-major [local_nx][ny][nz]) and of its slab in y
    ([local_ny][nx][nz]: the first two dimensions are exchanged), numbered as in the whole grid. *)
Definition x_pt (p : proc) (i : Z) : Z := px0 p * d_ny (pd p) * d_nz (pd p) + i.
Definition y_pt (p : proc) (i : Z) : Z :=
  let '(y, x, z) := point (d_nx (pd p)) (d_nz (pd p)) i in (x * d_ny (pd p) + (py0 p + y)) * d_nz (pd p) + z.
Definition x_count (p : proc) : Z := pnx p * d_ny (pd p) * d_nz (pd p).
Definition y_count (p : proc) : Z := d_nx (pd p) * pny p * d_nz (pd p).

(** FFTW's distributed transform (external; FFTW manual, "Transposed distributions", "Advanced distributed-transform interface"):
    the number at point g of the whole grid in array q, read from the process that holds it; no such
    process: undefined. *)
Definition in_x (x : Z) (s : pst) : bool := (px0 (s_p s) <=? x) && (x <? px0 (s_p s) + pnx (s_p s)).
Definition in_y (y : Z) (s : pst) : bool := (py0 (s_p s) <=? y) && (y <? py0 (s_p s) + pny (s_p s)).
Definition get_x (l : list pst) (ny nz howmany g q : Z) : outcome C :=
  let '(x, y, z) := point ny nz g in
  match find (in_x x) l with
  | None => UB
  | Some s => rd (s_fft s) ((((x - px0 (s_p s)) * ny + y) * nz + z) * howmany + q)
  end.
Definition get_y (l : list pst) (nx ny nz howmany g q : Z) : outcome C :=
  let '(x, y, z) := point ny nz g in
  match find (in_y y) l with
  | None => UB
  | Some s => rd (s_fft s) ((((y - py0 (s_p s)) * nx + x) * nz + z) * howmany + q)
  end.
(** The unnormalized transform, computed by every process for the points of its slab: FFTW_FORWARD for dir >= 0 (iplan: from slabs in x to
    slabs in y, FFTW_MPI_TRANSPOSED_OUT), FFTW_BACKWARD for dir < 0 (plan: FFTW_MPI_TRANSPOSED_IN, back). *)
Definition fft_at (dir : Z) (l : list pst) (howmany : Z) (s : pst) : outcome pst :=
  let d := pd (s_p s) in
  let count := if dir <? 0 then x_count (s_p s) else y_count (s_p s) in
  let pt := if dir <? 0 then x_pt (s_p s) else y_pt (s_p s) in
  let get := if dir <? 0 then get_y l (d_nx d) (d_ny d) (d_nz d) howmany else get_x l (d_ny d) (d_nz d) howmany in
  let! f := forZ 0 count (fun i o => forZ 0 howmany (fun q o =>
    let! v := forZ 0 (d_nx d * d_ny d * d_nz d) (fun g a => let! x := get g q in Val (a + kern d dir g (pt i) * x)%C) C0 in
    wr o (i * howmany + q) v) o) (s_fft s) in
  Val (set_fft s f).
(** maxwell_op.c 189-205, 252-254. *)
Definition compute_fft_mpi (dir : Z) (l : list pst) (howmany stride dist : Z) : outcome (list pst) :=
  let! _ := check ((stride =? howmany) && (dist =? 1)) in
  mapM (fft_at dir l howmany) l.

(** A step every process takes in its own memory. *)
Definition local (f : pst -> outcome pst) (l : list pst) : outcome (list pst) := mapM f l.
(** A condition on which the program branches before a collective call: were it to hold for
    some processes only, those would wait for ever; here that is UB. *)
Definition agree (f : pst -> bool) (l : list pst) : outcome bool :=
  if forallb f l then Val true else if forallb (fun s => negb (f s)) l then Val false else UB.
Definition has_mu (s : pst) : bool := match d_mu_inv (pd (s_p s)) with Some _ => true | None => false end.

(** maxwell_op.c 398-431 and 508-542 (also 1310-1327, maxwell_pre.c 246-265), with the assignment [asg] of each; [rng]: the range of
    bands is tested; [src]: Xin or Xout. *)
Definition position_mpi (rng : bool) (asg : kdata -> C -> C -> cvec) (src : pst -> emat C) (start nb : Z) (l : list pst) : outcome (list pst) :=
  let! l := local (fun s =>
    let! _ := (if rng then band_range (src s) start nb else Val tt) in
    let! f := to_cartesian asg (pd (s_p s)) (src s) start nb (s_fft s) in Val (set_fft s f)) l in
  compute_fft_mpi 1 l (nb * 3) (nb * 3) 1.
(** maxwell_op.c 437-454: the points of the slab in y. *)
Definition e_from_d_mpi (tensors : mdata -> list sym) (nb : Z) (l : list pst) : outcome (list pst) :=
  local (fun s => let! f := e_from_d (pd (s_p s)) nb (tensors (pd (s_p s))) (s_fft s) in Val (set_fft s f)) l.
(** maxwell_op.c 469-503; also 566-581 and maxwell_pre.c 286-306, with the projection [prj] of each. *)
Definition back_mpi (prj : R -> kdata -> cvec -> C * C) (rng : bool) (num : R) (start nb : Z) (l : list pst) : outcome (list pst) :=
  let! l := local (fun s => let! _ := (if rng then band_range (s_out s) start nb else Val tt) in Val s) l in
  let! l := compute_fft_mpi (-1) l (nb * 3) (nb * 3) 1 in
  local (fun s =>
    let! scale := fdiv num (mN (pd (s_p s))) in
    let! X := to_transverse (prj scale) (pd (s_p s)) (s_out s) start nb (s_fft s) in Val (set_out s X)) l.
Definition mu_of (d : mdata) : list sym := match d_mu_inv d with Some mu => mu | None => [] end.
(** maxwell_op.c 544-582. *)
Definition H_from_B_mpi (same : bool) (src : pst -> emat C) (start nb : Z) (l : list pst) : outcome (list pst) :=
  let! mu := agree has_mu l in
  if mu : bool then
    let! l := position_mpi true assign_t2c src start nb l in
    let! l := e_from_d_mpi mu_of nb l in
    back_mpi project_c2t false 1 start nb l
  else if same then Val l
  else local (fun s => let! X := evectmatrix_copy_slice (s_out s) (src s) start start nb in Val (set_out s X)) l.
(** maxwell_op.c 1204-1221. *)
Definition operator_batch_mpi (bt : Z * Z) (l : list pst) : outcome (list pst) :=
  let '(start, nb) := bt in
  let! mu := agree has_mu l in
  let! l := (if mu : bool then
      let! l := H_from_B_mpi false s_in start nb l in position_mpi true assign_cross_t2c s_out start nb l
    else position_mpi true assign_cross_t2c s_in start nb l) in
  let! l := e_from_d_mpi d_eps_inv nb l in
  let! l := back_mpi assign_cross_c2t true (-1) start nb l in
  H_from_B_mpi true s_out start nb l.
(** Every process has the same number of bands and the same num_fft_bands (maxwell.c 62-63); the batches are those of
    the first.  No process at all: nothing to do. *)
Definition batches_mpi (fuel : nat) (l : list pst) : option (list (Z * Z)) :=
  match l with [] => Some [] | s :: _ => batches fuel 0 (ep (s_in s)) (d_nfb (pd (s_p s))) end.
(** maxwell_op.c 1182-1222. *)
Definition maxwell_operator_mpi (fuel : nat) (l : list pst) : option (outcome (list pst)) :=
  option_map (fun bs => run operator_batch_mpi bs l) (batches_mpi fuel l).
(** maxwell_op.c 1224-1247. *)
Definition muinv_operator_mpi (fuel : nat) (l : list pst) : option (outcome (list pst)) :=
  option_map (fun bs => run (fun bt l => H_from_B_mpi false s_in (fst bt) (snd bt) l) bs l) (batches_mpi fuel l).
(** maxwell_op.c 1287-1334. *)
Definition ucross_batch_mpi (u : vec) (bt : Z * Z) (l : list pst) : outcome (list pst) :=
  let '(start, nb) := bt in
  let! l := position_mpi false (assign_ucross_t2c u) s_in start nb l in
  let! l := e_from_d_mpi d_eps_inv nb l in
  back_mpi assign_cross_c2t true (-1) start nb l.
Definition ucross_op_mpi (fuel : nat) (u : vec) (l : list pst) : option (outcome (list pst)) :=
  option_map (fun bs => run (ucross_batch_mpi u) bs l) (batches_mpi fuel l).
(** maxwell_pre.c 212-311, after Xout has been set (229-230). *)
Definition precond2_batch_mpi (bt : Z * Z) (l : list pst) : outcome (list pst) :=
  let '(start, nb) := bt in
  let! l := position_mpi false assign_crossinv_t2c s_out start nb l in
  let! l := local (fun s => let! f := times_eps (pd (s_p s)) nb (s_fft s) in Val (set_fft s f)) l in
  back_mpi assign_crossinv_c2t false (-1) start nb l.
Definition preconditioner2_mpi (fuel : nat) (l : list pst) : option (outcome (list pst)) :=
  option_map (fun bs => run precond2_batch_mpi bs l) (batches_mpi fuel l).
