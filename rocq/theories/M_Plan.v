(** Model of the FFT plan cache: maxwell_compute_fft (src/maxwell/maxwell_op.c 168-283, the
    FFTW3 branch) and the plan loop of destroy_maxwell_data (src/maxwell/maxwell.c 254-258). *)
From Coq Require Import List ZArith Bool.
From Verif Require Import Base.
Import ListNotations.
Local Open Scope Z_scope.

(** An FFTW3 plan: what FFTW fixes when it is made (maxwell_op.c 209-214): the transform
    direction, the grid, the number of transforms, their stride and distance, and whether the
    input and output arrays coincide.  p_id identifies the allocation.  The real and the MPI
    variants (192-207, 216-243) fix the same data. *)
Record plan := { p_id : Z; p_fwd : bool; p_grid : Z * Z * Z; p_howmany : Z; p_stride : Z; p_dist : Z; p_inplace : bool }.

(** The FFTW library: the plans that exist (by allocation), and the next allocation. *)
Record fftw := { f_next : Z; f_live : list Z }.

(** The plan fields of maxwell_data (src/maxwell/maxwell.h 86, 104-105): MAX_NPLANS slots; the
    five parallel arrays plans, iplans, plans_howmany, plans_stride, plans_dist are one array
    of slots here. None: never written. *)
Definition MAX_NPLANS : Z := 32.
Record slot := { s_plan : plan; s_iplan : plan; s_howmany : Z; s_stride : Z; s_dist : Z }.
Record pdata := { pd_grid : Z * Z * Z; pd_n : Z; pd_slots : list (option slot) }.

(** A slot that was never written holds indeterminate values: reading it is UB. *)
Definition rd_slot (l : list (option slot)) (i : Z) : outcome slot :=
  let! o := rd l i in match o with Some s => Val s | None => UB end.

(** create_maxwell_data, maxwell.c 79 and 130: no plans yet. *)
Definition new_pdata (grid : Z * Z * Z) : pdata :=
  {| pd_grid := grid; pd_n := 0; pd_slots := repeat None (Z.to_nat MAX_NPLANS) |}.

(** The arguments of a call; array pointers are addresses. *)
Record request := { r_dir : Z; r_in : Z; r_out : Z; r_howmany : Z; r_stride : Z; r_dist : Z }.

(** The search loop, maxwell_op.c 179-181. The first argument is the number of slots left. *)
Fixpoint find_plan (k : nat) (ip : Z) (l : list (option slot)) (r : request) : outcome Z :=
  match k with
  | O => Val ip
  | S k' =>
    let! s := rd_slot l ip in
    if negb (r_howmany r =? s_howmany s) || negb (r_stride r =? s_stride s) || negb (r_dist r =? s_dist s)
    then find_plan k' (ip + 1) l r else Val ip
  end.

(** FFTW(plan_many_dft), maxwell_op.c 209-214: a new plan or, if ok is false, NULL. *)
Definition make_plan (ok : bool) (fwd : bool) (d : pdata) (r : request) (w : fftw) : option plan * fftw :=
  if ok
  then (Some {| p_id := f_next w; p_fwd := fwd; p_grid := pd_grid d; p_howmany := r_howmany r; p_stride := r_stride r; p_dist := r_dist r;
                p_inplace := r_in r =? r_out r |},
        {| f_next := f_next w + 1; f_live := f_next w :: f_live w |})
  else (None, w).

(** FFTW(destroy_plan): destroying a plan that does not exist is UB. *)
Definition destroy_plan (p : plan) (w : fftw) : outcome fftw :=
  if existsb (Z.eqb (p_id p)) (f_live w)
  then Val {| f_next := f_next w; f_live := remove Z.eq_dec (p_id p) (f_live w) |} else UB.

(** FFTW(execute_dft), maxwell_op.c 250-269: executing a plan that does not exist is UB. *)
Definition execute_plan (p : plan) (w : fftw) : outcome unit :=
  if existsb (Z.eqb (p_id p)) (f_live w) then Val tt else UB.

(** maxwell_compute_fft, maxwell_op.c 168-283: the executed plan, the new state.  ok1 and ok2
    tell whether FFTW can make the plans. Simplified: the arithmetic of the transform itself is
    elsewhere (M_Op), and so are the arrays. *)
Definition compute_fft (ok1 ok2 : bool) (r : request) (d : pdata) (w : fftw) : outcome (plan * pdata * fftw) :=
  let! ip := find_plan (Z.to_nat (pd_n d)) 0 (pd_slots d) r in
  let! (plan, iplan, w) :=
    if ip <? pd_n d
    then let! s := rd_slot (pd_slots d) ip in Val (s_plan s, s_iplan s, w)
    else
      let (o1, w1) := make_plan ok1 false d r w in
      let (o2, w2) := make_plan ok2 true d r w1 in
      match o1, o2 with Some p, Some q => Val (p, q, w2) | _, _ => Abort end in
  let used := if r_dir r <? 0 then plan else iplan in
  let! u := execute_plan used w in
  if ip =? MAX_NPLANS
  then
    let! w1 := destroy_plan plan w in
    let! w2 := destroy_plan iplan w1 in
    Val (used, d, w2)
  else if ip =? pd_n d
  then
    let! l := wr (pd_slots d) ip (Some {| s_plan := plan; s_iplan := iplan; s_howmany := r_howmany r; s_stride := r_stride r; s_dist := r_dist r |}) in
    Val (used, {| pd_grid := pd_grid d; pd_n := pd_n d + 1; pd_slots := l |}, w)
  else Val (used, d, w).

(** Any sequence of calls: the plans used, in order. *)
Fixpoint run_ffts (rs : list (bool * bool * request)) (d : pdata) (w : fftw) : outcome (list plan * pdata * fftw) :=
  match rs with
  | [] => Val ([], d, w)
  | (ok1, ok2, r) :: t =>
    let! (p, d1, w1) := compute_fft ok1 ok2 r d w in
    let! (ps, d2, w2) := run_ffts t d1 w1 in
    Val (p :: ps, d2, w2)
  end.

(** The plan loop of destroy_maxwell_data, maxwell.c 254-258. *)
Definition destroy_plans (d : pdata) (w : fftw) : outcome fftw :=
  forZ 0 (pd_n d) (fun i w =>
    let! s := rd_slot (pd_slots d) i in
    let! w1 := destroy_plan (s_plan s) w in
    destroy_plan (s_iplan s) w1) w.

(** The callers.  fft_data, fft_data2 are the addresses in maxwell_data (maxwell.h; made equal in
    create_maxwell_data, maxwell.c 227-232); a field array is given to those that take one. *)
Inductive caller :=
| d_from_H (field cur : Z)   (* maxwell_compute_d_from_H, maxwell_op.c 400-430 *)
| H_from_e (field cur : Z)   (* maxwell_compute_H_from_e, maxwell_op.c 475-486 *)
| h_from_H (field cur : Z)   (* maxwell_compute_h_from_H, maxwell_op.c 513-541 *)
| H_from_B (field cur : Z)   (* maxwell_compute_H_from_B, maxwell_op.c 550-567 *)
| ucross (cur : Z)           (* maxwell_ucross_op, maxwell_op.c 1299-1328 *)
| pre_to (cur : Z)           (* maxwell_preconditioner2, maxwell_pre.c 265 *)
| pre_from (cur : Z)         (* maxwell_preconditioner2, maxwell_pre.c 286 *)
| div_to (field : Z)         (* compute_field_divergence, mpb/fields.c 374, 385 *)
| div_from (field : Z).      (* compute_field_divergence, mpb/fields.c 406 *)
(** The other buffer: maxwell_op.c 403, 475, 513, 550, mpb/fields.c 374. *)
Definition other_buf (fft_data fft_data2 field : Z) : Z :=
  if fft_data2 =? fft_data then field else if field =? fft_data then fft_data2 else fft_data.
Definition req (dir i o howmany stride dist : Z) : request :=
  {| r_dir := dir; r_in := i; r_out := o; r_howmany := howmany; r_stride := stride; r_dist := dist |}.
Definition call (fft_data fft_data2 : Z) (c : caller) : request :=
  match c with
  | d_from_H f n => req 1 (other_buf fft_data fft_data2 f) f (n * 3) (n * 3) 1
  | H_from_e f n => req (-1) f (other_buf fft_data fft_data2 f) (n * 3) (n * 3) 1
  | h_from_H f n => req 1 (other_buf fft_data fft_data2 f) f (n * 3) (n * 3) 1
  | H_from_B f n => req (-1) f (other_buf fft_data fft_data2 f) (n * 3) (n * 3) 1
  | ucross n => req 1 fft_data2 fft_data (n * 3) (n * 3) 1
  | pre_to n => req 1 fft_data2 fft_data (n * 3) (n * 3) 1
  | pre_from n => req (-1) fft_data fft_data2 (n * 3) (n * 3) 1
  | div_to f => req (-1) f (other_buf fft_data fft_data2 f) 3 3 1
  | div_from f => req 1 (other_buf fft_data fft_data2 f) f 1 1 1
  end.
