(** Model of the plane-wave table, the grid loop, the parities and their constraints
    (src/maxwell/maxwell.c, xyz_loop.h, maxwell_constraints.c, mpb/mpb.c set_parity). *)
From Coq Require Import List ZArith Reals Bool.
From Verif Require Import Base RC M_Tensor M_Evect.
Import ListNotations.
Local Open Scope Z_scope.

(* ------------------------------------------------------------------ *)
(** * Sizes *)

(** maxwell.c 35, 65: rank of the transform and its last dimension. *)
Definition fft_rank (ny nz : Z) : Z := if nz =? 1 then (if ny =? 1 then 1 else 2) else 3.
Definition last_dim (nx ny nz : Z) : Z :=
  if fft_rank ny nz =? 1 then nx else if fft_rank ny nz =? 2 then ny else nz.
(** maxwell.c 72-74 (serial: local_nx = nx), 152-154, 206-209. *)
Definition local_N (local_nx ny nz : Z) : Z := local_nx * ny * nz.
Definition other_dims (nx local_nx ny nz : Z) : Z := Z.quot (local_N local_nx ny nz) (last_dim nx ny nz).
(** maxwell.c 83, 103, 135, 198: real (inversion-symmetric) builds store half of the last
    dimension. *)
Definition last_dim_size (nx ny nz : Z) : Z := 2 * (Z.quot (last_dim nx ny nz) 2 + 1).

(* ------------------------------------------------------------------ *)
(** * xyz_loop.h: the grid points visited, as (i1, i2, i3, xyz_index) in order *)

(** 19-24: complex fields, serial. *)
Definition loop_complex (n1 n2 n3 : Z) : list (Z * Z * Z * Z) :=
  flat_map (fun i1 => flat_map (fun i2 => map (fun i3 =>
    (i1, i2, i3, (i1 * n2 + i2) * n3 + i3)) (zrange n3)) (zrange n2)) (zrange n1).

(** 27-34: complex fields, parallel (first two dimensions transposed). *)
Definition loop_complex_mpi (n1 n2 n3 local_n2 local_y_start : Z) : list (Z * Z * Z * Z) :=
  flat_map (fun i2_ => flat_map (fun i1 => map (fun i3 =>
    (i1, i2_ + local_y_start, i3, (i2_ * n1 + i1) * n3 + i3)) (zrange n3)) (zrange n1)) (zrange local_n2).

(** 38-50: real fields, serial. *)
Definition loop_real (n1 n2 n3 : Z) : list (Z * Z * Z * Z) :=
  let n_other := other_dims n1 n1 n2 n3 in
  let n_last := Z.quot (last_dim_size n1 n2 n3) 2 in
  let rank := fft_rank n2 n3 in
  flat_map (fun i1_ => map (fun i2_ =>
    let xyz_index := i1_ * n_last + i2_ in
    if rank =? 2 then (i1_, i2_, 0, xyz_index)
    else if rank =? 3 then (Z.quot i1_ n2, Z.rem i1_ n2, i2_, xyz_index)
    else (i2_, 0, 0, xyz_index)) (zrange n_last)) (zrange n_other).

(** 53-61: real fields, parallel. *)
Definition loop_real_mpi (n1 n2 n3 local_n2 local_y_start : Z) : list (Z * Z * Z * Z) :=
  let local_n3 := if n3 >? 1 then Z.quot (last_dim_size n1 n2 n3) 2 else 1 in
  flat_map (fun i2_ => flat_map (fun i1 => map (fun i3 =>
    (i1, i2_ + local_y_start, i3, (i2_ * n1 + i1) * local_n3 + i3)) (zrange local_n3)) (zrange n1)) (zrange local_n2).

(* ------------------------------------------------------------------ *)
(** * Plane waves *)

Definition vcross (b c : vec) : vec :=     (* maxwell.c 302-309 compute_cross *)
  let '(b0, b1, b2) := b in let '(c0, c1, c2) := c in
  (b1 * c2 - b2 * c1, b2 * c0 - b0 * c2, b0 * c1 - b1 * c0)%R.
Definition vscale (s : R) (a : vec) : vec := let '(x, y, z) := a in (x * s, y * s, z * s)%R.

(** maxwell.c 424, 444-448: the frequency index of position x of a dimension of size n. *)
Definition kidx (n x : Z) : Z := let c := Z.max 1 (Z.quot n 2) in if x >=? c then x - n else x.

(** maxwell.h k_data. *)
Record kdata := { kmag : R; km : vec; kn : vec }.

(** maxwell.c 457-495: the two transverse vectors of the wave vector [q]. *)
Definition transverse (q : vec) : outcome kdata :=
  let '(x, y, z) := q in
  let a := (x * x + y * y + z * z)%R in
  if Reqb a 0 then Val {| kmag := sqrt a; km := (0, 0, 1)%R; kn := (0, 1, 0)%R |}
  else
    let! n := (if Reqb x 0 && Reqb y 0 then Val (0, 1, 0)%R
               else let '(a0, b0, c0) := vcross (0, 0, 1)%R q in
                    let! leninv := fdiv 1 (sqrt (a0 * a0 + b0 * b0 + c0 * c0)) in
                    Val (vscale leninv (a0, b0, c0))) in
    let '(a1, b1, c1) := vcross n q in
    let! leninv := fdiv 1 (sqrt (a1 * a1 + b1 * b1 + c1 * c1)) in
    Val {| kmag := sqrt a; km := vscale leninv (a1, b1, c1); kn := n |}.

(** maxwell.c 453-455. *)
Definition kpG (k G1 G2 G3 : vec) (kxi kyi kzi : Z) : vec :=
  let comb (f : vec -> R) := (f k - (f G1 * IZR kxi + f G2 * IZR kyi + f G3 * IZR kzi))%R in
  (comb (fun v => fst (fst v)), comb (fun v => snd (fst v)), comb (fun v => snd v)).

(** maxwell.c 443-519: the table k_plus_G of one process, positions in storage order;
    [k] Cartesian. *)
Definition planewaves (nx ny nz local_x_start local_nx : Z) : list (Z * Z * Z) :=
  flat_map (fun x => flat_map (fun y => map (fun z => (kidx nx x, kidx ny y, kidx nz z)) (zrange nz)) (zrange ny))
    (map (fun i => local_x_start + i) (zrange local_nx)).
Definition k_plus_G (nx ny nz local_x_start local_nx : Z) (k G1 G2 G3 : vec) : outcome (list kdata) :=
  mapM (fun t => let '(kx, ky, kz) := t in transverse (kpG k G1 G2 G3 kx ky kz)) (planewaves nx ny nz local_x_start local_nx).

(** maxwell.c 371-376: position of order g, refused if outside the grid. *)
Definition order_pos (n g : Z) : outcome Z :=
  let x := if g >? 0 then n - g else - g in
  let! _ := check ((0 <=? x) && (x <? n)) in Val x.

(** maxwell.c 312-337: dominant plane wave of a band (numbered from 1) on one process. *)
Definition dominant_index (localN p band : Z) (data : list C) : outcome (R * Z) :=
  forZ 0 localN (fun i s =>
    let! u := rd data ((i * 2 + 0) * p + band - 1) in
    let! v := rd data ((i * 2 + 1) * p + band - 1) in
    let amp := (normsqr u + normsqr v)%R in
    Val (if Rltb (fst s) amp then (amp, i) else s)) (0%R, 0).
Definition dominant_planewave (localN p band : Z) (data : list C) (table : list kdata) : outcome (R * vec) :=
  let! _ := check ((1 <=? band) && (band <=? p)) in
  let! r := dominant_index localN p band data in
  let! k := rd table (snd r) in
  Val (fst r, vscale (kmag k) (vcross (km k) (kn k))).

(** maxwell.c 339-354: the reduction over processes.  [ranks] gives my_global_rank() of
    the members of mpb_comm in order, [res] their local results; MPI_MAXLOC picks the
    largest amplitude, among equals the smallest rank value; MPI_Bcast takes the root as
    a rank in mpb_comm and is an error if it is outside (modelled as Abort). *)
Definition maxloc (l : list (R * Z)) : R * Z :=
  match l with
  | [] => (0%R, 0)
  | x :: t => fold_left (fun best c => if Rltb (fst best) (fst c) then c
                          else if Reqb (fst best) (fst c) && (snd c <? snd best) then c else best) t x
  end.
Definition dominant_mpi (ranks : list Z) (res : list (R * vec)) : outcome vec :=
  let g := maxloc (combine (map fst res) ranks) in
  let! _ := check ((0 <=? snd g) && (snd g <? Z.of_nat (length res))) in
  let! r := rd res (snd g) in Val (snd r).

(** maxwell.c 388-411: the polarization amplitudes written for a plane wave with table
    entry [k]: s and p relative to the plane of k+G and axis. *)
Definition planewave_amp (k : kdata) (s p : C) (axis : vec) : outcome (C * C) :=
  let kdir := vcross (km k) (kn k) in
  let '(px, py, pz) := vcross kdir axis in
  let len := sqrt (px * px + py * py + pz * pz) in
  let! _ := check (Rltb 0 len) in
  let pv := (px / len, py / len, pz / len)%R in
  let '(px, py, pz) := pv in
  let '(sx, sy, sz) := vcross kdir pv in
  let Hx := (Cscal sx s + Cscal px p)%C in
  let Hy := (Cscal sy s + Cscal py p)%C in
  let Hz := (Cscal sz s + Cscal pz p)%C in
  let dotm (m : vec) := let '(mx, my, mz) := m in (Cscal mx Hx + Cscal my Hy + Cscal mz Hz)%C in
  Val (dotm (km k), dotm (kn k)).

(** maxwell.c 362-412, complex fields. *)
Definition set_planewave (nx ny nz local_x_start local_nx : Z) (table : list kdata) (p band : Z) (data : list C)
    (g : Z * Z * Z) (sa pa : C) (axis : vec) : outcome (list C) :=
  let '(g0, g1, g2) := g in
  let! x := order_pos nx g0 in let! y := order_pos ny g1 in let! z := order_pos nz g2 in
  let! data := forZ 0 (local_N local_nx ny nz) (fun i d =>
      let! d := wr d ((i * 2 + 0) * p + band - 1) C0 in wr d ((i * 2 + 1) * p + band - 1) C0) data in
  if (x >=? local_x_start) && (x <? local_x_start + local_nx) then
    let i := ((x - local_x_start) * ny + y) * nz + z in
    let! k := rd table i in
    let! a := planewave_amp k sa pa axis in
    let! d := wr data ((i * 2 + 0) * p + band - 1) (fst a) in
    wr d ((i * 2 + 1) * p + band - 1) (snd a)
  else Val data.

(* ------------------------------------------------------------------ *)
(** * Parities *)

(** maxwell.c 524-535. *)
Definition has (parity m : Z) : bool := negb (Z.land parity m =? 0).
Definition set_data_parity (ky kz : R) (parity : Z) : Z :=
  let p := if has parity EVEN_Z && has parity ODD_Z then Z.land parity (Z.lnot (Z.lor EVEN_Z ODD_Z)) else parity in
  let p := if negb (Reqb kz 0) then Z.land p (Z.lnot (Z.lor EVEN_Z ODD_Z)) else p in
  let p := if has p EVEN_Y && has p ODD_Y then Z.land p (Z.lnot (Z.lor EVEN_Y ODD_Y)) else p in
  if negb (Reqb ky 0) then Z.land p (Z.lnot (Z.lor EVEN_Y ODD_Y)) else p.

(** mpb.c 349-369 set_parity: state (mdata->parity, last_p); [ky kz] the current k. *)
Definition set_parity (ky kz : R) (st : Z * Z) (p : Z) : outcome (Z * Z) :=
  let p := if p =? -1 then (if snd st <? 0 then 0 else snd st) else p in
  let d := set_data_parity ky kz p in
  let! _ := check (d =? p) in
  Val (d, p).

(** maxwell_constraints.c 72-73, 204-205. *)
Definition zsign (parity : Z) : Z := if has parity EVEN_Z then 1 else if has parity ODD_Z then -1 else 0.
Definition ysign (parity : Z) : Z := if has parity EVEN_Y then 1 else if has parity ODD_Y then -1 else 0.

(** maxwell_constraints.c 103-121 and 224-242: one pair of mirrored plane waves (ij, ij2) of band b; [s] is the
    sign for the first component, the second gets the opposite one. *)
Definition mirror_pair (p : Z) (s : R) (ij ij2 b : Z) (X : list C) : outcome (list C) :=
  let! u := rd X ((ij * 2) * p + b) in
  let! v := rd X ((ij * 2 + 1) * p + b) in
  let! u2 := rd X ((ij2 * 2) * p + b) in
  let! v2 := rd X ((ij2 * 2 + 1) * p + b) in
  let! X := wr X ((ij * 2) * p + b) (Cscal (/ 2) (u + Cscal s u2))%C in
  let! X := wr X ((ij * 2 + 1) * p + b) (Cscal (/ 2) (v - Cscal s v2))%C in
  let! X := wr X ((ij2 * 2) * p + b) (Cscal (/ 2) (u2 + Cscal s u))%C in
  wr X ((ij2 * 2 + 1) * p + b) (Cscal (/ 2) (v2 - Cscal s v))%C.

(** The mirrored position of j: maxwell_constraints.c 102, 160, 220, 277. *)
Definition mir (n j : Z) : Z := if j >? 0 then n - j else 0.

(** maxwell_constraints.c 67-124; the loop 2*j <= nz is j < nz/2 + 1. *)
Definition zparity_constraint (nx local_nx ny nz parity p : Z) (X : list C) : outcome (list C) :=
  let s := zsign parity in
  if s =? 0 then Val X
  else if nz >? 1 then
    let nxy := other_dims nx local_nx ny nz in
    let nzl := last_dim nx ny nz in
    forZ 0 nxy (fun i X => forZ 0 (Z.quot nzl 2 + 1) (fun j X =>
      forZ 0 p (fun b X => mirror_pair p (IZR s) (i * nzl + j) (i * nzl + mir nzl j) b X) X) X) X
  else
    let nxy := other_dims nx local_nx ny nz * last_dim nx ny nz in
    forZ 0 nxy (fun i X => forZ 0 p (fun b X =>
      if s =? 1 then wr X ((i * 2 + 1) * p + b) C0 else wr X ((i * 2) * p + b) C0) X) X.

(** maxwell_constraints.c 200-246. *)
Definition yparity_constraint (local_nx ny nz parity p : Z) (X : list C) : outcome (list C) :=
  let s := ysign parity in
  if s =? 0 then Val X
  else forZ 0 local_nx (fun i X => forZ 0 (Z.quot ny 2 + 1) (fun j X => forZ 0 nz (fun k X =>
      forZ 0 p (fun b X => mirror_pair p (IZR (- s)) ((i * ny + j) * nz + k) ((i * ny + mir ny j) * nz + k) b X) X) X) X) X.

(** maxwell_constraints.c 31-42. *)
Definition parity_constraint (nx local_nx ny nz parity p : Z) (X : list C) : outcome (list C) :=
  let! X := (if has parity (Z.lor EVEN_Z ODD_Z) then zparity_constraint nx local_nx ny nz parity p X else Val X) in
  if has parity (Z.lor EVEN_Y ODD_Y) then yparity_constraint local_nx ny nz parity p X else Val X.

(** maxwell_constraints.c 161-177, 281-297: contributions of one pair to the flip
    expectation and to the norm; [s] is the sign of the first component's term. *)
Definition pair_terms (p : Z) (s : R) (ij ij2 b : Z) (X : list C) (acc : R * R) : outcome (R * R) :=
  let! u := rd X ((ij * 2) * p + b) in
  let! v := rd X ((ij * 2 + 1) * p + b) in
  let! u2 := rd X ((ij2 * 2) * p + b) in
  let! v2 := rd X ((ij2 * 2 + 1) * p + b) in
  let w := (if ij =? ij2 then 1 else 2)%R in
  let rdot (a c : C) := (re a * re c + im a * im c)%R in
  Val (fst acc + w * (s * (rdot u u2 - rdot v v2)), snd acc + w * (rdot u u + rdot v v))%R.

(** maxwell_constraints.c 132-178: local sums for band b (the code fills an array over
    bands; the bands do not interact). *)
Definition zparity_sums (nx local_nx ny nz p b : Z) (X : list C) : outcome (R * R) :=
  let nxy := if nz >? 1 then other_dims nx local_nx ny nz else other_dims nx local_nx ny nz * last_dim nx ny nz in
  let nzl := if nz >? 1 then last_dim nx ny nz else 1 in
  forZ 0 nxy (fun i acc => forZ 0 (Z.quot nzl 2 + 1) (fun j acc =>
    pair_terms p 1 (i * nzl + j) (i * nzl + mir nzl j) b X acc) acc) (0, 0)%R.
(** maxwell_constraints.c 254-300. *)
Definition yparity_sums (local_nx ny nz p b : Z) (X : list C) : outcome (R * R) :=
  forZ 0 local_nx (fun i acc => forZ 0 (Z.quot ny 2 + 1) (fun j acc => forZ 0 nz (fun k acc =>
    pair_terms p (-1) ((i * ny + j) * nz + k) ((i * ny + mir ny j) * nz + k) b X acc) acc) acc) (0, 0)%R.
(** maxwell_constraints.c 180-185, 302-307: sums over processes, then the quotient. *)
Definition parity_value (sums : list (R * R)) : outcome R :=
  fdiv (fold_right (fun s acc => fst s + acc)%R 0%R sums) (fold_right (fun s acc => snd s + acc)%R 0%R sums).
