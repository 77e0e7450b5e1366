(** Model of interpolation: epsilon_file.c, fields.c (point values), material_grid.c (values and weights). *)
From Coq Require Import List ZArith Reals Bool.
From Verif Require Import Base RC M_Tensor M_Evect M_Grid.
Import ListNotations.
Local Open Scope Z_scope.

(** C conversion of a double to int: truncation toward zero.  Overflow of int is not modelled. *)
Definition rtrunc (x : R) : Z := if Rleb 0 x then Int_part x else - Int_part (- x).

(* ------------------------------------------------------------------ *)
(** * epsilon_file.c *)

(** 58-60: one coordinate. *)
Definition mirror (r : R) : R := if Rltb r 0 then (- r)%R else if Rltb 1 r then (1 - r)%R else r.
(** 63-84, one coordinate: the two pixels and the weight of the second. *)
Definition nearest (n : Z) (r : R) : Z * Z * R :=
  let r := mirror r in
  let x := rtrunc (r * IZR n) in
  let x := if x =? n then x - 1 else x in
  let d := (r * IZR n - IZR x - / 2)%R in
  let x2 := if Rleb 0 d then x + 1 else x - 1 in
  let x2 := if x2 <? 0 then x2 + 1 else if x2 =? n then x2 - 1 else x2 in
  (x, x2, Rabs d).
(** 90-93, fields.c 633-636 and material_grid.c 293-296: the trilinear combination; [D] reads a grid value. *)
Definition trilinear (D : Z -> Z -> Z -> outcome R) (px py pz : Z * Z * R) : outcome R :=
  let '(x, x2, dx) := px in let '(y, y2, dy) := py in let '(z, z2, dz) := pz in
  let! a := D x y z in let! b := D x2 y z in let! c := D x y2 z in let! d := D x2 y2 z in
  let! e := D x y z2 in let! f := D x2 y z2 in let! g := D x y2 z2 in let! h := D x2 y2 z2 in
  Val (((a * (1 - dx) + b * dx) * (1 - dy) + (c * (1 - dx) + d * dx) * dy) * (1 - dz) +
       ((e * (1 - dx) + f * dx) * (1 - dy) + (g * (1 - dx) + h * dx) * dy) * dz)%R.
(** 51-96. *)
Definition linear_interpolate (rx ry rz : R) (data : list R) (nx ny nz stride : Z) : outcome R :=
  trilinear (fun x y z => rd data (((x * ny + y) * nz + z) * stride)) (nearest nx rx) (nearest ny ry) (nearest nz rz).

(** 106-113: one coordinate of the point, brought into [0,1). *)
Definition wrap (r : R) : R :=
  let r := if Rleb 0 r then r else (r + (1 + IZR (rtrunc (- r))))%R in
  if Rltb r 1 then r else (r - IZR (rtrunc r))%R.
(** 98-129: the diagonal entries of eps and eps_inv (the others are zero). *)
Definition epsilon_file_func (data : list R) (nx ny nz : Z) (r : vec) : outcome (R * R) :=
  let '(rx, ry, rz) := r in
  let! v := linear_interpolate (wrap rx) (wrap ry) (wrap rz) data nx ny nz 1 in
  let! i := fdiv 1 v in Val (v, i).

(* ------------------------------------------------------------------ *)
(** * fields.c: values at a point *)

(** 607-609: one coordinate, with the C function modf. *)
Definition modf_frac (x : R) : R := (x - IZR (rtrunc x))%R.
Definition cell_frac (p size : R) : outcome R :=
  let! q := fdiv p size in
  let r := modf_frac (q + / 2) in
  Val (if Rltb r 0 then (r + 1)%R else r).
(** 612-629, one coordinate; % is the C remainder. *)
Definition near_periodic (n : Z) (r : R) : Z * Z * R :=
  let x := rtrunc (r * IZR n) in
  let d := (r * IZR n - IZR x)%R in
  let x2 := Z.rem (n + (if Rleb 0 d then x + 1 else x - 1)) n in
  (x, x2, Rabs d).

(** 556-598 without MPI; [real_fields] selects the inversion-symmetric build. *)
Definition half_index (nx ny nz nlast ix iy iz : Z) : bool := (if nz >? 1 then iz else if ny >? 1 then iy else ix) >=? nlast.
Definition get_val (real_fields : bool) (nx ny nz last_dim_size : Z) (data : list R) (stride : Z) (conjugate : bool) (ix iy iz : Z) : outcome R :=
  if real_fields then
    let nlast := Z.quot last_dim_size 2 in
    let h := half_index nx ny nz nlast ix iy iz in
    let m n i := if h then (if i =? 0 then i else n - i) else i in
    let '(ix, iy, iz) := (m nx ix, m ny iy, m nz iz) in
    let conjugate := h && conjugate in
    let '(nx, ny, nz) := if nz >? 1 then (nx, ny, nlast) else if ny >? 1 then (nx, nlast, nz) else (nlast, ny, nz) in
    let! v := rd data (((ix * ny + iy) * nz + iz) * stride) in
    Val (if conjugate then (- v)%R else v)
  else rd data (((ix * ny + iy) * nz + iz) * stride).
(** 577-588: one process of several, complex fields; [ly0], [lny] are the first y and the number of y held. *)
Definition get_val_mpi (lny ly0 nx nz : Z) (data : list R) (stride ix iy iz : Z) : outcome R :=
  let ly := iy - ly0 in
  if (0 <=? ly) && (ly <? lny) then rd data (((ly * nx + ix) * nz + iz) * stride) else Val 0%R.

(** 600-642. *)
Definition interp_point (nx ny nz : Z) (size p : vec) : outcome ((Z * Z * R) * (Z * Z * R) * (Z * Z * R)) :=
  let '(px, py, pz) := p in let '(sx, sy, sz) := size in
  let! rx := cell_frac px sx in let! ry := cell_frac py sy in let! rz := cell_frac pz sz in
  Val (near_periodic nx rx, near_periodic ny ry, near_periodic nz rz).
Definition interp_val (D : Z -> Z -> Z -> outcome R) (nx ny nz : Z) (size p : vec) : outcome R :=
  let! t := interp_point nx ny nz size p in
  let '(tx, ty, tz) := t in trilinear D tx ty tz.
(** 633-639 with several processes: each forms the combination of its own values, the sum is returned.
    A process is (first y, number of y, data). *)
Definition interp_val_mpi (procs : list (Z * Z * list R)) (nx ny nz stride : Z) (size p : vec) : outcome R :=
  let! vs := mapM (fun t => let '(ly0, lny, data) := t in interp_val (get_val_mpi lny ly0 nx nz data stride) nx ny nz size p) procs in
  Val (fold_right Rplus 0%R vs).

(** 644-652 interp_cval: one complex component, the real part at position [off] of each
    grid point's entry and the imaginary part after it. *)
Definition interp_cval (real_fields : bool) (nx ny nz last_dim_size : Z) (data : list R) (stride : Z) (off : nat) (size p : vec) : outcome C :=
  let! a := interp_val (get_val real_fields nx ny nz last_dim_size (skipn off data) stride false) nx ny nz size p in
  let! b := interp_val (get_val real_fields nx ny nz last_dim_size (skipn (off + 1) data) stride true) nx ny nz size p in
  Val (a, b).
(** 709-716 get_bloch_field_point_ (the check of the current field's type is not modelled here). *)
Definition get_bloch_field_point (real_fields : bool) (nx ny nz last_dim_size : Z) (data : list R) (size p : vec) : outcome (C * C * C) :=
  let! f0 := interp_cval real_fields nx ny nz last_dim_size data 6 0 size p in
  let! f1 := interp_cval real_fields nx ny nz last_dim_size data 6 2 size p in
  let! f2 := interp_cval real_fields nx ny nz last_dim_size data 6 4 size p in
  Val (f0, f1, f2).
(** 728-748 get_field_point; [vel] is the test of line 735 for a field without phase. *)
Definition bloch_phase (k size p : vec) : outcome C :=
  let '(kx, ky, kz) := k in let '(sx, sy, sz) := size in let '(px, py, pz) := p in
  let! qx := fdiv px sx in let! qy := fdiv py sy in let! qz := fdiv pz sz in
  let phi := (2 * PI * (kx * qx + ky * qy + kz * qz))%R in
  Val (cos phi, sin phi).
Definition get_field_point (vel real_fields : bool) (nx ny nz last_dim_size : Z) (data : list R) (k size p : vec) : outcome (C * C * C) :=
  let! f := get_bloch_field_point real_fields nx ny nz last_dim_size data size p in
  if vel then Val f else
  let! ph := bloch_phase k size p in
  let '(a, b, c) := f in Val (Cmul a ph, Cmul b ph, Cmul c ph).
