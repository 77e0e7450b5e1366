(** Vocabulary for the interpolation properties. *)
From Coq Require Import List ZArith Reals.
From Verif Require Import Base RC M_Tensor.
Import ListNotations.
Local Open Scope R_scope.

(** Weight of pixel i of n (centre i + 1/2) at position t in [0,n]: a tent of unit half-width,
    constant beyond the first and last centre. *)
Definition clamp (n : Z) (t : R) : R := Rmin (Rmax t (/ 2)) (IZR n - / 2).
Definition tent (n i : Z) (t : R) : R := Rmax 0 (1 - Rabs (clamp n t - IZR i - / 2)).
(** Weight of grid point i of n at position t in [0,n], periodic (images i and i + n). *)
Definition ptent (n i : Z) (t : R) : R := Rmax 0 (1 - Rabs (t - IZR i)) + Rmax 0 (1 - Rabs (t - IZR i - IZR n)).

(** Value at index i of an array, 0 outside. *)
Definition getr (d : list R) (i : Z) : R := match rd d i with Val v => v | _ => 0 end.
(** Sum over a grid. *)
Definition gsum (nx ny nz : Z) (f : Z -> Z -> Z -> R) : R :=
  rsum (Z.to_nat nx) (fun i => rsum (Z.to_nat ny) (fun j => rsum (Z.to_nat nz) (fun k => f (Z.of_nat i) (Z.of_nat j) (Z.of_nat k)))).
(** The product weights applied to grid values. *)
Definition weighted (wx wy wz : Z -> R) (nx ny nz : Z) (F : Z -> Z -> Z -> R) : R :=
  gsum nx ny nz (fun i j k => wx i * wy j * wz k * F i j k).
(** Weights in [0,1] that add up to 1. *)
Definition convex (n : Z) (w : Z -> R) : Prop :=
  (forall i, (0 <= i < n)%Z -> 0 <= w i <= 1) /\ rsum (Z.to_nat n) (fun i => w (Z.of_nat i)) = 1.

(** Interpolation from pixel centres at a point of the unit cube, and periodic interpolation from grid points. *)
Definition tents (nx ny nz : Z) (r : vec) (F : Z -> Z -> Z -> R) : R :=
  let '(x, y, z) := r in
  weighted (fun i => tent nx i (x * IZR nx)) (fun i => tent ny i (y * IZR ny)) (fun i => tent nz i (z * IZR nz)) nx ny nz F.
Definition ptents (nx ny nz : Z) (r : vec) (F : Z -> Z -> Z -> R) : R :=
  let '(x, y, z) := r in
  weighted (fun i => ptent nx i (x * IZR nx)) (fun i => ptent ny i (y * IZR ny)) (fun i => ptent nz i (z * IZR nz)) nx ny nz F.

(** The array holds a grid of nx*ny*nz values. *)
Definition grid_data (nx ny nz stride : Z) (d : list R) : Prop :=
  (0 < nx /\ 0 < ny /\ 0 < nz /\ 0 < stride /\ (nx * ny * nz - 1) * stride < Z.of_nat (length d))%Z.
Definition at3 (ny nz stride : Z) (d : list R) (x y z : Z) : R := getr d (((x * ny + y) * nz + z) * stride).
Definition unit_pt (p : vec) : Prop := let '(x, y, z) := p in 0 <= x <= 1 /\ 0 <= y <= 1 /\ 0 <= z <= 1.

(** r differs from x by an integer and lies in [0,1). *)
Definition frac_of (x r : R) : Prop := 0 <= r < 1 /\ exists m : Z, x = r + IZR m.

(** Fractional parts of the three coordinates of a point in units of the cell, measured from the cell's corner. *)
Definition cell_pt (size p r : vec) : Prop :=
  let '(sx, sy, sz) := size in let '(px, py, pz) := p in let '(rx, ry, rz) := r in
  frac_of (px / sx + / 2) rx /\ frac_of (py / sy + / 2) ry /\ frac_of (pz / sz + / 2) rz.
Definition has_size (s : vec) : Prop := let '(sx, sy, sz) := s in sx <> 0 /\ sy <> 0 /\ sz <> 0.
Definition move (p size : vec) (a b c : Z) : vec :=
  let '(sx, sy, sz) := size in let '(px, py, pz) := p in (px + IZR a * sx, py + IZR b * sy, pz + IZR c * sz).

(** Index of the inverted grid point. *)
Definition inv_idx (n i : Z) : Z := if (i =? 0)%Z then 0%Z else (n - i)%Z.
(** The field takes equal (or, if [odd], opposite) values at inverted points. *)
Definition inv_field (odd : bool) (nx ny nz : Z) (F : Z -> Z -> Z -> R) : Prop :=
  forall i j k, (0 <= i < nx)%Z -> (0 <= j < ny)%Z -> (0 <= k < nz)%Z ->
  F (inv_idx nx i) (inv_idx ny j) (inv_idx nz k) = (if odd then - F i j k else F i j k).
(** The first half of the last non-trivial dimension is stored. *)
Definition half_sizes (nx ny nz : Z) : Z * Z * Z :=
  if (1 <? nz)%Z then (nx, ny, nz / 2 + 1)%Z else if (1 <? ny)%Z then (nx, ny / 2 + 1, nz)%Z else (nx / 2 + 1, ny, nz)%Z.
Definition last_size (nx ny nz : Z) : Z := (2 * ((if 1 <? nz then nz else if 1 <? ny then ny else nx) / 2 + 1))%Z.
Definition half_stored (nx ny nz stride : Z) (d : list R) (F : Z -> Z -> Z -> R) : Prop :=
  let '(hx, hy, hz) := half_sizes nx ny nz in
  grid_data hx hy hz stride d /\
  forall i j k, (0 <= i < hx)%Z -> (0 <= j < hy)%Z -> (0 <= k < hz)%Z -> at3 hy hz stride d i j k = F i j k.

(** Processes hold consecutive ranges of y of the whole grid, x and y exchanged. *)
Fixpoint y_slabs (nx nz stride y0 : Z) (F : Z -> Z -> Z -> R) (procs : list (Z * Z * list R)) (y1 : Z) : Prop :=
  match procs with
  | [] => y0 = y1
  | (ly0, lny, d) :: t =>
      ly0 = y0 /\ (0 <= lny)%Z /\
      (lny = 0%Z \/ grid_data lny nx nz stride d) /\
      (forall x y z, (0 <= x < nx)%Z -> (0 <= y < lny)%Z -> (0 <= z < nz)%Z -> at3 nx nz stride d y x z = F x (y0 + y)%Z z) /\
      y_slabs nx nz stride (y0 + lny)%Z F t y1
  end.
