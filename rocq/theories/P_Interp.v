(** Properties C23 and C24: interpolation of file data and of fields. *)
From Coq Require Import List ZArith Reals Lra Lia Bool.
From Verif Require Import Base RC M_Tensor M_Evect M_Grid M_Interp S_Interp L_Interp L_Interp2 L_Interp3.
Import ListNotations.
Local Open Scope R_scope.

(* ------------------------------------------------------------------ *)
(** * C23 *)

(** At every point of the unit cube the value is the sum of the grid values with tent weights,
    which are non-negative and add up to 1 in each direction; no read is out of range. *)
Theorem C23_interpolates : forall nx ny nz stride d x y z, grid_data nx ny nz stride d -> unit_pt (x, y, z) ->
  linear_interpolate x y z d nx ny nz stride = Val (tents nx ny nz (x, y, z) (at3 ny nz stride d)) /\
  convex nx (fun i => tent nx i (x * IZR nx)) /\ convex ny (fun i => tent ny i (y * IZR ny)) /\ convex nz (fun i => tent nz i (z * IZR nz)).
Proof.
  intros nx ny nz stride d x y z G U. split; [exact (linear_interpolate_ok nx ny nz stride d x y z G U)|].
  destruct G as (A & B & C & _), U as (X & Y & Z). auto using tent_convex.
Qed.
Print Assumptions C23_interpolates.

(** So it lies between the bounds of the data. *)
Theorem C23_between : forall nx ny nz stride d x y z lo hi, grid_data nx ny nz stride d -> unit_pt (x, y, z) ->
  (forall i j k, (0 <= i < nx)%Z -> (0 <= j < ny)%Z -> (0 <= k < nz)%Z -> lo <= at3 ny nz stride d i j k <= hi) ->
  exists v, linear_interpolate x y z d nx ny nz stride = Val v /\ lo <= v <= hi.
Proof.
  intros nx ny nz stride d x y z lo hi G U H. eexists. split; [exact (linear_interpolate_ok nx ny nz stride d x y z G U)|].
  destruct G as (A & B & C & _), U as (X & Y & Z). apply weighted_bounds; auto using tent_convex.
Qed.
Print Assumptions C23_between.

(** At a pixel centre it is the pixel's value. *)
Theorem C23_centre : forall nx ny nz stride d i j k, grid_data nx ny nz stride d -> (0 <= i < nx)%Z -> (0 <= j < ny)%Z -> (0 <= k < nz)%Z ->
  linear_interpolate ((IZR i + / 2) / IZR nx) ((IZR j + / 2) / IZR ny) ((IZR k + / 2) / IZR nz) d nx ny nz stride = Val (at3 ny nz stride d i j k).
Proof. exact interp_centre. Qed.
Print Assumptions C23_centre.

(** It is continuous, with an explicit Lipschitz bound. *)
Theorem C23_continuous : forall nx ny nz stride d x y z x' y' z', grid_data nx ny nz stride d -> unit_pt (x, y, z) -> unit_pt (x', y', z') ->
  exists v v', linear_interpolate x y z d nx ny nz stride = Val v /\ linear_interpolate x' y' z' d nx ny nz stride = Val v' /\
  Rabs (v - v') <= (IZR nx * Rabs (x - x') + IZR ny * Rabs (y - y') + IZR nz * Rabs (z - z')) * gsum nx ny nz (fun i j k => Rabs (at3 ny nz stride d i j k)).
Proof.
  intros nx ny nz stride d x y z x' y' z' G U U'. do 2 eexists. split; [exact (linear_interpolate_ok nx ny nz stride d x y z G U)|].
  split; [exact (linear_interpolate_ok nx ny nz stride d x' y' z' G U')|]. destruct G as (A & B & C & _). apply tents_lip; assumption.
Qed.
Print Assumptions C23_continuous.

(** Below 0 (down to -1) points are mirrored, as documented. *)
Theorem C23_mirror_below : forall nx ny nz stride d x y z, -1 <= x <= 0 ->
  linear_interpolate x y z d nx ny nz stride = linear_interpolate (- x) y z d nx ny nz stride.
Proof. intros nx ny nz stride d x y z H. unfold linear_interpolate. rewrite (nearest_mirror nx x H). reflexivity. Qed.
Print Assumptions C23_mirror_below.

(** Above 1 they are not: the value differs from that at the mirror image 2 - x, ... *)
Theorem C23_mirror_above_refuted : exists nx ny nz d x v v', grid_data nx ny nz 1 d /\ 1 < x < 2 /\
  linear_interpolate x (/ 2) (/ 2) d nx ny nz 1 = Val v /\ linear_interpolate (2 - x) (/ 2) (/ 2) d nx ny nz 1 = Val v' /\ v <> v'.
Proof.
  exists 2%Z, 1%Z, 1%Z, [0; 1], (5 / 4), 0, 1. split; [unfold grid_data; cbn; lia|]. split; [lra|].
  split; [apply mirror_above|]. split; [apply mirror_above|lra].
Qed.
Print Assumptions C23_mirror_above_refuted.

(** ... and memory before the array may be read. *)
Theorem C23_overrun_refuted : exists nx ny nz d x, grid_data nx ny nz 1 d /\ 1 < x < 2 /\ linear_interpolate x (/ 2) (/ 2) d nx ny nz 1 = UB.
Proof. exists 4%Z, 1%Z, 1%Z, [0; 1; 2; 3], (3 / 2). split; [unfold grid_data; cbn; lia|]. split; [lra|apply overrun_above]. Qed.
Print Assumptions C23_overrun_refuted.

(** The file's dielectric function: at every point of space, the interpolation at the point's
    fractional position; its inverse beside it. *)
Theorem C23_file : forall d nx ny nz x y z lo, grid_data nx ny nz 1 d -> 0 < lo ->
  (forall i j k, (0 <= i < nx)%Z -> (0 <= j < ny)%Z -> (0 <= k < nz)%Z -> lo <= at3 ny nz 1 d i j k) ->
  exists rx ry rz, frac_of x rx /\ frac_of y ry /\ frac_of z rz /\
  let v := tents nx ny nz (rx, ry, rz) (at3 ny nz 1 d) in lo <= v /\ epsilon_file_func d nx ny nz (x, y, z) = Val (v, 1 / v).
Proof.
  intros d nx ny nz x y z lo G L P. exists (wrap x), (wrap y), (wrap z).
  pose proof (wrap_ok x) as Wx. pose proof (wrap_ok y) as Wy. pose proof (wrap_ok z) as Wz.
  split; [exact Wx|]. split; [exact Wy|]. split; [exact Wz|]. cbv zeta.
  assert (U : unit_pt (wrap x, wrap y, wrap z)) by (destruct Wx as [? _], Wy as [? _], Wz as [? _]; cbn; lra).
  assert (V : lo <= tents nx ny nz (wrap x, wrap y, wrap z) (at3 ny nz 1 d)).
  { pose proof G as (A & B & C & _). destruct U as (X & Y & Z). apply weighted_lower; auto using tent_convex. }
  split; [exact V|]. unfold epsilon_file_func. rewrite (linear_interpolate_ok nx ny nz 1 d _ _ _ G U). cbn [bind]. rewrite fdiv_nz by lra. reflexivity.
Qed.
Print Assumptions C23_file.

(** It has the periodicity of the lattice. *)
Theorem C23_file_periodic : forall d nx ny nz x y z a b c,
  epsilon_file_func d nx ny nz (x + IZR a, y + IZR b, z + IZR c) = epsilon_file_func d nx ny nz (x, y, z).
Proof. intros. unfold epsilon_file_func. rewrite !wrap_shift. reflexivity. Qed.
Print Assumptions C23_file_periodic.

(** But it is not continuous: across the boundary of the cell it jumps from the last pixel's
    value to the first one's. *)
Theorem C23_file_continuity_refuted : exists d nx ny nz, grid_data nx ny nz 1 d /\
  forall del, 0 < del -> exists r v v', - del < r < 0 /\
  epsilon_file_func d nx ny nz (r, / 2, / 2) = Val v /\ epsilon_file_func d nx ny nz (0, / 2, / 2) = Val v' /\ Rabs (fst v - fst v') >= 2.
Proof.
  exists [1; 3], 2%Z, 1%Z, 1%Z. split; [unfold grid_data; cbn; lia|]. intros del H. destruct (seam del H) as (r & B & E & E').
  exists r, (3, 1 / 3), (1, 1 / 1). repeat split; try apply B; try assumption. cbn. rewrite Rabs_right; lra.
Qed.
Print Assumptions C23_file_continuity_refuted.

Example C23_example : linear_interpolate (5 / 8) (/ 2) (/ 2) [1; 3] 2 1 1 1 = Val (5 / 2).
Proof.
  assert (G : grid_data 2 1 1 1 [1; 3]) by (unfold grid_data; cbn; lia).
  rewrite (linear_interpolate_ok 2 1 1 1 _ _ _ _ G) by (cbn; lra). f_equal. unfold tents, weighted, gsum, tent, clamp, at3, getr.
  cbn. change (Pos.to_nat 1) with 1%nat. change (Pos.to_nat 2) with 2%nat. cbn. change (Pos.to_nat 1) with 1%nat. cbn.
  rewrite (Rmax_left (5 / 8 * 2)), (Rmin_left (5 / 8 * 2)) by lra. rewrite (Rmax_left (/ 2 * 1)), (Rmin_left (/ 2 * 1)) by lra.
  rewrite (Rabs_right (5 / 8 * 2 - 0 - / 2)), (Rabs_left (5 / 8 * 2 - 1 - / 2)) by lra.
  replace (/ 2 * 1 - 0 - / 2) with 0 by lra. rewrite Rabs_R0, Rminus_0_r. rewrite !Rmax_right by lra. lra.
Qed.

(* ------------------------------------------------------------------ *)
(** * C24 *)

(** Complex fields, one process: at every point of space the value is the sum of the stored
    grid values with periodic tent weights at the point's fractional position. *)
Theorem C24_complex : forall nx ny nz l stride d conj size p, grid_data nx ny nz stride d -> has_size size ->
  exists r, cell_pt size p r /\ interp_val (get_val false nx ny nz l d stride conj) nx ny nz size p = Val (ptents nx ny nz r (at3 ny nz stride d)).
Proof.
  intros nx ny nz l stride d conj size p G Hs. pose proof G as (A & B & C & _). apply interp_val_ok; try assumption.
  intros x y z Hx Hy Hz. cbn [get_val]. apply (rd_at3 nx); assumption.
Qed.
Print Assumptions C24_complex.

(** Inversion-symmetric fields, of which half is stored: the value is that of the whole field,
    whether the component is even or odd under inversion. *)
Theorem C24_real : forall odd nx ny nz stride d F size p, (0 < nx)%Z -> (0 < ny)%Z -> (0 < nz)%Z ->
  half_stored nx ny nz stride d F -> inv_field odd nx ny nz F -> has_size size ->
  exists r, cell_pt size p r /\ interp_val (get_val true nx ny nz (last_size nx ny nz) d stride odd) nx ny nz size p = Val (ptents nx ny nz r F).
Proof.
  intros odd nx ny nz stride d F size p A B C HS HI Hs. apply interp_val_ok; try assumption.
  intros x y z Hx Hy Hz. apply get_val_half; assumption.
Qed.
Print Assumptions C24_real.

(** Fields distributed over processes in any number of slabs (empty ones included). *)
Theorem C24_mpi : forall nx ny nz stride F procs size p, (0 < nx)%Z -> (0 < ny)%Z -> (0 < nz)%Z -> has_size size ->
  y_slabs nx nz stride 0 F procs ny ->
  exists r, cell_pt size p r /\ interp_val_mpi procs nx ny nz stride size p = Val (ptents nx ny nz r F).
Proof. exact interp_val_mpi_ok. Qed.
Print Assumptions C24_mpi.

(** The weights are non-negative and add up to 1, so the value lies between bounds of the field. *)
Theorem C24_between : forall nx ny nz size p r F lo hi, (0 < nx)%Z -> (0 < ny)%Z -> (0 < nz)%Z -> cell_pt size p r ->
  (forall i j k, (0 <= i < nx)%Z -> (0 <= j < ny)%Z -> (0 <= k < nz)%Z -> lo <= F i j k <= hi) ->
  lo <= ptents nx ny nz r F <= hi.
Proof.
  intros nx ny nz [[sx sy] sz] [[px py] pz] [[rx ry] rz] F lo hi A B C ([X _] & [Y _] & [Z _]) H.
  apply weighted_bounds; auto using ptent_convex.
Qed.
Print Assumptions C24_between.

(** At a grid point it is the field's value there. *)
Theorem C24_grid_point : forall nx ny nz sx sy sz F i j k r, (0 <= i < nx)%Z -> (0 <= j < ny)%Z -> (0 <= k < nz)%Z -> has_size (sx, sy, sz) ->
  cell_pt (sx, sy, sz) ((IZR i / IZR nx - / 2) * sx, (IZR j / IZR ny - / 2) * sy, (IZR k / IZR nz - / 2) * sz) r ->
  ptents nx ny nz r F = F i j k.
Proof.
  intros nx ny nz sx sy sz F i j k [[rx ry] rz] Hi Hj Hk (Sx & Sy & Sz) C.
  assert (Q : forall n i s r, (0 <= i < n)%Z -> s <> 0 -> frac_of ((IZR i / IZR n - / 2) * s / s + / 2) r -> r = IZR i / IZR n).
  { clear. intros n i s r Hi Hs Fr. apply (frac_unique _ _ _ Fr). split; [apply point_frac; exact Hi|]. exists 0%Z. field. split; [|exact Hs]. apply not_0_IZR. lia. }
  destruct C as (Cx & Cy & Cz). rewrite (Q _ _ _ _ Hi Sx Cx), (Q _ _ _ _ Hj Sy Cy), (Q _ _ _ _ Hk Sz Cz).
  unfold ptents. apply weighted_at; auto using ptent_point.
Qed.
Print Assumptions C24_grid_point.

(** Moving the point by any lattice vector changes nothing, ... *)
Theorem C24_periodic : forall D nx ny nz size p a b c, has_size size -> interp_val D nx ny nz size (move p size a b c) = interp_val D nx ny nz size p.
Proof. exact interp_val_move. Qed.
Print Assumptions C24_periodic.

(** ... except for the Bloch phase of the full field. *)
Theorem C24_bloch : forall rf nx ny nz l d k size p a b c, has_size size ->
  let '(kx, ky, kz) := k in let phi := 2 * PI * (kx * IZR a + ky * IZR b + kz * IZR c) in
  get_field_point false rf nx ny nz l d k size (move p size a b c) =
  let! f := get_field_point false rf nx ny nz l d k size p in
  let '(u, v, w) := f in Val (Cmul u (cos phi, sin phi), Cmul v (cos phi, sin phi), Cmul w (cos phi, sin phi)).
Proof. exact field_point_move. Qed.
Print Assumptions C24_bloch.

(** Two processes, 2 x 2 grid. *)
Example C24_example : exists r, cell_pt (1, 1, 1) (0, 0, -1 / 2) r /\
  interp_val_mpi [(0%Z, 1%Z, [1; 3]); (1%Z, 1%Z, [2; 4])] 2 2 1 1 (1, 1, 1) (0, 0, -1 / 2) = Val (ptents 2 2 1 r (fun x y _ => 1 + 2 * IZR x + IZR y)).
Proof.
  apply C24_mpi; try lia; [cbn; lra|]. cbn [y_slabs].
  assert (Q : forall x, (0 <= x < 2)%Z -> x = 0%Z \/ x = 1%Z) by lia.
  repeat split; try lia; try (right; unfold grid_data; cbn; lia).
  - intros x y z Hx Hy Hz. assert (y = 0%Z) by lia. assert (z = 0%Z) by lia. subst. destruct (Q x Hx) as [-> | ->]; unfold at3, getr; cbn; try (change (Pos.to_nat 1) with 1%nat; cbn); lra.
  - intros x y z Hx Hy Hz. assert (y = 0%Z) by lia. assert (z = 0%Z) by lia. subst. destruct (Q x Hx) as [-> | ->]; unfold at3, getr; cbn; try (change (Pos.to_nat 1) with 1%nat; cbn); lra.
Qed.
(** A half-stored even field on 4 points. *)
Example C24_half_example : half_stored 4 1 1 1 [5; 6; 7] (fun x _ _ => if (x =? 0)%Z then 5 else if (x =? 2)%Z then 7 else 6) /\
  inv_field false 4 1 1 (fun x _ _ => if (x =? 0)%Z then 5 else if (x =? 2)%Z then 7 else 6).
Proof.
  assert (Q : forall x, (0 <= x < 4)%Z -> x = 0%Z \/ x = 1%Z \/ x = 2%Z \/ x = 3%Z) by lia. split.
  - unfold half_stored, half_sizes. cbn. split; [unfold grid_data; cbn; lia|]. intros x y z Hx Hy Hz.
    assert (y = 0%Z) by lia. assert (z = 0%Z) by lia. subst. change (4 / 2 + 1)%Z with 3%Z in Hx.
    assert (x = 0%Z \/ x = 1%Z \/ x = 2%Z) as [-> | [-> | ->]] by lia; unfold at3, getr; reflexivity.
  - intros x y z Hx _ _. destruct (Q x Hx) as [-> | [-> | [-> | ->]]]; reflexivity.
Qed.
