(** Model of material grids: values, parameters, gradients, noise (material_grid.c, epsilon.c). *)
From Coq Require Import List ZArith Reals Bool.
From Verif Require Import Base RC M_Tensor M_Evect M_Grid M_Interp.
Import ListNotations.
Local Open Scope Z_scope.

(** A grid: sizes and array of values. *)
Record mgrid := { gx : Z; gy : Z; gz : Z; gdata : list R }.
(** 75-83; the sizes, stored as doubles, are integers, and access to the Scheme array is not modelled. *)
Definition material_grid_val (p : vec) (g : mgrid) : outcome R :=
  let '(x, y, z) := p in linear_interpolate x y z (gdata g) (gx g) (gy g) (gz g) 1.

(** Combination rules (mpb.scm.in 61-63). *)
Inductive kind := U_MIN | U_PROD | U_SUM.

(** 98-130 matgrid_val.  [over] lists the overlapping compatible grids in the order the
    geometry tree gives them, each with the point in the coordinates of its object (tree
    search and coordinates come from libctl, not modelled); [dflt] is the default
    material's grid if the search ends there, with the point divided by the lattice size. *)
Definition matgrid_val (k : kind) (over : list (vec * mgrid)) (dflt : option (vec * mgrid)) : outcome R :=
  let step acc t :=
    let! u := material_grid_val (fst t) (snd t) in
    let '(uprod, umin, usum, count) := acc in
    Val ((uprod * u)%R, (if Rltb u umin then u else umin), (usum + u)%R, count + 1) in
  let! acc := fold_left (fun a t => let! acc := a in step acc t) over (Val (1%R, 1%R, 0%R, 0)) in
  let! acc := match dflt with Some t => step acc t | None => Val acc end in
  let '(uprod, umin, usum, count) := acc in
  match k with U_MIN => Val umin | U_PROD => Val uprod | U_SUM => fdiv usum (IZR count) end.
(** 118-120: the point handed to the default material's grid (one coordinate; [no_size]: the cell has no extent). *)
Definition default_coord (no_size : bool) (p size : R) : outcome R := if no_size then Val 0%R else fdiv p size.
(** epsilon.c 168-173: the dielectric constant. *)
Definition matgrid_epsilon (val eps_min eps_max : R) : R := (val * (eps_max - eps_min) + eps_min)%R.

(** 174-180 material_grids_ntot, 184-197 set, 199-212 get; int overflow is not modelled. *)
Definition gsize (g : mgrid) : Z := gx g * gy g * gz g.
Definition grids_ntot (gs : list mgrid) : Z := fold_left (fun s g => s + gsize g) gs 0.
Definition grids_set (u : list R) (gs : list mgrid) : outcome (list mgrid) :=
  let! r := fold_left (fun acc g =>
    let! acc := acc in let '(out, j) := acc in
    let! a := forZ 0 (gsize g) (fun k a => let! v := rd u (j + k) in wr a k v) (gdata g) in
    Val (out ++ [ {| gx := gx g; gy := gy g; gz := gz g; gdata := a |} ], j + gsize g)) gs (Val ([], 0)) in
  Val (fst r).
Definition grids_get (u : list R) (gs : list mgrid) : outcome (list R) :=
  let! r := fold_left (fun acc g =>
    let! acc := acc in let '(u, j) := acc in
    let! u := forZ 0 (gsize g) (fun k u => let! v := rd (gdata g) k in wr u (j + k) v) u in
    Val (u, j + gsize g)) gs (Val (u, 0)) in
  Val (fst r).

(** 250-311 add_interpolate_weights; [data] is the whole gradient and [off] the position of
    this grid's part in it (the pointer vcur of 342-351), [udata] the grid's values. *)
Definition add_at (data : list R) (i : Z) (v : R) : outcome (list R) := let! a := rd data i in wr data i (a + v)%R.
(** 301-308. *)
Definition add_weights (off : Z) (data : list R) (ny nz stride : Z) (px py pz : Z * Z * R) (s : R) : outcome (list R) :=
  let '(x, x2, dx) := px in let '(y, y2, dy) := py in let '(z, z2, dz) := pz in
  let D data x y z v := add_at data (off + ((x * ny + y) * nz + z) * stride) v in
  let! data := D data x y z ((1 - dx) * (1 - dy) * (1 - dz) * s)%R in
  let! data := D data x2 y z (dx * (1 - dy) * (1 - dz) * s)%R in
  let! data := D data x y2 z ((1 - dx) * dy * (1 - dz) * s)%R in
  let! data := D data x2 y2 z (dx * dy * (1 - dz) * s)%R in
  let! data := D data x y z2 ((1 - dx) * (1 - dy) * dz * s)%R in
  let! data := D data x2 y z2 (dx * (1 - dy) * dz * s)%R in
  let! data := D data x y2 z2 ((1 - dx) * dy * dz * s)%R in
  D data x2 y2 z2 (dx * dy * dz * s)%R.
Definition add_interpolate_weights (rx ry rz : R) (off : Z) (data : list R) (nx ny nz stride : Z) (scaleby : R) (udata : list R) (k : kind) (uval : R) : outcome (list R) :=
  let px := nearest nx rx in let py := nearest ny ry in let pz := nearest nz rz in
  let! u := trilinear (fun x y z => rd udata (((x * ny + y) * nz + z) * stride)) px py pz in
  match k with
  | U_MIN => if Reqb u uval then add_weights off data ny nz stride px py pz scaleby else Val data
  | U_PROD => let! q := fdiv uval u in add_weights off data ny nz stride px py pz (scaleby * q)%R
  | U_SUM => add_weights off data ny nz stride px py pz scaleby
  end.

(** 313-384 material_grids_addgradient_point.  [over], [dflt] as in [matgrid_val], each with
    the position of its grid in the list [gs] (found by comparison in the code; a grid not in
    the list is the CHECK of 352 and 374). *)
Definition grid_at (gs : list mgrid) (e : vec * nat) : outcome (vec * mgrid) :=
  match nth_error gs (snd e) with Some g => Val (fst e, g) | None => Abort end.
Definition grid_offset (gs : list mgrid) (i : nat) : Z := grids_ntot (firstn i gs).
Definition add_entry (gs : list mgrid) (k : kind) (scale uval : R) (v : list R) (e : vec * nat) : outcome (list R) :=
  let! t := grid_at gs e in
  let '((x, y, z), g) := t in
  add_interpolate_weights x y z (grid_offset gs (snd e)) v (gx g) (gy g) (gz g) 1 scale (gdata g) k uval.
Definition addgradient_point (k : kind) (eps_min eps_max : R) (gs : list mgrid) (over : list (vec * nat)) (dflt : option (vec * nat)) (scalegrad : R) (v : list R) : outcome (list R) :=
  match over, dflt with
  | [], None => Val v
  | _, _ =>
    let! o := mapM (grid_at gs) over in
    let! dd := match dflt with Some e => let! t := grid_at gs e in Val (Some t) | None => Val None end in
    let! uval := matgrid_val k o dd in
    let scale := (scalegrad * (eps_max - eps_min))%R in
    let count := Z.of_nat (length over) + (match dflt with Some _ => 1 | None => 0 end) in
    let! scale := match k with U_SUM => fdiv scale (IZR count) | _ => Val scale end in
    let! v := fold_left (fun a e => let! v := a in add_entry gs k scale uval v e) over (Val v) in
    match dflt with Some e => add_entry gs k scale uval v e | None => Val v end
  end.

(** 697-714 randomize_material_gridB: one value; [fuel] bounds the loop, None if it does not
    end within it. *)
Fixpoint rand_loop (fuel : nat) (u : R) : option R :=
  if Rltb u 0 || Rltb 1 u then
    match fuel with
    | O => None
    | S f => let u := if Rltb 1 u then (1 - u)%R else u in
             let u := if Rltb u 0 then (- u)%R else u in rand_loop f u
    end
  else Some u.
