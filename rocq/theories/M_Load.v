(** Saving material grids to files and loading them (material_grid.c, matrixio.c). *)
From Coq Require Import List ZArith Reals Bool.
From Verif Require Import Base RC M_Tensor M_Evect M_Grid M_Interp M_Matgrid.
Import ListNotations.
Local Open Scope Z_scope.

(** A dataset of an HDF5 file: its dimensions and its numbers in row-major order. *)
Record h5 := { h_dims : list Z; h_data : list R }.

(** material_grid.c 718-740, on the master process: the dataset "data" that the file gets.  HDF5,
    and the writing of a whole array by matrixio_write_real_data (modelled in M_Out), are taken
    as one step; a failure to create the file is not modelled. *)
Definition save_grid (g : mgrid) : outcome h5 :=
  let rank := if gz g =? 1 then (if gy g =? 1 then 1 else 2) else 3 in
  let dims := firstn (Z.to_nat rank) [gx g; gy g; gz g] in
  let! data := mapM (fun i => rd (gdata g) i) (zrange (fold_left Z.mul dims 1)) in
  Val {| h_dims := dims; h_data := data |}.

(** matrixio.c 781-918, with data == NULL, *rank == 3 and the dataset's name given, and
    material_grid.c 746-753: the sizes (1 where the file has fewer dimensions) and the numbers; no
    dataset "data", or one of more than three dimensions: the program stops. *)
Definition read_dataset (f : option h5) : outcome (Z * Z * Z * list R) :=
  match f with
  | None => Abort
  | Some f =>
      let! _ := check (Z.of_nat (length (h_dims f)) <=? 3) in
      Val (nth 0 (h_dims f) 1, nth 1 (h_dims f) 1, nth 2 (h_dims f) 1, h_data f)
  end.

(** material_grid.c 744-781, on the master process. *)
Definition load_grid (g : mgrid) (f : option h5) (supercell : vec) : outcome mgrid :=
  let! r := read_dataset f in
  let '(n0, n1, n2, data) := r in
  let nx := gx g in let ny := gy g in let nz := gz g in
  let '(cx, cy, cz) := supercell in
  let sx := if Rltb 0 cx then cx else 1%R in
  let sy := if Rltb 0 cy then cy else 1%R in
  let sz := if Rltb 0 cz then cz else 1%R in
  let! grid := forZ 0 nx (fun ix grid => forZ 0 ny (fun iy grid => forZ 0 nz (fun iz grid =>
    let! ax := fdiv sx (IZR nx) in let! ay := fdiv sy (IZR ny) in let! az := fdiv sz (IZR nz) in
    let x := modf_frac ((IZR ix + / 2) * ax) in
    let y := modf_frac ((IZR iy + / 2) * ay) in
    let z := modf_frac ((IZR iz + / 2) * az) in
    let! val := linear_interpolate x y z data n0 n1 n2 1 in
    let val := if Rltb 1 val then 1%R else if Rltb val 0 then 0%R else val in
    wr grid ((ix * ny + iy) * nz + iz) val) grid) grid) (gdata g) in
  Val {| gx := nx; gy := ny; gz := nz; gdata := grid |}.

(** material_grid.c 688-695: MPI_Bcast gives every process of mpb_comm the first n numbers of
    process 0.  The list holds the processes' copies of the grid, process 0 first. *)
Definition bcast_grid (m : list R) (g : mgrid) : outcome mgrid :=
  let n := gx g * gy g * gz g in
  let! _ := (if (n <=? Z.of_nat (length m)) && (n <=? Z.of_nat (length (gdata g))) then Val tt else UB) in
  Val {| gx := gx g; gy := gy g; gz := gz g; gdata := firstn (Z.to_nat n) m ++ skipn (Z.to_nat n) (gdata g) |}.
Definition synchronize_material_grid (gs : list mgrid) : outcome (list mgrid) :=
  match gs with [] => Val [] | g :: t => let! t := mapM (bcast_grid (gdata g)) t in Val (g :: t) end.
(** material_grid.c 742-783 on all processes. *)
Definition load_material_grid (gs : list mgrid) (f : option h5) (supercell : vec) : outcome (list mgrid) :=
  match gs with [] => Val [] | g :: t => let! g := load_grid g f supercell in synchronize_material_grid (g :: t) end.
