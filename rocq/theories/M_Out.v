(** Model of writing fields and eigenvectors to files: matrixio.c, fieldio.c, evectmatrixio.c,
    the "other half" functions of src/maxwell/maxwell_op.c and the layout computed by
    output_field_to_file (mpb/fields.c). *)
From Coq Require Import List ZArith Reals Bool.
From Verif Require Import Base RC M_Tensor M_Evect M_Grid.
Import ListNotations.
Local Open Scope Z_scope.

(* ------------------------------------------------------------------ *)
(** * matrixio.c *)

Definition lprod (l : list Z) : Z := fold_right Z.mul 1 l.

(** The positions H5Sselect_hyperslab selects, in the order H5Dwrite and H5Dread use. *)
Fixpoint hyperslab (start count : list Z) : list (list Z) :=
  match start, count with
  | s :: start, c :: count => flat_map (fun i => map (cons (s + i)) (hyperslab start count)) (zrange c)
  | _, _ => [[]]
  end.
(** Whether a selection lies in a dataset. *)
Fixpoint in_extent (dims start count : list Z) : bool :=
  match dims, start, count with
  | d :: dims, s :: start, c :: count => (0 <=? s) && (0 <=? c) && (s + c <=? d) && in_extent dims start count
  | _, _, _ => true
  end.

(** matrixio.c 661-686: contiguous copy of N numbers, [data i] reading data[i].  A negative
    size is a huge unsigned one, for which CHK_MALLOC ends the program. *)
Definition gather {A} (data : Z -> outcome A) (stride N : Z) : outcome (list A) :=
  let! _ := check (0 <=? N) in
  let copy := repeat None (Z.to_nat N) in
  let r := Z.land N 3 in
  let! copy := forZ 0 r (fun i copy => let! d := data (i * stride) in wr copy i (Some d)) copy in
  let turns := (N - r + 3) / 4 in
  let! copy := forZ 0 turns (fun t copy =>
    let i := r + 4 * t in
    let! d0 := data (i * stride) in let! d1 := data ((i + 1) * stride) in
    let! d2 := data ((i + 2) * stride) in let! d3 := data ((i + 3) * stride) in
    let! copy := wr copy i (Some d0) in let! copy := wr copy (i + 1) (Some d1) in
    let! copy := wr copy (i + 2) (Some d2) in wr copy (i + 3) (Some d3)) copy in
  let! _ := check (r + 4 * turns =? N) in
  mapM (fun o => match o with Some v => Val v | None => UB end) copy.

(** matrixio.c 620-743: the numbers written and where.  H5Dwrite's result is not looked at, so a
    selection outside the dataset writes nothing. *)
Definition write_real_data {A} (dims local_dims local_start : list Z) (stride : Z) (data : Z -> outcome A) : outcome (list (list Z * A)) :=
  let rank := length dims in
  let count := firstn rank local_dims in let start := firstn rank local_start in
  let N := lprod count in
  if stride >? 1 then
    let! copy := gather data stride N in
    Val (if in_extent dims start count then combine (hyperslab start count) copy else [])
  else if in_extent dims start count then
    let! copy := mapM data (zrange N) in Val (combine (hyperslab start count) copy)
  else Val [].

(** A dataset and writing to it. *)
Definition dataset (A : Type) := list Z -> option A.
Definition put {A} (f : dataset A) (w : list (list Z * A)) : dataset A :=
  fold_left (fun f cv c => if list_eq_dec Z.eq_dec c (fst cv) then Some (snd cv) else f c) w f.

(** matrixio.c 781-918 with data and name given, for a dataset of the right rank and sizes (818-821,
    835-839): what is put at which entry of data.  None: nothing was ever written there. *)
Definition read_real_data {A} (dims : list Z) (local_dim0 local_dim0_start stride : Z) (f : dataset A) : list (Z * option A) :=
  match dims with
  | [] => []
  | _ :: t => combine (map (fun i => i * stride) (zrange (local_dim0 * lprod t))) (map f (hyperslab (local_dim0_start :: map (fun _ => 0) t) (local_dim0 :: t)))
  end.

(** evectmatrixio.c 29-50, 52-69, each process having localN rows from Nstart; [numvals] is
    SCALAR_NUMVALS. *)
Definition evect_writeall {A} (N c p numvals localN Nstart : Z) (data : list A) : outcome (list (list Z * A)) :=
  write_real_data [N; c; p; numvals] [localN; c; p; numvals] [Nstart; 0; 0; 0] 1 (rd data).
Definition evect_readall {A} (N c p numvals localN Nstart : Z) (f : dataset A) : list (Z * option A) :=
  read_real_data [N; c; p; numvals] localN Nstart 1 f.

(* ------------------------------------------------------------------ *)
(** * fieldio.c *)

(** One of the three sizes of an array. *)
Definition get3 (l : list Z) (i : Z) : Z := nth (Z.to_nat i) l 0.
Definition set3 (l : list Z) (i v : Z) : list Z := upd_nat l (Z.to_nat i) v.
(** fieldio.c 48, 142. *)
Definition file_rank (dims : list Z) : Z := if get3 dims 2 =? 1 then (if get3 dims 1 =? 1 then 1 else 2) else 3.

(** fieldio.c 50-108; PI for the decimal constant; the phases along each direction are computed
    where they are used instead of being kept in arrays. *)
Definition times_phases (dims local_dims start : list Z) (k : R * R * R) (field : list C) : outcome (list C) :=
  let '(k0, k1, k2) := k in
  let! s0 := fdiv (2 * PI * k0) (IZR (get3 dims 0)) in
  let! s1 := fdiv (2 * PI * k1) (IZR (get3 dims 1)) in
  let! s2 := fdiv (2 * PI * k2) (IZR (get3 dims 2)) in
  let ph s i st := (cos (s * IZR (i + st)), sin (s * IZR (i + st)))%R in
  forZ 0 (get3 local_dims 0) (fun i field =>
    let px := ph s0 i (get3 start 0) in
    forZ 0 (get3 local_dims 1) (fun j field =>
      let py := (px * ph s1 j (get3 start 1))%C in
      forZ 0 (get3 local_dims 2) (fun k field =>
        let ijk := ((i * get3 local_dims 1 + j) * get3 local_dims 2 + k) * 3 in
        let p := (py * ph s2 k (get3 start 2))%C in
        forZ 0 3 (fun component field =>
          let! z := rd field (ijk + component) in
          wr field (ijk + component) (z * p)%C) field) field) field) field.

(** The real numbers of a complex array, seen from the real or imaginary part of entry [off]. *)
Definition part (ri : bool) (z : C) : R := if ri then im z else re z.
Definition numbers (field : list C) (off : Z) (ri : bool) (t : Z) : outcome R :=
  let j := 2 * off + (if ri then 1 else 0) + t in
  let! z := rd field (j / 2) in Val (part (Z.odd j) z).

(** fieldio.c 110-130 from entry [base] of the field on: component, part, numbers written. *)
Definition write_components (field : list C) (base : Z) (dims local_dims start : list Z) (which num_components : Z) : outcome (list (Z * bool * list (list Z * R))) :=
  mapM (fun cr => let '(component, ri) := cr in
      let! w := write_real_data (firstn (Z.to_nat (file_rank dims)) dims) local_dims start (2 * num_components) (numbers field (base + component) ri) in
      Val (component, ri, w))
    (flat_map (fun component => if (component =? which) || (which <? 0) then [(component, false); (component, true)] else []) (zrange num_components)).

(* ------------------------------------------------------------------ *)
(** * The other half, maxwell_op.c *)

(** One process or one of several with its part of the second dimension. *)
Inductive proc := Alone | Among (local_ny local_y_start : Z).

Section Otherhalf.
(** maxwell_vectorfield_otherhalf (637-837), maxwell_cscalarfield_otherhalf (841-1036) and
    maxwell_scalarfield_otherhalf (1042-1175) are copies of one another.  [nc] is the number of
    entries of a point, [times] multiplies by a phase (not at all in the third function), [cj]
    conjugates (likewise). *)
Context {T : Type}.
Variables (times : C -> T -> T) (cj : T -> T) (nc : Z).

(** E.g. 742-744; entry by entry instead of in three passes (two points have all entries or
    none in common). *)
Definition swap_points (p : C) (ij ijc : Z) (field : list T) : outcome (list T) :=
  forZ 0 nc (fun c field =>
    let! a := rd field (nc * ijc + c) in let! b := rd field (nc * ij + c) in
    let! field := wr field (nc * ijc + c) (times p b) in wr field (nc * ij + c) (times p a)) field.
(** E.g. 772, 828. *)
Definition conj_point (ijnew ij : Z) (field : list T) : outcome (list T) :=
  forZ 0 nc (fun c field => let! a := rd field (nc * ij + c) in wr field (nc * ijnew + c) (cj a)) field.

(** (n - i) % n. *)
Definition wrap (n i : Z) : outcome Z := if n =? 0 then UB else Val (Z.rem (n - i) n).

(** 713-764; [shifted] is HAVE_MPI and local_x_start != 0, [ph xdiff ydiff] the phase. *)
Definition swaps3 (nx ny nxmax : Z) (shifted : bool) (n_last_stored n_last_new : Z) (ph : bool -> bool -> C) (field : list T) : outcome (list T) :=
  forZ 0 (nxmax / 2 + 1) (fun ix field =>
    let xdiff := shifted || negb (ix =? 0) in
    let! ixc := if shifted then Val (nx - 1 - ix) else wrap nx ix in
    forZ 0 ny (fun iy field =>
      let ydiff := negb (iy =? 0) in
      let i := ix * ny + iy in
      let! iyc := wrap ny iy in
      let ic := ixc * ny + iyc in
      if ic <? i then Val field else
      let jmax := if ic =? i then Z.quot (n_last_new + 1) 2 else n_last_new in
      forZ 1 (jmax + 1) (fun j field =>
        let jc := n_last_new + 1 - j in
        swap_points (ph xdiff ydiff) (i * n_last_stored + j) (ic * n_last_stored + jc) field) field) field) field.

(** 766-773, and 818-829 without MPI. *)
Definition compact (n_other n_last_stored n_last_new : Z) (field : list T) : outcome (list T) :=
  forZ 0 n_other (fun i field => forZ 1 (n_last_new + 1) (fun j field =>
    conj_point (i * n_last_new + j - 1) (i * n_last_stored + j) field) field) field.

(** 776-816 without MPI. *)
Definition swaps2 (nx n_last_stored n_last_new : Z) (ph : bool -> bool -> C) (field : list T) : outcome (list T) :=
  forZ 0 (nx / 2 + 1) (fun i field =>
    let xdiff := negb (i =? 0) in
    let! ic := wrap nx i in
    let jmax := if ic =? i then Z.quot (n_last_new + 1) 2 else n_last_new in
    forZ 1 (jmax + 1) (fun j field =>
      let jc := n_last_new + 1 - j in
      swap_points (ph xdiff false) (i * n_last_stored + j) (ic * n_last_stored + jc) field) field) field.

(** 776-816 with MPI; the boolean is set by the break at 799. *)
Definition swaps2_mpi (nx jmin n_last_new : Z) (ph : bool -> bool -> C) (field : list T) : outcome (list T) :=
  forZ 0 nx (fun i field =>
    let xdiff := negb (i =? 0) in
    let! ic := wrap nx i in
    let jmax := n_last_new + (jmin - 1) in
    let! (field, _) := forZ jmin (jmax + 1) (fun j s =>
      let '(field, stop) := s in
      if (stop : bool) then Val s else
      let jc := jmax + jmin - j in
      let ij := j * nx + i in let ijc := jc * nx + ic in
      if ijc <? ij then Val (field, true) else
      let! field := swap_points (ph xdiff false) ij ijc field in Val (field, false)) (field, false) in
    Val field) field.
(** 818-829 with MPI. *)
Definition compact2_mpi (nx jmin n_last_new : Z) (field : list T) : outcome (list T) :=
  forZ 0 nx (fun i field => forZ jmin (n_last_new + jmin) (fun j field =>
    conj_point ((j - jmin) * nx + i) (j * nx + i) field) field) field.

(** 677-694; [mpi] tells which of the two cases of rank 2 is compiled.  PI for the decimal
    constant. *)
Definition expi (x : R) : C := (cos x, sin x).
Definition half_phases (mpi : bool) (rank : Z) (k : R * R * R) : bool -> bool -> C :=
  let '(kx, ky, kz) := k in
  let m := (- (2 * PI))%R in
  let '(x, y, z) := (kx * m, ky * m, kz * m)%R in
  let '(x, y, z) := if rank =? 3 then (x, y, z)
    else if rank =? 2 then (if mpi then (y, 0, x) else (x, 0, y))%R
    else (0, 0, x)%R in
  fun xdiff ydiff => match xdiff, ydiff with
    | false, false => expi z
    | true, false => expi (x + z)
    | true, true => expi (x + z + y)
    | false, true => expi (y + z)
    end.

(** 637-837. *)
Definition otherhalf (pr : proc) (nx ny nz : Z) (k : R * R * R) (field : list T) : outcome (list T) :=
  let n_last := last_dim nx ny nz in
  let n_last_stored := Z.quot (last_dim_size nx ny nz) 2 in
  let n_last_new := n_last - n_last_stored in
  let rank := fft_rank ny nz in
  match pr with
  | Alone =>
    let ph := half_phases false rank k in
    if rank =? 3 then
      let! field := swaps3 nx ny nx false n_last_stored n_last_new ph field in
      compact (other_dims nx nx ny nz) n_last_stored n_last_new field
    else
      let nx := if rank =? 1 then 1 else nx in
      let! field := swaps2 nx n_last_stored n_last_new ph field in
      compact nx n_last_stored n_last_new field
  | Among local_ny local_x_start =>
    let! _ := check ((rank =? 2) || (rank =? 3)) in
    let ph := half_phases true rank k in
    if rank =? 2 then
      let jmin := if local_x_start =? 0 then 1 else 0 in
      let n_last_new := local_ny - (if local_x_start =? 0 then 1 else 0)
        - (if (local_x_start + local_ny =? n_last_stored) && (Z.rem n_last 2 =? 0) then 1 else 0) in
      let! field := swaps2_mpi nx jmin n_last_new ph field in
      compact2_mpi nx jmin n_last_new field
    else
      let shifted := negb (local_x_start =? 0) in
      let nxmax := if shifted then local_ny - 1 else local_ny in
      let! field := swaps3 local_ny nx nxmax shifted n_last_stored n_last_new ph field in
      compact (local_ny * nx) n_last_stored n_last_new field
  end.
End Otherhalf.

(* ------------------------------------------------------------------ *)
(** * output_field_to_file, fields.c *)

(** fields.c 1021-1062, 1073-1085: sizes of the file and of this process's block, and where the other half
    goes. *)
Record layout := { l_dims : list Z; l_local : list Z; l_start : list Z;
  l_index : Z; l_last_start : Z; l_last_size : Z; l_first_start : Z; l_first_size : Z; l_special : bool }.

Definition out_layout (real : bool) (pr : proc) (nx ny nz : Z) : layout :=
  let n_last_stored := Z.quot (last_dim_size nx ny nz) 2 in
  match pr with
  | Among local_ny local_y_start =>
    let dims := [ny; nx; nz] in let local := [local_ny; nx; nz] in let start := [local_y_start; 0; 0] in
    if negb real then {| l_dims := dims; l_local := local; l_start := start; l_index := 0; l_last_start := 0; l_last_size := 0; l_first_start := 0; l_first_size := 0; l_special := false |}
    else if nz =? 1 then
      let nyquist := (local_y_start + local_ny =? n_last_stored) && (Z.rem ny 2 =? 0) in
      let size := local_ny - (if local_y_start =? 0 then 1 else 0) - (if nyquist then 1 else 0) in
      let first := ny - (local_y_start + local_ny - 1) + (if nyquist then 1 else 0) in
      {| l_dims := dims; l_local := local; l_start := start; l_index := 0; l_last_start := first; l_last_size := size; l_first_start := first; l_first_size := size; l_special := false |}
    else
      let local := set3 local 2 n_last_stored in
      let '(first, size, special) := if local_y_start =? 0 then (ny - (local_ny - 1), local_ny - 1, true)
        else (ny - (local_y_start + local_ny - 1), local_ny, false) in
      {| l_dims := dims; l_local := local; l_start := start; l_index := 2; l_last_start := n_last_stored; l_last_size := nz - n_last_stored;
         l_first_start := first; l_first_size := size; l_special := special |}
  | Alone =>
    let dims := [nx; ny; nz] in let local := [nx; ny; nz] in let start := [0; 0; 0] in
    if negb real then {| l_dims := dims; l_local := local; l_start := start; l_index := 0; l_last_start := 0; l_last_size := 0; l_first_start := 0; l_first_size := 0; l_special := false |}
    else
      let index := if nz =? 1 then (if ny =? 1 then 0 else 1) else 2 in
      let local := set3 local index n_last_stored in
      let size := get3 dims index - n_last_stored in
      {| l_dims := dims; l_local := local; l_start := start; l_index := index; l_last_start := n_last_stored; l_last_size := size;
         l_first_start := if index =? 0 then n_last_stored else 0; l_first_size := if index =? 0 then size else get3 local 0; l_special := false |}
  end.

(** fields.c 1063-1068, 1086-1091: the current k in the reciprocal basis ([k]), in the order of
    the dimensions of the file; 1097-1098 are left to the caller. *)
Definition out_k (pr : proc) (k : R * R * R) : R * R * R := let '(kx, ky, kz) := k in match pr with Alone => (kx, ky, kz) | Among _ _ => (ky, kx, kz) end.

(** fields.c 1118-1150 (three components), 1171-1203 (one). *)
Definition output_complex (real : bool) (pr : proc) (nx ny nz : Z) (k : R * R * R) (which nc : Z) (field : list C) : outcome (list (Z * bool * list (list Z * R))) :=
  let l := out_layout real pr nx ny nz in
  let! field := times_phases (l_dims l) (l_local l) (l_start l) (out_k pr k) field in
  let! w := write_components field 0 (l_dims l) (l_local l) (l_start l) which nc in
  if negb real then Val w else
  let! field := otherhalf Cmul Cconj nc pr nx ny nz (out_k pr k) field in
  let start := set3 (set3 (l_start l) (l_index l) (l_last_start l)) 0 (l_first_start l) in
  let local := set3 (set3 (l_local l) (l_index l) (l_last_size l)) 0 (l_first_size l) in
  if l_special l then
    let! w1 := write_components field (nc * get3 local 1 * get3 local 2) (l_dims l) local start which nc in
    let! w2 := write_components field 0 (l_dims l) (set3 local 0 1) (set3 start 0 0) which nc in
    Val (w ++ w1 ++ w2)
  else
    let! w1 := write_components field 0 (l_dims l) local start which nc in
    Val (w ++ w1).

(** fields.c 937-994, fieldio.c 132-149. *)
Definition write_vals (vals : list R) (base : Z) (dims local_dims start : list Z) : outcome (list (list Z * R)) :=
  write_real_data (firstn (Z.to_nat (file_rank dims)) dims) local_dims start 1 (fun i => rd vals (base + i)).
Definition output_scalarfield (real : bool) (pr : proc) (nx ny nz : Z) (vals : list R) : outcome (list (list Z * R)) :=
  let l := out_layout real pr nx ny nz in
  let! w := write_vals vals 0 (l_dims l) (l_local l) (l_start l) in
  if negb real then Val w else
  let! vals := otherhalf (fun _ x => x) (fun x => x) 1 pr nx ny nz (0, 0, 0)%R vals in
  let start := set3 (set3 (l_start l) (l_index l) (l_last_start l)) 0 (l_first_start l) in
  let local := set3 (set3 (l_local l) (l_index l) (l_last_size l)) 0 (l_first_size l) in
  if l_special l then
    let! w1 := write_vals vals (get3 local 1 * get3 local 2) (l_dims l) local start in
    let! w2 := write_vals vals 0 (l_dims l) (set3 local 0 1) (set3 start 0 0) in
    Val (w ++ w1 ++ w2)
  else
    let! w1 := write_vals vals 0 (l_dims l) local start in
    Val (w ++ w1).
