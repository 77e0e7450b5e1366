(** Model of the field and energy functions of mpb/fields.c: the D, H and B fields of a band,
    the energy densities, the energy in a range of dielectric constants and in objects.
    One process. *)
From Coq Require Import List ZArith Reals Bool.
From Verif Require Import Base RC M_Tensor M_Evect M_Grid M_Op.
Import ListNotations.
Local Open Scope Z_scope.

(* ------------------------------------------------------------------ *)
(** * Fields of a band (complex fields) *)

(** fields.c 101-104 (also 146-149, 185-188): all components multiplied by a real number. *)
Definition scale_field (n : Z) (scale : R) (f : list C) : outcome (list C) :=
  forZ 0 n (fun i f => let! v := rd f i in wr f i (re v * scale, im v * scale)%R) f.

(** fields.c 64-68: the band number is checked; a refused request prints a message and does
    nothing, which is [Abort] here (the state of the current field after a refused request is
    the subject of M_Cur.v). *)
Definition check_band (H : emat C) (band : Z) : outcome unit := check ((1 <=? band) && (band <=? ep H)).

(** fields.c 52-107, get_dfield; [W0] is the work space W[0] after its resizing to one band
    (78), which is resized back after use. *)
Definition get_dfield (d : mdata) (Vol : R) (freqs : list R) (H W0 : emat C) (band : Z) (fft : list C) : outcome (list C) :=
  let! _ := check_band H band in
  let! fft := (match d_mu_inv d with
    | None => d_from_H d H (band - 1) 1 fft
    | Some _ =>
        let! s := H_from_B d false H W0 (band - 1) 0 1 fft in
        d_from_H d (fst s) 0 1 (snd s)
    end) in
  let! freq := rd freqs (band - 1) in
  let! scale := (if negb (Reqb freq 0) then fdiv (-1) freq else Val (-1)%R) in
  let! scale := fdiv scale (sqrt Vol) in
  scale_field (3 * d_out d) scale fft.

(** fields.c 109-151, get_hfield. *)
Definition get_hfield (d : mdata) (Vol : R) (H W0 : emat C) (band : Z) (fft : list C) : outcome (list C) :=
  let! _ := check_band H band in
  let! fft := (match d_mu_inv d with
    | None => h_from_H d H (band - 1) 1 fft
    | Some _ =>
        let! s := H_from_B d false H W0 (band - 1) 0 1 fft in
        h_from_H d (fst s) 0 1 (snd s)
    end) in
  let! scale := fdiv 1 (sqrt Vol) in
  scale_field (3 * d_out d) scale fft.

(** fields.c 155-190, get_bfield. *)
Definition get_bfield (d : mdata) (Vol : R) (H : emat C) (band : Z) (fft : list C) : outcome (list C) :=
  let! _ := check_band H band in
  let! fft := h_from_H d H (band - 1) 1 fft in
  let! scale := fdiv 1 (sqrt Vol) in
  scale_field (3 * d_out d) scale fft.

(** fields.c 206-210, get_efield after a request that is not refused: 194-203 apply the inverse
    tensor to the D field. *)
Definition get_efield (d : mdata) (Vol : R) (freqs : list R) (H W0 : emat C) (band : Z) (fft : list C) : outcome (list C) :=
  let! fft := get_dfield d Vol freqs H W0 band fft in
  e_from_d d 1 (d_eps_inv d) fft.

(* ------------------------------------------------------------------ *)
(** * Energy density *)

(** The letter curfield_type, as far as 245-254 distinguish it. *)
Inductive ftype := FD | FB | FOther.

(** Points that stand for two grid points: none in complex builds; in real builds (serial)
    fields.c 271, 281, 284; in parallel 2d real builds 276-277. *)
Definition once (i : Z) : bool := false.
Definition twice_real (last_dim_stored last_dim i : Z) : bool :=
  let last_index := Z.rem i last_dim_stored in negb (last_index =? 0) && negb (2 * last_index =? last_dim).
Definition twice_mpi2 (nx local_y_start last_dim i : Z) : bool :=
  let last_index := Z.quot i nx + local_y_start in negb (last_index =? 0) && negb (2 * last_index =? last_dim).

(** curfield[j] in the memory of the field seen as real numbers. *)
Definition cget (mem : list R) (j : Z) : outcome C :=
  let! a := rd mem (2 * j) in let! b := rd mem (2 * j + 1) in Val (a, b).

Definition add6 (a b : list R) : list R := map (fun p => fst p + snd p)%R (combine a b).

(** fields.c 227-305; [mem] is the storage of curfield as real numbers, shared with
    energy_density.  Result: the storage, the six sums and the total. *)
Definition energy_internal (t : ftype) (d : mdata) (twice : Z -> bool) (mem : list R) : outcome (list R * list R * R) :=
  forZ 0 (d_out d) (fun i s =>
    let '(mem, comps, sum) := s in
    let! f0 := cget mem (3 * i) in let! f1 := cget mem (3 * i + 1) in let! f2 := cget mem (3 * i + 2) in
    let! field := (match t, d_mu_inv d with
      | FD, _ => let! e := rd (d_eps_inv d) i in Val (assign_symmatrix_vector e (f0, f1, f2))
      | FB, Some mu => let! m := rd mu i in Val (assign_symmatrix_vector m (f0, f1, f2))
      | _, _ => Val (f0, f1, f2)
      end) in
    let '(g0, g1, g2) := field in
    let sq := [re g0 * re f0; im g0 * im f0; re g1 * re f1; im g1 * im f1; re g2 * re f2; im g2 * im f2]%R in
    let e := (re g0 * re f0 + im g0 * im f0 + re g1 * re f1 + im g1 * im f1 + re g2 * re f2 + im g2 * im f2)%R in
    let comps := add6 comps sq in
    let! mem := wr mem i e in
    let sum := (sum + e)%R in
    if twice i then Val (mem, add6 comps sq, (sum + e)%R) else Val (mem, comps, sum))
  (mem, [0; 0; 0; 0; 0; 0]%R, 0%R).

(** fields.c 311-350: the list returned: total, six fractions; [HN] is H.N. *)
Definition compute_field_energy (t : ftype) (d : mdata) (twice : Z -> bool) (Vol HN : R) (mem : list R) : outcome (list R * list R) :=
  let! s := energy_internal t d twice mem in
  let '(mem, comps, sum) := s in
  let q := if Reqb sum 0 then 1%R else sum in
  let! tot := fdiv (sum * Vol) HN in
  Val (mem, tot :: map (fun c => c / q)%R comps).

(** The storage of an array of complex numbers. *)
Definition flat (f : list C) : list R := flat_map (fun z => [re z; im z]) f.

(* ------------------------------------------------------------------ *)
(** * Energies in parts of the cell *)

(** fields.c 215-222; [eigs] are the eigenvalues in ascending order (LAPACK, external). *)
Definition mean_medium (eigs : sym -> R * R * R) (m : sym) : outcome R :=
  let '(e0, e1, _) := eigs m in fdiv 2 (e0 + e1).

(** fields.c 868-909, after the check of the type. *)
Definition energy_in_dielectric (eigs : sym -> R * R * R) (d : mdata) (twice : Z -> bool) (Vol HN eps_low eps_high : R) (energy : list R) : outcome R :=
  let! sum := forZ 0 (d_out d) (fun i sum =>
    let! m := rd (d_eps_inv d) i in
    let! epsilon := mean_medium eigs m in
    if Rleb eps_low epsilon && Rleb epsilon eps_high then
      let! e := rd energy i in
      Val (if twice i then sum + e + e else sum + e)%R
    else Val sum) 0%R in
  let! q := fdiv Vol HN in
  Val (sum * q)%R.

(** An object: its periodic images contain a point; "nothing" objects (1339-1341) end the search. *)
Record object := { o_in : vec -> bool; o_nothing : bool }.

(** fields.c 1336-1361: is the point counted?  [l] the objects, last first. *)
Fixpoint counted (l : list object) (p : vec) : bool :=
  match l with
  | [] => false
  | o :: l => if o_in o p then negb (o_nothing o) else counted l p
  end.

(** fields.c 1325-1335: position of a grid point. *)
Definition grid_point (sx sy sz : R) (n1 n2 n3 i1 i2 i3 : Z) : outcome vec :=
  let! s1 := fdiv sx (IZR n1) in let! s2 := fdiv sy (IZR n2) in let! s3 := fdiv sz (IZR n3) in
  let c n s := if n <=? 1 then 0%R else (s * (1 / 2))%R in
  Val (IZR i1 * s1 - c n1 sx, IZR i2 * s2 - c n2 sy, IZR i3 * s3 - c n3 sz)%R.

(** fields.c 1304-1366, after the check of the type: [loop] is LOOP_XYZ, [twice] tells
    whether a point (given by its coordinates and index) is added again (1345-1358). *)
Definition energy_in_objects (loop : list (Z * Z * Z * Z)) (twice : Z * Z * Z * Z -> bool) (n1 n2 n3 : Z) (sx sy sz Vol HN : R)
    (objects : list object) (energy : list R) : outcome R :=
  let! sum := run (fun pt sum =>
    let '(i1, i2, i3, idx) := pt in
    let! p := grid_point sx sy sz n1 n2 n3 i1 i2 i3 in
    if counted (rev objects) p then
      let! e := rd energy idx in
      Val (if twice pt then sum + e + e else sum + e)%R
    else Val sum) loop 0%R in
  let! q := fdiv Vol HN in
  Val (sum * q)%R.

(** Complex builds: nothing is added again. *)
Definition once4 (pt : Z * Z * Z * Z) : bool := false.
(** Real builds, serial: 1353-1356 test the variable j declared at 1306, which nothing ever
    assigns (LOOP_XYZ declares its own counters, xyz_loop.h 38-50); [junk] is whatever it holds. *)
Definition twice_junk (junk last_dim : Z) (pt : Z * Z * Z * Z) : bool := negb (junk =? 0) && negb (2 * junk =? last_dim).
