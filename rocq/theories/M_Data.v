(** Model of the data post-processor (utils/mpb-data.c). *)
From Coq Require Import String List ZArith Reals Bool.
From Verif Require Import Base RC Loops M_Tensor M_Evect M_Interp.
Import ListNotations.
Local Open Scope Z_scope.

(* ------------------------------------------------------------------ *)
(** * Vectors and matrices *)

(** libctl's vector3 and matrix3x3 (three columns) and their operations, which are not part of the
    repository; their mathematical definitions. *)
Definition m33 : Type := (vec * vec * vec)%type.
Definition v_scale (s : R) (v : vec) : vec := let '(x, y, z) := v in (s * x, s * y, s * z)%R.
Definition v_minus (a b : vec) : vec := let '(x, y, z) := a in let '(u, v, w) := b in (x - u, y - v, z - w)%R.
Definition v_dot (a b : vec) : R := let '(x, y, z) := a in let '(u, v, w) := b in (x * u + y * v + z * w)%R.
Definition v_cross (a b : vec) : vec := let '(x, y, z) := a in let '(u, v, w) := b in (y * w - z * v, z * u - x * w, x * v - y * u)%R.
Definition v_norm (v : vec) : R := sqrt (v_dot v v).
Definition v_unit (v : vec) : vec := if Reqb (v_norm v) 0 then v else v_scale (1 / v_norm v) v.
Definition m_transpose (m : m33) : m33 :=
  let '((a, b, c), (d, e, f), (g, h, i)) := m in ((a, d, g), (b, e, h), (c, f, i)).
Definition m_vec (m : m33) (v : vec) : vec :=
  let '((a, b, c), (d, e, f), (g, h, i)) := m in let '(x, y, z) := v in
  (a * x + d * y + g * z, b * x + e * y + h * z, c * x + f * y + i * z)%R.
Definition m_mult (m n : m33) : m33 := let '(c0, c1, c2) := n in (m_vec m c0, m_vec m c1, m_vec m c2).
(** libctl exits if the determinant is zero. *)
Definition m_inverse (m : m33) : outcome m33 :=
  let '(c0, c1, c2) := m in
  let det := v_dot c0 (v_cross c1 c2) in
  if Reqb det 0 then Abort
  else Val (m_transpose (v_scale (1 / det) (v_cross c1 c2), v_scale (1 / det) (v_cross c2 c0), v_scale (1 / det) (v_cross c0 c1))).

(* ------------------------------------------------------------------ *)
(** * map_data *)

(** 38-41; the integer part, a double in the code, as an integer.  In exact arithmetic the test
    at 40 for x + 1 >= 1 never succeeds. *)
Definition modf_positive (x : R) : R * Z :=
  let xi := rtrunc x in let f := (x - IZR xi)%R in
  if Rltb f 0 then (let f := (f + 1)%R in if Rleb 1 f then (0%R, xi) else (f, xi - 1)) else (f, xi).
(** 43-63. *)
Definition adj_point (i1 nx : Z) (dx : R) (xi : Z) : Z * R * Z :=
  if Rleb 0 dx then (let i2 := i1 + 1 in if i2 >=? nx then (i2 - nx, dx, xi + 1) else (i2, dx, xi))
  else (let i2 := i1 - 1 in if i2 <? 0 then (i2 + nx, (- dx)%R, xi - 1) else (i2, (- dx)%R, xi)).

(** 70: the static variables phase, p_re and p_im. *)
Definition memo : Type := (R * R * R)%type.
Definition memo0 : memo := (0, 1, 0)%R.
(** 65-81: the new sum and static variables. *)
Definition add_cmplx_times_phase (m : memo) (sum d : C) (ix iy iz : Z) (s : vec) (scale_by : R) : C * memo :=
  let '(s0, s1, s2) := s in let '(phase, p_re, p_im) := m in
  let new_phase := (IZR ix * s0 + IZR iy * s1 + IZR iz * s2)%R in
  let '(phase, p_re, p_im) := if Reqb new_phase phase then m else (new_phase, cos new_phase, sin new_phase) in
  ((re sum + (re d * p_re - im d * p_im) * scale_by, im sum + (re d * p_im + im d * p_re) * scale_by)%R, (phase, p_re, p_im)).

(** 150-172, one direction: the two input points, each with the cell it is in and its weight.
    (The weight of the second is dx, of the first mdx.) *)
Definition axis (near : bool) (n : Z) (x : R) : (Z * Z * R) * (Z * Z * R) :=
  let '(x, xi) := modf_positive x in
  let i1 := rtrunc (x * IZR n) in
  let dx := (x * IZR n - IZR i1)%R in
  let '(i2, dx, xi2) := adj_point i1 n dx xi in
  let dx := if near then (if Rleb dx (/ 2) then 0 else 1)%R else dx in
  ((i1, xi, (1 - dx)%R), (i2, xi2, dx)).
(** The order of the eight contributions, 183-222 and 228-235: x slowest. *)
Definition corners : list (bool * bool * bool) :=
  [(false, false, false); (false, false, true); (false, true, false); (false, true, true);
   (true, false, false); (true, false, true); (true, true, false); (true, true, true)].
Definition pick {A} (c : bool) (a : A * A) : A := if c then snd a else fst a.
(** 179. *)
Definition in_index (n1 n2 i j k : Z) : Z := (i * n1 + j) * n2 + k.

(** 180-222: the value of a point of complex data; the sums are kept in variables instead of
    the output arrays. *)
Definition point_complex (d_re d_im : list R) (n1 n2 : Z) (s : vec) (ax ay az : (Z * Z * R) * (Z * Z * R)) (m : memo) : outcome (C * memo) :=
  foldM (fun c st => let '(cx, cy, cz) := c in
    let '(i, xi, wx) := pick cx ax in let '(j, yi, wy) := pick cy ay in let '(k, zi, wz) := pick cz az in
    let! a := rd d_re (in_index n1 n2 i j k) in
    let! b := rd d_im (in_index n1 n2 i j k) in
    Val (add_cmplx_times_phase (snd st) (fst st) (a, b) xi yi zi s (wx * wy * wz)%R)) corners ((0, 0)%R, m).
(** 227-235: of real data; the sum starts from zero here. *)
Definition point_real (d_re : list R) (n1 n2 : Z) (ax ay az : (Z * Z * R) * (Z * Z * R)) : outcome R :=
  foldM (fun c sum => let '(cx, cy, cz) := c in
    let '(i, xi, wx) := pick cx ax in let '(j, yi, wy) := pick cy ay in let '(k, zi, wz) := pick cz az in
    let! a := rd d_re (in_index n1 n2 i j k) in
    Val (sum + a * wx * wy * wz)%R) corners 0%R.

(** 104-106. *)
Definition scale_map (n_out : Z * Z * Z) (cm : m33) : outcome m33 :=
  let '(o0, o1, o2) := n_out in let '(c0, c1, c2) := cm in
  let! a := fdiv 1 (IZR o0) in let! b := fdiv 1 (IZR o1) in let! c := fdiv 1 (IZR o2) in
  Val (v_scale a c0, v_scale b c1, v_scale c c2).
(** 117-125. *)
Definition shift (n_out : Z * Z * Z) (cm : m33) : vec :=
  let '(o0, o1, o2) := n_out in let '((a, b, c), (d, e, f), (g, h, i)) := cm in
  (/ 2 - (a * / 2 * IZR o0 + d * / 2 * IZR o1 + g * / 2 * IZR o2),
   / 2 - (b * / 2 * IZR o0 + e * / 2 * IZR o1 + h * / 2 * IZR o2),
   / 2 - (c * / 2 * IZR o0 + f * / 2 * IZR o1 + i * / 2 * IZR o2))%R.
(** 144-149. *)
Definition coord (cm : m33) (sh : vec) (i j k : Z) : vec :=
  let '((a, b, c), (d, e, f), (g, h, l)) := cm in let '(sx, sy, sz) := sh in
  (a * IZR i + d * IZR j + g * IZR k + sx, b * IZR i + e * IZR j + h * IZR k + sy, c * IZR i + f * IZR j + l * IZR k + sz)%R.
(** 136-139. *)
Definition out_index (transpose : bool) (n_out : Z * Z * Z) (i j k : Z) : Z :=
  let '(o0, o1, o2) := n_out in
  if transpose then (j * o0 + i) * o2 + k else (i * o1 + j) * o2 + k.

(** 88-247 without the minima and maxima, which are only printed.  TWOPI is 2 PI.  The output
    arrays are given with whatever malloc left in them. *)
Definition map_data (d_re : list R) (d_im : option (list R)) (n_in : Z * Z * Z) (out_re : list R) (out_im : option (list R)) (n_out : Z * Z * Z)
    (cm : m33) (kvector : option vec) (near transpose : bool) (m : memo) : outcome (list R * option (list R) * memo) :=
  let! _ := check (Bool.eqb (match out_im with Some _ => true | None => false end) (match d_im with Some _ => true | None => false end)) in
  let! cm := scale_map n_out cm in
  let s := match kvector with Some (k0, k1, k2) => (k0 * (2 * PI), k1 * (2 * PI), k2 * (2 * PI))%R | None => (0, 0, 0)%R end in
  let sh := shift n_out cm in
  let '(n0, n1, n2) := n_in in let '(o0, o1, o2) := n_out in
  forZ 0 o0 (fun i st => forZ 0 o1 (fun j st => forZ 0 o2 (fun k st =>
    let '(out_re, out_im, m) := st in
    let ijk := out_index transpose n_out i j k in
    let '(x, y, z) := coord cm sh i j k in
    let ax := axis near n0 x in let ay := axis near n1 y in let az := axis near n2 z in
    match out_im, d_im with
    | Some out_im, Some d_im =>
        let! (v, m) := point_complex d_re d_im n1 n2 s ax ay az m in
        let! out_re := wr out_re ijk (re v) in
        let! out_im := wr out_im ijk (im v) in
        Val (out_re, Some out_im, m)
    | _, _ =>
        let! v := point_real d_re n1 n2 ax ay az in
        let! out_re := wr out_re ijk v in
        Val (out_re, out_im, m)
    end) st) st) (out_re, out_im, m).

(* ------------------------------------------------------------------ *)
(** * Datasets *)

(** A dataset of a file: its sizes and numbers, in row-major order. *)
Definition dset : Type := (list Z * list R)%type.

(** What the options and the file's attributes determine. *)
Record setting := { s_Rout : m33; s_cm : m33; s_cart : m33; s_k : option vec; s_res : R; s_scale : C; s_mult : vec; s_near : bool; s_trans : bool; s_same : bool }.

(** matrixio.c 781-932 with data NULL: the rank may not exceed the one given; sizes beyond the
    rank keep their value, here 1. *)
Definition read_dataset (rank : Z) (d : dset) : outcome (Z * (Z * Z * Z) * list R) :=
  let! _ := check (0 <? rank) in
  let r := Z.of_nat (length (fst d)) in
  let! _ := check (rank >=? r) in
  Val (r, (nth 0 (fst d) 1, nth 1 (fst d) 1, nth 2 (fst d) 1), snd d).

(** 294-306, 439-451: the sizes of the output.  Conversion to int beyond its range is not
    modelled. *)
Definition out_sizes (st : setting) (rank : Z) (n_in : Z * Z * Z) : Z * Z * Z :=
  let '(n0, n1, n2) := n_in in let '(m0, m1, m2) := s_mult st in let '(c0, c1, c2) := s_Rout st in
  let one i n m c := let o := if Rltb 0 (s_res st) then rtrunc (v_norm c * s_res st + / 2) else rtrunc (IZR n * m) in
                     Z.max (if i >=? rank then 1 else o) 1 in
  (one 0 n0 m0 c0, one 1 n1 m1 c1, one 2 n2 m2 c2).
(** 308-317, 453-462: the sizes in the order written. *)
Definition out_sizes2 (transpose : bool) (n_out : Z * Z * Z) : list Z :=
  let '(o0, o1, o2) := n_out in if transpose then [o1; o0; o2] else [o0; o1; o2].

(** 331-339, 479-485. *)
Definition scale_data (sc : C) (d_re d_im : list R) : list R * list R :=
  let l := map (fun p => (sc * (fst p, snd p))%C) (combine d_re d_im) in (map re l, map im l).

(** matrixio_create_dataset and matrixio_write_real_data as used at 346-347, 356-358, 492-493, 499-500: a dataset of
    the first [rank] sizes, filled from the start of the array. *)
Definition write_dataset (rank : Z) (dims : list Z) (data : list R) : outcome dset :=
  let dims := firstn (Z.to_nat rank) dims in
  let! l := mapM (rd data) (zrange (fold_left Z.mul dims 1)) in Val (dims, l).

(** 341-343, 351-353 and the names at 470, 487-489, 496: the name written to; [out_name] is assumed
    large enough. *)
Definition new_name (st : setting) (name : string) : string := if s_same st then append name "-new" else name.

(** 323-360, 471-501 after the sizes are known: map, scale and write. *)
Definition convert (st : setting) (junk : Z -> R) (rank : Z) (n_in : Z * Z * Z) (name_re : string) (d_re : list R) (im : option (string * list R)) (m : memo)
  : outcome (list (string * dset) * memo) :=
  let n_out := out_sizes st rank n_in in
  let '(o0, o1, o2) := n_out in
  let fresh := map junk (zrange (o0 * o1 * o2)) in
  let! (outs, m) := map_data d_re (option_map snd im) n_in fresh (option_map (fun _ => fresh) im) n_out (s_cm st) (s_k st) (s_near st) (s_trans st) m in
  let dims := out_sizes2 (s_trans st) n_out in
  match im, outs with
  | Some (name_im, _), (out_re, Some out_im) =>
      let '(out_re, out_im) := scale_data (s_scale st) out_re out_im in
      let! a := write_dataset rank dims out_re in
      let! b := write_dataset rank dims out_im in
      Val ([(new_name st name_re, a); (new_name st name_im, b)], m)
  | _, (out_re, _) =>
      let! a := write_dataset rank dims out_re in Val ([(new_name st name_re, a)], m)
  end.

(** A file: datasets by name. *)
Definition datasets : Type := string -> option dset.

(** 249-370: the datasets written. *)
Definition handle_dataset (st : setting) (junk : Z -> R) (f : datasets) (name_re : string) (name_im : option string) (m : memo)
  : outcome (list (string * dset) * memo) :=
  match f name_re with
  | None => Val ([], m)
  | Some d =>
      let! (rd1, d_re) := read_dataset 3 d in let '(rank, n_in) := rd1 in
      match name_im with
      | None => convert st junk rank n_in name_re d_re None m
      | Some name_im =>
          match f name_im with
          | None => Val ([], m)
          | Some d =>
              let! (rd2, d_im) := read_dataset rank d in let '(rank, n_im) := rd2 in
              let '(a0, a1, a2) := n_im in let '(b0, b1, b2) := n_in in
              let! _ := check ((a0 =? b0) && (a1 =? b1) && (a2 =? b2)) in
              convert st junk rank n_in name_re d_re (Some (name_im, d_im)) m
          end
      end
  end.

(** 426-437 for one of the real and imaginary parts: the components of the vectors rotated. *)
Definition rotate (cart : m33) (N : Z) (x y z : list R) : outcome (list R * list R * list R) :=
  forZ 0 N (fun i st => let '(x, y, z) := st in
    let! vx := rd x i in let! vy := rd y i in let! vz := rd z i in
    let '(vx, vy, vz) := m_vec cart (vx, vy, vz) in
    let! x := wr x i vx in let! y := wr y i vy in let! z := wr z i vz in Val (x, y, z)) (x, y, z).

(** 388-409: the six arrays, each with its rank and sizes, if all are present and alike. *)
Definition alike (a b : Z * (Z * Z * Z)) : bool :=
  let '(r, (n0, n1, n2)) := a in let '(q, (l0, l1, l2)) := b in (r =? q) && (n0 =? l0) && (n1 =? l1) && (n2 =? l2).
Definition six (f : datasets) : outcome (option (list (Z * (Z * Z * Z) * list R))) :=
  foldM (fun nam st =>
    match st, f nam with
    | Some l, Some d =>
        let! e := read_dataset 3 d in
        Val (if match l with [] => true | e0 :: _ => alike (fst e0) (fst e) end then Some (l ++ [e]) else None)
    | _, _ => Val None
    end) ["x.r"; "x.i"; "y.r"; "y.i"; "z.r"; "z.i"]%string (Some []).

(** 372-532. *)
Definition handle_cvector_dataset (st : setting) (junk : Z -> R) (f : datasets) (m : memo) : outcome (list (string * dset) * memo) :=
  let! o := six f in
  match o with
  | Some [(rank, (n0, n1, n2), xr); (_, xi); (_, yr); (_, yi); (_, zr); (_, zi)] =>
      let! (xy, zr) := rotate (s_cart st) (n0 * n1 * n2) xr yr zr in let '(xr, yr) := xy in
      let! (xy, zi) := rotate (s_cart st) (n0 * n1 * n2) xi yi zi in let '(xi, yi) := xy in
      foldM (fun c w => let '(nr, ni, r, i) := c in
        let! (w1, m) := convert st junk rank (n0, n1, n2) nr r (Some (ni, i)) (snd w) in
        Val (fst w ++ w1, m)) [("x.r", "x.i", xr, xi); ("y.r", "y.i", yr, yi); ("z.r", "z.i", zr, zi)]%string ([], m)
  | _ =>
      foldM (fun c w => let '(nr, ni, n) := c in
        let! (w1, m) := handle_dataset st junk f nr (Some ni) (snd w) in
        let! (w2, m) := handle_dataset st junk f n None m in
        Val (fst w ++ w1 ++ w2, m)) [("x.r", "x.i", "x"); ("y.r", "y.i", "y"); ("z.r", "z.i", "z")]%string ([], m)
  end.

(* ------------------------------------------------------------------ *)
(** * handle_file *)

(** An attribute of the file: its sizes and numbers. *)
Definition attr : Type := option (list Z * list R).
(** matrixio.c 256-304: *rank is set if the attribute exists; dims, of which [max_rank] entries are
    there, if the rank is small enough.  The caller's variables are the second component; None is
    a variable without a value. *)
Definition vars : Type := (option Z * list (option Z))%type.
Definition read_data_attr (a : attr) (max_rank : Z) (v : vars) : option (list R) * vars :=
  match a with
  | None => (None, v)
  | Some (dims, data) =>
      let rank := Z.of_nat (length dims) in
      if rank <=? max_rank then (Some data, (Some rank, map Some dims ++ skipn (length dims) (snd v)))
      else (None, (Some rank, snd v))
  end.
(** Using the value of a variable. *)
Definition have {A} (o : option A) : outcome A := match o with Some a => Val a | None => UB end.

(** 543, 570-578. *)
Definition read_lattice (a : attr) : outcome (m33 * vars) :=
  let '(R, (rank, dims)) := read_data_attr a 2 (None, [None; None]) in
  let one := ((1, 0, 0), (0, 1, 0), (0, 0, 1))%R in
  match R with
  | None => Val (one, (rank, dims))
  | Some R =>
      let! r := have rank in
      if negb (r =? 2) then Val (one, (rank, dims))
      else
        let! d0 := rd dims 0 in let! d0 := have d0 in let! d1 := rd dims 1 in let! d1 := have d1 in
        if (d0 =? 3) && (d1 =? 3) then
          let! a0 := rd R 0 in let! a1 := rd R 1 in let! a2 := rd R 2 in
          let! b0 := rd R 3 in let! b1 := rd R 4 in let! b2 := rd R 5 in
          let! c0 := rd R 6 in let! c1 := rd R 7 in let! c2 := rd R 8 in
          Val ((a0, a1, a2), (b0, b1, b2), (c0, c1, c2), (rank, dims))
        else Val (one, (rank, dims))
  end.
(** 581-586: the rank and the size are looked at whether or not there was an attribute. *)
Definition read_kvector (a : attr) (v : vars) : outcome (option (list R) * vars) :=
  let '(k, (rank, dims)) := read_data_attr a 1 v in
  let! r := have rank in
  if negb (r =? 1) then Val (None, (rank, dims))
  else let! d0 := rd dims 0 in let! d0 := have d0 in Val (if d0 =? 3 then k else None, (rank, dims)).
(** 591-605; the wave vector's numbers are read here. *)
Definition read_copies (a : attr) (v : vars) (Rin : m33) (k : option (list R)) : outcome (m33 * option vec) :=
  let '(cp, (rank, dims)) := read_data_attr a 1 v in
  let! k := match k with None => Val None | Some l => let! a := rd l 0 in let! b := rd l 1 in let! c := rd l 2 in Val (Some (a, b, c)) end in
  match cp with
  | None => Val (Rin, k)
  | Some l =>
      let! r := have rank in
      if negb (r =? 1) then Val (Rin, k)
      else
        let! d0 := rd dims 0 in let! d0 := have d0 in
        if d0 =? 3 then
          let! a := rd l 0 in let! b := rd l 1 in let! c := rd l 2 in
          let '(c0, c1, c2) := Rin in
          Val ((v_scale a c0, v_scale b c1, v_scale c c2),
               match k with Some (k0, k1, k2) => Some (k0 * a, k1 * b, k2 * c)%R | None => None end)
        else Val (Rin, k)
  end.

(** 617-656: the rectangular cell and the matrix of its directions. *)
Definition rectify (Rin : m33) (ve : option vec) : outcome (m33 * m33) :=
  let '(c0, c1, c2) := Rin in
  let ve := match ve with Some v => v_unit v | None => v_unit c0 end in
  let V := v_dot (v_cross c0 c1) c2 in
  let c1 := v_minus c1 c0 in
  let c2 := v_minus c2 c0 in
  let! q := fdiv V (v_dot (v_cross c1 c2) ve) in
  let c0 := v_scale q ve in
  let c1 := v_minus c1 (v_scale (v_dot ve c1) ve) in
  let c2 := v_minus c2 (v_scale (v_dot ve c2) ve) in
  let! q := fdiv (v_dot c1 c2) (v_dot c1 c1) in
  let c2 := v_minus c2 (v_scale q c1) in
  let! cart := m_inverse (v_unit c0, v_unit c1, v_unit c2) in
  Val ((c0, c1, c2), cart).
(** 659-666. *)
Definition swap_rows (m : m33) : m33 := let '(c0, c1, c2) := m_transpose m in m_transpose (c1, c0, c2).

(** The options of the command line. *)
Record options := { o_rect : bool; o_ve : option vec; o_res : R; o_scale : C; o_mult : vec; o_near : bool; o_trans : bool; o_same : bool }.

(** 544, 570-678: the setting for a file with the given attributes. *)
Definition prepare (o : options) (lattice bloch copies : attr) : outcome setting :=
  let! (Rin, v) := read_lattice lattice in
  let! (k, v) := read_kvector bloch v in
  let! (Rin, k) := read_copies copies v Rin k in
  let one := ((1, 0, 0), (0, 1, 0), (0, 0, 1))%R in
  let! (Rout, cart) := (if o_rect o then rectify Rin (o_ve o) else Val (Rin, one)) in
  let cart := if o_trans o then swap_rows cart else cart in
  let '(c0, c1, c2) := Rout in let '(m0, m1, m2) := o_mult o in
  let Rout := (v_scale m0 c0, v_scale m1 c1, v_scale m2 c2) in
  let! inv := m_inverse Rin in
  Val {| s_Rout := Rout; s_cm := m_mult inv Rout; s_cart := cart; s_k := k; s_res := o_res o; s_scale := o_scale o;
         s_mult := o_mult o; s_near := o_near o; s_trans := o_trans o; s_same := o_same o |}.

(** 546-560. *)
Definition datanames : list string :=
  ["data"; "epsilon.xx"; "epsilon.xy"; "epsilon.xz"; "epsilon.yy"; "epsilon.yz"; "epsilon.zz";
   "epsilon_inverse.xx"; "epsilon_inverse.xy"; "epsilon_inverse.xz"; "epsilon_inverse.yy"; "epsilon_inverse.yz"; "epsilon_inverse.zz"]%string.
(** 567-716: everything written.  Names longer than the buffers at 693 are not modelled; nothing
    written to the input file is read again, as all names written there end in -new. *)
Definition handle_file (o : options) (junk : Z -> R) (lattice bloch copies : attr) (f : datasets) (data_name : option string) (m : memo)
  : outcome (list (string * dset) * memo) :=
  let! st := prepare o lattice bloch copies in
  let names := match data_name with Some EmptyString | None => datanames | Some d => [d] end in
  let! (w, m) := foldM (fun d w =>
    let! (w1, m) := handle_dataset st junk f d None (snd w) in
    let! (w2, m) := handle_dataset st junk f (append d ".r") (Some (append d ".i")) m in
    Val (fst w ++ w1 ++ w2, m)) names ([], m) in
  let! (w', m) := handle_cvector_dataset st junk f m in
  Val (w ++ w', m).
(** 779-788, 871-874: the default options with a phase angle; scaleby starts as 1. *)
Definition phase_scale (angle : R) : C := ((1, 0)%R * (cos (2 * PI * angle / 360), sin (2 * PI * angle / 360))%R)%C.
Definition default_options : options :=
  {| o_rect := false; o_ve := None; o_res := 0; o_scale := phase_scale 0; o_mult := (1, 1, 1)%R; o_near := false; o_trans := false; o_same := false |}.
