(** Model of the 3x3 tensor routines of src/maxwell/maxwell_eps.c and of the
    Kottke averaging used there and in mpb/epsilon.c.  Exact real arithmetic;
    a real division by zero is the outcome [NonFin]. *)
From Coq Require Import Reals List Bool ZArith.
From Verif Require Import Base RC.
Import ListNotations.
Local Open Scope R_scope.

(** symmetric_matrix with WITH_HERMITIAN_EPSILON, src/maxwell/maxwell.h 44-49:
    upper triangle of a Hermitian matrix. *)
Record sym := mkSym { m00 : R; m11 : R; m22 : R; m01 : C; m02 : C; m12 : C }.

(** symmetric_matrix without WITH_HERMITIAN_EPSILON, maxwell.h 56-59. *)
Record rsym := mkRsym { r00 : R; r11 : R; r22 : R; r01 : R; r02 : R; r12 : R }.

(** maxwell_sym_matrix_invert, Hermitian build, maxwell_eps.c 76-123.  The C
    function copies all six entries of V to locals first (79-82), so storing
    over the input is the same as storing elsewhere; the model is a function
    of those locals. *)
Definition invert (V : sym) : outcome sym :=
  let '(mkSym a b c x y z) := V in          (* m00 m11 m22 m01 m02 m12 *)
  if Reqb (re x) 0 && Reqb (im x) 0 && Reqb (re y) 0 && Reqb (im y) 0 &&
     Reqb (re z) 0 && Reqb (im z) 0
  then (* 84-94 *)
    let! i0 := fdiv 1 a in
    let! i1 := fdiv 1 b in
    let! i2 := fdiv 1 c in
    Val (mkSym i0 i1 i2 C0 C0 C0)
  else (* 96-122 *)
    let det := a*b*c - b * normsqr y - normsqr x * c - normsqr z * a +
               2 * ((re x * re z - im x * im z) * re y +
                    (re x * im z + im x * re z) * im y) in
    let! _ := check (negb (Reqb det 0)) in
    let! d := fdiv 1 det in
    Val (mkSym (d * (b*c - normsqr z)) (d * (a*c - normsqr y)) (d * (b*a - normsqr x))
           (d * (re z * re y + im z * im y - c * re x),
            - d * (im z * re y - re z * im y + c * im x))
           (d * (re x * re z - im x * im z - b * re y),
            - d * (- re x * im z - im x * re z + b * im y))
           (d * (re x * re y + im x * im y - a * re z),
            - d * (im x * re y - re x * im y + a * im z))).

(** The same routine in the real build, maxwell_eps.c 125-154. *)
Definition rinvert (V : rsym) : outcome rsym :=
  let '(mkRsym a b c x y z) := V in
  if Reqb x 0 && Reqb y 0 && Reqb z 0
  then (* 128-134 *)
    let! i0 := fdiv 1 a in
    let! i1 := fdiv 1 b in
    let! i2 := fdiv 1 c in
    Val (mkRsym i0 i1 i2 0 0 0)
  else (* 136-152 *)
    let det := a*b*c - y*b*y + 2*x*z*y - x*x*c - z*z*a in
    let! _ := check (negb (Reqb det 0)) in
    let! d := fdiv 1 det in
    Val (mkRsym (d * (b*c - z*z)) (d * (a*c - y*y)) (d * (b*a - x*x))
           (d * (z*y - x*c)) (d * (x*z - b*y)) (d * (x*y - a*z))).

(** maxwell_sym_matrix_positive_definite, maxwell_eps.c 158-178 (Hermitian build). *)
Definition positive_definite (V : sym) : bool :=
  let '(mkSym a b c x y z) := V in
  let det2 := a*b - normsqr x in
  let det3 := det2*c - b * normsqr y - normsqr z * a +
              2 * ((re x * re z - im x * im z) * re y +
                   (re x * im z + im x * re z) * im y) in
  Rltb 0 a && Rltb 0 det2 && Rltb 0 det3.

(** The same test in the real build, maxwell_eps.c 170-177. *)
Definition rpositive_definite (V : rsym) : bool :=
  let '(mkRsym a b c x y z) := V in
  let det2 := a*b - x*x in
  let det3 := det2*c - y*b*y + 2*x*z*y - z*z*a in
  Rltb 0 a && Rltb 0 det2 && Rltb 0 det3.

(** double [3][3]; only indices 0..2 are ever used. *)
Definition mat3 := nat -> nat -> R.

(** AR[i][j] = A[i][0]*R[0][j] + ..., maxwell_eps.c 209-210 and 224-225. *)
Definition mulAR (A Rt : mat3) : mat3 :=
  fun i j => A i 0%nat * Rt 0%nat j + A i 1%nat * Rt 1%nat j + A i 2%nat * Rt 2%nat j.
(** A[i][j] = R[0][i]*AR[0][j] + ..., maxwell_eps.c 211-212 and 226-227; the C
    loop fills only j >= i, the only entries read afterwards. *)
Definition mulRtA (Rt AR : mat3) : mat3 :=
  fun i j => Rt 0%nat i * AR 0%nat j + Rt 1%nat i * AR 1%nat j + Rt 2%nat i * AR 2%nat j.

(** Real parts as a symmetric array, maxwell_eps.c 203-208. *)
Definition re_arr (A : sym) : mat3 := fun i j =>
  match i, j with
  | O, O => m00 A | S O, S O => m11 A | S (S O), S (S O) => m22 A
  | O, S O => re (m01 A) | S O, O => re (m01 A)
  | O, S (S O) => re (m02 A) | S (S O), O => re (m02 A)
  | S O, S (S O) => re (m12 A) | S (S O), S O => re (m12 A)
  | _, _ => 0
  end.
(** Imaginary parts as an antisymmetric array, maxwell_eps.c 220-223. *)
Definition im_arr (A : sym) : mat3 := fun i j =>
  match i, j with
  | O, S O => im (m01 A) | S O, O => - im (m01 A)
  | O, S (S O) => im (m02 A) | S (S O), O => - im (m02 A)
  | S O, S (S O) => im (m12 A) | S (S O), S O => - im (m12 A)
  | _, _ => 0
  end.

(** maxwell_sym_matrix_rotate, maxwell_eps.c 197-232.  When RAR = A_ (calls at
    maxwell_eps.c 758, epsilon.c 341, 342, 396) the real parts are stored before
    the imaginary parts of A_ are read; the two sets of fields are disjoint, so the
    result is the same function of the old A_. *)
Definition rotate (A : sym) (Rt : mat3) : sym :=
  let B := mulRtA Rt (mulAR (re_arr A) Rt) in
  let D := mulRtA Rt (mulAR (im_arr A) Rt) in
  mkSym (B 0 0)%nat (B 1 1)%nat (B 2 2)%nat
        ((B 0 1)%nat, (D 0 1)%nat) ((B 0 2)%nat, (D 0 2)%nat) ((B 1 2)%nat, (D 1 2)%nat).

(** maxwell_rotation_matrix, maxwell_eps.c 236-262.  The outcome is [NonFin] if the
    normalization divides by zero. *)
Definition rotation_matrix (n0 n1 n2 : R) : outcome mat3 :=
  let '(c0, c1, c2) :=
    if Rltb (1/100) (Rabs n0) || Rltb (1/100) (Rabs n1)
    then (n1, - n0, 0) else (0, - n2, n1) in
  let! s := fdiv 1 (sqrt (c0*c0 + c1*c1 + c2*c2)) in
  let c0 := c0 * s in let c1 := c1 * s in let c2 := c2 * s in
  Val (fun i j =>
    match i, j with
    | O, O => n0 | S O, O => n1 | S (S O), O => n2
    | O, S (S O) => c0 | S O, S (S O) => c1 | S (S O), S (S O) => c2
    | O, S O => c1 * n2 - c2 * n1
    | S O, S O => c2 * n0 - c0 * n2
    | S (S O), S O => c0 * n1 - c1 * n0
    | _, _ => 0
    end).

(** SWAP of the off-diagonal entries, maxwell_eps.c 754-757, epsilon.c 391-395. *)
Definition transpose3 (Rt : mat3) : mat3 := fun i j => Rt j i.

(** One term of the tau integrand, maxwell_eps.c 698-713; the EXPR macros of
    epsilon.c 346-376. *)
Definition tau_of (e : sym) : outcome sym :=
  let '(mkSym a b c x y z) := e in
  let! t00 := fdiv (-1) a in
  let! q1 := fdiv (normsqr x) a in
  let! q2 := fdiv (normsqr y) a in
  let! xr := fdiv (re x) a in
  let! xi := fdiv (im x) a in
  let! yr := fdiv (re y) a in
  let! yi := fdiv (im y) a in
  let! zr := fdiv (re y * re x + im y * im x) a in      (* CSCALAR_MULT_CONJ_RE(m02,m01) *)
  let! zi := fdiv (im y * re x - re y * im x) a in      (* CSCALAR_MULT_CONJ_IM(m02,m01) *)
  Val (mkSym t00 (b - q1) (c - q2) (xr, xi) (yr, yi) (re z - zr, im z - zi)).

(** The inverse transform, maxwell_eps.c 741-751, epsilon.c 378-389. *)
Definition tau_inv (t : sym) : outcome sym :=
  let '(mkSym a b c x y z) := t in
  let! e00 := fdiv (-1) a in
  let! q1 := fdiv (normsqr x) a in
  let! q2 := fdiv (normsqr y) a in
  let! xr := fdiv (- re x) a in
  let! xi := fdiv (- im x) a in
  let! yr := fdiv (- re y) a in
  let! yi := fdiv (- im y) a in
  let! zr := fdiv (re y * re x + im y * im x) a in
  let! zi := fdiv (im y * re x - re y * im x) a in
  Val (mkSym e00 (b - q1) (c - q2) (xr, xi) (yr, yi) (re z - zr, im z - zi)).

(** All entries zero, maxwell_eps.c 680-683, 412-415. *)
Definition sym0 : sym := mkSym 0 0 0 C0 C0 C0.
(** Entrywise accumulation, maxwell_eps.c 698-712, 427-432. *)
Definition sym_add (A B : sym) : sym :=
  mkSym (m00 A + m00 B) (m11 A + m11 B) (m22 A + m22 B)
        (m01 A + m01 B)%C (m02 A + m02 B)%C (m12 A + m12 B)%C.
(** Entrywise scaling, maxwell_eps.c 719-733, 438-454 (there the off-diagonal
    entries are skipped only when all are zero, which changes nothing). *)
Definition sym_scale (s : R) (A : sym) : sym :=
  mkSym (m00 A * s) (m11 A * s) (m22 A * s)
        (re (m01 A) * s, im (m01 A) * s) (re (m02 A) * s, im (m02 A) * s)
        (re (m12 A) * s, im (m12 A) * s).

(** Accumulation over the voxel mesh, maxwell_eps.c 684-716: the list holds the
    values eps of the dielectric function at the mesh points in loop order. *)
Fixpoint tau_sum (Rt : mat3) (acc : sym) (samples : list sym) : outcome sym :=
  match samples with
  | [] => Val acc
  | e :: l =>
      let! t := tau_of (rotate e Rt) in
      tau_sum Rt (sym_add acc t) l
  end.

(** Kottke branch for one voxel, maxwell_eps.c 672-762: samples, 1/mesh_prod and the
    (nonzero) unnormalized normal; result is the stored inverse tensor. *)
Definition kottke (samples : list sym) (mesh_prod_inv : R) (norm0 norm1 norm2 : R) : outcome sym :=
  let! nl := fdiv 1 (sqrt (norm0*norm0 + norm1*norm1 + norm2*norm2)) in
  let! Rt := rotation_matrix (norm0 * nl) (norm1 * nl) (norm2 * nl) in
  let! tau := tau_sum Rt sym0 samples in
  let! em := tau_inv (sym_scale mesh_prod_inv tau) in
  invert (rotate em (transpose3 Rt)).

(** average_eps_inv_over_mesh, maxwell_eps.c 402-458; the list holds the eps_inv
    values in loop order. *)
Definition average_eps_inv (samples_inv : list sym) (mesh_prod_inv : R) : sym :=
  sym_scale mesh_prod_inv (fold_left sym_add samples_inv sym0).

(** Two-material analytic averaging of mean_epsilon_func, epsilon.c 319-404, given
    both tensors, the fill fraction of the first and the Cartesian normal n0,n1,n2
    before normalization; [None] is the return value 0 (331-332). *)
Definition mean_eps_two (e1 e2 : sym) (fill n0 n1 n2 : R) : outcome (option sym) :=
  let norm := sqrt (n0*n0 + n1*n1 + n2*n2) in
  if Reqb norm 0 then Val None
  else
    let! ni := fdiv 1 norm in
    let! Rt := rotation_matrix (n0 * ni) (n1 * ni) (n2 * ni) in
    let! t1 := tau_of (rotate e1 Rt) in
    let! t2 := tau_of (rotate e2 Rt) in
    let avg x y := fill * x + (1 - fill) * y in
    let delta := mkSym (avg (m00 t1) (m00 t2)) (avg (m11 t1) (m11 t2)) (avg (m22 t1) (m22 t2))
                   (avg (re (m01 t1)) (re (m01 t2)), avg (im (m01 t1)) (im (m01 t2)))
                   (avg (re (m02 t1)) (re (m02 t2)), avg (im (m02 t1)) (im (m02 t2)))
                   (avg (re (m12 t1)) (re (m12 t2)), avg (im (m12 t1)) (im (m12 t2))) in
    let! me := tau_inv delta in
    Val (Some (rotate me (transpose3 Rt))).

(** SMALL, maxwell_eps.c 296. *)
Definition SMALL : R := / 1000000.

(** real r[3]. *)
Definition vec : Type := (R * R * R)%type.

(** The dielectric function epsilon(&eps, &eps_inv, r, data): a function of the
    position (user code; assumed to be deterministic). *)
Definition eps_fun := vec -> sym * sym.

(** The analytic averaging callback mepsilon at a voxel: NULL or a return value of
    0 is [MeanNone]; otherwise it delivers eps_mean. *)
Inductive mean_result := MeanNone | MeanTensor (e : sym).

(** get_mesh, maxwell_eps.c 312-322: sizes below one count as one in the product
    and the centre. *)
Definition mesh_prod (ms : Z * Z * Z) : Z :=
  let '(a, b, c) := ms in (Z.max a 1 * Z.max b 1 * Z.max c 1)%Z.
Definition mesh_center (m : Z) : R := IZR (Z.max m 1 - 1) * (1/2).

(** 0, 1, ..., n-1 for a loop [for (i = 0; i < n; ++i)]. *)
Definition zrange (n : Z) : list Z := map Z.of_nat (seq 0 (Z.to_nat n)).

(** Mesh points of a voxel in loop order, maxwell_eps.c 418-425 and 684-691.  The
    loops run over the raw sizes, not over MAX2(size,1); [s] are the grid steps. *)
Definition mesh_points (ms : Z * Z * Z) (s r : vec) : list vec :=
  let '(a, b, c) := ms in
  let '(s1, s2, s3) := s in
  let '(x, y, z) := r in
  let m1 := s1 / IZR (Z.max 1 a) in            (* 570-572 *)
  let m2 := s2 / IZR (Z.max 1 b) in
  let m3 := s3 / IZR (Z.max 1 c) in
  flat_map (fun i => flat_map (fun j => map (fun k =>
      (x + (IZR i - mesh_center a) * m1,
       y + (IZR j - mesh_center b) * m2,
       z + (IZR k - mesh_center c) * m3)) (zrange c)) (zrange b)) (zrange a).

(** int rank = n3 > 1 ? 3 : (n2 > 1 ? 2 : 1), maxwell_eps.c 554. *)
Definition rank_of (n : Z * Z * Z) : nat :=
  let '(n1, n2, n3) := n in if (1 <? n3)%Z then 3 else if (1 <? n2)%Z then 2 else 1.

(** Corner offsets by rank, maxwell_eps.c 472-479. *)
Definition corners (rank : nat) : list vec :=
  let h := 1/2 in
  match rank with
  | 3%nat => [(h,h,h); (h,h,-h); (h,-h,h); (h,-h,-h); (-h,h,h); (-h,h,-h); (-h,-h,h); (-h,-h,-h)]
  | 2%nat => [(-h,-h,0); (h,h,0); (-h,h,0); (h,-h,0)]
  | _ => [(-h,0,0); (h,0,0)]
  end.

(** fabs(a - b) > SMALL. *)
Definition differs (a b : R) : bool := Rltb SMALL (Rabs (a - b)).
(** Comparison of two tensors, maxwell_eps.c 492-506. *)
Definition tensor_differs (e c : sym) : bool :=
  differs (m00 e) (m00 c) || differs (m11 e) (m11 c) || differs (m22 e) (m22 c) ||
  differs (re (m01 e)) (re (m01 c)) || differs (im (m01 e)) (im (m01 c)) ||
  differs (re (m02 e)) (re (m02 c)) || differs (im (m02 e)) (im (m02 c)) ||
  differs (re (m12 e)) (re (m12 c)) || differs (im (m12 e)) (im (m12 c)).

(** detect_interface_via_corner_check, maxwell_eps.c 465-512. *)
Definition detect_interface (r : vec) (epsilon : eps_fun) (rank : nat) (s : vec) : bool :=
  let '(x, y, z) := r in
  let '(s1, s2, s3) := s in
  let e := fst (epsilon r) in
  existsb (fun c => let '(cx, cy, cz) := c in
             tensor_differs e (fst (epsilon (x + cx * s1, y + cy * s2, z + cz * s3))))
          (corners rank).

(** First moment of the trace over the spherical mesh in lattice coordinates, then in
    Cartesian coordinates, maxwell_eps.c 632-651; the list holds (moment_mesh[i],
    moment_mesh_weights[i]), [Rl] the lattice vectors as rows. *)
Definition moment (mm : list (vec * R)) (Rl : mat3) (epsilon : eps_fun) (r : vec) : vec :=
  let '(x, y, z) := r in
  let '(o0, o1, o2) :=
    fold_left (fun acc p =>
      let '(a0, a1, a2) := acc in
      let '((p0, p1, p2), w) := p in
      let e := fst (epsilon (x + p0, y + p1, z + p2)) in
      let tr := (m00 e + m11 e + m22 e) * w in
      (a0 + tr * p0, a1 + tr * p1, a2 + tr * p2)) mm (0, 0, 0) in
  (Rl 0%nat 0%nat * o0 + Rl 1%nat 0%nat * o1 + Rl 2%nat 0%nat * o2,
   Rl 0%nat 1%nat * o0 + Rl 1%nat 1%nat * o1 + Rl 2%nat 1%nat * o2,
   Rl 0%nat 2%nat * o0 + Rl 1%nat 2%nat * o1 + Rl 2%nat 2%nat * o2).

(** One iteration of the voxel loop, maxwell_eps.c 577-776; [i] is the grid point. *)
Definition voxel_eps_inv (ms n : Z * Z * Z) (mm : list (vec * R)) (Rl : mat3)
    (epsilon : eps_fun) (mepsilon : vec -> mean_result) (i : Z * Z * Z) : outcome sym :=
  let '(n1, n2, n3) := n in
  let '(i1, i2, i3) := i in
  let s := (1 / IZR n1, 1 / IZR n2, 1 / IZR n3) in                       (* 567-569 *)
  let r := (IZR i1 * fst (fst s), IZR i2 * snd (fst s), IZR i3 * snd s) in (* 584-586 *)
  if (mesh_prod ms =? 1)%Z then Val (snd (epsilon r))                    (* 588-592 *)
  else match mepsilon r with
  | MeanTensor e => invert e                                             (* 594-600 *)
  | MeanNone =>
      let inv := 1 / IZR (mesh_prod ms) in                               (* 565 *)
      if detect_interface r epsilon (rank_of n) s then
        let '(v0, v1, v2) := moment mm Rl epsilon r in
        let pts := mesh_points ms s r in
        if Rltb SMALL (sqrt (v0*v0 + v1*v1 + v2*v2))                     (* 653, 657 *)
        then kottke (map (fun q => fst (epsilon q)) pts) inv v0 v1 v2
        else Val (average_eps_inv (map (fun q => snd (epsilon q)) pts) inv) (* 766-770 *)
      else Val (snd (epsilon r))                                         (* 771-774 *)
  end.

(** check_maxwell_dielectric, maxwell_eps.c 266-291: 0 ok, 1 not positive definite,
    2 not two-dimensional. *)
Fixpoint check_dielectric (negative_ok require_2d : bool) (eps_inv : list sym) : nat :=
  match eps_inv with
  | [] => 0
  | e :: l =>
      if negb negative_ok && negb (positive_definite e) then 1%nat
      else if require_2d && (negb (Reqb (re (m02 e)) 0) || negb (Reqb (im (m02 e)) 0) ||
                             negb (Reqb (re (m12 e)) 0) || negb (Reqb (im (m12 e)) 0))
      then 2%nat
      else check_dielectric negative_ok require_2d l
  end.

(** set_maxwell_dielectric, maxwell_eps.c 538-781, without the mean of the traces
    (778-787): the tensors for the given grid points, in loop order. *)
Fixpoint set_dielectric (ms n : Z * Z * Z) (mm : list (vec * R)) (Rl : mat3)
    (epsilon : eps_fun) (mepsilon : vec -> mean_result) (pts : list (Z * Z * Z)) : outcome (list sym) :=
  match pts with
  | [] => Val []
  | i :: l =>
      let! e := voxel_eps_inv ms n mm Rl epsilon mepsilon i in
      let! t := set_dielectric ms n mm Rl epsilon mepsilon l in
      Val (e :: t)
  end.
