(** Model of mpb/transform.c: overlaps of a field with its transform under a symmetry operation.
    One process and complex fields, as the code requires (65, 77). *)
From Coq Require Import List ZArith Reals Bool.
From Verif Require Import Base RC M_Tensor M_Evect M_Grid M_Op M_Fld M_Interp M_Data.
Import ListNotations.
Local Open Scope Z_scope.

(** libctl's matrix3x3_determinant, taken as the mathematical function (97). *)
Definition m_det (m : m33) : R := let '(c0, c1, c2) := m in v_dot c0 (v_cross c1 c2).

(** 93-95 and 124-126 are the positions of [grid_point]. *)

(** 137-142: a real matrix applied to a complex vector. *)
Definition turn_vector (Wc : m33) (F : cvec) : cvec :=
  let '((a0, a1, a2), (b0, b1, b2), (c0, c1, c2)) := Wc in let '(x, y, z) := F in
  let f (p q r : R) : C := (p * re x + q * re y + r * re z, p * im x + q * im y + r * im z)%R in
  (f a0 b0 c0, f a1 b1 c1, f a2 b2 c2).

(** 162-164. *)
Definition cinner (F G : cvec) : C :=
  let '(a, b, c) := F in let '(x, y, z) := G in (Cconj a * x + Cconj b * y + Cconj c * z)%C.

(** 118-174, one point of the grid; [k] is kvector after 113-115. *)
Definition overlap_point (t : ftype) (d : mdata) (size : vec) (k : vec) (f : list C) (invW Wc : m33) (w : vec) (pt4 : Z * Z * Z * Z) (integral : C) : outcome C :=
  let '(i1, i2, i3, idx) := pt4 in let '(sx, sy, sz) := size in
  let! p := grid_point sx sy sz (d_nx d) (d_ny d) (d_nz d) i1 i2 i3 in
  let pt := m_vec invW (v_minus p w) in
  let! Ftemp := get_bloch_field_point false (d_nx d) (d_ny d) (d_nz d) (d_last_size d) (flat f) size pt in
  let Ft := turn_vector Wc Ftemp in
  let! v := rd3 f (3 * idx) in
  let! F := (match t, d_mu_inv d with
    | FD, _ => let! e := rd (d_eps_inv d) idx in Val (assign_symmatrix_vector e v)
    | FB, Some mu => let! m := rd mu idx in Val (assign_symmatrix_vector m v)
    | _, _ => Val v
    end) in
  let integrand := cinner F Ft in
  let deltaphi := v_dot k (v_minus pt p) in
  Val (integral + integrand * (cos deltaphi, sin deltaphi))%C.

(** 50-188 after the test for a field; messages on stderr are not modelled, the value returned with
    them, 0, is.  [size] and [basis] belong to geometry_lattice, [k] is cur_kvector, [HN] is H.N. *)
Definition transformed_overlap (t : ftype) (d : mdata) (size : vec) (basis : m33) (k : vec) (Vol HN : R) (f : list C) (W : m33) (w : vec) : outcome C :=
  match t with
  | FOther => Val C0
  | _ =>
      let detW := m_det W in
      if Rltb (1 / 1000000000000) (Rabs (Rabs detW - 1)) then Val C0 else
      let! invW := m_inverse W in
      let! ib := m_inverse basis in
      let Wc := m_mult (m_mult basis W) ib in
      let '(k0, k1, k2) := k in let '(sx, sy, sz) := size in
      let! t0 := fdiv (2 * PI) sx in let! t1 := fdiv (2 * PI) sy in let! t2 := fdiv (2 * PI) sz in
      let! integral := run (overlap_point t d size (k0 * t0, k1 * t1, k2 * t2)%R f invW Wc w) (loop_complex (d_nx d) (d_ny d) (d_nz d)) C0 in
      let! q := fdiv Vol HN in
      let integral := (re integral * q, im integral * q)%R in
      Val (match t with FB => (re integral * detW, im integral * detW)%R | _ => integral end)
  end.

(** 190-197: the overlap of the B field of a band. *)
Definition compute_symmetry (d : mdata) (size : vec) (basis : m33) (k : vec) (Vol HN : R) (H : emat C) (band : Z) (fft : list C) (W : m33) (w : vec) : outcome C :=
  let! f := get_bfield d Vol H band fft in
  transformed_overlap FB d size basis k Vol HN f W w.
