(** Model of the dielectric tensor and of stored fields at a point (mpb/fields.c), for builds with
    complex fields. *)
From Coq Require Import List ZArith Reals Bool.
From Verif Require Import Base RC M_Tensor M_Evect M_Grid M_Interp.
Import ListNotations.
Local Open Scope Z_scope.

(** symmetric_matrix (maxwell.h 45-68) read from memory: m00, m11, m22, m01, m02, m12. *)
Definition point_tensor : Type := R * R * R * C * C * C.
(** fields.c 657-675; [hermitian]: WITH_HERMITIAN_EPSILON, where the struct is m00, m11, m22 and then
    the complex m01, m02, m12; else m00, m01, m02, m11, m12, m22.  [data] is the array of structs as
    numbers. *)
Definition interp_eps_inv (hermitian : bool) (nx ny nz last_dim_size : Z) (data : list R) (size p : vec) : outcome point_tensor :=
  let stride := if hermitian then 9 else 6 in
  let v off := interp_val (get_val false nx ny nz last_dim_size (skipn off data) stride false) nx ny nz size p in
  let c off := interp_cval false nx ny nz last_dim_size data stride off size p in
  if hermitian then
    let! m00 := v 0%nat in let! m11 := v 1%nat in let! m22 := v 2%nat in
    let! m01 := c 3%nat in let! m02 := c 5%nat in let! m12 := c 7%nat in
    Val (m00, m11, m22, m01, m02, m12)
  else
    let! m00 := v 0%nat in let! m11 := v 3%nat in let! m22 := v 5%nat in
    let! m01 := v 1%nat in let! m02 := v 2%nat in let! m12 := v 4%nat in
    Val (m00, m11, m22, RtoC m01, RtoC m02, RtoC m12).
(** fields.c 684-700, with libctl's make_hermitian_cmatrix3x3 after its name: the rows. *)
Definition get_epsilon_inverse_tensor_point (hermitian : bool) (nx ny nz last_dim_size : Z) (data : list R) (size p : vec)
  : outcome ((C * C * C) * (C * C * C) * (C * C * C)) :=
  let! t := interp_eps_inv hermitian nx ny nz last_dim_size data size p in
  let '(m00, m11, m22, m01, m02, m12) := t in
  Val ((RtoC m00, m01, m02), (Cconj m01, RtoC m11, m12), (Cconj m02, Cconj m12, RtoC m22)).

(** A stored vector field (field-smob.h 32-43): its numbers and whether its type is 'v'.  The Bloch
    vector is not stored.  A copy made by field-copy (mpb.scm.in 274, field-smob.c 284-309) has the same
    numbers and type. *)
Record vfield := { vf_data : list R; vf_v : bool }.
(** fields.c 804-832; [k] is cur_kvector. *)
Definition cvector_field_get_point (nx ny nz last_dim_size : Z) (k size : vec) (f : vfield) (p : vec) : outcome (C * C * C) :=
  get_field_point (vf_v f) false nx ny nz last_dim_size (vf_data f) k size p.
(** fields.c 788-802. *)
Definition cvector_field_get_point_bloch (nx ny nz last_dim_size : Z) (size : vec) (f : vfield) (p : vec) : outcome (C * C * C) :=
  get_bloch_field_point false nx ny nz last_dim_size (vf_data f) size p.
(** A script that stores the field of one k point, solves another ([ks], the last one counts) and asks
    for the value of the stored one: solve-kpoint sets cur_kvector (mpb.c 630). *)
Definition stored_then_point (nx ny nz last_dim_size : Z) (k : vec) (ks : list vec) (size : vec) (f : vfield) (p : vec) : outcome (C * C * C) :=
  cvector_field_get_point nx ny nz last_dim_size (last ks k) size f p.

(** fields.c 677-682, 215-222: [eigs] gives the eigenvalues of a tensor in ascending order
    (maxwell_sym_matrix_eigs, by LAPACK). *)
Definition get_epsilon_point (eigs : point_tensor -> R * R * R) (hermitian : bool) (nx ny nz last_dim_size : Z) (data : list R) (size p : vec) : outcome R :=
  let! t := interp_eps_inv hermitian nx ny nz last_dim_size data size p in
  let '(e0, e1, _) := eigs t in fdiv 2 (e0 + e1).
(** fields.c 750-778, 834-862: complex scalar fields; [C_type]: the field's type is 'C', which the
    functions for the current field demand and those for a stored field test. *)
Definition cscalar_point_bloch (nx ny nz last_dim_size : Z) (data : list R) (size p : vec) : outcome C :=
  interp_cval false nx ny nz last_dim_size data 2 0 size p.
Definition cscalar_point (C_type : bool) (nx ny nz last_dim_size : Z) (data : list R) (k size p : vec) : outcome C :=
  let! s := cscalar_point_bloch nx ny nz last_dim_size data size p in
  if C_type then let! ph := bloch_phase k size p in Val (Cmul s ph) else Val s.
