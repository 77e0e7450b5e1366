(** The lattice matrices, and the group velocity of one band along a direction and as a vector. *)
From Coq Require Import List ZArith Reals Bool.
From Verif Require Import Base RC M_Tensor M_Evect M_Grid M_Op M_Gv.
Import ListNotations.
Local Open Scope Z_scope.

(** libctl's matrix3x3 (three columns), matrix3x3_vector3_mult, matrix3x3_transpose and
    unit_vector3, as used at mpb.c 968, 998-1005 and 1013; libctl is not part of /repo, the
    functions are modelled after its documentation.  unit_vector3 leaves the zero vector alone. *)
Definition matrix3x3 := (vec * vec * vec)%type.
Definition matrix3x3_vector3_mult (m : matrix3x3) (v : vec) : vec :=
  let '((a0, a1, a2), (b0, b1, b2), (c0, c1, c2)) := m in let '(x, y, z) := v in
  (a0 * x + b0 * y + c0 * z, a1 * x + b1 * y + c1 * z, a2 * x + b2 * y + c2 * z)%R.
Definition matrix3x3_transpose (m : matrix3x3) : matrix3x3 :=
  let '((a0, a1, a2), (b0, b1, b2), (c0, c1, c2)) := m in ((a0, b0, c0), (a1, b1, c1), (a2, b2, c2)).
Definition unit_vector3 (v : vec) : outcome vec :=
  let '(x, y, z) := v in let n := sqrt (x * x + y * y + z * z) in
  if Reqb n 0 then Val v else let! s := fdiv 1 n in Val (x * s, y * s, z * s)%R.
(** libctl's matrix3x3_inverse: cofactors over the determinant; it stops the program if the
    determinant is zero. *)
Definition matrix3x3_determinant (m : matrix3x3) : R :=
  let '((a0, a1, a2), (b0, b1, b2), (c0, c1, c2)) := m in
  (a0 * b1 * c2 + b0 * c1 * a2 + c0 * a1 * b2 - a2 * b1 * c0 - b2 * c1 * a0 - c2 * a1 * b0)%R.
Definition matrix3x3_inverse (m : matrix3x3) : outcome matrix3x3 :=
  let '((a0, a1, a2), (b0, b1, b2), (c0, c1, c2)) := m in
  let det := matrix3x3_determinant m in
  if Reqb det 0 then Abort else
  let! s := fdiv 1 det in
  Val (vscale s (b1 * c2 - c1 * b2, c1 * a2 - a1 * c2, a1 * b2 - b1 * a2)%R,
       vscale s (c0 * b2 - b0 * c2, a0 * c2 - a2 * c0, b0 * a2 - a0 * b2)%R,
       vscale s (b0 * c1 - c0 * b1, c0 * a1 - a0 * c1, a0 * b1 - b0 * a1)%R).

(** medium.c 152-165: the lattice vectors, the basis vectors scaled by the sizes, 1 in the
    directions without size or beyond the dimensions; [infinity] the variable of that name. *)
Definition lattice_vectors (infinity : R) (dimensions : Z) (size : vec) (basis : matrix3x3) : outcome matrix3x3 :=
  let! no_size := fdiv 2 infinity in
  let '(sx, sy, sz) := size in let '(c0, c1, c2) := basis in
  let no_size_x := Rleb sx no_size in
  let no_size_y := Rleb sy no_size || (dimensions <? 2) in
  let no_size_z := Rleb sz no_size || (dimensions <? 3) in
  Val (vscale (if no_size_x then 1 else sx)%R c0, vscale (if no_size_y then 1 else sy)%R c1, vscale (if no_size_z then 1 else sz)%R c2).
(** medium.c 173. *)
Definition reciprocal_vectors (Rm : matrix3x3) : outcome matrix3x3 := matrix3x3_inverse (matrix3x3_transpose Rm).

(** What the functions below use of the state (mpb.c 241-254 and statics): the Maxwell data if
    init-params has been called, kpoint_index, nwork_alloc, negative_epsilon_okp, the
    frequencies, the eigenvectors and the lattice matrices. *)
Record vstate := { v_mdata : option mdata; v_kindex : Z; v_nwork : Z; v_neg : bool; v_freqs : list R; v_H : emat C; v_Rm : matrix3x3; v_Gm : matrix3x3 }.
(** The work matrices W[0] and W[1] and the scratch array of one call.  What one call leaves in
    them for the next is not modelled: they are given for each call. *)
Definition work := (emat C * emat C * list C)%type.

(** mpb.c 950-992.  Without Maxwell data or a solved k point the value of the uninitialised
    variable group_v is returned (954-965): [UB].  The field kept in curfield (which is reset)
    is not modelled. *)
Definition compute_1_group_velocity_component (s : vstate) (wk : work) (dir : vec) (b : Z) : option (outcome R) :=
  match v_mdata s with
  | None => Some UB
  | Some d =>
      if v_kindex s =? 0 then Some UB else
      match unit_vector3 (matrix3x3_vector3_mult (v_Gm s) dir) with
      | Val u => if v_nwork s <=? 1 then Some Abort else let '(W0, W1, fft) := wk in group_velocity_1 (v_neg s) u (v_freqs s) b d (v_H s) W0 W1 fft
      | Abort => Some Abort | UB => Some UB | NonFin => Some NonFin
      end
  end.

(** mpb.c 995-1007: along the three Cartesian axes, converted to the reciprocal basis. *)
Definition obind {A B} (x : option (outcome A)) (f : A -> option (outcome B)) : option (outcome B) :=
  match x with Some (Val a) => f a | Some Abort => Some Abort | Some UB => Some UB | Some NonFin => Some NonFin | None => None end.
Definition compute_1_group_velocity (s : vstate) (wx wy wz : work) (b : Z) : option (outcome vec) :=
  let RmT := matrix3x3_transpose (v_Rm s) in
  obind (compute_1_group_velocity_component s wx (matrix3x3_vector3_mult RmT (1, 0, 0)%R) b) (fun x =>
  obind (compute_1_group_velocity_component s wy (matrix3x3_vector3_mult RmT (0, 1, 0)%R) b) (fun y =>
  obind (compute_1_group_velocity_component s wz (matrix3x3_vector3_mult RmT (0, 0, 1)%R) b) (fun z =>
  Some (Val (x, y, z))))).
(** mpb.c 1011-1015. *)
Definition compute_1_group_velocity_reciprocal (s : vstate) (wx wy wz : work) (b : Z) : option (outcome vec) :=
  obind (compute_1_group_velocity s wx wy wz b) (fun v => Some (Val (matrix3x3_vector3_mult (matrix3x3_transpose (v_Gm s)) v))).
