(** Vocabulary for the properties of transformed overlaps. *)
From Coq Require Import List ZArith Reals Bool.
From Verif Require Import Base RC M_Tensor S_Tensor M_Evect S_Evect M_Grid M_Op S_Op M_Fld S_Fld S_Interp M_Data.
Import ListNotations.
Local Open Scope Z_scope.

(** Element of a real matrix given by its columns, its action on a vector, its determinant. *)
Definition axis (v : vec) (a : nat) : R := let '(x, y, z) := v in match a with O => x | S O => y | _ => z end.
Definition elem (A : m33) (a b : nat) : R := let '(c0, c1, c2) := A in axis (match b with O => c0 | S O => c1 | _ => c2 end) a.
Definition act (A : m33) (v : vec) : vec :=
  let row a := rsum 3 (fun b => elem A a b * axis v b)%R in (row 0%nat, row 1%nat, row 2%nat).
Definition determinant (A : m33) : R :=
  let e := elem A in
  (e 0%nat 0%nat * (e 1%nat 1%nat * e 2%nat 2%nat - e 1%nat 2%nat * e 2%nat 1%nat) - e 0%nat 1%nat * (e 1%nat 0%nat * e 2%nat 2%nat - e 1%nat 2%nat * e 2%nat 0%nat) +
   e 0%nat 2%nat * (e 1%nat 0%nat * e 2%nat 1%nat - e 1%nat 1%nat * e 2%nat 0%nat))%R.
Definition plus3 (u v : vec) : vec := let '(x, y, z) := u in let '(a, b, c) := v in (x + a, y + b, z + c)%R.

(** The matrix in Cartesian coordinates: the columns of [basis] are the lattice directions. *)
Definition cartesian (basis W Wc : m33) : Prop := forall v, act Wc (act basis v) = act basis (act W v).
(** The matrix applied to a complex vector. *)
Definition turned (Wc : m33) (x : nat -> C) (a : nat) : C := csum 3 (fun b => (RtoC (elem Wc a b) * x b)%C).

(** A field and a medium on the whole grid. *)
Definition on_grid (d : mdata) (f : list C) : Prop :=
  stored d f /\ 1 <= d_nx d /\ 1 <= d_ny d /\ 1 <= d_nz d /\ d_out d = d_nx d * d_ny d * d_nz d.
(** Position of grid point number i; its translate by lattice vectors. *)
Definition spot (d : mdata) (size : vec) (i : nat) : vec :=
  let '(sx, sy, sz) := size in let j := Z.of_nat i in
  place sx sy sz (d_nx d) (d_ny d) (d_nz d) (j / (d_ny d * d_nz d)) ((j / d_nz d) mod d_ny d) (j mod d_nz d).
Definition spot_at (d : mdata) (size : vec) (i : nat) (m : Z * Z * Z) : vec :=
  let '(a, b, c) := m in move (spot d size i) size a b c.
(** Point i is the image under r -> W r + w of point sg i, up to a lattice vector. *)
Definition carries (d : mdata) (size : vec) (W : m33) (w : vec) (sg : nat -> nat) (m : nat -> Z * Z * Z) : Prop :=
  forall i, (i < Z.to_nat (d_out d))%nat -> (sg i < Z.to_nat (d_out d))%nat /\ plus3 (act W (spot_at d size (sg i) (m i))) w = spot d size i.
(** The Bloch phase between two points. *)
Definition phase_between (k size p q : vec) : C :=
  let phi := (2 * PI * rsum 3 (fun a => axis k a * (axis q a - axis p a) / axis size a))%R in (cos phi, sin phi).
(** Axial vectors change sign under improper operations. *)
Definition parity_of (t : ftype) (W : m33) : R := match t with FB => determinant W | _ => 1%R end.

(** < V F | op F >: the sum over the grid. *)
Definition overlap (t : ftype) (d : mdata) (size k : vec) (f : list C) (Wc : m33) (sg : nat -> nat) (m : nat -> Z * Z * Z) : C :=
  csum (Z.to_nat (d_out d)) (fun i =>
    (phase_between k size (spot d size i) (spot_at d size (sg i) (m i)) * form (medium t d i) (at_point f i) (turned Wc (at_point f (sg i))))%C).

(** W maps lattice vectors to lattice vectors. *)
Definition keeps_lattice (size : vec) (W : m33) : Prop :=
  forall a b c : Z, exists a' b' c' : Z, act W (move (0, 0, 0)%R size a b c) = move (0, 0, 0)%R size a' b' c'.
(** The medium is the same after the operation. *)
Definition keeps_medium (t : ftype) (d : mdata) (Wc : m33) (sg : nat -> nat) : Prop :=
  forall i x, (i < Z.to_nat (d_out d))%nat -> quad (medium t d i) (turned Wc x) = quad (medium t d (sg i)) x.

Definition unit_matrix : m33 := ((1, 0, 0), (0, 1, 0), (0, 0, 1))%R.

(** W maps the wave vector to itself up to a reciprocal lattice vector. *)
Definition keeps_k (size k : vec) (W : m33) : Prop :=
  forall a b c a' b' c' : Z, act W (move (0, 0, 0)%R size a b c) = move (0, 0, 0)%R size a' b' c' ->
  exists n : Z, (axis k 0 * IZR (a - a') + axis k 1 * IZR (b - b') + axis k 2 * IZR (c - c'))%R = IZR n.
(** Two operations undo each other. *)
Definition inverse_ops (W : m33) (w : vec) (W' : m33) (w' : vec) : Prop :=
  (forall v, act W (act W' v) = v) /\ (forall v, act W' (act W v) = v) /\ plus3 (act W' w) w' = (0, 0, 0)%R.

(** The matrix keeps lengths; a medium without preferred directions. *)
Definition isometry (Wc : m33) : Prop := forall v, rsum 3 (fun a => axis (act Wc v) a * axis (act Wc v) a)%R = rsum 3 (fun a => axis v a * axis v a)%R.
Definition isotropic (t : ftype) (d : mdata) (e : nat -> R) : Prop := forall i, (i < Z.to_nat (d_out d))%nat -> medium t d i = iso (e i).
