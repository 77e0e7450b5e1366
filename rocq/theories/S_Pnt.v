(** Vocabulary for tensors at a point. *)
From Coq Require Import List ZArith Reals.
From Verif Require Import Base RC M_Tensor M_Interp S_Interp M_Pnt.
Import ListNotations.
Local Open Scope R_scope.

(** Hermitian tensors as six entries: number [o] of the tensor at a grid point, the tensor there. *)
Definition entry (ny nz stride : Z) (data : list R) (o i j k : Z) : R := getr data (((i * ny + j) * nz + k) * stride + o)%Z.
Definition tensor_at (hermitian : bool) (ny nz : Z) (data : list R) (i j k : Z) : point_tensor :=
  if hermitian then
    let e o := entry ny nz 9 data o i j k in (e 0%Z, e 1%Z, e 2%Z, (e 3%Z, e 4%Z), (e 5%Z, e 6%Z), (e 7%Z, e 8%Z))
  else let e o := entry ny nz 6 data o i j k in (e 0%Z, e 3%Z, e 5%Z, RtoC (e 1%Z), RtoC (e 2%Z), RtoC (e 4%Z)).
Definition tensors_stored (hermitian : bool) (nx ny nz : Z) (data : list R) : Prop :=
  (0 < nx /\ 0 < ny /\ 0 < nz /\ Z.of_nat (length data) = nx * ny * nz * (if hermitian then 9 else 6))%Z.
(** v^+ t v, a real number; |v|^2. *)
Definition tquad (t : point_tensor) (v : C * C * C) : R :=
  let '(m00, m11, m22, m01, m02, m12) := t in let '(a, b, c) := v in
  m00 * normsqr a + m11 * normsqr b + m22 * normsqr c
  + 2 * (re (Cconj a * (m01 * b))%C + re (Cconj a * (m02 * c))%C + re (Cconj b * (m12 * c))%C).
Definition vnorm2 (v : C * C * C) : R := let '(a, b, c) := v in normsqr a + normsqr b + normsqr c.
(** The same for a full matrix of rows. *)
Definition rdot (r v : C * C * C) : C := let '(x, y, z) := r in let '(a, b, c) := v in (x * a + y * b + z * c)%C.
Definition mquad (m : (C * C * C) * (C * C * C) * (C * C * C)) (v : C * C * C) : C :=
  let '(r0, r1, r2) := m in let '(a, b, c) := v in (Cconj a * rdot r0 v + Cconj b * rdot r1 v + Cconj c * rdot r2 v)%C.
Definition hermitian33 (m : (C * C * C) * (C * C * C) * (C * C * C)) : Prop :=
  let '((m00, m01, m02), (m10, m11, m12), (m20, m21, m22)) := m in
  m00 = Cconj m00 /\ m11 = Cconj m11 /\ m22 = Cconj m22 /\ m10 = Cconj m01 /\ m20 = Cconj m02 /\ m21 = Cconj m12.
Definition full (t : point_tensor) : (C * C * C) * (C * C * C) * (C * C * C) :=
  let '(m00, m11, m22, m01, m02, m12) := t in ((RtoC m00, m01, m02), (Cconj m01, RtoC m11, m12), (Cconj m02, Cconj m12, RtoC m22)).
(** e is an eigenvalue of the tensor; what is assumed of the routine that computes them. *)
Definition eigenvalue (t : point_tensor) (e : R) : Prop :=
  exists v, vnorm2 v <> 0 /\ let '(r0, r1, r2) := full t in let '(a, b, c) := v in rdot r0 v = Cscal e a /\ rdot r1 v = Cscal e b /\ rdot r2 v = Cscal e c.
Definition eigs_of (t : point_tensor) (e : R * R * R) : Prop :=
  let '(e0, e1, e2) := e in eigenvalue t e0 /\ eigenvalue t e1 /\ eigenvalue t e2 /\ e0 <= e1 <= e2.
