(** Vocabulary for the phases of fields and for divergences. *)
From Coq Require Import List ZArith Reals Bool.
From Verif Require Import Base RC M_Tensor M_Evect S_Evect M_Grid S_Grid M_Op S_Op.
Import ListNotations.
Local Open Scope Z_scope.

(** Sum of squares of n complex numbers, and of the squares of their real parts. *)
Definition squares (n : nat) (f : nat -> C) : C := csum n (fun i => (f i * f i)%C).
Definition real_squares (n : nat) (f : nat -> C) : R := rsum n (fun i => (re (f i) * re (f i))%R).
Definition unit_c (c : C) : Prop := normsqr c = 1%R.

(** Number i of an array. *)
Definition num (f : list C) (i : nat) : C := gets f (Z.of_nat i).

(** The point that decides on the sign of n real numbers, not all zero: the last one at least
    half as large as the largest; s is its sign. *)
Definition sign_of (n : nat) (k : nat -> R) (s : Z) : Prop :=
  exists i M, (i < n)%nat /\ (forall j, (j < n)%nat -> (Rabs (k j) <= M)%R) /\ (exists j, (j < n)%nat /\ Rabs (k j) = M) /\
    (1 / 2 * M <= Rabs (k i))%R /\ (forall j, (i < j < n)%nat -> (Rabs (k j) < 1 / 2 * M)%R) /\ (s = 1 \/ s = -1) /\ (0 < IZR s * k i)%R.

(** The divergence (k+G) . F times 2 pi i of a field given by its plane-wave amplitudes. *)
Definition kdot (k : vec) (F : nat -> C) : C := csum 3 (fun i => (RtoC (comp i k) * F i)%C).
Definition divergence (d : mdata) (F : nat -> nat -> C) (r : nat) : C :=
  (Ci * RtoC (2 * PI) * csum (Z.to_nat (npts d)) (fun g => wave d g r * kdot (kvec d g) (F g)))%C.
(** The array holds, at each grid point, the field of amplitudes F. *)
Definition holds_field (d : mdata) (F : nat -> nat -> C) (f : list C) : Prop :=
  3 * npts d <= Z.of_nat (length f) /\
  forall r c, (r < Z.to_nat (npts d))%nat -> (c < 3)%nat -> num f (3 * r + c) = synth d F r c.

(** An array divided over processes, the offset of each being the number of entries before its part. *)
Fixpoint divided (before : Z) (parts : list (list C)) : list (Z * Z * list C) :=
  match parts with
  | [] => []
  | f :: t => (before, Z.of_nat (length f), f) :: divided (before + Z.of_nat (length f)) t
  end.
