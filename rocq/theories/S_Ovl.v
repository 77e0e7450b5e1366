(** Vocabulary for overlaps with stored eigenvectors. *)
From Coq Require Import List ZArith Reals.
From Verif Require Import Base RC M_Tensor M_Evect S_Evect M_Grid M_Op S_Op.
Import ListNotations.
Local Open Scope Z_scope.

(** The request is in range, [m] and [H] belong to the same grid; with permeability the work matrix is
    as solve_kpoint leaves it, and its bands fit in the transform array. *)
Definition ovl_ready (mx num_bands : Z) (d : mdata) (H m : emat C) (b_start : Z) (W0 : emat C) (fft : list C) : Prop :=
  fields d H /\ fields d m /\ ep H = num_bands /\ 1 <= b_start /\ b_start - 1 + ep m <= num_bands /\
  (d_mu_inv d <> None ->
     fields d W0 /\ ep W0 = ealloc W0 /\ 1 <= ealloc W0 /\ 3 * npts d * ealloc W0 <= Z.of_nat (length fft)).

(** Modulus of a complex number. *)
Definition cmod (c : C) : R := sqrt (normsqr c).
