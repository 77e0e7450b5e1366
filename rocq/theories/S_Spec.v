(** Vocabulary for the existence of the exact bands. *)
From Coq Require Import List ZArith Reals.
From Verif Require Import Base RC M_Tensor S_Tensor M_Evect S_Evect M_Grid M_Op S_Op S_Cmp.
Local Open Scope Z_scope.

(** The tensors t are positive definite at every point. *)
Definition positive (d : mdata) (t : list sym) : Prop := forall r x, (r < Z.to_nat (npts d))%nat -> (exists i, (i < 3)%nat /\ x i <> C0) -> (0 < re (form (sym_at t r) x x))%R.
(** Absent, or positive definite. *)
Definition sound_mu (d : mdata) : Prop := forall mu, d_mu_inv d = Some mu -> positive d mu.

(** The exact squared frequencies lam of the m modes with the symmetry. *)
Definition exact_bands (d : mdata) (m : nat) (parity : Z) (zero_k : bool) (lam : nat -> R) : Prop :=
  exists V MV, all_modes d m parity zero_k V MV lam /\ modes_allowed d m parity zero_k V.

(** The inverse permittivities t and t' differ by at most e. *)
Definition within (d : mdata) (e : R) (t' t : list sym) : Prop :=
  forall r x, (r < Z.to_nat (npts d))%nat -> (Rabs (re (form (sym_at t' r) x x) - re (form (sym_at t r) x x)) <= e * size2 x)%R.
