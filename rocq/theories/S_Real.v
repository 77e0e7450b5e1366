(** Vocabulary for the real-scalar builds. *)
From Coq Require Import List ZArith Reals.
From Verif Require Import Base RC M_Tensor S_Tensor M_Evect S_Evect M_Grid S_Grid M_Op S_Op M_Real.
Local Open Scope Z_scope.

(** An entry of a block of fields with real amplitudes. *)
Definition entR (X : emat R) (i j : Z) : R := match ent X i j with Val v => v | _ => 0%R end.

(** Shape of the data of a real build: one wave vector per plane wave, one tensor per stored grid point. *)
Definition wfr (d : mdata) : Prop :=
  1 <= d_nx d /\ 1 <= d_ny d /\ 1 <= d_nz d /\
  d_last d = last_dim (d_nx d) (d_ny d) (d_nz d) /\ 0 <= d_other d /\ d_other d * d_last d = npts d /\
  d_last_size d = 2 * (d_last d / 2 + 1) /\ d_out d = d_other d * (d_last d / 2 + 1) /\
  Z.of_nat (length (d_kG d)) = npts d /\ Z.of_nat (length (d_eps_inv d)) = d_out d /\
  (forall mu, d_mu_inv d = Some mu -> Z.of_nat (length mu) = d_out d).
Definition fields_r (d : mdata) (X : emat R) : Prop := wf X /\ en X = 2 * npts d.
(** Arguments of an application of the operator, as [ready] of S_Op.v; the scratch array has room for the padded
    array of three components of a batch. *)
Definition scratch_r (d : mdata) (p : Z) (fft : list R) : Prop := 3 * (d_other d * d_last_size d) * Z.min (d_nfb d) p <= Z.of_nat (length fft).
Definition ready_r (fuel : nat) (d : mdata) (X out : emat R) (fft : list R) : Prop :=
  fields_r d X /\ fields_r d out /\ ep X = ep out /\ 0 < d_nfb d /\ scratch_r d (ep X) fft /\ (Z.to_nat (ep X) <= fuel)%nat.

(** Number of a grid point. *)
Definition pt (d : mdata) (x y z : Z) : Z := (x * d_ny d + y) * d_nz d + z.
(** The tensors at opposite points are complex conjugates: for real tensors, inversion symmetry. *)
Definition inversion (d : mdata) (t : list sym) : Prop :=
  forall x y z i j, 0 <= x < d_nx d -> 0 <= y < d_ny d -> 0 <= z < d_nz d -> (i < 3)%nat -> (j < 3)%nat ->
  entry (sym_at t (Z.to_nat (pt d (opp (d_nx d) x) (opp (d_ny d) y) (opp (d_nz d) z)))) i j = Cconj (entry (sym_at t (Z.to_nat (pt d x y z))) i j).
(** [th] holds the tensors of [t] at the points the real build visits (LOOP_XYZ of maxwell_eps.c 577). *)
Definition half_of (d : mdata) (th t : list sym) : Prop :=
  forall x y z h, In (x, y, z, h) (loop_real (d_nx d) (d_ny d) (d_nz d)) -> sym_at th (Z.to_nat h) = sym_at t (Z.to_nat (pt d x y z)).

(** The real build and the complex build of the same problem: grid, plane waves and structure. *)
Definition same_problem (dr dc : mdata) : Prop :=
  d_nx dr = d_nx dc /\ d_ny dr = d_ny dc /\ d_nz dr = d_nz dc /\ d_kG dr = d_kG dc /\
  half_of dc (d_eps_inv dr) (d_eps_inv dc) /\
  match d_mu_inv dr, d_mu_inv dc with None, None => True | Some mr, Some mc => half_of dc mr mc | _, _ => False end.
(** The structure has inversion symmetry. *)
Definition symmetric_structure (d : mdata) : Prop :=
  inversion d (d_eps_inv d) /\ match d_mu_inv d with None => True | Some mu => inversion d mu end.
(** The same amplitudes. *)
Definition same_amplitudes (X : emat R) (Xc : emat C) : Prop :=
  ep Xc = ep X /\ en Xc = en X /\ forall i j, 0 <= i < en X -> 0 <= j < ep X -> entC Xc i j = RtoC (entR X i j).

(** Where both a point and the opposite one are among those the real build visits, their tensors are conjugates. *)
Definition planes_symmetric (d : mdata) (th : list sym) : Prop :=
  forall x y z h h' i j, In (x, y, z, h) (loop_real (d_nx d) (d_ny d) (d_nz d)) ->
    In (opp (d_nx d) x, opp (d_ny d) y, opp (d_nz d) z, h') (loop_real (d_nx d) (d_ny d) (d_nz d)) -> (i < 3)%nat -> (j < 3)%nat ->
    entry (sym_at th (Z.to_nat h')) i j = Cconj (entry (sym_at th (Z.to_nat h)) i j).
