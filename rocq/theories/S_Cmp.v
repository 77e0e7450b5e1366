(** Vocabulary for the comparison of structures. *)
From Coq Require Import List ZArith Reals Bool Arith.
From Verif Require Import Base RC M_Tensor S_Tensor M_Evect S_Evect M_Grid S_Grid M_Op S_Op S_Mir M_Mx S_Mx.
Import ListNotations.
Local Open Scope Z_scope.

(** The same k point, grid and permeability with another table of inverse permittivities. *)
Definition with_eps (d : mdata) (t : list sym) : mdata :=
  {| d_nx := d_nx d; d_ny := d_ny d; d_nz := d_nz d; d_other := d_other d; d_last := d_last d; d_last_size := d_last_size d; d_out := d_out d;
     d_nfb := d_nfb d; d_kG := d_kG d; d_eps_inv := t; d_mu_inv := d_mu_inv d; d_kn2 := d_kn2 d; d_eps_inv_mean := d_eps_inv_mean d |}.

(** The inverse permittivities t' are nowhere larger than t (the permittivities nowhere smaller). *)
Definition nowhere_above (d : mdata) (t' t : list sym) : Prop :=
  forall r x, (r < Z.to_nat (npts d))%nat -> (re (form (sym_at t' r) x x) <= re (form (sym_at t r) x x))%R.

(** The inverse permittivities t' are s times t. *)
Definition scaled_tensors (d : mdata) (s : R) (t' t : list sym) : Prop :=
  forall r i j, (r < Z.to_nat (npts d))%nat -> (i < 3)%nat -> (j < 3)%nat -> entry (sym_at t' r) i j = (RtoC s * entry (sym_at t r) i j)%C.

(** Band b of X has the symmetry asked for and at k = 0 no constant part. *)
Definition allowed (d : mdata) (parity : Z) (zero_k : bool) (X : emat C) (b : Z) : Prop :=
  (wanted parity 0 1 <> 0 -> zparity d (wanted parity 0 1) X b) /\ (wanted parity 2 3 <> 0 -> yparity d (wanted parity 2 3) X b) /\
  (zero_k = true -> forall r, 0 <= r < 2 -> entC X r b = C0).

(** All m modes of the structure with their squared frequencies lam: they are orthonormal, no two are
    coupled, lam ascends, and every field with the symmetry is a combination of them.  MV are the modes
    with the inverse permeability applied. *)
Record all_modes (d : mdata) (m : nat) (parity : Z) (zero_k : bool) (V MV : emat C) (lam : nat -> R) : Prop := {
  am_fields : S_Op.fields d V /\ ep V = Z.of_nat m;
  am_mu : mx_muinv d V V = Val MV;
  am_orth : forall i j, (i < m)%nat -> (j < m)%nat -> dotl V MV (Z.of_nat i) (Z.of_nat j) = delta i j;
  am_curl : forall i j, (i < m)%nat -> (j < m)%nat ->
    mean_form d (sym_at (d_eps_inv d)) (curl d MV (Z.of_nat i)) (curl d MV (Z.of_nat j)) = (RtoC (lam i) * delta i j)%C;
  am_ascend : forall i j, (i <= j < m)%nat -> (lam i <= lam j)%R;
  am_complete : forall X b, S_Op.fields d X -> 0 <= b < ep X -> allowed d parity zero_k X b -> forall r, 0 <= r < 2 * npts d ->
    entC X r b = csum m (fun i => (entC V r (Z.of_nat i) * dotl MV X (Z.of_nat i) b)%C) }.
(** Each of them has the symmetry. *)
Definition modes_allowed (d : mdata) (m : nat) (parity : Z) (zero_k : bool) (V : emat C) : Prop :=
  forall i, (i < m)%nat -> allowed d parity zero_k V (Z.of_nat i).

(** The inverse permittivity is everywhere at least, or at most, e. *)
Definition size2 (x : nat -> C) : R := rsum 3 (fun i => normsqr (x i)).
Definition at_least (d : mdata) (e : R) : Prop := forall r x, (r < Z.to_nat (npts d))%nat -> (e * size2 x <= re (form (sym_at (d_eps_inv d) r) x x))%R.
Definition at_most (d : mdata) (e : R) : Prop := forall r x, (r < Z.to_nat (npts d))%nat -> (re (form (sym_at (d_eps_inv d) r) x x) <= e * size2 x)%R.

(** |k + G|^2 for the plane wave of row i, two rows to a plane wave. *)
Definition wave2 (d : mdata) (i : nat) : R := rdot (kvec d (i / 2)) (kvec d (i / 2)).

(** The same structure with all lengths divided by c, so that its wave vectors are c times as long. *)
Definition shrunk (c : R) (d d' : mdata) (k G1 G2 G3 : vec) : Prop :=
  made d k G1 G2 G3 /\ made d' (rsc c k) (rsc c G1) (rsc c G2) (rsc c G3) /\
  d_nx d' = d_nx d /\ d_ny d' = d_ny d /\ d_nz d' = d_nz d /\ d_eps_inv d' = d_eps_inv d /\ d_mu_inv d' = d_mu_inv d.
(** The frequencies belonging to s times the squared ones. *)
Definition rescaled (negative_ok : bool) (s : R) (f : list R) : list R := map (Rmult (if negative_ok then s else sqrt s)) f.
