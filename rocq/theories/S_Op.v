(** Vocabulary for the properties of the Maxwell operator. *)
From Coq Require Import List ZArith Reals Bool.
From Verif Require Import Base RC M_Tensor S_Tensor M_Evect S_Evect M_Grid S_Grid M_Op.
Import ListNotations.
Local Open Scope Z_scope.

(** Number of grid points (and of plane waves). *)
Definition npts (d : mdata) : Z := d_nx d * d_ny d * d_nz d.

(** Shape of the data as set up for one process: positive sizes, one wave vector, one tensor
    (and one permeability) per point, the plane waves counted by two nested loops. *)
Definition wfd (d : mdata) : Prop :=
  1 <= d_nx d /\ 1 <= d_ny d /\ 1 <= d_nz d /\
  0 <= d_other d /\ 1 <= d_last d /\ d_other d * d_last d = npts d /\ d_last_size d = d_last d /\ d_out d = npts d /\
  Z.of_nat (length (d_kG d)) = npts d /\ Z.of_nat (length (d_eps_inv d)) = npts d /\
  (forall mu, d_mu_inv d = Some mu -> Z.of_nat (length mu) = npts d).

(** A block of fields: two components for every plane wave. *)
Definition fields (d : mdata) (X : emat C) : Prop := wf X /\ en X = 2 * npts d.

(** The scratch array holds a batch. *)
Definition scratch (d : mdata) (p : Z) (fft : list C) : Prop := 3 * npts d * Z.min (d_nfb d) p <= Z.of_nat (length fft).

(** Tensors. *)
Definition sym_at (t : list sym) (r : nat) : sym := nth r t sym0.
Definition PSD (V : sym) : Prop := forall x : nat -> C, im (quad V x) = 0%R /\ (0 <= re (quad V x))%R.
(** x* V y *)
Definition form (V : sym) (x y : nat -> C) : C :=
  csum 3 (fun i => csum 3 (fun j => (Cconj (x i) * entry V i j * y j)%C)).

(** The two transverse components of band b at plane wave g as a Cartesian vector. *)
Definition kat (d : mdata) (g : nat) : kdata := nth g (d_kG d) {| kmag := 0; km := (0, 0, 0)%R; kn := (0, 0, 0)%R |}.
Definition comp (i : nat) (v : vec) : R := match i with 0%nat => fst (fst v) | 1%nat => snd (fst v) | _ => snd v end.
Definition cart (d : mdata) (X : emat C) (b : Z) (g : nat) (i : nat) : C :=
  (RtoC (comp i (km (kat d g))) * entC X (2 * Z.of_nat g) b + RtoC (comp i (kn (kat d g))) * entC X (2 * Z.of_nat g + 1) b)%C.

(** The wave vector of plane wave g and the cross product of a real and a complex vector. *)
Definition kvec (d : mdata) (g : nat) : vec := rsc (kmag (kat d g)) (rcross (km (kat d g)) (kn (kat d g))).
Definition ccross (k : vec) (v : nat -> C) (i : nat) : C :=
  match i with
  | 0%nat => (RtoC (comp 1 k) * v 2%nat - RtoC (comp 2 k) * v 1%nat)%C
  | 1%nat => (RtoC (comp 2 k) * v 0%nat - RtoC (comp 0 k) * v 2%nat)%C
  | _ => (RtoC (comp 0 k) * v 1%nat - RtoC (comp 1 k) * v 0%nat)%C
  end.

(** exp(-2 pi i (gx rx / nx + gy ry / ny + gz rz / nz)) for the points number g and r of the grid. *)
Definition wave (d : mdata) (g r : nat) : C :=
  let nx := d_nx d in let ny := d_ny d in let nz := d_nz d in
  let x i := Z.of_nat i / (ny * nz) in let y i := (Z.of_nat i / nz) mod ny in let z i := Z.of_nat i mod nz in
  let a := (- (2 * PI) * (IZR (x g * x r) / IZR nx + IZR (y g * y r) / IZR ny + IZR (z g * z r) / IZR nz))%R in
  (cos a, sin a).

(** A vector field given by its plane-wave amplitudes, at grid point r. *)
Definition synth (d : mdata) (f : nat -> nat -> C) (r : nat) (i : nat) : C :=
  csum (Z.to_nat (npts d)) (fun g => (wave d g r * f g i)%C).
(** The field of band b, and its curl (without the factor i), at grid point r. *)
Definition hfield (d : mdata) (X : emat C) (b : Z) : nat -> nat -> C := synth d (cart d X b).
Definition curl (d : mdata) (X : emat C) (b : Z) : nat -> nat -> C := synth d (fun g => ccross (kvec d g) (cart d X b g)).

(** (1/N) sum over the grid of u* V v. *)
Definition mean_form (d : mdata) (V : nat -> sym) (u v : nat -> nat -> C) : C :=
  (RtoC (/ IZR (npts d)) * csum (Z.to_nat (npts d)) (fun r => form (V r) (u r) (v r)))%C.

Definition orthonormal_basis (d : mdata) : Prop := forall g, (g < Z.to_nat (npts d))%nat ->
  rdot (km (kat d g)) (km (kat d g)) = 1%R /\ rdot (kn (kat d g)) (kn (kat d g)) = 1%R /\ rdot (km (kat d g)) (kn (kat d g)) = 0%R.

(** A medium with the same isotropic inverse tensor e at every point. *)
Definition uniform (d : mdata) (t : list sym) (e : R) : Prop := forall r, (r < Z.to_nat (npts d))%nat -> sym_at t r = iso e.

(** The curl of the band with the same Cartesian amplitudes at the wave vectors moved by t u. *)
Definition curl_at (d : mdata) (u : vec) (t : R) (X : emat C) (b : Z) : nat -> nat -> C :=
  synth d (fun g => ccross (vadd3 (kvec d g) (rsc t u)) (cart d X b g)).

(** Arguments of an application of an operator: input and output blocks of the same shape,
    room for a batch in the scratch array, enough fuel for the loop over batches. *)
Definition ready (fuel : nat) (d : mdata) (X out : emat C) (fft : list C) : Prop :=
  fields d X /\ fields d out /\ ep X = ep out /\ 0 < d_nfb d /\ scratch d (ep X) fft /\ (Z.to_nat (ep X) <= fuel)%nat.

(** The same data with another number of bands transformed at a time. *)
Definition with_nfb (n : Z) (d : mdata) : mdata :=
  {| d_nx := d_nx d; d_ny := d_ny d; d_nz := d_nz d; d_other := d_other d; d_last := d_last d; d_last_size := d_last_size d; d_out := d_out d; d_nfb := n;
     d_kG := d_kG d; d_eps_inv := d_eps_inv d; d_mu_inv := d_mu_inv d; d_kn2 := d_kn2 d; d_eps_inv_mean := d_eps_inv_mean d |}.
(** Band b belongs to the batch of n bands from s on. *)
Definition in_batch (b : Z) (x : Z * Z) : bool := (fst x <=? b) && (b <? fst x + snd x).

(** Trace of the inverse tensor at point r. *)
Definition trace_at (d : mdata) (r : Z) : R := let t := sym_at (d_eps_inv d) (Z.to_nat r) in (m00 t + m11 t + m22 t)%R.
