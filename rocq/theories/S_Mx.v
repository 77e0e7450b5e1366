(** Vocabulary for the bands found at a k point with the Maxwell operator. *)
From Coq Require Import List ZArith Reals Bool Arith.
From Verif Require Import Base RC M_Tensor S_Tensor M_Evect S_Evect M_Grid S_Grid M_Op S_Op M_Eig S_Eig M_Kpt S_Kpt S_Mir.
Import ListNotations.
Local Open Scope Z_scope.

(** The inverse permeability goes together with the constraints: there is none, or it is the same
    number everywhere, or k is not 0 and there is no parity, or k is not 0 and for each parity asked
    for there is one point across the mirror plane and the permeability is mirror symmetric. *)
Definition mu_fits (d : mdata) (parity : Z) (zero_k : bool) : Prop :=
  d_mu_inv d = None \/ (exists mu m, d_mu_inv d = Some mu /\ uniform d mu m) \/ (wanted parity 0 1 = 0 /\ wanted parity 2 3 = 0 /\ zero_k = false) \/
  (zero_k = false /\ exists k G1 G2 G3, made d k G1 G2 G3 /\
     (wanted parity 0 1 <> 0 -> zplane k G1 G2 G3 /\ d_nz d = 1 /\ forall mu, d_mu_inv d = Some mu -> zmirrored d mu) /\
     (wanted parity 2 3 <> 0 -> yplane k G1 G2 G3 /\ d_ny d = 1 /\ forall mu, d_mu_inv d = Some mu -> ymirrored d mu)).
(** The data of the preconditioner are complete. *)
Definition pre_fits (simple : bool) (d : mdata) : Prop :=
  if simple then Z.of_nat (length (d_kn2 d)) = npts d else forall r, 0 <= r < npts d -> trace_at d r <> 0%R.

(** A call of solve_kpoint for num bands in blocks of bs, b0 of them constant: H has num bands and is
    the block as well if that has as many; otherwise there is a block of bs bands, and with a
    permeability an array muinvH. *)
Definition mx_call (d : mdata) (num bs b0 : nat) (zero_k same : bool) (parity : Z) (fuel : nat) (S2 : list C) (ev : list R) (H Hblock : emat C) (BY : option (emat C)) : Prop :=
  wfd d /\ orthonormal_basis d /\ 0 < d_nfb d /\ mu_fits d parity zero_k /\
  S_Op.fields d H /\ ep H = Z.of_nat num /\ ealloc H = Z.of_nat num /\ (1 <= bs <= num)%nat /\
  S_Op.fields d Hblock /\ ealloc Hblock = Z.of_nat bs /\ (same = true <-> bs = num) /\
  match BY with
  | Some b => S_Op.fields d b /\ ealloc b = Z.of_nat num
  | None => same = true \/ d_mu_inv d = None
  end /\
  ((num - b0) * bs <= length S2)%nat /\ length ev = num /\
  Z.of_nat b0 = (if zero_k then const_count parity (Z.of_nat num) else 0) /\ (num <= fuel)%nat.

(** The linear algebra routines for blocks of up to bs bands. *)
Definition lapack_ok (bs : nat) (potr : Z -> list C -> option (list C)) (heev : Z -> list C -> list C * list R) : Prop :=
  forall q, (1 <= q <= bs)%nat -> potr_ok q potr /\ heev_ok q heev.
(** The same for the Davidson solver with nb blocks, which also needs its work arrays W. *)
Definition davidson_arrays (d : mdata) (bs nb : nat) (potr : Z -> list C -> option (list C)) (heev : Z -> list C -> list C * list R) (e : list R) (W : Z -> list (emat C)) : Prop :=
  (2 <= nb)%nat /\ (bs <= length e)%nat /\ forall q, (1 <= q <= bs)%nat -> potr_ok q potr /\ (forall k, (1 <= k <= nb)%nat -> heev_ok (q * k) heev) /\
    nb = (length (W (Z.of_nat q)) / 2)%nat /\ (forall w, In w (W (Z.of_nat q)) -> S_Op.fields d w /\ ep w = Z.of_nat q).

Definition delta (i j : nat) : C := if (i =? j)%nat then C1 else C0.

(** The bands H (fields H, and MH with the inverse permeability applied) and frequencies f that the
    call returns, w being the squared frequencies.  The first b0 are constant fields at frequency 0.
    The others have unit energy and are orthogonal, also between blocks; in a block the energies of
    their curls are w, ascending; they have the symmetry asked for, and no constant part at k = 0. *)
Record mx_bands (d : mdata) (num bs b0 : nat) (zero_k negative_ok : bool) (parity : Z) (H MH : emat C) (f : list R) (w : nat -> R) : Prop := {
  mb_fields : S_Op.fields d H /\ ep H = Z.of_nat num /\ S_Op.fields d MH /\ ep MH = Z.of_nat num /\ length f = num;
  mb_freq : forall i, (i < num)%nat -> freq_of negative_ok (nth i f 0%R) (w i);
  mb_const : forall i, (i < b0)%nat -> w i = 0%R /\ forall r, 0 <= r < 2 * npts d -> entC H r (Z.of_nat i) = if r =? const_row parity (Z.of_nat i) then C1 else C0;
  mb_orth : forall i j, (b0 <= i < num)%nat -> (b0 <= j < num)%nat -> dotl H MH (Z.of_nat i) (Z.of_nat j) = delta i j;
  mb_energy : forall mu, d_mu_inv d = Some mu -> forall i j, (i < num)%nat -> (j < num)%nat ->
    dotl H MH (Z.of_nat i) (Z.of_nat j) = mean_form d (sym_at mu) (hfield d H (Z.of_nat i)) (hfield d H (Z.of_nat j));
  mb_nomu : d_mu_inv d = None -> forall i r, (i < num)%nat -> 0 <= r < 2 * npts d -> entC MH r (Z.of_nat i) = entC H r (Z.of_nat i);
  mb_curl : forall i j, (b0 <= i < num)%nat -> (b0 <= j < num)%nat -> same_block bs b0 i j ->
    mean_form d (sym_at (d_eps_inv d)) (curl d MH (Z.of_nat i)) (curl d MH (Z.of_nat j)) = (RtoC (w i) * delta i j)%C /\ ((i <= j)%nat -> (w i <= w j)%R);
  mb_z : wanted parity 0 1 <> 0 -> forall x y z c i, inside (d_nx d) (d_ny d) (d_nz d) (Z.of_nat num) x y z c i -> Z.of_nat b0 <= i ->
    zflip (d_ny d) (d_nz d) (Z.of_nat num) (edata H) x y z c i = Cscal (IZR (wanted parity 0 1)) (amp (d_ny d) (d_nz d) (Z.of_nat num) (edata H) x y z c i);
  mb_y : wanted parity 2 3 <> 0 -> forall x y z c i, inside (d_nx d) (d_ny d) (d_nz d) (Z.of_nat num) x y z c i -> Z.of_nat b0 <= i ->
    yflip (d_ny d) (d_nz d) (Z.of_nat num) (edata H) x y z c i = Cscal (IZR (wanted parity 2 3)) (amp (d_ny d) (d_nz d) (Z.of_nat num) (edata H) x y z c i);
  mb_zero : zero_k = true -> forall i r, (b0 <= i < num)%nat -> 0 <= r < 2 -> entC H r (Z.of_nat i) = C0 }.
