(** Vocabulary for the properties of the plane-wave grid and the parities. *)
From Coq Require Import List ZArith Reals Bool.
From Verif Require Import Base RC M_Tensor S_Evect.
Import ListNotations.
Local Open Scope Z_scope.

(** Dot product, cross product and negation of real vectors. *)
Definition rdot (a b : vec) : R := let '(a0, a1, a2) := a in let '(b0, b1, b2) := b in (a0 * b0 + a1 * b1 + a2 * b2)%R.
Definition rcross (a b : vec) : vec :=
  let '(a0, a1, a2) := a in let '(b0, b1, b2) := b in (a1 * b2 - a2 * b1, a2 * b0 - a0 * b2, a0 * b1 - a1 * b0)%R.
Definition rsc (s : R) (a : vec) : vec := let '(a0, a1, a2) := a in (s * a0, s * a1, s * a2)%R.
Definition vadd3 (a b : vec) : vec := let '(a0, a1, a2) := a in let '(b0, b1, b2) := b in (a0 + b0, a1 + b1, a2 + b2)%R.

(** Amplitude of the plane wave at table position (x, y, z) along transverse direction c
    (0 for m, 1 for n) in band b of p bands. *)
Definition amp (ny nz p : Z) (X : list C) (x y z c b : Z) : C := gets X ((((x * ny + y) * nz + z) * 2 + c) * p + b).
(** The table holds local_nx * ny * nz plane waves. *)
Definition field (lnx ny nz p : Z) (X : list C) : Prop :=
  0 <= lnx /\ 0 < ny /\ 0 < nz /\ 0 <= p /\ lnx * ny * nz * 2 * p <= Z.of_nat (length X).
Definition inside (lnx ny nz p x y z c b : Z) : Prop :=
  0 <= x < lnx /\ 0 <= y < ny /\ 0 <= z < nz /\ 0 <= c < 2 /\ 0 <= b < p.

(** Position of the opposite frequency along a dimension of n points. *)
Definition opp (n j : Z) : Z := (- j) mod n.

(** Mirror flips of the magnetic field (a pseudovector): under z -> -z the component along
    m keeps its sign and that along n changes it; under y -> -y the other way round. *)
Definition zflip (ny nz p : Z) (X : list C) (x y z c b : Z) : C :=
  Cscal (if c =? 0 then 1 else -1)%R (amp ny nz p X x y (opp nz z) c b).
Definition yflip (ny nz p : Z) (X : list C) (x y z c b : Z) : C :=
  Cscal (if c =? 0 then -1 else 1)%R (amp ny nz p X x (opp ny y) z c b).

(** The sign demanded by a parity (bit 0: even z, 1: odd z, 2: even y, 3: odd y). *)
Definition wanted (parity even odd : Z) : Z := if Z.testbit parity even then 1 else if Z.testbit parity odd then -1 else 0.
(** A field obeys the demanded symmetry. *)
Definition zsymmetric (s lnx ny nz p : Z) (X : list C) : Prop :=
  forall x y z c b, inside lnx ny nz p x y z c b -> zflip ny nz p X x y z c b = Cscal (IZR s) (amp ny nz p X x y z c b).
Definition ysymmetric (s lnx ny nz p : Z) (X : list C) : Prop :=
  forall x y z c b, inside lnx ny nz p x y z c b -> yflip ny nz p X x y z c b = Cscal (IZR s) (amp ny nz p X x y z c b).

(** Inner product of band b of X with band b' of Y. *)
Definition inner (lnx ny nz p : Z) (X Y : list C) (b b' : Z) : C :=
  csum (Z.to_nat (lnx * ny * nz * 2)) (fun r => (Cconj (gets X (Z.of_nat r * p + b)) * gets Y (Z.of_nat r * p + b'))%C).

(** Sum over all plane waves and both directions of one process. *)
Definition grid_sum (lnx ny nz : Z) (f : Z -> Z -> Z -> Z -> R) : R :=
  rsum (Z.to_nat lnx) (fun x => rsum (Z.to_nat ny) (fun y => rsum (Z.to_nat nz) (fun z => rsum 2 (fun c =>
    f (Z.of_nat x) (Z.of_nat y) (Z.of_nat z) (Z.of_nat c))))).
(** Squared norm of band b, and expectation value of the mirror flips in it. *)
Definition norm2 (lnx ny nz p : Z) (X : list C) (b : Z) : R :=
  grid_sum lnx ny nz (fun x y z c => normsqr (amp ny nz p X x y z c b)).
Definition zexpect (lnx ny nz p : Z) (X : list C) (b : Z) : R :=
  grid_sum lnx ny nz (fun x y z c => re (Cconj (amp ny nz p X x y z c b) * zflip ny nz p X x y z c b)%C).
Definition yexpect (lnx ny nz p : Z) (X : list C) (b : Z) : R :=
  grid_sum lnx ny nz (fun x y z c => re (Cconj (amp ny nz p X x y z c b) * yflip ny nz p X x y z c b)%C).
(** Opposite frequencies carry equal intensity. *)
Definition zbalanced (lnx ny nz p : Z) (X : list C) (b : Z) : Prop := forall x y z, 0 <= x < lnx -> 0 <= y < ny -> 0 <= z < nz ->
  (normsqr (amp ny nz p X x y (opp nz z) 0 b) + normsqr (amp ny nz p X x y (opp nz z) 1 b) =
   normsqr (amp ny nz p X x y z 0 b) + normsqr (amp ny nz p X x y z 1 b))%R.
Definition ybalanced (lnx ny nz p : Z) (X : list C) (b : Z) : Prop := forall x y z, 0 <= x < lnx -> 0 <= y < ny -> 0 <= z < nz ->
  (normsqr (amp ny nz p X x (opp ny y) z 0 b) + normsqr (amp ny nz p X x (opp ny y) z 1 b) =
   normsqr (amp ny nz p X x y z 0 b) + normsqr (amp ny nz p X x y z 1 b))%R.
(** Totals over the processes; a share is (local_nx, data). *)
Definition total (f : Z -> list C -> R) (shares : list (Z * list C)) : R := fold_right (fun t acc => (f (fst t) (snd t) + acc)%R) 0%R shares.

(** A grid loop [L] of (coordinates, index): the indices are 0, 1, ..., size-1 in order, no
    coordinates are visited twice, and those visited are exactly the ones in [P]. *)
Definition visits (L : list (Z * Z * Z * Z)) (size : Z) (P : Z * Z * Z -> Prop) : Prop :=
  map snd L = map Z.of_nat (seq 0 (Z.to_nat size)) /\ NoDup (map fst L) /\ forall c, In c (map fst L) <-> P c.
Definition box (lo1 hi1 lo2 hi2 lo3 hi3 : Z) (c : Z * Z * Z) : Prop :=
  let '(i1, i2, i3) := c in lo1 <= i1 < hi1 /\ lo2 <= i2 < hi2 /\ lo3 <= i3 < hi3.

(** The frequencies of a dimension of n points: one point holds frequency 0; otherwise the
    points below n/2 (rounded down) hold themselves and the others themselves minus n. *)
Definition freq (n g : Z) : Prop := if n =? 1 then g = 0 else n / 2 - n <= g < n / 2.

(** A right-handed orthonormal triple along q. *)
Definition triple (q m n : vec) (len : R) : Prop :=
  rdot m m = 1%R /\ rdot n n = 1%R /\ rdot m n = 0%R /\ rdot m q = 0%R /\ rdot n q = 0%R /\ rsc len (rcross m n) = q /\ len = sqrt (rdot q q).

(** Only one process holds plane waves of a one-dimensional cell. *)
Definition sizes (nx lnx ny nz : Z) : Prop := ny = 1 -> nz = 1 -> lnx = nx.

(** A component [f] of the complex vector u a + v b, for real vectors a and b. *)
Definition cmix (f : vec -> R) (a b : vec) (u v : C) : C := (Cscal (f a) u + Cscal (f b) v)%C.
(** The complex vectors u a + v b and u' a' + v' b' are equal. *)
Definition same_mix (a b : vec) (u v : C) (a' b' : vec) (u' v' : C) : Prop :=
  cmix (fun v => fst (fst v)) a b u v = cmix (fun v => fst (fst v)) a' b' u' v' /\
  cmix (fun v => snd (fst v)) a b u v = cmix (fun v => snd (fst v)) a' b' u' v' /\
  cmix (fun v => snd v) a b u v = cmix (fun v => snd v) a' b' u' v'.

(** Intensity of a plane wave in a band. *)
Definition intensity (ny nz p : Z) (X : list C) (x y z b : Z) : R :=
  (normsqr (amp ny nz p X x y z 0 b) + normsqr (amp ny nz p X x y z 1 b))%R.

(** Nothing but constant components. *)
Definition const_only (lnx ny nz p : Z) (X : list C) : Prop :=
  forall x y z c b, inside lnx ny nz p x y z c b -> (x, y, z) <> (0, 0, 0) -> amp ny nz p X x y z c b = C0.
Definition unit_at (b : bool) : C := if b then C1 else C0.

(** A wave vector k + g0 G1 + g1 G2 + g2 G3. *)
Definition kG (k G1 G2 G3 : vec) (g0 g1 g2 : Z) : vec :=
  vadd3 k (vadd3 (rsc (IZR g0) G1) (vadd3 (rsc (IZR g1) G2) (rsc (IZR g2) G3))).
