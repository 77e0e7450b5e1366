(** Specification vocabulary for the Scheme front end. *)
From Coq Require Import Reals List ZArith Znumtheory.
From Verif Require Import RC M_Scheme.
Import ListNotations.
Local Open Scope R_scope.

(** All (k point, frequency) pairs recorded for band b (counting from 0). *)
Definition band_vals {K} (b : nat) (runs : list (K * list R)) : list (K * R) :=
  flat_map (fun kf => match nth_error (snd kf) b with Some f => [(fst kf, f)] | None => [] end) runs.

(** [br] states the minimum and maximum of [vals] and k points attaining them. *)
Definition is_range {K} (vals : list (K * R)) (br : brange) : Prop :=
  exists kmin kmax,
    br = ((fst (fst br), Some kmin), (fst (snd br), Some kmax)) /\
    In (kmin, fst (fst br)) vals /\ In (kmax, fst (snd br)) vals /\
    forall k f, In (k, f) vals -> fst (fst br) <= f <= fst (snd br).

(** Consecutive bands i, i+1 are separated by a gap with the given edges and size
    (in percent of the midgap frequency). *)
Definition gap_between {K} (brd : list (@brange K)) (i : nat) (g : R * R * R) : Prop :=
  exists b1 b2, nth_error brd i = Some b1 /\ nth_error brd (S i) = Some b2 /\
    let lo := fst (snd b1) in let hi := fst (fst b2) in
    lo < hi /\ g = (100 * ((hi - lo) / ((hi + lo) / 2)), lo, hi).

(** All prime factors at most 7. *)
Definition smooth7 (N : Z) : Prop := forall p, prime p -> (p | N)%Z -> (p <= 7)%Z.

(** The basis spans a nonzero volume: b1 . (b2 x b3) <> 0. *)
Definition volume (B : basis) : R :=
  let '((x1, y1, z1), (x2, y2, z2), (x3, y3, z3)) := B in
  x1 * (y2*z3 - z2*y3) + y1 * (z2*x3 - x2*z3) + z1 * (x2*y3 - y2*x3).
Definition independent (B : basis) : Prop := volume B <> 0.
(** Difference by a reciprocal lattice vector (integer coordinates). *)
Definition equivalent (k k' : v3) : Prop :=
  exists a b c : Z, k' = v3add k (IZR a, IZR b, IZR c).
(** No single trial translation, forwards or backwards, shortens it. *)
Definition unimprovable (B : basis) (vs : list v3) (k : v3) : Prop :=
  forall v, In v vs -> bz_n B k <= bz_n B (v3add k v) /\ bz_n B k <= bz_n B (v3sub k v).
(** In the first Brillouin zone: no reciprocal lattice translation shortens it. *)
Definition in_first_bz (B : basis) (k : v3) : Prop :=
  forall k', equivalent k k' -> bz_n B k <= bz_n B k'.
