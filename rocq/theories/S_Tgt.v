(** Vocabulary for the bands near a target frequency. *)
From Coq Require Import List ZArith Reals Bool Arith.
From Verif Require Import Base RC M_Evect M_Eig M_Kpt M_Mx M_Tgt S_Evect S_Eig S_Kpt.
Import ListNotations.
Local Open Scope R_scope.

(** A - t, and (A - t)^2. *)
Definition shift (n : nat) (A : mat) (t : R) : mat := msub A (mscal t (mid n)).
Definition square_shift (n : nat) (A : mat) (t : R) : mat := mmul n (shift n A t) (shift n A t).

(** X, not zero, satisfies the constraint and is an exact mode with the value mu. *)
Definition mode (n : nat) (P A X : mat) (mu : R) : Prop :=
  mdim n 1 X /\ satisfies n P X /\ X <> (fun _ _ => C0) /\ mmul n A X = mscal mu X.

(** No two different values of exact modes have the same distance from t. *)
Definition no_tie (n : nat) (P A : mat) (t : R) : Prop :=
  forall X mu Y nu, mode n P A X mu -> mode n P A Y nu -> mu - t = t - nu -> mu = nu.

(** X is orthogonal to the bands M. *)
Definition apart (n : nat) (M X : mat) : Prop := mmul n (madj M) X = (fun _ _ => C0).

(** A call of solve_kpoint with a target: as in S_Kpt, without constant bands and permeability. *)
Definition tcall (n num bs : nat) (parity_c : emat C -> outcome (emat C)) (zero_k same : bool) (muinv : emat C -> emat C -> outcome (emat C))
    (A P : mat) (fuel : nat) (S2 : list C) (ev : list R) (H Hblock : emat C) (BY : option (emat C)) : Prop :=
  kpoint_ok n num parity_c zero_k muinv A (mid n) P /\ arrays n num bs 0 (mid n) same S2 ev H Hblock BY /\ (num <= fuel)%nat.

(** The fields M and squared frequencies w returned as H' and as the frequencies f: all satisfy the
    constraint and are orthonormal; within a block they diagonalize A, with ascending values. *)
Definition tbands (n num bs : nat) (negative_ok : bool) (A P : mat) (H' : emat C) (f : list R) (M : mat) (w : nat -> R) : Prop :=
  fields n num H' M /\ length f = num /\ (forall i, (i < num)%nat -> freq_of negative_ok (nth i f 0) (w i)) /\
  satisfies n P M /\ mmul n (madj M) M = mid num /\
  (forall i j, (i < num)%nat -> (j < num)%nat -> same_block bs 0 i j -> form n A M M i j = (if (i =? j)%nat then RtoC (w i) else C0) /\ ((i <= j)%nat -> w i <= w j)).

(** The linear algebra routines for blocks of up to bs bands. *)
Definition algebra_ok (bs : nat) (potr : Z -> list C -> option (list C)) (heev : Z -> list C -> list C * list R) : Prop :=
  forall q, (1 <= q <= bs)%nat -> potr_ok q potr /\ heev_ok q heev.
