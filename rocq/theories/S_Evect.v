(** Vocabulary for the properties of the band matrices. *)
From Coq Require Import List ZArith Reals Bool.
From Verif Require Import Base RC M_Evect.
Import ListNotations.
Local Open Scope Z_scope.

(** A matrix whose allocation holds n rows of [ealloc] columns. *)
Definition wf {A} (X : emat A) : Prop :=
  0 <= en X /\ 0 <= ep X <= ealloc X /\ Z.of_nat (length (edata X)) = en X * ealloc X.
Definition wfs {A} (X : smat A) : Prop :=
  0 <= sp X <= salloc X /\ Z.of_nat (length (sdata X)) = salloc X * salloc X.

(** Row i, band j: row-major storage with ep (or sp) entries to a row. *)
Definition ent {A} (X : emat A) (i j : Z) : outcome A := rd (edata X) (i * ep X + j).
Definition sent {A} (X : smat A) (i j : Z) : outcome A := rd (sdata X) (i * sp X + j).

(** The bands b, b+1, ..., b+n-1. *)
Definition bands (b n : Z) : list Z := map (fun k => b + Z.of_nat k) (seq 0 (Z.to_nat n)).

(** Column j of a matrix as a function of the row, over C. *)
Definition gets (d : list C) (x : Z) : C := match rd d x with Val v => v | _ => C0 end.
Definition entC (X : emat C) (i j : Z) : C := gets (edata X) (i * ep X + j).

(** Fields distributed over processes: the inner product of column j of X and column l of
    Y is the sum over processes of the local ones. *)
Definition dotl (X Y : emat C) (j l : Z) : C :=
  csum (Z.to_nat (en X)) (fun i => (Cconj (entC X (Z.of_nat i) j) * entC Y (Z.of_nat i) l)%C).
Definition dot (parts : list (emat C * emat C)) (j l : Z) : C :=
  fold_right (fun XY acc => (dotl (fst XY) (snd XY) j l + acc)%C) C0 parts.

(** Constant fields in the plane-wave basis live on plane wave 0: row 0 is the component
    along the first transverse vector (m), row 1 along the second (n).  Which of them the
    parity (bit 0 z-even, 1 z-odd, 2 y-even, 3 y-odd) lets through: *)
Definition m_allowed (parity : Z) : bool := negb (Z.testbit parity 1) && negb (Z.testbit parity 2).
Definition n_allowed (parity : Z) : bool := negb (Z.testbit parity 0) && negb (Z.testbit parity 3).
(** The row in which constant state number j (from 0) has its single 1. *)
Definition const_row (parity j : Z) : Z := if m_allowed parity then j else 1.
(** Number of constant states among [p] bands. *)
Definition const_count (parity p : Z) : Z := Z.min p (Z.b2z (m_allowed parity) + Z.b2z (n_allowed parity)).

(** One process's share is usable: conforming shapes. *)
Definition share_ok (p px : Z) (t : emat C * emat C * emat C) : Prop :=
  let '(X, Y, BY) := t in wf X /\ wf Y /\ wf BY /\ ep X = px /\ en X = en Y /\ en X = en BY /\ p <= ep Y /\ p <= ep BY.

(** [parts] lists the processes' shares (X, Y, BY); [Xs] their new X. *)
Definition byx (parts : list (emat C * emat C * emat C)) := map (fun t => (snd t, fst (fst t))) parts.
Definition byy (parts : list (emat C * emat C * emat C)) := map (fun t => (snd t, snd (fst t))) parts.
Definition orthonormal (p : Z) (parts : list (emat C * emat C * emat C)) : Prop :=
  forall l l', 0 <= l < p -> 0 <= l' < p -> dot (byy parts) l l' = if l =? l' then C1 else C0.
