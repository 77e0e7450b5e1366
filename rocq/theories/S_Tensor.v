(** Specification vocabulary for tensors, independent of the model's algorithms. *)
From Coq Require Import Reals List ZArith.
From Verif Require Import RC M_Tensor.
Import ListNotations.
Local Open Scope R_scope.

(** The full matrix represented by an upper triangle: entry (i,j) of the Hermitian
    matrix for i,j < 3. *)
Definition entry (V : sym) (i j : nat) : C :=
  match i, j with
  | O, O => RtoC (m00 V) | S O, S O => RtoC (m11 V) | S (S O), S (S O) => RtoC (m22 V)
  | O, S O => m01 V | S O, O => Cconj (m01 V)
  | O, S (S O) => m02 V | S (S O), O => Cconj (m02 V)
  | S O, S (S O) => m12 V | S (S O), S O => Cconj (m12 V)
  | _, _ => C0
  end.

Definition delta (i j : nat) : C := if Nat.eqb i j then C1 else C0.

(** Matrix product of the represented matrices. *)
Definition prod3 (V W : sym) (i j : nat) : C := csum 3 (fun k => (entry V i k * entry W k j)%C).

Definition is_inverse (V W : sym) : Prop :=
  forall i j, (i < 3)%nat -> (j < 3)%nat -> prod3 V W i j = delta i j /\ prod3 W V i j = delta i j.

(** x* V x for a complex vector x. *)
Definition quad (V : sym) (x : nat -> C) : C :=
  csum 3 (fun i => csum 3 (fun j => (Cconj (x i) * entry V i j * x j)%C)).

(** Positive definiteness: x* V x is real and positive for every nonzero x. *)
Definition PD (V : sym) : Prop :=
  forall x : nat -> C, (exists i, (i < 3)%nat /\ x i <> C0) ->
    im (quad V x) = 0 /\ 0 < re (quad V x).

(** Action on a real vector. *)
Definition apply3 (V : sym) (v : nat -> R) (i : nat) : C :=
  csum 3 (fun j => (entry V i j * RtoC (v j))%C).

(** Columns orthonormal and right handed. *)
Definition orthonormal (Rt : mat3) : Prop :=
  forall i j, (i < 3)%nat -> (j < 3)%nat ->
    rsum 3 (fun k => Rt k i * Rt k j) = if Nat.eqb i j then 1 else 0.
Definition det3 (A : mat3) : R :=
  A 0%nat 0%nat * (A 1%nat 1%nat * A 2%nat 2%nat - A 1%nat 2%nat * A 2%nat 1%nat)
  - A 0%nat 1%nat * (A 1%nat 0%nat * A 2%nat 2%nat - A 1%nat 2%nat * A 2%nat 0%nat)
  + A 0%nat 2%nat * (A 1%nat 0%nat * A 2%nat 1%nat - A 1%nat 1%nat * A 2%nat 0%nat).

(** Isotropic tensor. *)
Definition iso (e : R) : sym := mkSym e e e C0 C0 C0.

(** Determinant of the represented Hermitian matrix (a real number), by the Leibniz
    formula on [entry]. *)
Definition cdet (V : sym) : C :=
  let e := entry V in
  (e 0%nat 0%nat * (e 1%nat 1%nat * e 2%nat 2%nat - e 1%nat 2%nat * e 2%nat 1%nat)
   - e 0%nat 1%nat * (e 1%nat 0%nat * e 2%nat 2%nat - e 1%nat 2%nat * e 2%nat 0%nat)
   + e 0%nat 2%nat * (e 1%nat 0%nat * e 2%nat 1%nat - e 1%nat 1%nat * e 2%nat 0%nat))%C.

(** Real matrices as Hermitian ones. *)
Definition embed (V : rsym) : sym :=
  mkSym (r00 V) (r11 V) (r22 V) (RtoC (r01 V)) (RtoC (r02 V)) (RtoC (r12 V)).

(** Sum of a list of reals. *)
Definition sumR (l : list R) : R := fold_right Rplus 0 l.

(** A vector from its components. *)
Definition nvec (a b c : R) : nat -> R := fun i => match i with O => a | S O => b | _ => c end.

(** All mesh sizes at least one. *)
Definition mesh_ok (ms : Z*Z*Z) : Prop := let '(a,b,c) := ms in (1 <= a /\ 1 <= b /\ 1 <= c)%Z.
