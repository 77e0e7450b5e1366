(** Vocabulary for the line search. *)
From Coq Require Import List ZArith Reals Bool.
From Verif Require Import Base RC M_Lin.
Import ListNotations.
Local Open Scope R_scope.

(** Sufficient decrease and curvature conditions for the step x relative to the value f0 and the
    slope g0 at the start. *)
Definition sufficient (tol f0 g0 x f : R) : Prop := f <= f0 + tol * x * g0.
Definition curvature (tol g0 g : R) : Prop := Rabs g <= tol * Rabs g0.

(** States of a search along a negative slope after n evaluations, with the step offered for the
    next one. *)
Inductive reach (F : nat -> R -> R * R) (p : lpar) : nat -> lsave -> R -> Prop :=
| reach_start x v : dcsrch_start p x = Some v -> reach F p 0 v x
| reach_next n v x f g v' x' : reach F p n v x -> F n x = (f, g) -> dcsrch p v x f g = Val (FG, v', x') -> reach F p (S n) v' x'.

(** The function has been evaluated at s (after n evaluations), with results f and g; or s is
    the start. *)
Definition known (F : nat -> R -> R * R) (p : lpar) (n : nat) (q : R * R * R) : Prop :=
  q = (0, finit p, ginit p) \/ exists m v s, (m < n)%nat /\ reach F p m v s /\ q = (s, fst (F m s), snd (F m s)).

Definition in_bounds (p : lpar) (x : R) : Prop := stpmin p <= x <= stpmax p.

(** The oracle is a function of x with the given value and slope at 0. *)
Definition consistent (F : nat -> R -> R * R) (f : R -> R * R) (f0 g0 : R) : Prop := (forall n x, F n x = f x) /\ f 0 = (f0, g0).
