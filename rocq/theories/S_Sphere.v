(** Specification vocabulary for the quadrature rules. *)
From Coq Require Import Reals List Bool ZArith.
From Verif Require Import RC M_Tensor S_Tensor.
Import ListNotations.
Local Open Scope R_scope.

(** The value the rule assigns to the average of f. *)
Definition qavg (q : list (vec * R)) (f : vec -> R) : R := sumR (map (fun pw => snd pw * f (fst pw)) q).
Definition mono (a b c : nat) (p : vec) : R := let '(x, y, z) := p in x^a * y^b * z^c.

(** (n-1)!! : 1, 1, 1, 2, 3, 8, 15, ... for n = 0, 1, 2, 3, ... *)
Fixpoint dfact (n : nat) : R := match n with O => 1 | S O => 1 | S (S m) => INR (S m) * dfact m end.
(** Average of x^a y^b z^c over the unit sphere (the classical formula: zero if an
    exponent is odd, else (a-1)!! (b-1)!! (c-1)!! / (a+b+c+1)!!). *)
Definition sphere_avg (a b c : nat) : R :=
  if Nat.even a && Nat.even b && Nat.even c
  then dfact a * dfact b * dfact c / dfact (a + b + c + 2) else 0.

Definition on_sphere (p : vec) (r : R) : Prop := let '(x, y, z) := p in x*x + y*y + z*z = r*r.

(** Cartesian coordinates of lattice coordinates. *)
Definition cart (Rl : mat3) (q : vec) : vec :=
  let '(a, b, c) := q in
  (Rl 0%nat 0%nat * a + Rl 1%nat 0%nat * b + Rl 2%nat 0%nat * c,
   Rl 0%nat 1%nat * a + Rl 1%nat 1%nat * b + Rl 2%nat 1%nat * c,
   Rl 0%nat 2%nat * a + Rl 1%nat 2%nat * b + Rl 2%nat 2%nat * c).
Definition vsub (p q : vec) : vec :=
  let '(a, b, c) := p in let '(x, y, z) := q in (a - x, b - y, c - z).
Definition dot (p q : vec) : R :=
  let '(a, b, c) := p in let '(x, y, z) := q in a * x + b * y + c * z.
(** G is the inverse of the transposed lattice matrix. *)
Definition dual (Rl G : mat3) : Prop :=
  forall a b, (a < 3)%nat -> (b < 3)%nat -> rsum 3 (fun j => Rl j a * G j b) = if Nat.eqb a b then 1 else 0.
(** The part of a vector in the first [rank] Cartesian directions. *)
Definition first_dirs (rank : nat) (g : vec) : vec :=
  let '(a, b, c) := g in
  match rank with 3%nat => (a, b, c) | 2%nat => (a, b, 0) | _ => (a, 0, 0) end.
Definition smul (c : R) (p : vec) : vec := let '(x, y, z) := p in (c * x, c * y, c * z).
Definition trace (e : sym) : R := m00 e + m11 e + m22 e.
