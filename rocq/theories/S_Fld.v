(** Vocabulary for the properties of fields and energies. *)
From Coq Require Import List ZArith Reals Bool.
From Verif Require Import Base RC M_Tensor S_Tensor M_Evect S_Evect M_Grid S_Grid M_Op S_Op M_Fld.
Import ListNotations.
Local Open Scope Z_scope.

(** Component c of a field at grid point i. *)
Definition at_point (f : list C) (i c : nat) : C := gets f (3 * Z.of_nat i + Z.of_nat c).

(** The tensor relating the field to its conjugate field: 1/epsilon for D, 1/mu for B. *)
Definition medium (t : ftype) (d : mdata) (i : nat) : sym :=
  match t with
  | FD => sym_at (d_eps_inv d) i
  | FB => match d_mu_inv d with Some mu => sym_at mu i | None => iso 1 end
  | FOther => iso 1
  end.

(** Energy density F* V F and its six parts: the products of the real and of the imaginary
    parts of the components of V F and F. *)
Definition density (t : ftype) (d : mdata) (f : list C) (i : nat) : R := re (quad (medium t d i) (at_point f i)).
Definition conjugate (V : sym) (x : nat -> C) (c : nat) : C := csum 3 (fun j => (entry V c j * x j)%C).
Definition part (t : ftype) (d : mdata) (f : list C) (k i : nat) : R :=
  let u := conjugate (medium t d i) (at_point f i) (Nat.div k 2) in let v := at_point f i (Nat.div k 2) in
  if Nat.even k then (re u * re v)%R else (im u * im v)%R.

(** Sum over the stored points, some of them standing for two points of the grid. *)
Definition wsum (twice : Z -> bool) (n : nat) (f : nat -> R) : R :=
  rsum n (fun i => (if twice (Z.of_nat i) then 2 else 1) * f i)%R.

(** A tensor and a field for every stored point. *)
Definition stored (d : mdata) (f : list C) : Prop :=
  0 <= d_out d /\ Z.of_nat (length f) >= 3 * d_out d /\ Z.of_nat (length (d_eps_inv d)) = d_out d /\
  (forall mu, d_mu_inv d = Some mu -> Z.of_nat (length mu) = d_out d).

(** Work space of one band, room in the scratch array. *)
Definition workspace (d : mdata) (W0 : emat C) (fft : list C) : Prop :=
  fields d W0 /\ ep W0 = 1 /\ 3 * npts d <= Z.of_nat (length fft).

(** Total of a list, and the sum over grid points given as (coordinates, index). *)
Fixpoint total (l : list R) : R := match l with [] => 0%R | x :: l => (x + total l)%R end.

(** An energy density normalized to one: no negative value, integral one. *)
Definition normalized (twice : Z -> bool) (n : Z) (Vol HN : R) (energy : list R) : Prop :=
  0 <= n <= Z.of_nat (length energy) /\ (0 < HN)%R /\ (0 < Vol)%R /\
  (forall i, (i < Z.to_nat n)%nat -> (0 <= nth i energy 0)%R) /\
  (wsum twice (Z.to_nat n) (fun i => nth i energy 0%R) * (Vol / HN) = 1)%R.

(** The average dielectric constant at each point. *)
Definition epsilons (eigs : sym -> R * R * R) (d : mdata) (eps : nat -> R) : Prop :=
  Z.of_nat (length (d_eps_inv d)) = d_out d /\ forall i, (i < Z.to_nat (d_out d))%nat -> mean_medium eigs (sym_at (d_eps_inv d) i) = Val (eps i).

(** The ranges between consecutive numbers of a list. *)
Fixpoint ranges (a : R) (l : list R) : list (R * R) := match l with [] => [] | b :: l => (a, b) :: ranges b l end.
Fixpoint ascending (a : R) (l : list R) : Prop := match l with [] => True | b :: l => (a <= b)%R /\ ascending b l end.

(** The grid points in complex builds. *)
Definition in_cell (n1 n2 n3 i1 i2 i3 : Z) : Prop := 0 <= i1 < n1 /\ 0 <= i2 < n2 /\ 0 <= i3 < n3.
(** Position of a grid point in a cell centred at the origin (a dimension of one point: at 0). *)
Definition position_of (size : R) (n i : Z) : R := if n =? 1 then 0%R else (size * (IZR i / IZR n - 1 / 2))%R.
Definition place (sx sy sz : R) (n1 n2 n3 i1 i2 i3 : Z) : vec := (position_of sx n1 i1, position_of sy n2 i2, position_of sz n3 i3).

(** The object that owns a point: the last one in the list that contains it. *)
Definition owner (objects : list object) (p : vec) (o : object) : Prop :=
  exists l1 l2, objects = l1 ++ o :: l2 /\ o_in o p = true /\ forall o', In o' l2 -> o_in o' p = false.
Definition owned (objects : list object) (p : vec) : Prop := exists o, owner objects p o /\ o_nothing o = false.
