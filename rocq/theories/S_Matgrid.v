(** Vocabulary for the material-grid properties. *)
From Coq Require Import List ZArith Reals.
From Verif Require Import Base RC M_Tensor M_Interp M_Matgrid S_Interp.
Import ListNotations.
Local Open Scope R_scope.

Fixpoint dotl (v h : list R) : R := match v, h with a :: v, b :: h => a * b + dotl v h | _, _ => 0 end.
(** u + t h, entry by entry. *)
Fixpoint addl (t : R) (u h : list R) : list R :=
  match u, h with a :: u, b :: h => (a + t * b) :: addl t u h | _, _ => [] end.

(** Grids with positive sizes. *)
Definition grid_ok (g : mgrid) : Prop := (0 < gx g)%Z /\ (0 < gy g)%Z /\ (0 < gz g)%Z.
(** The same grids holding the parameters u, one after the other. *)
Fixpoint with_params (gs : list mgrid) (u : list R) : list mgrid :=
  match gs with
  | [] => []
  | g :: t => {| gx := gx g; gy := gy g; gz := gz g; gdata := firstn (Z.to_nat (gx g * gy g * gz g)) u |}
              :: with_params t (skipn (Z.to_nat (gx g * gy g * gz g)) u)
  end.
Definition total (gs : list mgrid) : nat := list_sum (map (fun g => Z.to_nat (gx g * gy g * gz g)) gs).
Definition filled (g : mgrid) : Prop := grid_ok g /\ length (gdata g) = Z.to_nat (gx g * gy g * gz g).

(** Points that the mirror rule below 0 brings into the unit cube. *)
Definition mir_pt (p : vec) : Prop := let '(x, y, z) := p in -1 <= x <= 1 /\ -1 <= y <= 1 /\ -1 <= z <= 1.
Definition abs_pt (p : vec) : vec := let '(x, y, z) := p in (Rabs x, Rabs y, Rabs z).

(** Value of one grid at a point. *)
Definition grid_value (p : vec) (g : mgrid) : R := tents (gx g) (gy g) (gz g) (abs_pt p) (at3 (gy g) (gz g) 1 (gdata g)).
(** Combination of the values of the overlapping grids. *)
Definition combine (k : kind) (us : list R) : R :=
  match k with
  | U_MIN => fold_right Rmin 1 us
  | U_PROD => fold_right Rmult 1 us
  | U_SUM => fold_right Rplus 0 us / INR (length us)
  end.
Definition opt_list {A} (o : option A) : list A := match o with Some a => [a] | None => [] end.

(** Overlapping grids given by position in the list. *)
Definition entry_ok (gs : list mgrid) (e : vec * nat) : Prop := mir_pt (fst e) /\ (snd e < length gs)%nat.
Definition g0 : mgrid := {| gx := 1; gy := 1; gz := 1; gdata := [0] |}.
Definition entry_value (gs : list mgrid) (e : vec * nat) : R := grid_value (fst e) (nth (snd e) gs g0).
(** The dielectric constant as a function of all the parameters. *)
Definition eps_of (k : kind) (eps_min eps_max : R) (gs : list mgrid) (es : list (vec * nat)) (u : list R) : R :=
  combine k (map (entry_value (with_params gs u)) es) * (eps_max - eps_min) + eps_min.
