(** Vocabulary for saved and loaded material grids. *)
From Coq Require Import List ZArith Reals.
From Verif Require Import Base RC M_Tensor M_Interp S_Interp M_Matgrid M_Load.
Import ListNotations.
Local Open Scope R_scope.

(** The file has an array of n0 x n1 x n2 numbers with the values F, dimensions of one at the end
    perhaps left out. *)
Definition file_holds (f : h5) (n0 n1 n2 : Z) (F : Z -> Z -> Z -> R) : Prop :=
  (exists k, h_dims f ++ repeat 1%Z k = [n0; n1; n2]) /\ grid_data n0 n1 n2 1 (h_data f) /\
  forall i j k, (0 <= i < n0)%Z -> (0 <= j < n1)%Z -> (0 <= k < n2)%Z -> at3 n1 n2 1 (h_data f) i j k = F i j k.
(** The grid's array has its size; its values. *)
Definition whole_grid (g : mgrid) : Prop := (0 < gx g)%Z /\ (0 < gy g)%Z /\ (0 < gz g)%Z /\ Z.of_nat (length (gdata g)) = (gx g * gy g * gz g)%Z.
Definition same_sizes (g h : mgrid) : Prop := gx g = gx h /\ gy g = gy h /\ gz g = gz h.
Definition value (g : mgrid) (i j k : Z) : R := at3 (gy g) (gz g) 1 (gdata g) i j k.
Definition inside (g : mgrid) (i j k : Z) : Prop := (0 <= i < gx g /\ 0 <= j < gy g /\ 0 <= k < gz g)%Z.
(** The nearest number in [0,1]. *)
Definition clip (x : R) : R := Rmin 1 (Rmax 0 x).
(** Number of periods of the file along a direction: 1 unless a positive number is given. *)
Definition periods (c s : R) : Prop := (0 < c /\ s = c) \/ (c <= 0 /\ s = 1).
