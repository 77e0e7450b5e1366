(** Vocabulary for mirror symmetric structures. *)
From Coq Require Import List ZArith Reals Bool.
From Verif Require Import Base RC M_Tensor S_Tensor M_Evect S_Evect M_Grid S_Grid M_Op S_Op.
Import ListNotations.
Local Open Scope Z_scope.

(** The data of a structure at k on a lattice with reciprocal vectors G1, G2, G3. *)
Definition made (d : mdata) (k G1 G2 G3 : vec) : Prop :=
  exists nx ny nz nfb t eps mu kn2 em, 1 <= nx /\ 1 <= ny /\ 1 <= nz /\ k_plus_G nx ny nz 0 nx k G1 G2 G3 = Val t /\
    Z.of_nat (length eps) = nx * ny * nz /\ (forall m, mu = Some m -> Z.of_nat (length m) = nx * ny * nz) /\
    d = create_shape nx ny nz nfb t eps mu kn2 em.

(** Signs of the components of a vector under z -> -z and y -> -y. *)
Definition zsgn (i : nat) : R := match i with 2%nat => (-1)%R | _ => 1%R end.
Definition ysgn (i : nat) : R := match i with 1%nat => (-1)%R | _ => 1%R end.

(** k is in the mirror plane and the lattice goes over into itself: G1 and G2 are in the plane and G3
    is perpendicular to it; with y, G1 and G3 are in the plane and G2 is perpendicular. *)
Definition zplane (k G1 G2 G3 : vec) : Prop :=
  comp 2 k = 0%R /\ comp 2 G1 = 0%R /\ comp 2 G2 = 0%R /\ comp 0 G3 = 0%R /\ comp 1 G3 = 0%R.
Definition yplane (k G1 G2 G3 : vec) : Prop :=
  comp 1 k = 0%R /\ comp 1 G1 = 0%R /\ comp 1 G3 = 0%R /\ comp 0 G2 = 0%R /\ comp 2 G2 = 0%R.

(** The tensors at mirrored points are mirrored. *)
Definition idx (d : mdata) (x y z : Z) : nat := Z.to_nat ((x * d_ny d + y) * d_nz d + z).
Definition zmirrored (d : mdata) (t : list sym) : Prop := forall x y z i j, 0 <= x < d_nx d -> 0 <= y < d_ny d -> 0 <= z < d_nz d -> (i < 3)%nat -> (j < 3)%nat ->
  entry (sym_at t (idx d x y (opp (d_nz d) z))) i j = (RtoC (zsgn i * zsgn j) * entry (sym_at t (idx d x y z)) i j)%C.
Definition ymirrored (d : mdata) (t : list sym) : Prop := forall x y z i j, 0 <= x < d_nx d -> 0 <= y < d_ny d -> 0 <= z < d_nz d -> (i < 3)%nat -> (j < 3)%nat ->
  entry (sym_at t (idx d x (opp (d_ny d) y) z)) i j = (RtoC (ysgn i * ysgn j) * entry (sym_at t (idx d x y z)) i j)%C.
(** Permittivity and, if there is one, permeability. *)
Definition zstructure (d : mdata) : Prop := zmirrored d (d_eps_inv d) /\ forall mu, d_mu_inv d = Some mu -> zmirrored d mu.
Definition ystructure (d : mdata) : Prop := ymirrored d (d_eps_inv d) /\ forall mu, d_mu_inv d = Some mu -> ymirrored d mu.

(** The outermost frequencies of a dimension of n points, whose opposites are not there: the one in
    the middle of the table, or the two around the middle if n is odd. *)
Definition outermost (n j : Z) : Prop := 1 < n /\ Z.abs (2 * j - n) <= 1.
(** Band b has nothing there. *)
Definition zlimited (d : mdata) (X : emat C) (b : Z) : Prop := forall x y z c, 0 <= x < d_nx d -> 0 <= y < d_ny d -> 0 <= z < d_nz d -> 0 <= c < 2 ->
  outermost (d_nz d) z -> amp (d_ny d) (d_nz d) (ep X) (edata X) x y z c b = C0.
Definition ylimited (d : mdata) (X : emat C) (b : Z) : Prop := forall x y z c, 0 <= x < d_nx d -> 0 <= y < d_ny d -> 0 <= z < d_nz d -> 0 <= c < 2 ->
  outermost (d_ny d) y -> amp (d_ny d) (d_nz d) (ep X) (edata X) x y z c b = C0.
(** Band b' of X' is the mirror image of band b of X. *)
Definition zimage (d : mdata) (X' : emat C) (b' : Z) (X : emat C) (b : Z) : Prop := forall x y z c, 0 <= x < d_nx d -> 0 <= y < d_ny d -> 0 <= z < d_nz d -> 0 <= c < 2 ->
  amp (d_ny d) (d_nz d) (ep X') (edata X') x y z c b' = zflip (d_ny d) (d_nz d) (ep X) (edata X) x y z c b.
Definition yimage (d : mdata) (X' : emat C) (b' : Z) (X : emat C) (b : Z) : Prop := forall x y z c, 0 <= x < d_nx d -> 0 <= y < d_ny d -> 0 <= z < d_nz d -> 0 <= c < 2 ->
  amp (d_ny d) (d_nz d) (ep X') (edata X') x y z c b' = yflip (d_ny d) (d_nz d) (ep X) (edata X) x y z c b.
(** Band b has parity s. *)
Definition zparity (d : mdata) (s : Z) (X : emat C) (b : Z) : Prop := forall x y z c, 0 <= x < d_nx d -> 0 <= y < d_ny d -> 0 <= z < d_nz d -> 0 <= c < 2 ->
  zflip (d_ny d) (d_nz d) (ep X) (edata X) x y z c b = Cscal (IZR s) (amp (d_ny d) (d_nz d) (ep X) (edata X) x y z c b).
Definition yparity (d : mdata) (s : Z) (X : emat C) (b : Z) : Prop := forall x y z c, 0 <= x < d_nx d -> 0 <= y < d_ny d -> 0 <= z < d_nz d -> 0 <= c < 2 ->
  yflip (d_ny d) (d_nz d) (ep X) (edata X) x y z c b = Cscal (IZR s) (amp (d_ny d) (d_nz d) (ep X) (edata X) x y z c b).
