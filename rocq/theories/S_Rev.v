(** Vocabulary for time reversal. *)
From Coq Require Import List ZArith Reals.
From Verif Require Import Base RC M_Tensor S_Tensor M_Evect S_Evect M_Grid S_Grid M_Op S_Op S_Mir.
Local Open Scope Z_scope.

(** The tensors t' are the complex conjugates of t; real ones are their own. *)
Definition conj_tensors (d : mdata) (t' t : list sym) : Prop :=
  forall r i j, (r < Z.to_nat (npts d))%nat -> (i < 3)%nat -> (j < 3)%nat -> entry (sym_at t' r) i j = Cconj (entry (sym_at t r) i j).
(** The time-reversed structure at -k, on the same grid and lattice, without permeability. *)
Definition reversed (d d' : mdata) (k G1 G2 G3 : vec) : Prop :=
  made d k G1 G2 G3 /\ made d' (rsc (-1) k) G1 G2 G3 /\ d_nx d' = d_nx d /\ d_ny d' = d_ny d /\ d_nz d' = d_nz d /\
  conj_tensors d (d_eps_inv d') (d_eps_inv d) /\ d_mu_inv d = None /\ d_mu_inv d' = None.
(** Band b has nothing at the outermost frequencies of any direction. *)
Definition inside_band (d : mdata) (X : emat C) (b : Z) : Prop := forall x y z c, 0 <= x < d_nx d -> 0 <= y < d_ny d -> 0 <= z < d_nz d -> 0 <= c < 2 ->
  outermost (d_nx d) x \/ outermost (d_ny d) y \/ outermost (d_nz d) z -> amp (d_ny d) (d_nz d) (ep X) (edata X) x y z c b = C0.
(** Band b' of X' is the complex conjugate of band b of X at every point of the grid. *)
Definition conjugate (d' : mdata) (X' : emat C) (b' : Z) (d : mdata) (X : emat C) (b : Z) : Prop :=
  forall r i, (r < Z.to_nat (npts d))%nat -> (i < 3)%nat -> hfield d' X' b' r i = Cconj (hfield d X b r i).
