(** Vocabulary for the derivative of a frequency along the wave vector. *)
From Coq Require Import List ZArith Reals Bool.
From Verif Require Import Base RC M_Tensor S_Tensor M_Evect S_Evect M_Grid S_Grid M_Op S_Op S_Fgrad M_Gv S_Gv M_Vel.
Import ListNotations.
Local Open Scope R_scope.

(** The same structure with another table of wave vectors (the preconditioner's table, which
    the operator does not read, is left). *)
Definition with_kG (ks : list kdata) (d : mdata) : mdata :=
  {| d_nx := d_nx d; d_ny := d_ny d; d_nz := d_nz d; d_other := d_other d; d_last := d_last d; d_last_size := d_last_size d; d_out := d_out d; d_nfb := d_nfb d;
     d_kG := ks; d_eps_inv := d_eps_inv d; d_mu_inv := d_mu_inv d; d_kn2 := d_kn2 d; d_eps_inv_mean := d_eps_inv_mean d |}.

(** [ks] is the table that the code sets up for the wave vector k (Cartesian). *)
Definition table_at (d : mdata) (G1 G2 G3 k : vec) (ks : list kdata) : Prop :=
  k_plus_G (d_nx d) (d_ny d) (d_nz d) 0 (d_nx d) k G1 G2 G3 = Val ks.

(** A band followed as the wave vector moves from k along u: eigenfields for all t near 0, those
    of band b of H at t = 0, whose plane waves' Cartesian amplitudes (the transverse basis
    changes with the wave vector, even abruptly) depend continuously on t there. *)
Definition followed (d : mdata) (G1 G2 G3 k u : vec) (H : emat C) (b : Z) (ks : R -> list kdata) (Y : R -> emat C) (j : Z) (lam : R -> R) : Prop :=
  (exists del, 0 < del /\ forall t, Rabs t < del -> table_at d G1 G2 G3 (vadd3 k (rsc t u)) (ks t) /\ eigenfield (with_kG (ks t) d) (Y t) j (lam t)) /\
  (forall g i, (g < Z.to_nat (npts d))%nat -> (i < 3)%nat ->
     cart (with_kG (ks 0) d) (Y 0) j g i = cart d H b g i /\
     continuity_pt (fun t => re (cart (with_kG (ks t) d) (Y t) j g i)) 0 /\ continuity_pt (fun t => im (cart (with_kG (ks t) d) (Y t) j g i)) 0).

(** The columns of Gm are dual to those of Rm. *)
Definition col (i : nat) (m : matrix3x3) : vec := match i with 0%nat => fst (fst m) | 1%nat => snd (fst m) | _ => snd m end.
Definition dual (Rm Gm : matrix3x3) : Prop := forall i j, (i < 3)%nat -> (j < 3)%nat -> rdot (col i Rm) (col j Gm) = if Nat.eqb i j then 1 else 0.
(** The vector with coordinates h in the basis of the columns of Gm. *)
Definition in_basis (Gm : matrix3x3) (h : vec) : vec :=
  vadd3 (rsc (S_Op.comp 0 h) (col 0 Gm)) (vadd3 (rsc (S_Op.comp 1 h) (col 1 Gm)) (rsc (S_Op.comp 2 h) (col 2 Gm))).

(** The state after solving at the wave vector k (Cartesian), with band b (numbered from 1) of
    frequency w > 0 an exact normalised eigenfield; no permeability. *)
Definition solved (s : vstate) (d : mdata) (k : vec) (b : Z) (w : R) : Prop :=
  v_mdata s = Some d /\ v_kindex s <> 0%Z /\ (1 < v_nwork s)%Z /\ reciprocal_vectors (v_Rm s) = Val (v_Gm s) /\
  wfd d /\ d_mu_inv d = None /\ (0 < d_nfb d)%Z /\ table_at d (col 0 (v_Gm s)) (col 1 (v_Gm s)) (col 2 (v_Gm s)) k (d_kG d) /\
  (1 <= b <= ep (v_H s))%Z /\ Z.of_nat (length (v_freqs s)) = ep (v_H s) /\ rd (v_freqs s) (b - 1) = Val (if v_neg s then w * w else w) /\
  0 < w /\ dotl (v_H s) (v_H s) (b - 1) (b - 1) = C1 /\ eigenfield d (v_H s) (b - 1) (w * w).
(** Work matrices with room for one band and as much scratch space. *)
Definition work_ok (d : mdata) (wk : work) : Prop :=
  let '(W0, W1, fft) := wk in fields d W0 /\ (1 <= ealloc W0)%Z /\ fields d W1 /\ (1 <= ealloc W1)%Z /\ (3 * npts d <= Z.of_nat (length fft))%Z.
(** x is the derivative of the frequency of band b when the wave vector moves from k along u,
    however the band is followed. *)
Definition velocity_along (s : vstate) (d : mdata) (k : vec) (b : Z) (u : vec) (x : R) : Prop :=
  forall ks Y j lam, followed d (col 0 (v_Gm s)) (col 1 (v_Gm s)) (col 2 (v_Gm s)) k u (v_H s) (b - 1) ks Y j lam -> derivable_pt_lim (fun t => sqrt (lam t)) 0 x.
