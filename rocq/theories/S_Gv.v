(** Vocabulary for the group velocities. *)
From Coq Require Import List ZArith Reals Bool.
From Verif Require Import Base RC M_Tensor S_Tensor M_Evect S_Evect M_Grid S_Grid M_Op S_Op M_Gv.
Import ListNotations.
Local Open Scope Z_scope.

(** The state after solve_kpoint with num_bands bands in blocks of bs: blocks and work matrix
    of bs bands, scratch space for min(bs, mx) bands; the block is the eigenvectors themselves
    if there is a single block. *)
Definition gv_ready (mx bs num_bands : Z) (same : bool) (d : mdata) (freqs : list R) (s : gstate) : Prop :=
  0 < mx /\ 1 <= bs <= num_bands /\ (same = true <-> bs = num_bands) /\ (same = true -> g_blk s = g_H s) /\
  fields d (g_H s) /\ ep (g_H s) = num_bands /\ ealloc (g_H s) = num_bands /\
  fields d (g_blk s) /\ ep (g_blk s) = bs /\ ealloc (g_blk s) = bs /\
  fields d (g_W s) /\ ep (g_W s) = bs /\ ealloc (g_W s) = bs /\
  g_d s = with_nfb (Z.min bs mx) d /\ g_nb s = bs /\
  Z.of_nat (length (g_fft s)) = 3 * npts d * Z.min bs mx /\
  num_bands <= Z.of_nat (length (g_scr s)) /\ Z.of_nat (length (g_items s)) = num_bands /\ Z.of_nat (length freqs) = num_bands.

(** The frequency by which the results are divided: the stored number, or the square root of
    its modulus when squared frequencies are stored. *)
Definition divisor (neg : bool) (f : R) : R := if neg then sqrt (Rabs f) else f.

(** x is the group velocity of band i of the fields X, with stored frequency f: zero if f is
    zero, otherwise twice the divisor times x is the derivative of the expectation value when
    the wave vectors are moved along u. *)
Definition is_velocity (d : mdata) (neg : bool) (u : vec) (X : emat C) (i : Z) (f x : R) : Prop :=
  (f = 0%R -> x = 0%R) /\
  (f <> 0%R -> derivable_pt_lim (fun t => re (mean_form d (sym_at (d_eps_inv d)) (curl_at d u t X i) (curl_at d u t X i))) 0 (2 * (divisor neg f * x))%R).
