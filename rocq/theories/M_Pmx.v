(** Model of the functions solve_kpoint hands to the eigensolver (mpb/mpb.c 680-766) on several processes, as functions on the
    blocks of fields divided among them: M_Mx for the parallel build.  As there, the output and scratch arrays are made here. *)
From Coq Require Import List ZArith Reals Bool.
From Verif Require Import Base RC M_Tensor M_Evect M_Grid M_Op M_Eig M_Kpt M_Mpi M_Pcg.
Import ListNotations.
Local Open Scope Z_scope.

(** maxwell.c 222-231: fft_data; FFTW's local size (137-141) has room for the local part in either layout. *)
Definition mxp_scratch (p : proc) : list C := repeat C0 (Z.to_nat (3 * Z.max (x_count p) (y_count p) * d_nfb (pd p))).
(** Every process with its share of the block. *)
Definition mxp_states (ps : list proc) (l : dmat) : list pst :=
  map (fun q => {| s_p := fst q; s_in := snd q; s_out := snd q; s_fft := mxp_scratch (fst q) |}) (combine ps l).
(** A loop over batches that does not end is left out of the outcomes by [Abort], as in [mx_finish]. *)
Definition mxp_finish (r : option (outcome (list pst))) : outcome dmat :=
  match r with Some o => let! l := o in Val (map s_out l) | None => Abort end.

(** mpb.c 746 and 757: maxwell_operator (maxwell_op.c 1182-1222). *)
Definition mxp_A (ps : list proc) (l : dmat) : outcome dmat := mxp_finish (maxwell_operator_mpi (Z.to_nat (dp l)) (mxp_states ps l)).
(** mpb.c 758: maxwell_muinv_operator (maxwell_op.c 1224-1247) if there is a permeability, otherwise NULL; all processes agree. *)
Definition mxp_B (ps : list proc) : option (dmat -> outcome dmat) :=
  match ps with
  | p :: _ => match d_mu_inv (pd p) with
              | Some _ => Some (fun l => mxp_finish (muinv_operator_mpi (Z.to_nat (dp l)) (mxp_states ps l)))
              | None => None
              end
  | [] => None
  end.
(** mpb.c 760-763: maxwell_preconditioner2 (maxwell_pre.c 212-311); the simple preconditioner is left out. *)
Definition mxp_K (ps : list proc) (G Y : dmat) (S : smat C) : outcome dmat :=
  let! X := XeYS_mpi G G S true in
  mxp_finish (preconditioner2_mpi (Z.to_nat (dp X)) (mxp_states ps X)).
(** mpb.c 681-683: maxwell_parity_constraint (maxwell_constraints.c 31-42), which involves no other process: the mirror
    images of a plane wave in y and z have the same x. *)
Definition mxp_parity (ps : list proc) (parity : Z) (l : dmat) : outcome dmat :=
  mapM (fun q => let p := fst q in let X := snd q in
    let! dt := parity_constraint (d_nx (pd p)) (pnx p) (d_ny (pd p)) (d_nz (pd p)) parity (ep X) (edata X) in Val (set_data X dt)) (combine ps l).
(** mpb.c 685-688: maxwell_zero_k_constraint (maxwell_constraints.c 383-395) with Nstart from maxwell.c 152. *)
Definition mxp_zero_k (ps : list proc) (l : dmat) : outcome dmat :=
  mapM (fun q => let p := fst q in zero_k_constraint C0 (snd q) (px0 p * d_ny (pd p) * d_nz (pd p))) (combine ps l).
(** eigensolver_utils.c 97-106 and mpb.c 680-688: the chain of the constraints that apply to all bands. *)
Definition mxp_chain (ps : list proc) (parity : Z) (zero_k : bool) (l : dmat) : outcome dmat :=
  let! l := (if zero_k then mxp_zero_k ps l else Val l) in mxp_parity ps parity l.
