(** Model of the functions solve_kpoint hands to the eigensolvers (mpb/mpb.c 680-766): the Maxwell
    operator, the inverse permeability, the preconditioners and the parity constraint, as functions on
    blocks of fields.  One process, complex fields.  The output and scratch arrays, whose contents do
    not matter (C14), are made here; the outputs get the shape of the input. *)
From Coq Require Import List ZArith Reals Bool.
From Verif Require Import Base RC M_Tensor M_Evect M_Grid M_Op M_Eig.
Import ListNotations.
Local Open Scope Z_scope.

(** maxwell.c 222-231: fft_data, room for num_fft_bands bands (there for max_fft_bands, which is not less) of three components. *)
Definition mx_scratch (d : mdata) : list C := repeat C0 (Z.to_nat (3 * (d_nx d * d_ny d * d_nz d) * d_nfb d)).

(** A loop over batches that does not end is left out of the outcomes by [Abort]. *)
Definition mx_finish (r : option (outcome (emat C * list C))) : outcome (emat C) :=
  match r with Some o => let! (Y, _) := o in Val Y | None => Abort end.

(** mpb.c 746 and 757: maxwell_operator (maxwell_op.c 1182-1222). *)
Definition mx_A (d : mdata) (X : emat C) : outcome (emat C) := mx_finish (maxwell_operator (Z.to_nat (ep X)) d X X (mx_scratch d)).

(** mpb.c 758: maxwell_muinv_operator (maxwell_op.c 1224-1247) if there is a permeability, otherwise NULL. *)
Definition mx_B (d : mdata) : option (emat C -> outcome (emat C)) :=
  match d_mu_inv d with
  | Some _ => Some (fun X => mx_finish (muinv_operator (Z.to_nat (ep X)) d X X (mx_scratch d)))
  | None => None
  end.

(** mpb.c 700-701: the same from H to muinvH, which may have fewer bands. *)
Definition mx_muinv (d : mdata) (H b : emat C) : outcome (emat C) := mx_finish (muinv_operator (Z.to_nat (ep b)) d H b (mx_scratch d)).

(** mpb.c 748-751 and 760-763: maxwell_preconditioner (maxwell_pre.c 75-81) or maxwell_preconditioner2 (212-311); both
    begin with Xout = Xin YtY.  Y and the eigenvalues are not used (PRECOND_SUBTR_EIGS is 0). *)
Definition mx_K (simple : bool) (d : mdata) (G Y : emat C) (S : smat C) : outcome (emat C) :=
  let! X := XeYS G G S true in
  if simple then simple_precondition d X else mx_finish (preconditioner2 (Z.to_nat (ep X)) d X (mx_scratch d)).

(** eigensolver_davidson.c 201: I is a matrix without rows (98), which stands for the identity. *)
Definition mx_KI (simple : bool) (d : mdata) (G Y : emat C) (e : list R) : outcome (emat C) := mx_K simple d G Y (create_sq 0).

(** mpb.c 681-683: maxwell_parity_constraint (maxwell_constraints.c 31-42). *)
Definition mx_parity (d : mdata) (parity : Z) (X : emat C) : outcome (emat C) :=
  let! dt := parity_constraint (d_nx d) (d_nx d) (d_ny d) (d_nz d) parity (ep X) (edata X) in Val (set_data X dt).
