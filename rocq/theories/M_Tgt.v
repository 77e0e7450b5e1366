(** Model of the solution for the bands near a target frequency: the squared operator and its
    preconditioners of src/maxwell (maxwell_op.c, maxwell_pre.c), eigensolver_get_eigenvals of
    src/matrices/eigensolver_utils.c, and solve_kpoint of mpb/mpb.c when mtdata is not null.  One
    process; exact arithmetic. *)
From Coq Require Import List ZArith Reals Bool.
From Verif Require Import Base RC M_Evect M_Lin M_Op M_Eig M_Kpt M_Mx.
Import ListNotations.
Local Open Scope Z_scope.

(** maxwell_op.c 1255-1263: Xout = A Xin - w^2 Xin; [opA] is maxwell_operator. *)
Definition target_operator1 (opA : emat C -> outcome (emat C)) (w : R) (X : emat C) : outcome (emat C) :=
  let! Y := opA X in evectmatrix_aXpbY 1 Y (- (w * w)) X.

(** maxwell_op.c 1269-1282: twice that, the first result in Work.  The check that Work is an array of
    its own (1272-1274) is left out, the arrays being values here. *)
Definition target_operator (opA : emat C -> outcome (emat C)) (w : R) (X : emat C) : outcome (emat C) :=
  let! Work := target_operator1 opA w X in target_operator1 opA w Work.

(** maxwell_pre.c 83-135, after the product with YtY of line 101; PRECOND_SUBTR_EIGS is 0, so that the
    target does not occur. *)
Definition target_simple (d : mdata) (X : emat C) : outcome (emat C) :=
  let! dt := forZ 0 (d_nx d * d_ny d * d_nz d) (fun i dt => forZ 0 2 (fun c dt => forZ 0 (ep X) (fun b dt =>
    let index := (i * 2 + c) * ep X + b in
    let! n2 := rd (d_kn2 d) i in
    let scale := (n2 * d_eps_inv_mean d)%R in
    let scale := (scale * scale)%R in
    let scale := (1 / FIX_DENOM scale)%R in
    let! v := rd dt index in
    wr dt index (Cscal scale v)) dt) dt) (edata X) in
  Val (set_data X dt).

(** mpb.c 715-717 and 726-728: maxwell_target_preconditioner (maxwell_pre.c 83-135) or
    maxwell_target_preconditioner2 (313-321), which is maxwell_preconditioner2 twice, the second time
    with the same array as input and output, so that the product with YtY is left out. *)
Definition target_K (simple : bool) (d : mdata) (G Y : emat C) (S : smat C) : outcome (emat C) :=
  let! X := XeYS G G S true in
  if simple then target_simple d X
  else
    let! X := mx_finish (preconditioner2 (Z.to_nat (ep X)) d X (mx_scratch d)) in
    mx_finish (preconditioner2 (Z.to_nat (ep X)) d X (mx_scratch d)).
Definition target_KI (simple : bool) (d : mdata) (G Y : emat C) (e : list R) : outcome (emat C) := target_K simple d G Y (create_sq 0).

(** eigensolver_utils.c 48-67.  The program does not look at the result of sqmatrix_invert (59); if it
    fails, U holds what LAPACK left there, which the model does not say. *)
Definition get_eigenvals (potr : Z -> list C -> option (list C)) (heev : Z -> list C -> list C * list R)
    (opA : emat C -> outcome (emat C)) (Y : emat C) : outcome (emat C * list R) :=
  let W := create_sq (ep Y) in
  let! U := XtX W Y W in
  let! o := invert potr U in
  match o with
  | None => UB
  | Some U => get_eigenvals_aux heev opA Y U
  end.

(** mpb.c 709-736: what is done for a block instead of one run of an eigensolver; [inner] is the run
    with the squared operator, [mu]: mdata->mu_inv is not NULL.  The check at 733 (two work arrays) is
    left out, W not being modelled. *)
Definition target_solver (potr : Z -> list C -> option (list C)) (heev : Z -> list C -> list C * list R) (opA : emat C -> outcome (emat C)) (mu : bool)
    (inner : (emat C -> outcome (emat C)) -> emat C -> option (outcome (emat C * list R)))
    (c : emat C -> outcome (emat C)) (Y : emat C) : option (outcome (emat C * list R)) :=
  if mu then Some Abort
  else
    match inner c Y with
    | Some (Val (Y, _)) => Some (get_eigenvals potr heev opA Y)
    | o => o
    end.

(** mpb.c 642-838 with mtdata not null: no band is put in by hand at k = 0 (652-653, 789), but the
    constraint against constant fields is there (685-688).  As in M_Kpt otherwise. *)
Definition solve_kpoint_target (parity_c : emat C -> outcome (emat C)) (muinv : emat C -> emat C -> outcome (emat C))
    (solver : (emat C -> outcome (emat C)) -> emat C -> option (outcome (emat C * list R)))
    (fuel : nat) (zero_k same negative_ok : bool) (num_bands : Z) (S2 : list C) (ev : list R)
    (H Hblock : emat C) (BY : option (emat C)) : option (outcome (emat C * list R)) :=
  match solver_blocks fuel 0 (ealloc Hblock) num_bands (ealloc Hblock) with
  | None => None
  | Some blocks =>
      match solve_loop parity_c muinv solver same zero_k 0 S2 blocks {| k_H := H; k_blk := Hblock; k_BY := BY; k_ev := ev |} with
      | None => None
      | Some r => Some (
          let! s := r in
          let! freqs := forZ 0 num_bands (fun i f =>
              let! v := rd (k_ev s) i in
              let! w := (if negative_ok then Val v else fsqrt v) in
              wr f i w) (map (fun _ => 0%R) (k_ev s)) in
          Val (k_H s, freqs))
      end
  end.
