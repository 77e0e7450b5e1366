(** Model of dot-eigenvectors (mpb/matrix-smob.c) and fix-phase-consistency (mpb/mpb.scm.in). *)
From Coq Require Import List ZArith Reals Bool.
From Verif Require Import Base RC M_Tensor M_Evect M_Grid M_Op M_Gv M_Pha.
Import ListNotations.
Local Open Scope Z_scope.

(** create_sqmatrix (matrices.c 58-69): the numbers are not set; here each is [junk]. *)
Definition new_sq (junk : C) (p : Z) : smat C := {| sp := p; salloc := p; sdata := repeat junk (Z.to_nat (p * p)) |}.

(** What the loop of dot_eigenvectors changes: the products, the work matrix W[0], mdata and the
    transform array. *)
Record ostate := mkO { o_U : smat C; o_W : emat C; o_d : mdata; o_fft : list C }.

(** matrix-smob.c 309-320: one block, from band ib (counted from 0). *)
Definition ov_block (junk : C) (mx : Z) (H m : emat C) (b_start final_band ib : Z) (s : ostate) : outcome ostate :=
  let part := ib + ealloc (o_W s) >? final_band in
  let d := if part then set_num_bands mx (final_band - ib) (o_d s) else o_d s in
  let! W := (if part then evectmatrix_resize (o_W s) (final_band - ib) false else Val (o_W s)) in
  let! (W, fft) := H_from_B d false H W ib 0 (ep W) (o_fft s) in
  let! U := XtY_slice2 (o_U s) m W 0 0 (ep m) (ep W) (ib - (b_start - 1)) (new_sq junk (ep m)) (new_sq junk (ep m)) in
  Val (mkO U W d fft).

(** matrix-smob.c 308: the loop, ib += W[0].alloc_p; None: not finished within [fuel] iterations. *)
Fixpoint ov_loop (fuel : nat) (junk : C) (mx : Z) (H m : emat C) (b_start final_band ib : Z) (s : ostate) : option (outcome ostate) :=
  if ib <? final_band then
    match fuel with
    | O => None
    | S fuel' =>
        match ov_block junk mx H m b_start final_band ib s with
        | Val s' => ov_loop fuel' junk mx H m b_start final_band (ib + ealloc (o_W s')) s'
        | r => Some r
        end
    end
  else Some (Val s).

(** matrix-smob.c 286-333, with the array of H, and max_fft_bands = mx.  Without mu the scratch
    result S2 of XtY_slice2 is U itself (evectmatrix.c 198), which is then copied onto itself. *)
Definition dot_eigenvectors (junk : C) (mx num_bands : Z) (d : mdata) (H m : emat C) (b_start : Z) (W0 : emat C) (fft : list C)
  : option (outcome ostate) :=
  let final_band := b_start - 1 + ep m in
  if negb (final_band <=? num_bands) then Some Abort
  else
    let U := new_sq junk (ep m) in
    match d_mu_inv d with
    | None => Some (let! U := XtY_slice2 U m H 0 (b_start - 1) (ep m) (ep m) 0 (new_sq junk (ep m)) U in
                    Val (mkO U W0 d fft))
    | Some _ =>
        option_map (fun r =>
          let! s := r in
          let! W := evectmatrix_resize (o_W s) (ealloc (o_W s)) false in
          Val (mkO (o_U s) W (set_num_bands mx (ealloc W) (o_d s)) (o_fft s)))
        (ov_loop (Z.to_nat (ep m)) junk mx H m b_start final_band (b_start - 1) (mkO U W0 d fft))
    end.

(** sqmatrix-ref, matrix-smob.c 206-216. *)
Definition sqmatrix_ref (m : smat C) (i j : Z) : outcome C :=
  let! _ := check ((0 <=? i) && (0 <=? j) && (i <? sp m) && (j <? sp m)) in
  rd (sdata m) (i * sp m + j).

(** Guile's (make-polar 1 (angle d)). *)
Definition polar_of (d : C) : C := let a := atan2 (im d) (re d) in (cos a, sin a).

(** mpb.scm.in 925-926 with sqmatrix-diag, 919-921. *)
Fixpoint diag_phases (U : smat C) (i : Z) (n : nat) : outcome (list C) :=
  match n with
  | O => Val []
  | S n' => let! d := sqmatrix_ref U i i in let! l := diag_phases U (i + 1) n' in Val (Cconj (polar_of d) :: l)
  end.
(** mpb.scm.in 927-930: the bands are multiplied one after the other; the conjugates are returned. *)
Fixpoint scale_all (b : Z) (phases : list C) (H : emat C) : outcome (emat C * list C) :=
  match phases with
  | [] => Val (H, [])
  | c :: l =>
      let! H := scale_eigenvector b c H in
      let! (H, r) := scale_all (b + 1) l H in Val (H, Cconj c :: r)
  end.

(** fix-phase-consistency, mpb.scm.in 923-930: the eigenvectors afterwards and the list returned. *)
Definition fix_phase_consistency (junk : C) (mx num_bands : Z) (d : mdata) (H old : emat C) (first_band : Z) (W0 : emat C) (fft : list C)
  : option (outcome (emat C * list C)) :=
  option_map (fun r =>
    let! s := r in
    let! phases := diag_phases (o_U s) 0 (Z.to_nat (sp (o_U s))) in
    scale_all first_band phases H)
  (dot_eigenvectors junk mx num_bands d H old first_band W0 fft).
