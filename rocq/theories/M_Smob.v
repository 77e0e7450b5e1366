(** Model of the Scheme matrix objects (mpb/matrix-smob.c). *)
From Coq Require Import List ZArith Reals Bool.
From Verif Require Import Base RC M_Tensor M_Evect M_Grid M_Op M_Gv M_Pha M_Lin M_Eig M_Ovl.
Import ListNotations.
Local Open Scope Z_scope.

(** matrix-smob.c 148-157: a copy, in memory with the numbers [junk] before. *)
Definition sqmatrix2scm (junk : C) (m : smat C) : outcome (smat C) := sqmatrix_copy (new_sq junk (sp m)) m.

(** 218-225. *)
Definition sqmatrix_set (m : smat C) (i j : Z) (c : C) : outcome (smat C) :=
  let! _ := check ((0 <=? i) && (0 <=? j) && (i <? sp m) && (j <? sp m)) in
  let! d := wr (sdata m) (i * sp m + j) c in Val (sset m d).

(** 227-240. *)
Definition sqmatrix_mult (junk : C) (A B : smat C) : outcome (smat C) :=
  let! _ := check (sp A =? sp B) in
  let! D := sqmatrix_AeBC (new_sq junk (sp A)) A false B false in
  sqmatrix2scm junk D.

(** 242-254. *)
Definition sqmatrix_diagm (junk : C) (d : list C) : outcome (smat C) :=
  let p := Z.of_nat (length d) in
  let D := new_sq junk p in
  let! x := forZ 0 (p * p) (fun i x => wr x i C0) (sdata D) in
  let! x := forZ 0 p (fun i x => let! v := rd d i in wr x (i * p + i) v) x in
  sqmatrix2scm junk (sset D x).

(** create_evectmatrix (matrices.c 28-52) for a matrix with n rows on this process; allocN is taken
    to be localN. *)
Definition new_ev (junk : C) (n p : Z) : emat C := {| en := n; ep := p; ealloc := p; edata := repeat junk (Z.to_nat (n * p)) |}.

(** matrix-smob.c 135-146. *)
Definition evectmatrix_slice2scm (junk : C) (m : emat C) (p_start p : Z) : outcome (emat C) :=
  let! _ := check ((0 <=? p_start) && (p_start + p <=? ep m) && (0 <=? p)) in
  evectmatrix_copy_slice (new_ev junk (en m) p) m 0 p_start p.

(** 269-274; no H before init-params. *)
Definition get_eigenvectors (junk : C) (H : option (emat C)) (b_start num_bands : Z) : outcome (emat C) :=
  match H with None => Abort | Some H => evectmatrix_slice2scm junk H (b_start - 1) num_bands end.

(** 276-284: the new H; curfield_reset is in M_Cur. *)
Definition set_eigenvectors (H : option (emat C)) (m : emat C) (b_start : Z) : outcome (emat C) :=
  match H with None => Abort | Some H => evectmatrix_copy_slice H m (b_start - 1) 0 (ep m) end.

(** mpb.c 485-486 and maxwell.c on one process: H for a grid of nx x ny x nz points, two amplitudes
    for each plane wave. *)
Definition new_fields (junk : C) (nx ny nz num_bands : Z) : emat C := new_ev junk (nx * ny * nz * 2) num_bands.
