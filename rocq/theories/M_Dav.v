(** Model of the block Davidson eigensolver of src/matrices/eigensolver_davidson.c, with the
    operations of sqmatrix.c, evectmatrix.c and matrices.c that only it uses.  As in M_Eig: one
    process, exact arithmetic; the progress messages (151-162) are left out. *)
From Coq Require Import List ZArith Reals Bool.
From Verif Require Import Base RC M_Evect M_Eig.
Import ListNotations.
Local Open Scope Z_scope.

(** sqmatrix.c 96-109. *)
Definition sqmatrix_copy_upper2full (F U : smat C) : outcome (smat C) :=
  let! _ := check (sp F =? sp U) in
  let p := sp U in
  let! d := forZ 0 p (fun i d =>
      let! d := forZ 0 i (fun j d => let! v := rd (sdata U) (j * p + i) in wr d (i * p + j) (Cconj v)) d in
      forZ i p (fun j d => let! v := rd (sdata U) (i * p + j) in wr d (i * p + j) v) d) (sdata F) in
  Val (sset F d).

(** evectmatrix.c 212-232; memset of line 222, then one row after the other is summed over the
    processes (a copy) into its place. *)
Definition XtY_sub (U : smat C) (Uoffset : Z) (X Y : emat C) (S : smat C) : outcome (smat C) :=
  let! _ := check ((ep X =? ep Y) && (en X =? en Y) && (ep Y <=? sp U)) in
  let! _ := check (Uoffset + (ep Y - 1) * sp U + ep Y <=? sp U * sp U) in
  let! _ := check (ep Y <=? salloc S) in
  let! s := forZ 0 (ep Y * ep Y) (fun i d => wr d i C0) (sdata S) in
  let! s := gemm true false (ep X) (ep X) (en X) 1 (edata X) 0 (ep X) (edata Y) 0 (ep Y) 0 s 0 (ep Y) in
  let! u := forZ 0 (ep Y) (fun i u => blas_copy (ep Y) s (i * ep Y) 1 u (Uoffset + i * sp U) 1) (sdata U) in
  Val (sset U u).

(** matrices.c 146-159. *)
Definition XpaY_diag_real (X : list C) (a : R) (Y : list C) (diag : list R) (n p : Z) : outcome (list C) :=
  forZ 0 n (fun i X => forZ 0 p (fun j X =>
    let! v := (let! e := rd diag j in let! x := rd X (i * p + j) in let! y := rd Y (i * p + j) in
               let d := (a * e)%R in Val ((re x + d * re y)%R, (im x + d * im y)%R)) in
    wr X (i * p + j) v) X) X.

(** 129-137: the start of the window of p values around the target; [n] bounds the steps. *)
Fixpoint window (n : nat) (p q : Z) (target : R) (e : list R) (it : Z) : outcome Z :=
  match n with
  | O => Val it
  | S n' =>
      if it + p <? q then
        let! a := rd e it in let! b := rd e (it + p) in
        if Rltb (Rabs (target - b)) (Rabs (target - a)) then window n' p q target e (it + 1) else Val it
      else Val it
  end.
Definition itarget (p q : Z) (target : R) (e : list R) : outcome Z :=
  if Reqb target 0 then Val 0 else window (Z.to_nat q) p q target e 0.

(** 139-141: the values in the window and their sum. *)
Definition take_values (p it : Z) (e2 : list R) (e : list R) : outcome (list R * R) :=
  forZ 0 p (fun i s => let '(e, E) := s in let! v := rd e2 (it + i) in let! e := wr e i v in Val (e, (E + v)%R)) (e, 0%R).

(** 145-149, 175-179: sum over the blocks V[0..b] times the block's part of the chosen rows of S,
    into X. *)
Definition combine_blocks (b p q it : Z) (V : list (emat C)) (S : smat C) (X : emat C) : outcome (emat C) :=
  forZ 0 (b + 1) (fun i X => let! v := rd V i in aXpbYS_sub (if i =? 0 then 0 else 1) X 1 v S (it * q + p * i) true) X.

Section Davidson.
Variable potr : Z -> list C -> option (list C).
Variable heev : Z -> list C -> list C * list R.
(** The operators; the preconditioner is given the residual, the fields and the values. *)
Variable opA : emat C -> outcome (emat C).
Variable opK : option (emat C -> emat C -> list R -> outcome (emat C)).
Variable constraint : option (emat C -> outcome (emat C)).
Variables (tolerance target : R).

(** The state at the beginning of an iteration: the blocks V and AV, V^+ A V, ibasis, the fields
    Y (only their storage is used, 112 and 145) and the values and trace of the previous one. *)
Record dst := { d_V : list (emat C); d_AV : list (emat C); d_VAV : smat C; d_ibasis : Z; d_Y : emat C; d_e : list R; d_prev_E : R }.

(** 112-149: A V of the new block, V^+ A V, its eigenvectors and the fields Y from them.  S and
    Swork (create_sqmatrix(q) with the largest q, resized) are fresh here. *)
Record ritz := { r_AV : list (emat C); r_VAV : smat C; r_S : smat C; r_q : Z; r_it : Z; r_Y : emat C; r_e : list R; r_E : R }.
Definition rayleigh_ritz (s : dst) : outcome ritz :=
  let b := d_ibasis s in let p := ep (d_Y s) in
  let! v := rd (d_V s) b in
  let! av := opA v in
  let! AV := wr (d_AV s) b av in
  let q := p * (b + 1) in
  let! VAV := sqmatrix_resize (d_VAV s) q true in
  let! VAV := forZ 0 (b + 1) (fun i W => let! v := rd (d_V s) i in XtY_sub W (p * (q * i + b)) v av (create_sq p)) VAV in
  let! F := sqmatrix_copy_upper2full (create_sq q) VAV in
  let '(F, e2) := eigensolve heev F in
  let! it := itarget p q target e2 in
  let! (e, E) := take_values p it e2 (d_e s) in
  let! Y := combine_blocks b p q it (d_V s) F (d_Y s) in
  Val {| r_AV := AV; r_VAV := VAV; r_S := F; r_q := q; r_it := it; r_Y := Y; r_e := e; r_E := E |}.

(** 103-106, 216-219: X S^(-1/2) with S = X^+ X, into Z. *)
Definition orthonormalize (X Z : emat C) : outcome (emat C) :=
  let W := create_sq (ep X) in
  let! U := XtX W X W in
  let! o := invert potr U in
  match o with
  | None => Abort
  | Some U => let! S2 := sqmatrix_sqrt heev W U W in XeYS Z X S2 true
  end.

(** 171-192: AY into the next block, and the restart when all blocks are in use. *)
Definition next_block (nbasis : Z) (s : dst) (r : ritz) : outcome (list (emat C) * list (emat C) * smat C * Z) :=
  let p := ep (r_Y r) in
  let b2 := Z.rem (d_ibasis s + 1) nbasis in
  let! x := rd (d_V s) b2 in
  let! x := combine_blocks (d_ibasis s) p (r_q r) (r_it r) (r_AV r) (r_S r) x in
  let! V := wr (d_V s) b2 x in
  if b2 =? 0 then
    let! a0 := rd (r_AV r) 0 in
    let! a0 := evectmatrix_copy a0 x in
    let! AV := wr (r_AV r) 0 a0 in
    let! v0 := evectmatrix_copy x (r_Y r) in
    let! V := wr V 0 v0 in
    let! VAV := sqmatrix_resize (r_VAV r) p false in
    let! VAV := XtY VAV v0 a0 (create_sq p) in
    let! v1 := rd V 1 in
    let! v1 := evectmatrix_copy v1 a0 in
    let! V := wr V 1 v1 in
    Val (V, AV, VAV, 1)
  else Val (V, r_AV r, r_VAV r, b2).

(** 195-213: the residual, preconditioned, projected and made orthogonal to the blocks before. *)
Definition new_direction (V : list (emat C)) (AV : list (emat C)) (b2 : Z) (r : ritz) : outcome (emat C * emat C) :=
  let! x := rd V b2 in
  let! d := XpaY_diag_real (edata x) (-1) (edata (r_Y r)) (r_e r) (en (r_Y r)) (ep (r_Y r)) in
  let x := set_data x d in
  let! a := rd AV b2 in
  let! a := match opK with Some f => f x (r_Y r) (r_e r) | None => evectmatrix_copy a x end in
  let! a := constrain constraint a in
  let! a := forZ 0 b2 (fun i a =>
      let! v := rd V i in
      let! U := XtY (create_sq (ep a)) v a (create_sq (ep a)) in XpaYS a (-1) v U false) a in
  Val (x, a).

Inductive dstep := DConverged (r : ritz) | DAgain (r : ritz) (s : dst).
(** 108-224. *)
Definition iterate (nbasis : Z) (it : Z) (s : dst) : outcome dstep :=
  let! r := rayleigh_ritz s in
  if (0 <? it) && Rltb (Rabs (r_E r - d_prev_E s)) (tolerance * / 2 * (Rabs (r_E r) + Rabs (d_prev_E s) + / 10000000)) then Val (DConverged r)
  else
    let! (t, b2) := next_block nbasis s r in let '(V, AV, VAV) := t in
    let! (x, a) := new_direction V AV b2 r in
    let! AV := wr AV b2 a in
    let! v := orthonormalize a x in
    let! V := wr V b2 v in
    Val (DAgain r {| d_V := V; d_AV := AV; d_VAV := VAV; d_ibasis := b2; d_Y := r_Y r; d_e := r_e r; d_prev_E := r_E r |}).

(** 108-230: the results of the iterations, the last first; [n] bounds their number
    (EIGENSOLVER_MAX_ITERATIONS in the program). *)
Fixpoint dloop (n : nat) (nbasis it : Z) (s : dst) (rs : list ritz) : outcome (list ritz * dst) :=
  match n with
  | O => Abort
  | S n' =>
      let! o := iterate nbasis it s in
      match o with DConverged r => Val (r :: rs, s) | DAgain r s' => dloop n' nbasis (it + 1) s' (r :: rs) end
  end.

(** 77-106: the start with the fields Y; the values given hold Y.p entries. *)
Definition dstart (Y : emat C) (e : list R) (Work : list (emat C)) : outcome dst :=
  let nWork := Z.of_nat (length Work) in
  let! _ := check (4 <=? nWork) in
  let nbasis := Z.quot nWork 2 in
  let V := firstn (Z.to_nat nbasis) Work in let AV := firstn (Z.to_nat nbasis) (skipn (Z.to_nat nbasis) Work) in
  let! VAV := sqmatrix_resize (create_sq (ep Y * nbasis)) 0 false in
  let! Y := constrain constraint Y in
  let! v := rd V 0 in
  let! v := orthonormalize Y v in
  let! V := wr V 0 v in
  Val {| d_V := V; d_AV := AV; d_VAV := VAV; d_ibasis := 0; d_Y := Y; d_e := e; d_prev_E := 0 |}.

(** 55-248: the results of the iterations, the fields, the values. *)
Definition davidson (n : nat) (Y : emat C) (e : list R) (Work : list (emat C)) : outcome (list ritz * emat C * list R) :=
  let! s := dstart Y e Work in
  let! (rs, _) := dloop n (Z.quot (Z.of_nat (length Work)) 2) 0 s [] in
  match rs with
  | [] => Abort                                                           (* not possible *)
  | r :: _ =>
      let W := create_sq (ep (r_Y r)) in
      let! U := XtX W (r_Y r) W in                                         (* 232-235 *)
      let! o := invert potr U in
      match o with
      | None => Abort
      | Some U => let! (Y, e) := get_eigenvals_aux heev opA (r_Y r) U in Val (rs, Y, e)
      end
  end.
End Davidson.
