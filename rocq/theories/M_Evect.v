(** Model of the block matrices of src/matrices (evectmatrix, sqmatrix, gemm), of the way
    mpb/mpb.c divides the bands into blocks and handles the constant bands at k = 0, and
    of its deflation constraint. *)
From Coq Require Import List ZArith Reals Bool.
From Verif Require Import Base RC.
Import ListNotations.
Local Open Scope Z_scope.

(** matrices.h 27-32: an evectmatrix, n rows (plane waves times components) by p columns
    (bands), row-major in an allocation of n * alloc_p entries.  The fields N, localN,
    Nstart, allocN, c only enter n and are omitted. *)
Record emat (A : Type) := { en : Z; ep : Z; ealloc : Z; edata : list A }.
Arguments en {A}. Arguments ep {A}. Arguments ealloc {A}. Arguments edata {A}.

(** matrices.h 34-37: a square matrix. *)
Record smat (A : Type) := { sp : Z; salloc : Z; sdata : list A }.
Arguments sp {A}. Arguments salloc {A}. Arguments sdata {A}.

Section Generic.
Context {A : Type}.

Definition set_data (X : emat A) (d : list A) : emat A := {| en := en X; ep := ep X; ealloc := ealloc X; edata := d |}.

(** blasglue.c 158-161 blasglue_copy(n, x + ox, incx, y + oy, incy): BLAS copy, external,
    x and y distinct arrays. *)
Definition blas_copy (n : Z) (x : list A) (ox incx : Z) (y : list A) (oy incy : Z) : outcome (list A) :=
  forZ 0 n (fun i y => let! v := rd x (ox + i * incx) in wr y (oy + i * incy) v) y.

(** evectmatrix.c 37-42. *)
Definition evectmatrix_copy (X Y : emat A) : outcome (emat A) :=
  let! _ := check ((en X =? en Y) && (ep X =? ep Y)) in
  let! d := blas_copy (en X * ep X) (edata Y) 0 1 (edata X) 0 1 in
  Val (set_data X d).

(** evectmatrix.c 45-61, for X and Y with distinct data. *)
Definition evectmatrix_copy_slice (X Y : emat A) (ix iy p : Z) : outcome (emat A) :=
  let! _ := check ((ix + p <=? ep X) && (iy + p <=? ep Y) && (0 <=? ix) && (0 <=? iy) && (en X =? en Y)) in
  if (ix =? 0) && (iy =? 0) && (p =? ep X) && (p =? ep Y)
  then evectmatrix_copy X Y
  else if p =? 1
  then let! d := blas_copy (en X) (edata Y) iy (ep Y) (edata X) ix (ep X) in Val (set_data X d)
  else let! d := forZ 0 (en X) (fun i d => blas_copy p (edata Y) (iy + i * ep Y) 1 d (ix + i * ep X) 1) (edata X) in
       Val (set_data X d).

(** evectmatrix.c 68-88. *)
Definition evectmatrix_resize (X : emat A) (p : Z) (preserve : bool) : outcome (emat A) :=
  let! _ := check (p <=? ealloc X) in
  let! d := (if preserve then
      if p <? ep X then
        forZ 0 (en X) (fun i d => forZ 0 p (fun j d =>
          let! v := rd d (i * ep X + j) in wr d (i * p + j) v) d) (edata X)
      else
        forZ_down 0 (en X) (fun i d => forZ_down 0 (ep X) (fun j d =>
          let! v := rd d (i * ep X + j) in wr d (i * p + j) v) d) (edata X)
    else Val (edata X)) in
  Val {| en := en X; ep := p; ealloc := ealloc X; edata := d |}.

(** sqmatrix.c 72-92. *)
Definition sqmatrix_resize (X : smat A) (p : Z) (preserve : bool) : outcome (smat A) :=
  let! _ := check (p <=? salloc X) in
  let! d := (if preserve then
      if p <? sp X then
        forZ 0 p (fun i d => forZ 0 p (fun j d =>
          let! v := rd d (i * sp X + j) in wr d (i * p + j) v) d) (sdata X)
      else
        forZ_down 0 (sp X) (fun i d => forZ_down 0 (sp X) (fun j d =>
          let! v := rd d (i * sp X + j) in wr d (i * p + j) v) d) (sdata X)
    else Val (sdata X)) in
  Val {| sp := p; salloc := salloc X; sdata := d |}.

(** mpb.c 647-650: at k = 0, set the constant bands aside. *)
Definition zero_k_begin (H : emat A) (ib0 : Z) : outcome (emat A) :=
  let! d := forZ 0 (en H) (fun i d => forZ 0 (ep H - ib0) (fun j d =>
     let! v := rd d (i * ep H + j + ib0) in wr d (i * ep H + j) v) d) (edata H) in
  evectmatrix_resize (set_data H d) (ep H - ib0) true.

(** mpb.c 791-794: and make room for them again. *)
Definition zero_k_end (H : emat A) (ib0 : Z) : outcome (emat A) :=
  let! H := evectmatrix_resize H (ealloc H) true in
  let! d := forZ 0 (en H) (fun i d => forZ_down 0 (ep H - ib0) (fun j d =>
     let! v := rd d (i * ep H + j) in wr d (i * ep H + j + ib0) v) d) (edata H) in
  Val (set_data H d).

(** mpb.c 690-695 (block initialised from H) and 769-775 (solutions saved). *)
Definition block_load (Hblock H : emat A) (off : Z) : outcome (emat A) :=
  let! d := forZ 0 (en Hblock) (fun i d => forZ 0 (ep Hblock) (fun j d =>
     let! v := rd (edata H) (i * ep H + j + off) in wr d (i * ep Hblock + j) v) d) (edata Hblock) in
  Val (set_data Hblock d).

Definition block_save (Hblock H : emat A) (off : Z) : outcome (emat A) :=
  let! d := forZ 0 (en Hblock) (fun i d => forZ 0 (ep Hblock) (fun j d =>
     let! v := rd (edata Hblock) (i * ep Hblock + j) in wr d (i * ep H + j + off) v) d) (edata H) in
  Val (set_data H d).
End Generic.

(** C integer division, truncating; by zero undefined. *)
Definition idiv (a b : Z) : outcome Z := if b =? 0 then UB else Val (Z.quot a b).

(** mpb.c 429-440: the block size from the settings. *)
Definition block_size (num_bands eigensolver_block_size : Z) : outcome Z :=
  if negb (eigensolver_block_size =? 0) && (eigensolver_block_size <? num_bands) then
    let bs := eigensolver_block_size in
    if bs <? 0 then
      let! bs1 := idiv (num_bands - bs - 1) (- bs) in                    (* 434 *)
      idiv (num_bands + bs1 - 1) bs1                                     (* 435 *)
    else Val bs
  else Val num_bands.

(** mpb.c 664-675, 782: the blocks (first band, number of bands) the solver is called on;
    [nb] is mdata->num_bands, which together with Hblock.p and W[i].p is reduced when the
    block would go past the last band.  [fuel] bounds the number of iterations; [None]:
    not finished within it (a loop with alloc_p <= 0 never ends). *)
Fixpoint solver_blocks (fuel : nat) (ib nb num_bands alloc_p : Z) : option (list (Z * Z)) :=
  if ib <? num_bands then
    match fuel with
    | O => None
    | S fuel' =>
        let nb' := if ib + nb >? num_bands then num_bands - ib else nb in
        option_map (cons (ib, nb')) (solver_blocks fuel' (ib + alloc_p) nb' num_bands alloc_p)
    end
  else Some [].

(** maxwell.h 80-84. *)
Definition EVEN_Z := 1. Definition ODD_Z := 2. Definition EVEN_Y := 4. Definition ODD_Y := 8.

(** maxwell_constraints.c 325, 330-333 and 364-367. *)
Definition m_band (parity : Z) : Z := if Z.land parity (Z.lor ODD_Z EVEN_Y) =? 0 then 1 else 0.
Definition n_band (parity : Z) : Z := if Z.land parity (Z.lor ODD_Y EVEN_Z) =? 0 then 1 else 0.

(** maxwell_constraints.c 323-341; the checks of the arguments are omitted. *)
Definition num_const_bands (p parity : Z) : Z :=
  let n := m_band parity + n_band parity in if n >? p then p else n.

(** maxwell_constraints.c 343-379; [zero] and [one] are the scalars 0 and 1, [Nstart] the
    first plane wave of this process. *)
Definition set_const_bands {A} (zero one : A) (X : emat A) (parity Nstart : Z) : outcome (emat A) :=
  if ep X <? 1 then Val X
  else
    let! d := forZ 0 (en X) (fun i d => forZ 0 (num_const_bands (ep X) parity) (fun j d =>
                let! v := Val zero in wr d (i * ep X + j) v) d) (edata X) in
    if Nstart >? 0 then Val (set_data X d)
    else
      let! d := (if m_band parity =? 1
                 then let! d := wr d 0 one in wr d (ep X) zero
                 else Val d) in
      let! d := (if (n_band parity =? 1) && ((m_band parity =? 0) || (2 <=? ep X))
                 then let! d := wr d (m_band parity) zero in wr d (ep X + m_band parity) one
                 else Val d) in
      Val (set_data X d).

(** maxwell_constraints.c 383-395. *)
Definition zero_k_constraint {A} (zero : A) (X : emat A) (Nstart : Z) : outcome (emat A) :=
  if Nstart >? 0 then Val X
  else
    let! d := forZ 0 (ep X) (fun j d => let! d := wr d j zero in wr d (ep X + j) zero) (edata X) in
    Val (set_data X d).

(** What the solver was given and what it returned for one block: first band, number of
    bands, starting fields, resulting fields. *)
Record solved (A : Type) := { s_ib : Z; s_p : Z; s_in : list A; s_out : list A }.
Arguments s_ib {A}. Arguments s_p {A}. Arguments s_in {A}. Arguments s_out {A}.

Section Solve.
Context {A : Type}.
(** The eigensolver (external here): first band, number of bands, starting fields of the
    block, all fields computed so far, to the new fields of the block. *)
Variable solver : Z -> Z -> list A -> emat A -> list A.

(** mpb.c 664-782, the blocks one after the other.  [same]: Hblock is H (mpb.c 491-495).
    The work matrices W, the eigenvalues and the constraints are omitted. *)
Fixpoint solve_blocks (same : bool) (ib0 : Z) (H Hblock : emat A) (blocks : list (Z * Z)) : outcome (emat A * list (solved A)) :=
  match blocks with
  | [] => Val (H, [])
  | (ib, q) :: rest =>
      let! r := (if same
        then let out := solver ib q (edata H) H in
             Val (set_data H out, Hblock, {| s_ib := ib; s_p := q; s_in := edata H; s_out := out |})
        else
          let! Hb := evectmatrix_resize Hblock q false in                       (* 674 *)
          let! Hb := block_load Hb H (ib - ib0) in
          let out := solver ib q (edata Hb) H in
          let! H' := block_save (set_data Hb out) H (ib - ib0) in
          Val (H', set_data Hb out, {| s_ib := ib; s_p := q; s_in := edata Hb; s_out := out |})) in
      let '(H', Hb', rec) := r in
      let! t := solve_blocks same ib0 H' Hb' rest in
      Val (fst t, rec :: snd t)
  end.

(** mpb.c 642-804 with mtdata null: [zero_k] at k = 0; [fuel] bounds the block loop
    (None there: the model's loop did not finish; reported as Abort). *)
Definition solve_fields (zero one : A) (fuel : nat) (zero_k : bool) (parity Nstart num_bands : Z) (same : bool)
    (H Hblock : emat A) : outcome (emat A * list (solved A)) :=
  let ib0 := if zero_k then num_const_bands (ep H) parity else 0 in
  let! H1 := (if zero_k then zero_k_begin H ib0 else Val H) in
  match solver_blocks fuel ib0 (ealloc Hblock) num_bands (ealloc Hblock) with
  | None => Abort
  | Some blocks =>
      let! r := solve_blocks same ib0 H1 Hblock blocks in
      if zero_k then
        let! H2 := zero_k_end (fst r) ib0 in
        let! H3 := set_const_bands zero one H2 parity Nstart in
        Val (H3, snd r)
      else Val r
  end.
End Solve.

(* ------------------------------------------------------------------ *)
(** * Arithmetic *)

(** blasglue.c 149-156, 135-142: BLAS scal by a real and axpy, increments one. *)
Definition blas_rscal (n : Z) (a : R) (x : list C) : outcome (list C) :=
  forZ 0 n (fun i x => let! v := rd x i in wr x i (Cscal a v)) x.
(** y += a x, distinct arrays. *)
Definition blas_axpy (n : Z) (a : R) (x y : list C) : outcome (list C) :=
  forZ 0 n (fun i y => let! v := rd x i in let! w := rd y i in wr y i (w + Cscal a v)%C) y.
(** the same array passed for both. *)
Definition blas_axpy_same (n : Z) (a : R) (y : list C) : outcome (list C) :=
  forZ 0 n (fun i y => let! v := rd y i in let! w := rd y i in wr y i (w + Cscal a v)%C) y.

(** evectmatrix.c 91-100 (sqmatrix_aApbB, sqmatrix.c 188-196, is the same with n = p). *)
Definition evectmatrix_aXpbY (a : R) (X : emat C) (b : R) (Y : emat C) : outcome (emat C) :=
  let! _ := check ((en X =? en Y) && (ep X =? ep Y)) in
  let! d := (if Reqb a 1 then Val (edata X) else blas_rscal (en X * ep X) a (edata X)) in
  let! d := blas_axpy (en X * ep X) b (edata Y) d in
  Val (set_data X d).
(** called with Y the same matrix as X. *)
Definition evectmatrix_aXpbX (a : R) (X : emat C) (b : R) : outcome (emat C) :=
  let! d := (if Reqb a 1 then Val (edata X) else blas_rscal (en X * ep X) a (edata X)) in
  let! d := blas_axpy_same (en X * ep X) b d in
  Val (set_data X d).

(** Element (i, l) of op(A), A starting at [o] with [fd] columns allocated; 'C' is the
    conjugate transpose. *)
Definition opel (dagger : bool) (A : list C) (o fd i l : Z) : outcome C :=
  if dagger then let! v := rd A (o + l * fd + i) in Val (Cconj v) else rd A (o + i * fd + l).

(** blasglue.c 189-213 blasglue_gemm: C = a op(A) op(B) + b C; op(A) is m x k, op(B) is
    k x n.  BLAS gemm is external and given its definition; the output array is distinct
    from the inputs (checked at line 206). *)
Definition gemm (ta tb : bool) (m n k : Z) (a : R) (A : list C) (oA fdA : Z) (B : list C) (oB fdB : Z)
    (b : R) (Cm : list C) (oC fdC : Z) : outcome (list C) :=
  if m * n =? 0 then Val Cm                                              (* 195 *)
  else if k =? 0 then                                                    (* 198-204 *)
    forZ 0 m (fun i c => forZ 0 n (fun j c => let! v := Val C0 in wr c (oC + i * fdC + j) v) c) Cm
  else
    forZ 0 m (fun i c => forZ 0 n (fun j c =>
      let! v := (let! s := forZ 0 k (fun l acc =>
                    let! x := opel ta A oA fdA i l in
                    let! y := opel tb B oB fdB l j in Val (acc + x * y)%C) C0 in
                 let! z := rd c (oC + i * fdC + j) in
                 Val (Cscal a s + Cscal b z)%C) in
      wr c (oC + i * fdC + j) v) c) Cm.

(** evectmatrix.c 172-191 XtY_slice2 on one process (mpi_allreduce is then a copy):
    returns the new contents of U.  memset of line 180 is overwritten by gemm unless
    X.n = 0, when gemm zeroes the p x q results itself. *)
Definition XtY_slice2 (U : smat C) (X Y : emat C) (ix iy p q iu : Z) (S1 S2 : smat C) : outcome (smat C) :=
  let! _ := check ((ix + p <=? ep X) && (iy + q <=? ep Y) && (0 <=? ix) && (0 <=? iy) && (en X =? en Y)
          && (p =? sp U) && (q <=? p) && (p <=? salloc S1) && (p <=? salloc S2)) in
  let! s1 := gemm true false p q (en X) 1 (edata X) ix (ep X) (edata Y) iy (ep Y) 0 (sdata S1) 0 q in
  let! s2 := blas_copy (p * q) s1 0 1 (sdata S2) 0 1 in
  let! u := forZ 0 p (fun i u => forZ 0 q (fun j u => let! v := rd s2 (i * q + j) in wr u (i * p + j + iu) v) u) (sdata U) in
  Val {| sp := sp U; salloc := salloc U; sdata := u |}.

(** mpb.c 546-580 deflation_constraint.  The rows of X, Y and BY are distributed over
    processes: [parts] lists each process's local (X, Y, BY); the dot products are summed
    over processes (mpi_allreduce).  [S2] and [S] are the local and global dot products,
    of size at least p * X.p. *)
Definition local_dots (p : Z) (X BY : emat C) (S2 : list C) : outcome (list C) :=
  let! _ := check ((en X =? en BY) && (p <=? ep BY)) in
  gemm true false (ep X) p (en X) 1 (edata X) 0 (ep X) (edata BY) 0 (ep BY) 0 S2 0 p.

(** mpi_allreduce with MPI_SUM: elementwise sum. *)
Definition vadd (x y : list C) : list C := map (fun q => (fst q + snd q)%C) (combine x y).
Definition allreduce_sum (l : list (list C)) : list C :=
  match l with [] => [] | x :: t => fold_left vadd t x end.

Definition deflate_local (p : Z) (X Y : emat C) (S : list C) : outcome (emat C) :=
  let! _ := check (p <=? ep Y) in
  let! d := gemm false true (en X) (ep X) p (-1) (edata Y) 0 (ep Y) S 0 p 1 (edata X) 0 (ep X) in
  Val (set_data X d).

Fixpoint mapM {X Y} (f : X -> outcome Y) (l : list X) : outcome (list Y) :=
  match l with [] => Val [] | a :: t => let! b := f a in let! r := mapM f t in Val (b :: r) end.

Definition deflation_constraint (p : Z) (parts : list (emat C * emat C * emat C)) (S2 : list C) : outcome (list (emat C)) :=
  let! locals := mapM (fun t => local_dots p (fst (fst t)) (snd t) S2) parts in
  let S := allreduce_sum locals in
  mapM (fun t => deflate_local p (fst (fst t)) (snd (fst t)) S) parts.
