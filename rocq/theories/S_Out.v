(** Vocabulary for the properties of files. *)
From Coq Require Import List ZArith Reals Bool.
From Verif Require Import Base RC M_Tensor M_Evect M_Grid S_Grid S_Half M_Out.
Import ListNotations.
Local Open Scope Z_scope.

(** The processes of a run: one, or several with consecutive shares, in half-stored grids none of
    them empty.  Parallel builds with half-stored grids are for two and three dimensions only
    (maxwell.c 128). *)
Definition procs (n1 n2 n3 : Z) (real : bool) (prs : list proc) : Prop :=
  prs = [Alone] \/ exists shares, prs = map (fun sh => Among (snd sh) (fst sh)) shares /\
    if real then (n2 <> 1 \/ n3 <> 1) /\ Forall (fun sh => 0 < snd sh) shares /\ divided n2 n3 shares else consecutive 0 shares n2.
(** The grid points a process holds, with their places. *)
Definition loop_of (n1 n2 n3 : Z) (real : bool) (pr : proc) : list (Z * Z * Z * Z) :=
  match pr with
  | Alone => if real then loop_real n1 n2 n3 else loop_complex n1 n2 n3
  | Among count start => if real then loop_real_mpi n1 n2 n3 count start else loop_complex_mpi n1 n2 n3 count start
  end.
(** A process holds [nc] values for each of its points. *)
Definition stores {T} (L : list (Z * Z * Z * Z)) (nc : Z) (field : list T) (F : Z -> Z * Z * Z -> T) : Prop :=
  forall c idx a, In (c, idx) L -> 0 <= a < nc -> rd field (nc * idx + a) = Val (F a c).

(** exp(i k.r) at a point, k in the basis of the reciprocal lattice vectors. *)
Definition bloch_at (k : R * R * R) (n1 n2 n3 : Z) (c : Z * Z * Z) : C :=
  let '(k1, k2, k3) := k in let '(i1, i2, i3) := c in
  let phi := (2 * PI * (k1 * (IZR i1 / IZR n1) + k2 * (IZR i2 / IZR n2) + k3 * (IZR i3 / IZR n3)))%R in (cos phi, sin phi).
(** A complex field with A(-r) = A(r)*. *)
Definition hermitian (n1 n2 n3 : Z) (nc : Z) (A : Z -> Z * Z * Z -> C) : Prop :=
  forall a c, 0 <= a < nc -> In c (whole n1 n2 n3) -> A a (mirror n1 n2 n3 c) = Cconj (A a c).

(** Where a point is in the file: the first two dimensions are exchanged in files of parallel
    runs, and trailing dimensions of one point are left out. *)
Definition parallel (prs : list proc) : bool := match prs with Among _ _ :: _ => true | _ => false end.
Definition at_file (par : bool) (n1 n2 n3 : Z) (c : Z * Z * Z) : list Z :=
  let '(i1, i2, i3) := c in
  let '(d, x, y) := if par then (n1, i2, i1) else (n2, i1, i2) in
  if n3 =? 1 then (if d =? 1 then [x] else [x; y]) else [x; y; i3].

(** What was written of component [a], real ([false]) or imaginary part. *)
Definition written (a : Z) (ri : bool) (w : list (Z * bool * list (list Z * R))) : list (list Z * R) :=
  flat_map (fun t => let '(a', ri', l) := t in if (a' =? a) && Bool.eqb ri' ri then l else []) w.
(** The numbers a file should get: once for every grid point. *)
Definition expected (par : bool) (n1 n2 n3 : Z) (f : Z * Z * Z -> R) : list (list Z * R) := map (fun c => (at_file par n1 n2 n3 c, f c)) (whole n1 n2 n3).
Definition part_of (ri : bool) (z : C) : R := if ri then snd z else fst z.

(** Rows [start], ..., [start + count - 1] of a matrix with rows of [w] numbers. *)
Definition rows {A} (G : list A) (w start count : Z) : list A := firstn (Z.to_nat (count * w)) (skipn (Z.to_nat (start * w)) G).

(** Row-major number of a position in a block, and whether it lies in the block. *)
Fixpoint offset (start count x : list Z) : Z :=
  match start, count, x with
  | s :: start, _ :: count, x :: xs => (x - s) * fold_right Z.mul 1 count + offset start count xs
  | _, _, _ => 0
  end.
Fixpoint in_block (start count x : list Z) : Prop :=
  match start, count, x with
  | [], [], [] => True
  | s :: start, c :: count, x :: xs => s <= x < s + c /\ in_block start count xs
  | _, _, _ => False
  end.
(** A block of a file. *)
Fixpoint block_in (dims start count : list Z) : Prop :=
  match dims, start, count with
  | [], [], [] => True
  | d :: dims, s :: start, c :: count => 0 <= s /\ 0 <= c /\ s + c <= d /\ block_in dims start count
  | _, _, _ => False
  end.
