(** Vocabulary for the properties of half-stored grids. *)
From Coq Require Import List ZArith Reals Bool.
From Verif Require Import Base RC M_Tensor S_Tensor M_Evect S_Evect M_Grid S_Grid M_Op S_Op M_Fld S_Fld M_Half.
Import ListNotations.
Local Open Scope Z_scope.

(** 0, 1, ..., n-1, and all points of an n1 x n2 x n3 grid. *)
Definition upto (n : Z) : list Z := map Z.of_nat (seq 0 (Z.to_nat n)).
Definition whole (n1 n2 n3 : Z) : list (Z * Z * Z) := list_prod (list_prod (upto n1) (upto n2)) (upto n3).
(** The point opposite to a point, coordinates modulo the sizes. *)
Definition mirror (n1 n2 n3 : Z) (c : Z * Z * Z) : Z * Z * Z := let '(i1, i2, i3) := c in (opp n1 i1, opp n2 i2, opp n3 i3).

(** The points a stored point stands for. *)
Definition stands_for (n1 n2 n3 : Z) (twice : bool) (c : Z * Z * Z) : list (Z * Z * Z) :=
  c :: (if twice then [mirror n1 n2 n3 c] else []).

(** Number of stored points of the halved dimension. *)
Definition kept (n : Z) : Z := n / 2 + 1.
(** A division of the second dimension (the one distributed after a parallel transform) into
    consecutive shares (start, count); in two dimensions that is the halved one. *)
Fixpoint consecutive (from : Z) (shares : list (Z * Z)) (upto : Z) : Prop :=
  match shares with
  | [] => from = upto
  | (start, count) :: t => start = from /\ 0 <= count /\ consecutive (from + count) t upto
  end.
Definition divided (n2 n3 : Z) (shares : list (Z * Z)) : Prop := consecutive 0 shares (if n3 =? 1 then kept n2 else n2).

(** A quantity with inversion symmetry. *)
Definition even (n1 n2 n3 : Z) (f : Z * Z * Z -> R) : Prop := forall c, In c (whole n1 n2 n3) -> f (mirror n1 n2 n3 c) = f c.
Definition sumR (f : Z * Z * Z -> R) (l : list (Z * Z * Z)) : R := fold_right (fun c a => (f c + a)%R) 0%R l.
Definition sumC (f : Z * Z * Z -> C) (l : list (Z * Z * Z)) : C := fold_right (fun c a => (f c + a)%C) (0, 0)%R l.

(** What the user's function should get at the opposite point of a field with A(-r) = A(r)*. *)
Definition conj_item (x : item) : item :=
  match x with IR x => IR x | IC z => IC (Cconj z) | IV a b c => IV (Cconj a) (Cconj b) (Cconj c) end.
(** The stored values of a field object are those of [F] at the visited points. *)
Definition shows_items (L : list (Z * Z * Z * Z)) (fs : fsmob) (F : Z * Z * Z -> item) : Prop :=
  forall c idx, In (c, idx) L -> item_at fs idx = Val (F c).
Definition no_cscalar (fs : fsmob) : Prop := match fs with CS _ => False | _ => True end.

(** The ways a grid is held: whole or half, on one process or divided among several.  For each
    process its points (coordinates and index) and which indices are counted twice.  Parallel
    builds with half-stored grids are for two and three dimensions only (maxwell.c 128). *)
Inductive held (n1 n2 n3 : Z) : bool -> list (list (Z * Z * Z * Z) * (Z -> bool)) -> Prop :=
  | whole_serial : held n1 n2 n3 false [(loop_complex n1 n2 n3, once)]
  | whole_parallel shares : consecutive 0 shares n2 -> held n1 n2 n3 false (map (fun sh => (loop_complex_mpi n1 n2 n3 (snd sh) (fst sh), once)) shares)
  | half_serial : held n1 n2 n3 true [(loop_real n1 n2 n3, twice_real (kept (last_dim n1 n2 n3)) (last_dim n1 n2 n3))]
  | half_parallel2 shares : n2 <> 1 -> n3 = 1 -> divided n2 n3 shares ->
      held n1 n2 n3 true (map (fun sh => (loop_real_mpi n1 n2 n3 (snd sh) (fst sh), twice_mpi2 n1 (fst sh) n2)) shares)
  | half_parallel3 shares : n3 <> 1 -> divided n2 n3 shares ->
      held n1 n2 n3 true (map (fun sh => (loop_real_mpi n1 n2 n3 (snd sh) (fst sh), twice_real (kept n3) n3)) shares).

(** The points the stored points of a process stand for. *)
Definition points (n1 n2 n3 : Z) (p : list (Z * Z * Z * Z) * (Z -> bool)) : list (Z * Z * Z) :=
  flat_map (fun pt => stands_for n1 n2 n3 (snd p (snd pt)) (fst pt)) (fst p).

(** The stored values of a quantity. *)
Definition shows (L : list (Z * Z * Z * Z)) (v : nat -> R) (f : Z * Z * Z -> R) : Prop := forall c idx, In (c, idx) L -> v (Z.to_nat idx) = f c.

(** One if the condition holds. *)
Definition above (x y : R) : R := if Rlt_dec y x then 1%R else 0%R.
Definition least (f : Z * Z * Z -> R) (l : list (Z * Z * Z)) (m : R) : Prop := (exists c, In c l /\ f c = m) /\ forall c, In c l -> (m <= f c)%R.
Definition largest (f : Z * Z * Z -> R) (l : list (Z * Z * Z)) (m : R) : Prop := (exists c, In c l /\ f c = m) /\ forall c, In c l -> (f c <= m)%R.

(** Position of a point of the grid. *)
Definition site (sx sy sz : R) (n1 n2 n3 : Z) (c : Z * Z * Z) : vec := let '(i1, i2, i3) := c in place sx sy sz n1 n2 n3 i1 i2 i3.

(** A stored vector field, and the Bloch phase at a point. *)
Definition shows3 (L : list (Z * Z * Z * Z)) (field : list C) (F : Z * Z * Z -> C * C * C) : Prop :=
  forall c idx, In (c, idx) L -> let '(x, y, z) := F c in rd field (3 * idx) = Val x /\ rd field (3 * idx + 1) = Val y /\ rd field (3 * idx + 2) = Val z.
Definition bloch (k : vec) (sx sy sz : R) (p : vec) : C :=
  let '(k1, k2, k3) := k in let '(x, y, z) := p in let phi := (2 * PI * (k1 * (x / sx) + k2 * (y / sy) + k3 * (z / sz)))%R in (cos phi, sin phi).
Definition with_phase (ph : C) (v : C * C * C) : C * C * C := let '(x, y, z) := v in (x * ph, y * ph, z * ph)%C.
