(** Vocabulary for the eigensolver: matrices as functions of row and column (both from zero),
    independent of the way the program stores them. *)
From Coq Require Import List ZArith Reals Bool Arith.
From Verif Require Import Base RC M_Evect M_Eig S_Evect.
Import ListNotations.
Local Open Scope R_scope.

Definition mat : Type := nat -> nat -> C.
(** n rows and m columns; zero elsewhere. *)
Definition mdim (n m : nat) (A : mat) : Prop := forall i j, (n <= i \/ m <= j)%nat -> A i j = C0.
(** Product with k terms, adjoint, trace, identity, sums. *)
Definition mmul (k : nat) (A B : mat) : mat := fun i j => csum k (fun l => (A i l * B l j)%C).
Definition madj (A : mat) : mat := fun i j => Cconj (A j i).
Definition mtr (k : nat) (A : mat) : C := csum k (fun i => A i i).
Definition mid (p : nat) : mat := fun i j => if (i <? p)%nat && (i =? j)%nat then C1 else C0.
Definition madd (A B : mat) : mat := fun i j => (A i j + B i j)%C.
Definition mscal (a : R) (A : mat) : mat := fun i j => Cscal a (A i j).
Definition msub (A B : mat) : mat := madd A (mscal (-1) B).
Definition mdiag (p : nat) (e : nat -> R) : mat := fun i j => if (i <? p)%nat && (i =? j)%nat then RtoC (e i) else C0.

Definition hermitian (A : mat) : Prop := madj A = A.
Definition posdef (p : nat) (A : mat) : Prop := forall v : nat -> C, (exists i, (i < p)%nat /\ v i <> C0) ->
  0 < re (csum p (fun i => csum p (fun j => (Cconj (v i) * (A i j * v j))%C))).
Definition semidef (p : nat) (A : mat) : Prop := forall v : nat -> C, 0 <= re (csum p (fun i => csum p (fun j => (Cconj (v i) * (A i j * v j))%C))).

(** Y^+ A Z for fields with n components. *)
Definition form (n : nat) (A Y Z : mat) : mat := mmul n (madj Y) (mmul n A Z).

(** E = Re tr [Y^+ A Y (Y^+ B Y)^-1], the trace the solver minimises; it has a value only if the p
    columns of Y are independent. *)
Definition rayleigh (n p : nat) (A B Y : mat) (E : R) : Prop :=
  exists N, mdim p p N /\ mmul p (form n B Y Y) N = mid p /\ E = re (mtr p (mmul p (form n A Y Y) N)).

(** The fields reached by turning from Y towards D by the angle x. *)
Definition turned (x : R) (Y D : mat) : mat := madd (mscal (cos x) Y) (mscal (sin x) D).

(** Row-major storage of an n x m matrix at the beginning of d, and the program's two kinds of
    matrices holding M. *)
Definition rep (n m : nat) (d : list C) (M : mat) : Prop :=
  (n * m <= length d)%nat /\ mdim n m M /\ forall i j, (i < n)%nat -> (j < m)%nat -> nth (i * m + j) d C0 = M i j.
Definition fields (n p : nat) (X : emat C) (M : mat) : Prop :=
  en X = Z.of_nat n /\ ep X = Z.of_nat p /\ wf X /\ rep n p (edata X) M.
Definition square (p : nat) (S : smat C) (M : mat) : Prop :=
  sp S = Z.of_nat p /\ wfs S /\ rep p p (sdata S) M.

(** What is assumed of the LAPACK routines in exact arithmetic, for p x p matrices.  Cholesky
    factorization and inversion succeed for the positive-definite matrices only and then give the
    upper half of the inverse; diagonalization gives U with H = U^+ diag(e) U, U unitary, and
    ascending e. *)
Definition potr_ok (p : nat) (potr : Z -> list C -> option (list C)) : Prop := forall d M, rep p p d M -> hermitian M ->
  match potr (Z.of_nat p) d with
  | Some d' => length d' = length d /\ posdef p M /\
      exists N, mdim p p N /\ mmul p M N = mid p /\ forall i j, (i <= j < p)%nat -> nth (i * p + j) d' C0 = N i j
  | None => ~ posdef p M
  end.
Definition heev_ok (p : nat) (heev : Z -> list C -> list C * list R) : Prop := forall d M, rep p p d M -> hermitian M ->
  length (fst (heev (Z.of_nat p) d)) = length d /\ length (snd (heev (Z.of_nat p) d)) = p /\
  exists V, rep p p (fst (heev (Z.of_nat p) d)) V /\ mmul p V (madj V) = mid p /\ mmul p (madj V) V = mid p /\
    M = mmul p (madj V) (mmul p (mdiag p (fun i => nth i (snd (heev (Z.of_nat p) d)) 0)) V) /\
    forall i j, (i <= j < p)%nat -> nth i (snd (heev (Z.of_nat p) d)) 0 <= nth j (snd (heev (Z.of_nat p) d)) 0.

(** A routine that applies the n x n matrix H to fields with n components and p bands; an absent
    operator is the identity. *)
Definition applies (n p : nat) (f : emat C -> outcome (emat C)) (H : mat) : Prop :=
  forall X M, fields n p X M -> exists X', f X = Val X' /\ fields n p X' (mmul n H M).
Definition applies_opt (n p : nat) (o : option (emat C -> outcome (emat C))) (H : mat) : Prop :=
  match o with Some f => applies n p f H | None => H = mid n end.

(** M and M' have the same span: M' = M T with T invertible. *)
Definition respan (p : nat) (M M' : mat) : Prop :=
  exists T T', mdim p p T /\ mdim p p T' /\ mmul p T T' = mid p /\ mmul p T' T = mid p /\ M' = mmul p M T.

(** The p fields are independent (with B as metric). *)
Definition independent (n p : nat) (B Y : mat) : Prop := posdef p (form n B Y Y).

(** d holds the matrices of the line from Y towards D: those of A and of B, and the traces of L. *)
Definition line_of (n p : nat) (A B Y D : mat) (d : tfd) : Prop :=
  square p (t_YtAY d) (form n A Y Y) /\ square p (t_DtAD d) (form n A D D) /\ square p (t_symYtAD d) (mscal (/ 2) (madd (form n A Y D) (form n A D Y))) /\
  square p (t_YtBY d) (form n B Y Y) /\ square p (t_DtBD d) (form n B D D) /\ square p (t_symYtBD d) (mscal (/ 2) (madd (form n B Y D) (form n B D Y))).
Definition lagrange_of (n p : nat) (L Y D : mat) (d : tfd) : Prop :=
  t_YtLY d = re (mtr p (form n L Y Y)) /\ t_DtLD d = re (mtr p (form n L D D)) /\ t_YtLD d = re (mtr p (form n L Y D)).
(** The Lagrange term at the angle x: the multiplier turns as the fields do. *)
Definition lagrange (n p : nat) (L Y D : mat) (d : tfd) (x : R) : R :=
  (cos x * t_lag d + sin x * t_d_lag d) * re (mtr p (form n L (turned x Y D) (turned x Y D))).

(** What is assumed of the operators: the matrices A and B of n rows are Hermitian, the
    preconditioner gives some fields, and the constraint is a projection P, which commutes with B if
    PROJECT_PRECONDITIONING is set. *)
Record solver_ok (n p : nat) (potr : Z -> list C -> option (list C)) (heev : Z -> list C -> list C * list R)
  (opA : emat C -> outcome (emat C)) (opB : option (emat C -> outcome (emat C))) (opK : option (emat C -> emat C -> smat C -> outcome (emat C)))
  (constraint : option (emat C -> outcome (emat C))) (project : bool) (A B P : mat) : Prop := {
  ok_p : (1 <= p)%nat;
  ok_potr : potr_ok p potr; ok_heev : heev_ok p heev;
  ok_dimA : mdim n n A; ok_dimB : mdim n n B; ok_hermA : hermitian A; ok_hermB : hermitian B;
  ok_A : applies n p opA A; ok_B : applies_opt n p opB B;
  ok_K : match opK with
    | Some f => forall G Y S MG MY MS, fields n p G MG -> fields n p Y MY -> square p S MS -> exists X MX, f G Y S = Val X /\ fields n p X MX
    | None => True end;
  ok_P : applies_opt n p constraint P; ok_idem : mmul n P P = P; ok_comm : project = true -> mmul n P B = mmul n B P }.

(** The fields satisfy the constraint. *)
Definition satisfies (n : nat) (P M : mat) : Prop := mmul n P M = M.
(** The state between iterations: fields M, direction MD. *)
Definition state_ok (n p : nat) (P : mat) (s : est) (M MD : mat) : Prop :=
  fields n p (s_Y s) M /\ satisfies n P M /\ fields n p (s_D s) MD /\ satisfies n P MD /\ exists MG, fields n p (s_prev_G s) MG.

(** The exact modes within the constraint: m fields V, orthonormal in the metric B, that diagonalize
    A with ascending values and span all fields that satisfy the constraint. *)
Definition modes (n m : nat) (P A B V : mat) (lam : nat -> R) : Prop :=
  mdim n m V /\ form n B V V = mid m /\ form n A V V = mdiag m lam /\ (forall i j, (i <= j < m)%nat -> lam i <= lam j) /\
  forall p M, mdim n p M -> satisfies n P M -> M = mmul m V (form n B V M).

(** The trace does not change to first order in any direction from Y. *)
Definition stationary (n p : nat) (A B Y : mat) : Prop := forall X, mdim n p X ->
  exists f, (forall t e, rayleigh n p A B (turned t Y X) e -> f t = e) /\ derivable_pt_lim f 0 0.

(** The states at the beginning of the iterations of a run from Y. *)
Inductive reached potr heev opA opB opK constraint cg pr project reorth reset tol (Y : emat C) : Z -> est -> Prop :=
  | reached_0 : forall s, start constraint Y = Val s -> reached potr heev opA opB opK constraint cg pr project reorth reset tol Y 0 s
  | reached_S : forall it s fuel E s', reached potr heev opA opB opK constraint cg pr project reorth reset tol Y it s ->
      step potr heev opA opB opK constraint cg pr project reorth reset tol fuel it s = Some (Val (Again E s')) -> reached potr heev opA opB opK constraint cg pr project reorth reset tol Y (it + 1) s'.
