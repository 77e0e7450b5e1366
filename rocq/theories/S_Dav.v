(** Vocabulary for the Davidson eigensolver, on top of S_Eig. *)
From Coq Require Import List ZArith Reals Bool Arith.
From Verif Require Import Base RC M_Evect M_Eig M_Dav S_Evect S_Eig.
Import ListNotations.
Local Open Scope R_scope.

(** The blocks M 0, ..., M (b-1), of p columns each, side by side. *)
Definition blocks (p b : nat) (M : nat -> mat) : mat := fun i j => if (j <? p * b)%nat then M (j / p)%nat i (j mod p)%nat else C0.

(** p orthonormal fields of n components. *)
Definition orthonormal (n p : nat) (M : mat) : Prop := mdim n p M /\ mmul n (madj M) M = mid p.
(** The columns of M are combinations of the q columns of W. *)
Definition spanned (q p : nat) (W M : mat) : Prop := exists T, mdim q p T /\ M = mmul q W T.

(** What is assumed: LAPACK as in S_Eig for the sizes that occur with nb blocks, A a Hermitian
    matrix of n rows, the preconditioner gives some fields, the constraint is a projection P. *)
Record davidson_ok (n p nb : nat) (potr : Z -> list C -> option (list C)) (heev : Z -> list C -> list C * list R)
  (opA : emat C -> outcome (emat C)) (opK : option (emat C -> emat C -> list R -> outcome (emat C)))
  (constraint : option (emat C -> outcome (emat C))) (A P : mat) : Prop := {
  dk_p : (1 <= p)%nat;
  dk_potr : potr_ok p potr; dk_heev : forall k, (1 <= k <= nb)%nat -> heev_ok (p * k) heev;
  dk_dimA : mdim n n A; dk_hermA : hermitian A; dk_A : applies n p opA A;
  dk_K : match opK with
    | Some f => forall G Y e MG MY, fields n p G MG -> fields n p Y MY -> (p <= length e)%nat -> exists X MX, f G Y e = Val X /\ fields n p X MX
    | None => True end;
  dk_P : applies_opt n p constraint P; dk_idem : mmul n P P = P }.

(** The work arrays hold fields, whatever they are. *)
Definition workspace (n p : nat) (Work : list (emat C)) : Prop := forall w, In w Work -> exists M, fields n p w M.

(** r is a Rayleigh-Ritz step in the space of the q orthonormal columns of W: these have all their
    values e (ascending), and the fields and values in r are p neighbouring ones, from it. *)
Definition ritz_of (n p q : nat) (A W : mat) (e : nat -> R) (it : nat) (r : ritz) (M : mat) : Prop :=
  (it + p <= q)%nat /\ fields n p (r_Y r) M /\
  exists V, orthonormal n q V /\ spanned q q W V /\ spanned q q V W /\ form n A V V = mdiag q e /\ (forall i j, (i <= j < q)%nat -> e i <= e j) /\
    (forall i j, (j < p)%nat -> M i j = V i (it + j)%nat) /\
    (p <= length (r_e r))%nat /\ (forall i, (i < p)%nat -> nth i (r_e r) 0 = e (it + i)%nat) /\ r_E r = rsum p (fun i => e (it + i)%nat).

(** The space of the q orthonormal columns of W, which satisfies the constraint and is not larger
    than nb blocks, with its Rayleigh-Ritz step. *)
Definition stage (n p nb : nat) (A P : mat) (q : nat) (W : mat) (e : nat -> R) (it : nat) (r : ritz) (M : mat) : Prop :=
  (p <= q <= p * nb)%nat /\ orthonormal n q W /\ satisfies n P W /\ ritz_of n p q A W e it r M.

(** A M - M diag(e). *)
Definition residual (n p : nat) (A M : mat) (e : nat -> R) : mat := msub (mmul n A M) (mmul p M (mdiag p e)).
(** The space of W holds the fields of the step r0 and, projected on the constraint, their
    preconditioned residual (the residual itself without preconditioner). *)
Definition enlarged (n p : nat) (opK : option (emat C -> emat C -> list R -> outcome (emat C))) (A P : mat) (r0 : ritz) (q : nat) (W : mat) : Prop :=
  exists M0, fields n p (r_Y r0) M0 /\ spanned q p W M0 /\
  exists G X MX, fields n p G (residual n p A M0 (fun i => nth i (r_e r0) 0)) /\ fields n p X MX /\
    match opK with Some f => f G (r_Y r0) (r_e r0) = Val X | None => MX = residual n p A M0 (fun i => nth i (r_e r0) 0) end /\ spanned q p W (mmul n P MX).
(** The preconditioner makes zero of zero. *)
Definition zero_to_zero (n p : nat) (opK : option (emat C -> emat C -> list R -> outcome (emat C))) : Prop :=
  match opK with Some f => forall G Y e X, fields n p G (fun _ _ => C0) -> f G Y e = Val X -> fields n p X (fun _ _ => C0) | None => True end.

(** The values e it, ..., e (it+p-1) are the nearest to t of e 0, ..., e (q-1). *)
Definition nearest (p q : nat) (t : R) (e : nat -> R) (it : nat) : Prop :=
  forall i j, (it <= i < it + p)%nat -> (j < q)%nat -> ~ (it <= j < it + p)%nat -> Rabs (t - e i) <= Rabs (t - e j).

(** The results of the iterations, the last first, of a run from the fields M0: the first step is in
    the span of these fields (projected on the constraint), and every further one in a space that
    holds what the one before found. *)
Fixpoint trail (n p nb : nat) (opK : option (emat C -> emat C -> list R -> outcome (emat C))) (A P : mat) (target : R) (M0 : mat) (rs : list ritz) : Prop :=
  match rs with
  | [] => True
  | r :: t =>
      (exists q W e it M, stage n p nb A P q W e it r M /\
        (target = 0 -> it = 0%nat) /\ (target <> 0 -> (forall i, (i + p < q)%nat -> e i < e (i + p)%nat) -> nearest p q target e it) /\
        match t with
        | [] => q = p /\ respan p (mmul n P M0) W
        | r0 :: _ => (2 * p <= q)%nat /\ enlarged n p opK A P r0 q W
        end) /\
      trail n p nb opK A P target M0 t
  end.

(** No new direction after the step r in the space of the q0 columns of W0: the part of the
    preconditioned residual, projected on the constraint, that is orthogonal to this space - or, if
    all nb blocks are in use, to the fields of r only - has dependent columns. *)
Definition stuck (n p nb : nat) (opK : option (emat C -> emat C -> list R -> outcome (emat C))) (A P : mat) (q0 : nat) (W0 : mat) (r : ritz) : Prop :=
  exists M0 q W G X MX D T, fields n p (r_Y r) M0 /\ ((q0 < p * nb)%nat /\ q = q0 /\ W = W0 \/ q0 = (p * nb)%nat /\ q = p /\ W = M0) /\
    fields n p G (residual n p A M0 (fun i => nth i (r_e r) 0)) /\ fields n p X MX /\
    match opK with Some f => f G (r_Y r) (r_e r) = Val X | None => MX = residual n p A M0 (fun i => nth i (r_e r) 0) end /\
    mdim n p D /\ mdim q p T /\ mmul n P MX = madd D (mmul q W T) /\ mmul n (madj W) D = (fun _ _ => C0) /\ ~ independent n p (mid n) D.

(** What a call of the solver is given: work space for nb >= 2 blocks, the fields M0 to start from. *)
Definition call (n p nb : nat) potr heev opA opK constraint (A P : mat) (Y : emat C) (M0 : mat) (e : list R) (Work : list (emat C)) : Prop :=
  davidson_ok n p nb potr heev opA opK constraint A P /\ nb = (length Work / 2)%nat /\ (2 <= nb)%nat /\ fields n p Y M0 /\ (p <= length e)%nat /\ workspace n p Work.
