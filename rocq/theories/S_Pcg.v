(** Vocabulary for the solver on several processes. *)
From Coq Require Import List ZArith Reals Bool.
From Verif Require Import Base RC M_Evect M_Lin M_Eig S_Evect S_Eig M_Pcg.
Import ListNotations.

(** k rows of a matrix, from row o on. *)
Definition rows (o k : nat) (M : mat) : mat := fun i j => if (i <? k)%nat then M (o + i)%nat j else C0.
Definition total (ns : list nat) : nat := fold_right Nat.add 0%nat ns.
(** The first process holds the first rows of M, the next the following ones; [ns] says how many, perhaps none. *)
Fixpoint spread (p : nat) (ns : list nat) (o : nat) (l : dmat) (M : mat) : Prop :=
  match ns, l with
  | [], [] => True
  | k :: ns, X :: l => S_Eig.fields k p X (rows o k M) /\ spread p ns (o + k) l M
  | _, _ => False
  end.
(** A block of p bands on one process, and the same divided among several. *)
Definition same_block (p : nat) (ns : list nat) (X : emat C) (l : dmat) : Prop :=
  exists M, S_Eig.fields (total ns) p X M /\ spread p ns 0 l M.

(** Two runs end in the same way, with results that correspond. *)
Definition same_outcome {A B} (R : A -> B -> Prop) (s : outcome A) (q : outcome B) : Prop :=
  match s, q with Val a, Val b => R a b | Abort, Abort => True | UB, UB => True | NonFin, NonFin => True | _, _ => False end.
Definition same_run {A B} (R : A -> B -> Prop) (s : option (outcome A)) (q : option (outcome B)) : Prop :=
  match s, q with Some a, Some b => same_outcome R a b | None, None => True | _, _ => False end.
(** Operators that do the same to corresponding blocks. *)
Definition same_op (p : nat) (ns : list nat) (f : emat C -> outcome (emat C)) (g : dmat -> outcome dmat) : Prop :=
  forall X l, same_block p ns X l -> same_outcome (same_block p ns) (f X) (g l).
Definition same_opt (p : nat) (ns : list nat) (f : option (emat C -> outcome (emat C))) (g : option (dmat -> outcome dmat)) : Prop :=
  match f, g with Some f, Some g => same_op p ns f g | None, None => True | _, _ => False end.
Definition same_K (p : nat) (ns : list nat) (f : option (emat C -> emat C -> smat C -> outcome (emat C))) (g : option (dmat -> dmat -> smat C -> outcome dmat)) : Prop :=
  match f, g with
  | Some f, Some g => forall X l Y m S, same_block p ns X l -> same_block p ns Y m -> (exists M, square p S M) -> same_outcome (same_block p ns) (f X Y S) (g l m S)
  | None, None => True
  | _, _ => False
  end.
(** The LAPACK routines work in place. *)
Definition in_place_potr (potr : Z -> list C -> option (list C)) : Prop := forall p d d', potr p d = Some d' -> length d' = length d.
Definition in_place_heev (heev : Z -> list C -> list C * list R) : Prop := forall p d, length (fst (heev p d)) = length d.
(** What the solver returns: the values of the trace, the fields and the eigenvalues, or nothing. *)
Definition same_result (p : nat) (ns : list nat) (a : option (list R * emat C * list R)) (b : option (list R * dmat * list R)) : Prop :=
  match a, b with
  | Some (Es, Y, e), Some (Es', l, e') => Es = Es' /\ e = e' /\ same_block p ns Y l
  | None, None => True
  | _, _ => False
  end.
(** The same for two divisions. *)
Definition same_results (p : nat) (ns ns' : list nat) (a b : option (list R * dmat * list R)) : Prop :=
  match a, b with
  | Some (Es, l, e), Some (Es', l', e') => Es = Es' /\ e = e' /\ exists Y, same_block p ns Y l /\ same_block p ns' Y l'
  | None, None => True
  | _, _ => False
  end.
