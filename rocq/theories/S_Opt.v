(** Vocabulary for the optimization properties. *)
From Coq Require Import List ZArith Reals.
From Verif Require Import Base RC M_Tensor M_Opt.
Import ListNotations.
Local Open Scope R_scope.

(** The relative gap of band edges f1, f2, in per one of the mid-gap. *)
Definition rel_gap (f1 f2 : R) : R := (f2 - f1) / ((f1 + f2) / 2).
(** What the optimizer minimizes, as a function of all variables: the parameters, then the
    lower edge of the upper band, then the upper edge of the lower band. *)
Definition goal (do_min : bool) (u : list R) : R :=
  let f1 := nth (length u - 1) u 0 in let f2 := nth (length u - 2) u 0 in
  if do_min then rel_gap f1 f2 else - rel_gap f1 f2.

(** Calls the optimizer may make. *)
Inductive call := Objective (u : list R) | Constraint (u : list R) (kd : ckind) (ik : Z).

(** One history of calls: for each constraint the frequency it saw and its value, oldest first. *)
Fixpoint run (solve : list R -> vec -> list R) (b1 b2 : Z) (ks : list vec) (n : Z) (s : ostate) (cs : list call) : outcome (list (R * R)) :=
  match cs with
  | [] => Val []
  | Objective u :: t => run solve b1 b2 ks n (objective n u s) t
  | Constraint u kd ik :: t =>
    let! r := band_constraint solve b1 b2 ks n u kd ik s in
    let '(f, c, s) := r in let! l := run solve b1 b2 ks n s t in Val ((f, c) :: l)
  end.
(** What they should see: the frequencies for the parameters of the latest objective; the value
    is at most zero when the first band lies below the last variable, the second band above the
    last but one. *)
Fixpoint expected (solve : list R -> vec -> list R) (b1 b2 : Z) (ks : list vec) (n : Z) (p : list R) (cs : list call) : list (R * R) :=
  match cs with
  | [] => []
  | Objective u :: t => expected solve b1 b2 ks n (firstn (Z.to_nat (n - 2)) u) t
  | Constraint u kd ik :: t =>
    let f := nth (Z.to_nat (match kd with BAND1 => b1 | BAND2 => b2 end - 1)) (solve p (nth (Z.to_nat ik) ks (0, 0, 0))) 0 in
    (f, match kd with BAND1 => f - nth (length u - 1) u 0 | BAND2 => nth (length u - 2) u 0 - f end) :: expected solve b1 b2 ks n p t
  end.
Definition call_ok (ks : list vec) (n : Z) (c : call) : Prop :=
  match c with Objective u => Z.of_nat (length u) = n | Constraint u _ ik => Z.of_nat (length u) = n /\ (0 <= ik < Z.of_nat (length ks))%Z end.

(** Sum of the processes' parts. *)
Definition vsum (m : nat) (parts : list (list R)) : list R := fold_right addv (repeat 0 m) parts.
(** Value of a constraint as a function of all variables, F being the band's frequency as a
    function of the parameters. *)
Definition cval (kd : ckind) (F : list R -> R) (u : list R) : R :=
  let p := firstn (length u - 2) u in
  match kd with BAND1 => F p - nth (length u - 1) u 0 | BAND2 => nth (length u - 2) u 0 - F p end.
