(** Vocabulary for statements about find-k. *)
From Coq Require Import List ZArith Reals.
From Verif Require Import RC M_Scheme M_Findk.
Import ListNotations.
Local Open Scope R_scope.

(** The search [s], all of whose questions are answered by the function [g], returns [r] after
    asking for the numbers in the list. *)
Inductive plays (g : R -> R * R) : search -> R -> list R -> Prop :=
| plays_done : forall k, plays g (Done k) k []
| plays_ask : forall k next r asked,
    plays g (next (g k)) r asked -> plays g (Ask k next) r (k :: asked).

(** Among the numbers tried so far (with the band they were tried for), [k] comes closest to a zero
    of [g]; before anything was tried it is [g0]. *)
Definition closest (g : R -> R * R) (g0 : R) (tried : list (Z * R)) (k : R) : Prop :=
  match tried with
  | [] => k = g0
  | _ => (exists b, In (b, k) tried) /\
         forall b k', In (b, k') tried -> Rabs (fst (g k)) <= Rabs (fst (g k'))
  end.

(** Bands treated one after the other, band b with the function [g b], each time starting from the
    closest number tried before: results in this order, and everything tried, newest first. *)
Inductive searched (g : Z -> R -> R * R) (frd : R -> search)
  : list (Z * R) -> list (Z * R) -> list R -> list (Z * R) -> Prop :=
| searched_nil : forall tried, searched g frd [] tried [] tried
| searched_cons : forall b g0 rest tried start k asked ks tried',
    closest (g b) g0 tried start ->
    plays (g b) (frd start) k asked ->
    searched g frd rest (rev (map (pair b) asked) ++ tried) ks tried' ->
    searched g frd ((b, g0) :: rest) tried (k :: ks) tried'.

(** Frequency relative to omega and velocity of band b (counted from 1) in a list of both. *)
Definition of_band (omega : R) (b : Z) (fv : list (R * R)) : R * R :=
  let '(f, v) := nth (Z.to_nat (b - 1)) fv (0, 0) in (f - omega, v).

(** b, b-1, ... (n numbers). *)
Definition downwards (b : Z) (n : nat) : list Z := map (fun i => (b - Z.of_nat i)%Z) (seq 0 n).
