(** Common vocabulary of the models: outcomes of C code, bounds-checked arrays
    (lists addressed by [Z]), and counted loops. *)
From Coq Require Import List ZArith Lia Bool.
Import ListNotations.
Local Open Scope Z_scope.

(** Result of running a piece of C code.
    [Abort]: a failed CHECK (src/util/check.h 30-46, ends in mpi_die).
    [UB]: undefined behaviour (out-of-range access, integer division by zero,
    use of an uninitialised value).
    [NonFin]: a floating-point operation with an infinite or NaN result
    (division of a real by zero); not undefined, but not a number either. *)
Inductive outcome (A : Type) : Type :=
| Val (a : A)
| Abort
| UB
| NonFin.
Arguments Val {A} a.
Arguments Abort {A}.
Arguments UB {A}.
Arguments NonFin {A}.

Definition bind {A B} (m : outcome A) (k : A -> outcome B) : outcome B :=
  match m with
  | Val a => k a
  | Abort => Abort
  | UB => UB
  | NonFin => NonFin
  end.

Notation "'let!' x := m 'in' k" := (bind m (fun x => k))
  (at level 200, x pattern, m at level 100, k at level 200, right associativity).

(** CHECK(cond, msg) of src/util/check.h. *)
Definition check (b : bool) : outcome unit := if b then Val tt else Abort.

(** Array read and write with C semantics: outside the allocation is UB. *)
Definition rd {A} (l : list A) (i : Z) : outcome A :=
  if i <? 0 then UB
  else match nth_error l (Z.to_nat i) with Some a => Val a | None => UB end.

Fixpoint upd_nat {A} (l : list A) (n : nat) (v : A) : list A :=
  match l, n with
  | [], _ => []
  | _ :: t, O => v :: t
  | h :: t, S n' => h :: upd_nat t n' v
  end.

Definition wr {A} (l : list A) (i : Z) (v : A) : outcome (list A) :=
  if (0 <=? i) && (i <? Z.of_nat (length l))
  then Val (upd_nat l (Z.to_nat i) v) else UB.

(** [for (i = i0; i < i0 + n; ++i) s = f i s]. *)
Fixpoint for_ {S} (n : nat) (i0 : Z) (f : Z -> S -> outcome S) (s : S) : outcome S :=
  match n with
  | O => Val s
  | Datatypes.S n' => let! s' := f i0 s in for_ n' (i0 + 1) f s'
  end.

(** [for (i = lo; i < hi; ++i)]. *)
Definition forZ {S} (lo hi : Z) (f : Z -> S -> outcome S) (s : S) : outcome S :=
  for_ (Z.to_nat (hi - lo)) lo f s.

(** [for (i = hi - 1; i >= lo; --i)], [n = hi - lo] iterations. *)
Fixpoint ford_ {S} (n : nat) (lo : Z) (f : Z -> S -> outcome S) (s : S) : outcome S :=
  match n with
  | O => Val s
  | Datatypes.S n' => let! s' := f (lo + Z.of_nat n') s in ford_ n' lo f s'
  end.

Definition forZ_down {S} (lo hi : Z) (f : Z -> S -> outcome S) (s : S) : outcome S :=
  ford_ (Z.to_nat (hi - lo)) lo f s.

(* ------------------------------------------------------------------ *)
(** Lemmas *)

Lemma bind_val {A B} (m : outcome A) (k : A -> outcome B) (b : B) :
  bind m k = Val b <-> exists a, m = Val a /\ k a = Val b.
Proof.
  split.
  - destruct m; cbn; intros H; try discriminate. eauto.
  - intros (a & -> & H). exact H.
Qed.

Lemma upd_length {A} (l : list A) n v : length (upd_nat l n v) = length l.
Proof. revert n; induction l; destruct n; cbn; auto. Qed.

Lemma nth_error_upd {A} (l : list A) n m v :
  nth_error (upd_nat l n v) m =
  if Nat.eqb n m then (if Nat.ltb n (length l) then Some v else None) else nth_error l m.
Proof.
  revert n m; induction l as [|a l IH]; intros n m.
  - destruct n, m; cbn; try reflexivity.
    destruct (Nat.eqb n m); reflexivity.
  - destruct n, m; cbn; try reflexivity.
    rewrite IH. destruct (Nat.eqb n m); reflexivity.
Qed.

Lemma rd_in {A} (l : list A) i :
  0 <= i < Z.of_nat (length l) -> exists a, rd l i = Val a.
Proof.
  intros H. unfold rd. destruct (Z.ltb_spec i 0); [lia|].
  destruct (nth_error l (Z.to_nat i)) eqn:E; [eauto|].
  apply nth_error_None in E. lia.
Qed.

Lemma rd_val_in {A} (l : list A) i a :
  rd l i = Val a -> 0 <= i < Z.of_nat (length l).
Proof.
  unfold rd. destruct (Z.ltb_spec i 0); [discriminate|].
  destruct (nth_error l (Z.to_nat i)) eqn:E; [|discriminate]. intros _.
  assert (Z.to_nat i < length l)%nat by (apply nth_error_Some; congruence). lia.
Qed.

Lemma wr_in {A} (l : list A) i v :
  0 <= i < Z.of_nat (length l) -> wr l i v = Val (upd_nat l (Z.to_nat i) v).
Proof.
  intros H. unfold wr.
  destruct (Z.leb_spec 0 i); [|lia]. destruct (Z.ltb_spec i (Z.of_nat (length l))); [|lia].
  reflexivity.
Qed.

Lemma wr_length {A} (l l' : list A) i v : wr l i v = Val l' -> length l' = length l.
Proof.
  unfold wr. destruct (_ && _); [|discriminate]. intros [= <-]. apply upd_length.
Qed.

Lemma wr_val_in {A} (l l' : list A) i v : wr l i v = Val l' -> 0 <= i < Z.of_nat (length l).
Proof.
  unfold wr. destruct (Z.leb_spec 0 i), (Z.ltb_spec i (Z.of_nat (length l))); cbn; try discriminate.
  lia.
Qed.

Lemma rd_wr {A} (l l' : list A) i j v :
  wr l i v = Val l' -> rd l' j = if j =? i then Val v else rd l j.
Proof.
  intros H. pose proof (wr_val_in _ _ _ _ H) as Hi.
  rewrite wr_in in H by exact Hi. injection H as <-.
  unfold rd. destruct (Z.ltb_spec j 0) as [Hj|Hj].
  - destruct (Z.eqb_spec j i); [lia|reflexivity].
  - rewrite nth_error_upd. destruct (Z.eqb_spec j i) as [->|Hne].
    + rewrite Nat.eqb_refl. destruct (Nat.ltb_spec (Z.to_nat i) (length l)); [reflexivity|lia].
    + destruct (Nat.eqb_spec (Z.to_nat i) (Z.to_nat j)); [lia|reflexivity].
Qed.

(** Loop invariant rule (total: also yields a value). *)
Lemma for_inv {S} (P : Z -> S -> Prop) (f : Z -> S -> outcome S) n i0 s :
  P i0 s ->
  (forall i s, i0 <= i < i0 + Z.of_nat n -> P i s -> exists s', f i s = Val s' /\ P (i + 1) s') ->
  exists s', for_ n i0 f s = Val s' /\ P (i0 + Z.of_nat n) s'.
Proof.
  revert i0 s. induction n as [|n IH]; intros i0 s H0 Hstep.
  - exists s. split; [reflexivity|]. replace (i0 + Z.of_nat 0) with i0 by lia. exact H0.
  - destruct (Hstep i0 s) as (s1 & E & H1); [lia|exact H0|].
    cbn [for_]. rewrite E. cbn [bind].
    destruct (IH (i0 + 1) s1 H1) as (s2 & E2 & H2).
    + intros i s' Hi HP. apply Hstep; [lia|exact HP].
    + exists s2. split; [exact E2|]. replace (i0 + Z.of_nat (Datatypes.S n)) with (i0 + 1 + Z.of_nat n) by lia. exact H2.
Qed.

Lemma forZ_inv {S} (P : Z -> S -> Prop) (f : Z -> S -> outcome S) lo hi s :
  lo <= hi ->
  P lo s ->
  (forall i s, lo <= i < hi -> P i s -> exists s', f i s = Val s' /\ P (i + 1) s') ->
  exists s', forZ lo hi f s = Val s' /\ P hi s'.
Proof.
  intros Hle H0 Hs. unfold forZ.
  destruct (for_inv P f (Z.to_nat (hi - lo)) lo s H0) as (s' & E & H).
  - intros i s1 Hi. apply Hs. lia.
  - exists s'. split; [exact E|]. replace hi with (lo + Z.of_nat (Z.to_nat (hi - lo))) by lia. exact H.
Qed.

Lemma ford_inv {S} (P : Z -> S -> Prop) (f : Z -> S -> outcome S) n lo s :
  P (lo + Z.of_nat n) s ->
  (forall i s, lo <= i < lo + Z.of_nat n -> P (i + 1) s -> exists s', f i s = Val s' /\ P i s') ->
  exists s', ford_ n lo f s = Val s' /\ P lo s'.
Proof.
  revert s. induction n as [|n IH]; intros s H0 Hstep.
  - exists s. split; [reflexivity|]. replace lo with (lo + Z.of_nat 0) by lia. exact H0.
  - cbn [ford_]. destruct (Hstep (lo + Z.of_nat n) s) as (s1 & E & H1); [lia| |].
    + replace (lo + Z.of_nat n + 1) with (lo + Z.of_nat (Datatypes.S n)) by lia. exact H0.
    + rewrite E. cbn [bind]. apply IH; [exact H1|]. intros i s' Hi. apply Hstep. lia.
Qed.

Lemma forZ_down_inv {S} (P : Z -> S -> Prop) (f : Z -> S -> outcome S) lo hi s :
  lo <= hi ->
  P hi s ->
  (forall i s, lo <= i < hi -> P (i + 1) s -> exists s', f i s = Val s' /\ P i s') ->
  exists s', forZ_down lo hi f s = Val s' /\ P lo s'.
Proof.
  intros Hle H0 Hs. unfold forZ_down.
  apply (ford_inv P).
  - replace (lo + Z.of_nat (Z.to_nat (hi - lo))) with hi by lia. exact H0.
  - intros i s' Hi. apply Hs. lia.
Qed.
