(** Real comparisons as booleans, complex numbers as pairs of reals, finite sums. *)
From Coq Require Import Reals Lra Lia List Bool.
From Verif Require Import Base.
Local Open Scope R_scope.

Definition Rltb (x y : R) : bool := if Rlt_dec x y then true else false.
Definition Rleb (x y : R) : bool := if Rle_dec x y then true else false.
Definition Reqb (x y : R) : bool := if Req_EM_T x y then true else false.

Lemma Rltb_spec x y : reflect (x < y) (Rltb x y).
Proof. unfold Rltb. destruct (Rlt_dec x y); constructor; assumption. Qed.
Lemma Rleb_spec x y : reflect (x <= y) (Rleb x y).
Proof. unfold Rleb. destruct (Rle_dec x y); constructor; assumption. Qed.
Lemma Reqb_spec x y : reflect (x = y) (Reqb x y).
Proof. unfold Reqb. destruct (Req_EM_T x y); constructor; assumption. Qed.

(** Floating-point division: a zero divisor gives inf or NaN, recorded as [NonFin]. *)
Definition fdiv (x y : R) : outcome R := if Req_EM_T y 0 then NonFin else Val (x / y).

Lemma fdiv_nz x y : y <> 0 -> fdiv x y = Val (x / y).
Proof. intros H. unfold fdiv. destruct (Req_EM_T y 0); [contradiction|reflexivity]. Qed.

(** scalar_complex, src/matrices/scalar.h 38-40. *)
Definition C : Type := (R * R)%type.
Declare Scope C_scope.
Delimit Scope C_scope with C.
Bind Scope C_scope with C.

Definition re (z : C) : R := fst z.
Definition im (z : C) : R := snd z.
Definition RtoC (x : R) : C := (x, 0).
Definition C0 : C := (0, 0).
Definition C1 : C := (1, 0).
Definition Ci : C := (0, 1).
Definition Cadd (a b : C) : C := (re a + re b, im a + im b).
Definition Copp (a : C) : C := (- re a, - im a).
Definition Csub (a b : C) : C := Cadd a (Copp b).
Definition Cmul (a b : C) : C := (re a * re b - im a * im b, re a * im b + im a * re b).
Definition Cconj (a : C) : C := (re a, - im a).
Definition Cscal (x : R) (a : C) : C := (x * re a, x * im a).
(** CSCALAR_NORMSQR, scalar.h 56. *)
Definition normsqr (a : C) : R := re a * re a + im a * im a.

Infix "+" := Cadd : C_scope.
Infix "*" := Cmul : C_scope.
Infix "-" := Csub : C_scope.
Notation "- x" := (Copp x) : C_scope.

Lemma C_eq (a b : C) : re a = re b -> im a = im b -> a = b.
Proof. destruct a, b; cbn; intros; subst; reflexivity. Qed.

Ltac csimp := unfold Csub, Cadd, Copp, Cmul, Cconj, Cscal, normsqr, RtoC, C0, C1, Ci, re, im in *; cbn [fst snd] in *.
Ltac cring := intros; apply C_eq; csimp; ring.

Lemma C_ring_theory : ring_theory C0 C1 Cadd Cmul Csub Copp (@eq C).
Proof. constructor; intros; apply C_eq; csimp; ring. Qed.
Add Ring Cring : C_ring_theory.

Lemma Cconj_add a b : Cconj (a + b)%C = (Cconj a + Cconj b)%C. Proof. cring. Qed.
Lemma Cconj_mul a b : Cconj (a * b)%C = (Cconj a * Cconj b)%C. Proof. cring. Qed.
Lemma Cconj_conj a : Cconj (Cconj a) = a. Proof. cring. Qed.
Lemma Cconj_opp a : Cconj (- a)%C = (- Cconj a)%C. Proof. cring. Qed.
Lemma Cconj_sub a b : Cconj (a - b)%C = (Cconj a - Cconj b)%C. Proof. cring. Qed.
Lemma Cconj_0 : Cconj C0 = C0. Proof. cring. Qed.
Lemma Cconj_1 : Cconj C1 = C1. Proof. cring. Qed.
Lemma Cconj_R x : Cconj (RtoC x) = RtoC x. Proof. cring. Qed.
Lemma Cscal_mul x a : Cscal x a = (RtoC x * a)%C. Proof. cring. Qed.
Lemma RtoC_add x y : RtoC (x + y) = (RtoC x + RtoC y)%C. Proof. cring. Qed.
Lemma RtoC_mul x y : RtoC (x * y) = (RtoC x * RtoC y)%C. Proof. cring. Qed.
Lemma RtoC_opp x : RtoC (- x) = (- RtoC x)%C. Proof. cring. Qed.
Lemma normsqr_nonneg a : 0 <= normsqr a.
Proof. csimp. nra. Qed.
Lemma normsqr_conj a : (Cconj a * a)%C = RtoC (normsqr a). Proof. cring. Qed.
Lemma normsqr_0 a : normsqr a = 0 -> a = C0.
Proof. intros H. apply C_eq; csimp; nra. Qed.
Lemma normsqr_pos a : a <> C0 -> 0 < normsqr a.
Proof. intros H. destruct (normsqr_nonneg a) as [|E]; [assumption|]. symmetry in E. apply normsqr_0 in E. contradiction. Qed.
Lemma normsqr_mul a b : normsqr (a * b)%C = normsqr a * normsqr b.
Proof. csimp. ring. Qed.

(** Decidable equality of complex numbers. *)
Definition Ceqb (a b : C) : bool := Reqb (re a) (re b) && Reqb (im a) (im b).
Lemma Ceqb_spec a b : reflect (a = b) (Ceqb a b).
Proof.
  unfold Ceqb. destruct (Reqb_spec (re a) (re b)), (Reqb_spec (im a) (im b)); constructor;
    try (apply C_eq; assumption); intros ->; contradiction.
Qed.

(** Finite sums [f 0 + ... + f (n-1)]. *)
Fixpoint rsum (n : nat) (f : nat -> R) : R :=
  match n with O => 0 | S n' => rsum n' f + f n' end.
Fixpoint csum (n : nat) (f : nat -> C) : C :=
  match n with O => C0 | S n' => (csum n' f + f n')%C end.

Lemma rsum_ext n f g : (forall i, (i < n)%nat -> f i = g i) -> rsum n f = rsum n g.
Proof. induction n; intros H; cbn; [reflexivity|]. rewrite IHn, H; auto. Qed.
Lemma csum_ext n f g : (forall i, (i < n)%nat -> f i = g i) -> csum n f = csum n g.
Proof. induction n; intros H; cbn; [reflexivity|]. rewrite IHn, H; auto. Qed.
Lemma rsum_0 n : rsum n (fun _ => 0) = 0.
Proof. induction n; cbn; [reflexivity|]. rewrite IHn. ring. Qed.
Lemma csum_0 n : csum n (fun _ => C0) = C0.
Proof. induction n; cbn; [reflexivity|]. rewrite IHn. cring. Qed.
Lemma rsum_add n f g : rsum n (fun i => f i + g i) = rsum n f + rsum n g.
Proof. induction n; cbn; [ring|]. rewrite IHn. ring. Qed.
Lemma csum_add n f g : csum n (fun i => (f i + g i)%C) = (csum n f + csum n g)%C.
Proof. induction n; cbn; [cring|]. rewrite IHn. ring. Qed.
Lemma rsum_scal n c f : rsum n (fun i => c * f i) = c * rsum n f.
Proof. induction n; cbn; [ring|]. rewrite IHn. ring. Qed.
Lemma csum_scal n c f : csum n (fun i => (c * f i)%C) = (c * csum n f)%C.
Proof. induction n; cbn; [cring|]. rewrite IHn. ring. Qed.
Lemma csum_scal_r n c f : csum n (fun i => (f i * c)%C) = (csum n f * c)%C.
Proof. induction n; cbn; [cring|]. rewrite IHn. ring. Qed.
Lemma csum_conj n f : Cconj (csum n f) = csum n (fun i => Cconj (f i)).
Proof. induction n; cbn; [cring|]. rewrite Cconj_add, IHn. reflexivity. Qed.
Lemma csum_opp n f : csum n (fun i => (- f i)%C) = (- csum n f)%C.
Proof. induction n; cbn; [cring|]. rewrite IHn. ring. Qed.
Lemma csum_swap n m f :
  csum n (fun i => csum m (fun j => f i j)) = csum m (fun j => csum n (fun i => f i j)).
Proof.
  induction n; cbn. - symmetry. apply csum_0.
  - rewrite IHn, <- csum_add. reflexivity.
Qed.
Lemma rsum_swap n m f :
  rsum n (fun i => rsum m (fun j => f i j)) = rsum m (fun j => rsum n (fun i => f i j)).
Proof.
  induction n; cbn. - symmetry. apply rsum_0.
  - rewrite IHn, <- rsum_add. reflexivity.
Qed.
Lemma rsum_nonneg n f : (forall i, (i < n)%nat -> 0 <= f i) -> 0 <= rsum n f.
Proof. induction n; intros H; cbn; [lra|]. assert (0 <= f n) by auto. assert (0 <= rsum n f) by auto. lra. Qed.
Lemma rsum_pos n f : (0 < n)%nat -> (forall i, (i < n)%nat -> 0 < f i) -> 0 < rsum n f.
Proof.
  intros Hn H. destruct n; [lia|]. cbn.
  assert (0 < f n) by auto. assert (0 <= rsum n f) by (apply rsum_nonneg; intros i Hi; left; auto). lra.
Qed.
Lemma rsum_le n f g : (forall i, (i < n)%nat -> f i <= g i) -> rsum n f <= rsum n g.
Proof. induction n; intros H; cbn; [lra|]. assert (f n <= g n) by auto. assert (rsum n f <= rsum n g) by auto. lra. Qed.
Lemma rsum_const n c : rsum n (fun _ => c) = INR n * c.
Proof. induction n; [cbn; ring|]. rewrite S_INR. cbn [rsum]. rewrite IHn. ring. Qed.
Lemma csum_re n f : re (csum n f) = rsum n (fun i => re (f i)).
Proof. induction n; cbn; [reflexivity|]. rewrite <- IHn. reflexivity. Qed.
Lemma csum_im n f : im (csum n f) = rsum n (fun i => im (f i)).
Proof. induction n; cbn; [reflexivity|]. rewrite <- IHn. reflexivity. Qed.
Lemma csum_RtoC n f : csum n (fun i => RtoC (f i)) = RtoC (rsum n f).
Proof. induction n; cbn; [reflexivity|]. rewrite IHn, RtoC_add. reflexivity. Qed.
(** A sum with a single nonzero term. *)
Lemma csum_single n k f :
  (k < n)%nat -> (forall i, (i < n)%nat -> i <> k -> f i = C0) -> csum n f = f k.
Proof.
  induction n; intros Hk H; [lia|]. cbn.
  destruct (Nat.eq_dec k n) as [->|Hne].
  - rewrite (csum_ext n f (fun _ => C0)), csum_0; [cring|]. intros i Hi. apply H; lia.
  - rewrite IHn, (H n); [cring|lia|lia|lia|]. intros i Hi Hne2. apply H; lia.
Qed.
Lemma rsum_single n k f :
  (k < n)%nat -> (forall i, (i < n)%nat -> i <> k -> f i = 0) -> rsum n f = f k.
Proof.
  induction n; intros Hk H; [lia|]. cbn.
  destruct (Nat.eq_dec k n) as [->|Hne].
  - rewrite (rsum_ext n f (fun _ => 0)), rsum_0; [ring|]. intros i Hi. apply H; lia.
  - rewrite IHn, (H n); [ring|lia|lia|lia|]. intros i Hi Hne2. apply H; lia.
Qed.
