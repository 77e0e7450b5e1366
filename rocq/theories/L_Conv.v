(** Proofs about the control of the eigensolvers. *)
From Coq Require Import List ZArith Reals Lra Lia Bool.
From Verif Require Import Base RC M_Conv.
Local Open Scope R_scope.

Lemma iterate_sound test E left : forall i prev n, iterate test E left i prev = Val n -> (i <= n < i + left)%nat /\ (0 < n)%nat /\
  test (E n) (match n with O => 0 | S m => if Nat.eqb n i then prev else E m end) = true /\
  forall m, (i <= m < n)%nat -> (0 < m)%nat -> test (E m) (match m with O => 0 | S k => if Nat.eqb m i then prev else E k end) = false.
Proof.
  induction left as [|l IH]; intros i prev n; cbn [iterate]; [discriminate|].
  destruct (Nat.eqb_spec i 0) as [->|Hi]; cbn [negb andb].
  - intros H. destruct (IH _ _ _ H) as (A & B & C & D). split; [lia|]. split; [lia|]. destruct n as [|n]; [lia|]. split.
    + cbn [Nat.eqb] in C. destruct n; cbn in C |- *; exact C.
    + intros m Hm Hm0. destruct m as [|m]; [lia|]. specialize (D (S m) ltac:(lia) ltac:(lia)). destruct m; exact D.
  - destruct (test (E i) prev) eqn:T.
    + intros [= <-]. split; [lia|]. split; [lia|]. destruct i; [lia|]. rewrite Nat.eqb_refl. split; [exact T|]. intros; lia.
    + intros H. destruct (IH _ _ _ H) as (A & B & C & D). split; [lia|]. split; [lia|]. destruct n as [|n]; [lia|].
      replace (Nat.eqb (S n) i) with false by (symmetry; apply Nat.eqb_neq; lia). split.
      * destruct (Nat.eqb_spec (S n) (S i)); [|exact C]. injection e as ->. exact C.
      * intros m Hm Hm0. destruct m as [|m]; [lia|]. destruct (Nat.eqb_spec (S m) i) as [<-|Hne]; [exact T|].
        specialize (D (S m) ltac:(lia) ltac:(lia)). destruct (Nat.eqb_spec (S m) (S i)) as [e|e]; [injection e as ->; exact D|exact D].
Qed.

Lemma solver_sound test E mx n : solver_iterations test E mx = Val n -> (0 < n < mx)%nat /\ test (E n) (E (n - 1)%nat) = true /\
  forall m, (0 < m < n)%nat -> test (E m) (E (m - 1)%nat) = false.
Proof.
  intros H. destruct (iterate_sound _ _ _ _ _ _ H) as (A & B & C & D). split; [lia|]. destruct n as [|n]; [lia|].
  cbn [Nat.eqb] in C. replace (S n - 1)%nat with n by lia. split; [exact C|]. intros m Hm. destruct m as [|m]; [lia|].
  specialize (D (S m) ltac:(lia) ltac:(lia)). cbn [Nat.eqb] in D. replace (S m - 1)%nat with m by lia. exact D.
Qed.

Lemma iterate_complete test E : forall left i prev n, (i <= n < i + left)%nat -> (0 < n)%nat ->
  test (E n) (match n with O => 0 | S m => if Nat.eqb n i then prev else E m end) = true -> exists k, iterate test E left i prev = Val k.
Proof.
  induction left as [|l IH]; intros i prev n Hn H0 T; [lia|]. cbn [iterate]. destruct (Nat.eqb_spec i 0) as [->|Hi]; cbn [negb andb].
  - apply (IH _ _ n); [lia|lia|]. destruct n as [|n]; [lia|]. cbn [Nat.eqb] in *. destruct n; exact T.
  - destruct (test (E i) prev) eqn:Q; [eauto|]. assert (n <> i) by (intros ->; destruct i; [lia|]; rewrite Nat.eqb_refl in T; congruence).
    apply (IH _ _ n); [lia|lia|]. destruct n as [|n]; [lia|]. destruct (Nat.eqb_spec (S n) i); [lia|]. destruct (Nat.eqb_spec (S n) (S i)) as [e|e]; [|exact T].
    injection e as ->. exact T.
Qed.
Lemma solver_complete test E mx n : (0 < n < mx)%nat -> test (E n) (E (n - 1)%nat) = true -> exists k, solver_iterations test E mx = Val k.
Proof.
  intros H T. apply (iterate_complete _ _ _ _ _ n); [lia|lia|]. destruct n as [|n]; [lia|]. cbn [Nat.eqb]. replace (S n - 1)%nat with n in T by lia. exact T.
Qed.

(** A convergent sequence settles, and stays near its limit. *)
Lemma settles E l e : Un_cv E l -> 0 < e -> exists N, forall n, (N < n)%nat -> Rabs (E n - E (n - 1)%nat) < e /\ Rabs (E n - l) < e /\ Rabs (E (n - 1)%nat - l) < e.
Proof.
  intros H He. destruct (H (e / 2)) as (N & HN); [lra|]. exists N. intros n Hn.
  pose proof (HN n ltac:(lia)) as A. pose proof (HN (n - 1)%nat ltac:(lia)) as B. unfold R_dist in *.
  split; [|split; lra]. replace (E n - E (n - 1)%nat) with ((E n - l) - (E (n - 1)%nat - l)) by ring.
  pose proof (Rabs_triang (E n - l) (- (E (n - 1)%nat - l))) as T. rewrite Rabs_Ropp in T. unfold Rminus at 1. lra.
Qed.

Lemma davidson_converges E l tol : Un_cv E l -> 0 < tol -> exists N, forall mx, (N < mx)%nat -> exists n, solver_iterations (conv_davidson tol) E mx = Val n.
Proof.
  intros H Ht. destruct (settles E l (tol * / 2 * / 10000000) H ltac:(nra)) as (N & HN). exists (S N). intros mx Hm.
  apply (solver_complete _ _ _ (S N)); [lia|]. destruct (HN (S N) ltac:(lia)) as [A _]. unfold conv_davidson.
  destruct (Rltb_spec (Rabs (E (S N) - E (S N - 1)%nat)) (tol * / 2 * (Rabs (E (S N)) + Rabs (E (S N - 1)%nat) + / 10000000))); [reflexivity|].
  exfalso. apply n. eapply Rlt_le_trans; [exact A|]. apply Rmult_le_compat_l; [lra|].
  pose proof (Rabs_pos (E (S N))). pose proof (Rabs_pos (E (S N - 1)%nat)). lra.
Qed.

Lemma lobpcg_converges E l tol : Un_cv E l -> 0 < tol -> - / 20000000 < l -> exists N, forall mx, (N < mx)%nat -> exists n, solver_iterations (conv_lobpcg tol) E mx = Val n.
Proof.
  intros H Ht Hl. set (c := (2 * l + / 10000000)). assert (Hc : 0 < c) by (unfold c; lra).
  set (e := Rmin (c / 4) (tol * / 2 * (c / 2))).
  assert (He : 0 < e) by (unfold e; apply Rmin_pos; nra).
  destruct (settles E l e H He) as (N & HN). exists (S N). intros mx Hm.
  apply (solver_complete _ _ _ (S N)); [lia|]. destruct (HN (S N) ltac:(lia)) as (A & B & C). unfold conv_lobpcg.
  match goal with |- Rltb ?a ?b = true => destruct (Rltb_spec a b) as [|Q]; [reflexivity|]; exfalso; apply Q end.
  eapply Rlt_le_trans; [exact A|]. eapply Rle_trans; [apply Rmin_r|]. apply Rmult_le_compat_l; [lra|].
  assert (M : e <= c / 4) by apply Rmin_l.
  apply Rabs_def2 in B. apply Rabs_def2 in C. unfold c in *. lra.
Qed.

Lemma lobpcg_never E tol : 0 < tol -> (forall n, (0 < n)%nat -> E n + E (n - 1)%nat <= - / 10000000) -> forall mx, solver_iterations (conv_lobpcg tol) E mx = Abort.
Proof.
  intros Ht H mx. assert (T : forall n, (0 < n)%nat -> conv_lobpcg tol (E n) (E (n - 1)%nat) = false).
  { intros n Hn. unfold conv_lobpcg. match goal with |- Rltb ?a ?b = _ => destruct (Rltb_spec a b) as [Q|]; [|reflexivity] end.
    pose proof (Rabs_pos (E n - E (n - 1)%nat)). specialize (H n Hn). exfalso.
    assert (0 < tol * / 2) by lra. assert (tol * / 2 * (E n + E (n - 1)%nat + / 10000000) <= tol * / 2 * 0) by (apply Rmult_le_compat_l; lra). lra. }
  assert (R : solver_iterations (conv_lobpcg tol) E mx = Abort \/ exists n, solver_iterations (conv_lobpcg tol) E mx = Val n).
  { unfold solver_iterations. generalize 0%nat as i, 0 as p. induction mx; intros i p; cbn [iterate]; [left; reflexivity|].
    destruct (negb (Nat.eqb i 0) && conv_lobpcg tol (E i) p); [right; eauto|apply IHmx]. }
  destruct R as [R|(n & R)]; [exact R|]. destruct (solver_sound _ _ _ _ R) as (A & B & _). rewrite T in B by lia. discriminate.
Qed.

Lemma quad_min E dE d2E x : 0 < d2E -> E + dE * (- dE / d2E) + / 2 * d2E * (- dE / d2E) * (- dE / d2E) <= E + dE * x + / 2 * d2E * x * x.
Proof.
  intros H. set (m := - dE / d2E). assert (M : dE = - m * d2E) by (unfold m; field; lra). rewrite M.
  assert (0 <= / 2 * d2E * ((x - m) * (x - m))) by (apply Rmult_le_pos; [lra|]; apply Rle_0_sqr). lra.
Qed.
