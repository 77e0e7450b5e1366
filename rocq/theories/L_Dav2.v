(** Blocks of fields side by side, the target window, and one Rayleigh-Ritz step. *)
From Coq Require Import List ZArith Reals Bool Arith Lia Lra FunctionalExtensionality.
From Verif Require Import Base RC Loops L_Op M_Evect M_Lin M_Eig M_Dav S_Evect S_Eig S_Dav L_Evect L_Evect3 L_Mat L_Eig L_Eig2 L_Eig3 L_Eig4 L_Eig5 L_Eig7 L_Dav.
Import ListNotations.
Local Open Scope R_scope.
Add Ring Cring_d2 : C_ring_theory.

(** ** The window *)
Lemma window_ok p q t e : (1 <= p)%nat -> (p <= q)%nat -> length e = q -> (forall i j, (i <= j < q)%nat -> nth i e 0 <= nth j e 0) -> (forall i, (i + p < q)%nat -> nth i e 0 < nth (i + p) e 0) ->
  forall k it, (q - it <= k)%nat -> (it + p <= q)%nat ->
  (forall j i, (j < it)%nat -> (it <= i < it + p)%nat -> Rabs (t - nth i e 0) <= Rabs (t - nth j e 0)) ->
  exists it', window k (Z.of_nat p) (Z.of_nat q) t e (Z.of_nat it) = Val (Z.of_nat it') /\ (it' + p <= q)%nat /\
    forall j i, (j < q)%nat -> ~ (it' <= j < it' + p)%nat -> (it' <= i < it' + p)%nat -> Rabs (t - nth i e 0) <= Rabs (t - nth j e 0).
Proof.
  intros Hp Hpq Le Asc Str. induction k as [|k IH]; intros it Hk Hit Inv; [lia|]. cbn [window].
  destruct (Z.ltb_spec (Z.of_nat it + Z.of_nat p) (Z.of_nat q)) as [Hlt|Hge].
  - rewrite (rd_nth e (Z.of_nat it) 0) by lia. cbn [bind]. rewrite (rd_nth e (Z.of_nat it + Z.of_nat p) 0) by lia. cbn [bind]. rewrite <- Nat2Z.inj_add, !Nat2Z.id.
    pose proof (Str it ltac:(lia)) as S1. destruct (Rltb_spec (Rabs (t - nth (it + p) e 0)) (Rabs (t - nth it e 0))) as [L|L].
    + replace (Z.of_nat it + 1)%Z with (Z.of_nat (S it)) by lia. apply IH; [lia|lia|]. intros j i Hj Hi.
      pose proof (Asc it i ltac:(lia)). pose proof (Asc i (it + p)%nat ltac:(lia)). pose proof (Asc j it ltac:(lia)).
      revert L. unfold Rabs. repeat destruct (Rcase_abs _); lra.
    + exists it. split; [reflexivity|]. split; [lia|]. intros j i Hj Nj Hi. destruct (Nat.lt_ge_cases j it) as [Hjt|Hjt]; [apply Inv; lia|].
      pose proof (Asc it i ltac:(lia)). pose proof (Asc i (it + p)%nat ltac:(lia)). pose proof (Asc (it + p)%nat j ltac:(lia)).
      revert L. unfold Rabs. repeat destruct (Rcase_abs _); lra.
  - exists it. split; [reflexivity|]. split; [lia|]. intros j i Hj Nj Hi. apply Inv; lia.
Qed.
Lemma window_any p q t e : (1 <= p)%nat -> (p <= q)%nat -> length e = q -> forall k it, (it + p <= q)%nat ->
  exists it', window k (Z.of_nat p) (Z.of_nat q) t e (Z.of_nat it) = Val (Z.of_nat it') /\ (it' + p <= q)%nat.
Proof.
  intros Hp Hpq Le. induction k as [|k IH]; intros it Hit; cbn [window]; [eauto|].
  destruct (Z.ltb_spec (Z.of_nat it + Z.of_nat p) (Z.of_nat q)) as [Hlt|Hge]; [|eauto].
  rewrite (rd_nth e (Z.of_nat it) 0) by lia. cbn [bind]. rewrite (rd_nth e (Z.of_nat it + Z.of_nat p) 0) by lia. cbn [bind].
  destruct (Rltb _ _); [|eauto]. replace (Z.of_nat it + 1)%Z with (Z.of_nat (S it)) by lia. apply IH. lia.
Qed.
Lemma itarget_any p q t e : (1 <= p)%nat -> (p <= q)%nat -> length e = q ->
  exists it, itarget (Z.of_nat p) (Z.of_nat q) t e = Val (Z.of_nat it) /\ (it + p <= q)%nat /\ (t = 0 -> it = 0%nat).
Proof.
  intros Hp Hq Le. unfold itarget. destruct (Reqb_spec t 0) as [E|E]; [exists 0%nat; repeat split; auto; lia|].
  destruct (window_any p q t e Hp Hq Le (Z.to_nat (Z.of_nat q)) 0%nat ltac:(lia)) as (it & E1 & H). exists it. split; [exact E1|]. split; [exact H|]. intros; contradiction.
Qed.

Lemma take_ok p it e2 e : (it + p <= length e2)%nat -> (p <= length e)%nat ->
  exists e', take_values (Z.of_nat p) (Z.of_nat it) e2 e = Val (e', rsum p (fun i => nth (it + i) e2 0)) /\ length e' = length e /\ forall i, (i < p)%nat -> nth i e' 0 = nth (it + i) e2 0.
Proof.
  intros H2 He. unfold take_values.
  destruct (forZ_inv (fun i s => exists k e', i = Z.of_nat k /\ s = (e', rsum k (fun i => nth (it + i) e2 0)) /\ length e' = length e /\ forall i, (i < k)%nat -> nth i e' 0 = nth (it + i) e2 0)
    (fun i s => let '(e, E) := s in let! v := rd e2 (Z.of_nat it + i)%Z in let! e := wr e i v in Val (e, (E + v)%R)) 0 (Z.of_nat p) (e, 0)) as (s & E & (k & e' & Ek & -> & L & Q)).
  - lia.
  - exists 0%nat, e. repeat split; auto. intros; lia.
  - intros i s Hi (k & e' & -> & -> & L & Q). rewrite (rd_nth e2 _ 0) by lia. cbn [bind]. rewrite wr_in by lia. cbn [bind]. eexists. split; [reflexivity|].
    exists (S k), (upd_nat e' (Z.to_nat (Z.of_nat k)) (nth (Z.to_nat (Z.of_nat it + Z.of_nat k)) e2 0)). split; [lia|]. rewrite Nat2Z.id. replace (Z.to_nat (Z.of_nat it + Z.of_nat k)) with (it + k)%nat by lia.
    split; [reflexivity|]. split; [rewrite upd_length; exact L|]. intros i Hi'.
    assert (N : nth_error (upd_nat e' k (nth (it + k) e2 0)) i = if Nat.eqb k i then Some (nth (it + k) e2 0) else nth_error e' i).
    { rewrite nth_error_upd. destruct (Nat.eqb_spec k i); [|reflexivity]. destruct (Nat.ltb_spec k (length e')); [reflexivity|lia]. }
    destruct (Nat.eqb_spec k i) as [->|Ne]; [apply nth_error_nth; exact N|]. rewrite <- (Q i) by lia. destruct (nth_error e' i) as [x|] eqn:Ex.
    + rewrite (nth_error_nth _ _ 0 N). symmetry. apply nth_error_nth. exact Ex.
    + apply nth_error_None in Ex. lia.
  - assert (k = p) by lia. subst k. exists e'. split; [exact E|]. split; [exact L|exact Q].
Qed.

(** ** Blocks *)
Section Blocks.
Variables (n p : nat).
Hypothesis Hp : (1 <= p)%nat.
Lemma blocks_at b M i k j : (k < b)%nat -> (j < p)%nat -> blocks p b M i (p * k + j)%nat = M k i j.
Proof.
  intros Hk Hj. unfold blocks. destruct (Nat.ltb_spec (p * k + j) (p * b)); [|nia]. rewrite (Nat.mul_comm p k), Nat.div_add_l by lia. rewrite (Nat.div_small j p) by lia.
  replace ((k * p + j) mod p)%nat with j by (rewrite (Nat.add_comm (k * p) j), Nat.mod_add, Nat.mod_small; lia). rewrite Nat.add_0_r. reflexivity.
Qed.
Lemma blocks_dim b M : (forall k, (k < b)%nat -> mdim n p (M k)) -> mdim n (p * b) (blocks p b M).
Proof.
  intros D i j H. unfold blocks. destruct (Nat.ltb_spec j (p * b)) as [Hj|Hj]; [|reflexivity]. apply D; [apply Nat.div_lt_upper_bound; lia|]. left. lia.
Qed.
Lemma divmod_at j b : (j < p * b)%nat -> exists k l, (k < b)%nat /\ (l < p)%nat /\ j = (p * k + l)%nat.
Proof. intros H. exists (j / p)%nat, (j mod p)%nat. split; [apply Nat.div_lt_upper_bound; lia|]. split; [apply Nat.mod_upper_bound; lia|]. apply Nat.div_mod. lia. Qed.
Lemma blocks_form b A M i j k l : (i < b)%nat -> (j < b)%nat -> (k < p)%nat -> (l < p)%nat ->
  form n A (blocks p b M) (blocks p b M) (p * i + k)%nat (p * j + l)%nat = form n A (M i) (M j) k l.
Proof.
  intros Hi Hj Hk Hl. unfold form, mmul, madj. apply csum_ext. intros x Hx. rewrite blocks_at by auto. f_equal. apply csum_ext. intros y Hy. rewrite blocks_at by auto. reflexivity.
Qed.
Lemma blocks_gram b M i j k l : (i < b)%nat -> (j < b)%nat -> (k < p)%nat -> (l < p)%nat ->
  mmul n (madj (blocks p b M)) (blocks p b M) (p * i + k)%nat (p * j + l)%nat = mmul n (madj (M i)) (M j) k l.
Proof. intros Hi Hj Hk Hl. unfold mmul, madj. apply csum_ext. intros x Hx. rewrite !blocks_at by auto. reflexivity. Qed.
Lemma blocks_fewer b b' M A i j : (b' <= b)%nat -> (i < p * b')%nat -> (j < p * b')%nat ->
  form n A (blocks p b' M) (blocks p b' M) i j = form n A (blocks p b M) (blocks p b M) i j.
Proof.
  intros Hb Hi Hj. destruct (divmod_at i b' Hi) as (k & l & Hk & Hl & ->). destruct (divmod_at j b' Hj) as (k' & l' & Hk' & Hl' & ->). rewrite !blocks_form by lia. reflexivity.
Qed.
Lemma blocks_ext b M M' : (forall k, (k < b)%nat -> M k = M' k) -> blocks p b M = blocks p b M'.
Proof.
  intros H. apply mext; intros i j. unfold blocks. destruct (Nat.ltb_spec j (p * b)); [|reflexivity]. rewrite H; [reflexivity|]. apply Nat.div_lt_upper_bound; lia.
Qed.

Definition orthoblocks (b : nat) (M : nat -> mat) : Prop :=
  (forall k, (k < b)%nat -> mdim n p (M k)) /\ forall i j, (i < b)%nat -> (j < b)%nat -> mmul n (madj (M i)) (M j) = if (i =? j)%nat then mid p else mzero.
Lemma orthoblocks_ok b M : orthoblocks b M -> mmul n (madj (blocks p b M)) (blocks p b M) = mid (p * b).
Proof.
  intros (D & O). pose proof (blocks_dim b M D) as DB. apply mext; intros i j.
  destruct (Nat.lt_ge_cases i (p * b)) as [Hi|Hi]; [destruct (Nat.lt_ge_cases j (p * b)) as [Hj|Hj]|].
  - destruct (divmod_at i b Hi) as (k & l & Hk & Hl & ->). destruct (divmod_at j b Hj) as (k' & l' & Hk' & Hl' & ->). rewrite blocks_gram, O by auto.
    unfold mid. destruct (Nat.ltb_spec (p * k + l) (p * b)); [|lia]. cbn [andb]. destruct (Nat.eqb_spec k k') as [->|N].
    + destruct (Nat.ltb_spec l p); [|lia]. cbn [andb]. destruct (Nat.eqb_spec l l'), (Nat.eqb_spec (p * k' + l) (p * k' + l')); try reflexivity; lia.
    + destruct (Nat.eqb_spec (p * k + l) (p * k' + l')) as [E|]; [exfalso; apply N; nia|reflexivity].
  - rewrite mdim_id by auto. apply (mdim_mul (p * b) n (p * b) _ _ (mdim_adj _ _ _ DB) DB). auto.
  - rewrite mdim_id by auto. apply (mdim_mul (p * b) n (p * b) _ _ (mdim_adj _ _ _ DB) DB). auto.
Qed.

(** The rows it, ..., it+p-1 of S, adjoint. *)
Definition sel (it q : nat) (S : mat) : mat := fun k j => if (k <? q)%nat && (j <? p)%nat then Cconj (S (it + j)%nat k) else C0.
Lemma sel_dim it q S : mdim q p (sel it q S).
Proof. intros i j [H|H]; unfold sel; destruct (Nat.ltb_spec i q), (Nat.ltb_spec j p); cbn [andb]; try reflexivity; lia. Qed.

End Blocks.

Section Holds.
Variables (n p : nat).
Definition holds (V : list (emat C)) (k : nat) (M : mat) : Prop := exists v, nth_error V k = Some v /\ fields n p v M.
Lemma holds_rd V k M : holds V k M -> exists v, rd V (Z.of_nat k) = Val v /\ fields n p v M.
Proof.
  intros (v & E & H). exists v. split; [|exact H]. unfold rd. destruct (Z.ltb_spec (Z.of_nat k) 0); [lia|]. rewrite Nat2Z.id, E. reflexivity.
Qed.
Lemma holds_dim V k M : holds V k M -> mdim n p M.
Proof. intros (v & _ & H). apply (fields_dim _ _ _ _ H). Qed.
Lemma holds_wr V k v M : (k < length V)%nat -> fields n p v M -> exists V', wr V (Z.of_nat k) v = Val V' /\ length V' = length V /\ holds V' k M /\ forall j N, j <> k -> holds V j N -> holds V' j N.
Proof.
  intros Hk Hv. rewrite wr_in by lia. eexists. split; [reflexivity|]. rewrite Nat2Z.id. split; [apply upd_length|]. split.
  - exists v. rewrite nth_error_upd, Nat.eqb_refl. destruct (Nat.ltb_spec k (length V)); [|lia]. auto.
  - intros j N Nj (w & E & H). exists w. rewrite nth_error_upd. destruct (Nat.eqb_spec k j); [congruence|]. auto.
Qed.

End Holds.
