(** A positive-definite form is bounded below by a multiple of the squared norm. *)
From Coq Require Import List ZArith Reals Bool Arith Lia Lra.
From Verif Require Import Base RC M_Evect M_Eig S_Evect S_Eig L_Mat L_Eig2 L_Eig4 L_Eig5.
Import ListNotations.
Local Open Scope R_scope.
Add Ring Cring_sp1 : C_ring_theory.

Definition qv (n : nat) (H : mat) (v : nat -> C) : C := csum n (fun i => csum n (fun j => (Cconj (v i) * (H i j * v j))%C)).
Definition nv (n : nat) (v : nat -> C) : R := rsum n (fun i => normsqr (v i)).

Lemma normsqr_add a b : normsqr (a + b)%C <= 2 * normsqr a + 2 * normsqr b.
Proof. destruct a as (x, y), b as (s, t). csimp. pose proof (Rle_0_sqr (x - s)). pose proof (Rle_0_sqr (y - t)). unfold Rsqr in *. lra. Qed.
Lemma nv_nonneg n v : 0 <= nv n v.
Proof. apply rsum_nonneg. intros. apply normsqr_nonneg. Qed.
Lemma lin_bound n b : exists K, 0 <= K /\ forall v, normsqr (csum n (fun j => (b j * v j)%C)) <= K * nv n v.
Proof.
  induction n as [|n (K & HK & IH)]; [exists 0; split; [lra|]; intros v; unfold nv; cbn [csum rsum]; csimp; lra|].
  exists (2 * K + 2 * normsqr (b n)). pose proof (normsqr_nonneg (b n)) as Hb. split; [lra|]. intros v. unfold nv. cbn [csum rsum]. fold (nv n v).
  eapply Rle_trans; [apply normsqr_add|]. rewrite normsqr_mul. specialize (IH v). pose proof (nv_nonneg n v). pose proof (normsqr_nonneg (v n)). nra.
Qed.

Lemma qv_step n H v a : (forall i, H i n = Cconj (H n i)) -> H n n = RtoC a -> a <> 0 ->
  qv (S n) H v = (qv n (fun i j => (H i j - H i n * H n j * RtoC (/ a))%C) v +
                  RtoC (a * normsqr (v n + csum n (fun j => (H n j * v j)%C) * RtoC (/ a))%C))%C.
Proof.
  intros Hh Ha Na. unfold qv. cbn [csum]. set (B := csum n (fun j => (H n j * v j)%C)).
  assert (EB : Cconj B = csum n (fun i => (Cconj (v i) * H i n)%C)).
  { unfold B. rewrite csum_conj. apply csum_ext; intros i Hi. rewrite Hh. apply C_eq; csimp; ring. }
  rewrite csum_add.
  rewrite (csum_scal n (Cconj (v n)) (fun j => (H n j * v j)%C)). fold B.
  rewrite (csum_ext n (fun i => (Cconj (v i) * (H i n * v n))%C) (fun i => (Cconj (v i) * H i n * v n)%C)) by (intros; ring).
  rewrite (csum_scal_r n (v n) (fun i => (Cconj (v i) * H i n)%C)), <- EB.
  assert (ES : csum n (fun i => csum n (fun j => (Cconj (v i) * ((H i j - H i n * H n j * RtoC (/ a)) * v j))%C)) =
    (csum n (fun i => csum n (fun j => (Cconj (v i) * (H i j * v j))%C)) - Cconj B * B * RtoC (/ a))%C).
  { transitivity (csum n (fun i => (csum n (fun j => (Cconj (v i) * (H i j * v j))%C) + (Cconj (v i) * H i n) * (- (B * RtoC (/ a))))%C)).
    - apply csum_ext; intros i Hi. unfold B. rewrite <- csum_scal_r, <- csum_opp, <- csum_scal, <- csum_add. apply csum_ext; intros j Hj. ring.
    - rewrite csum_add, csum_scal_r, <- EB. ring. }
  rewrite ES, Ha. generalize (csum n (fun i => csum n (fun j => (Cconj (v i) * (H i j * v j))%C))) as T. intros T. clear ES EB.
  destruct T as (t1, t2), B as (b1, b2), (v n) as (x, y). apply C_eq; csimp; field; auto.
Qed.

Lemma pd_lower n : forall H, (forall i j, H i j = Cconj (H j i)) -> posdef n H -> exists c, 0 < c /\ forall v, c * nv n v <= re (qv n H v).
Proof.
  induction n as [|n IH]; intros H Hh Pd.
  - exists 1. split; [lra|]. intros v. unfold nv, qv. cbn. lra.
  - assert (Pv : forall v, (exists i, (i < S n)%nat /\ v i <> C0) -> 0 < re (qv (S n) H v)) by exact Pd. clear Pd. set (a := re (H n n)).
    assert (Ha : H n n = RtoC a).
    { pose proof (Hh n n) as E. unfold a. destruct (H n n) as (x, y). apply (f_equal im) in E. revert E. csimp. intros E. apply C_eq; csimp; lra. }
    assert (Pa : 0 < a).
    { pose proof (Pv (fun i => if (i =? n)%nat then C1 else C0)) as Pd.
      assert (E : qv (S n) H (fun i => if (i =? n)%nat then C1 else C0) = RtoC a).
      { unfold qv. rewrite (csum_single (S n) n); [|lia|].
        - rewrite (csum_single (S n) n); [|lia|]; [rewrite Nat.eqb_refl, Ha; apply C_eq; csimp; ring|]. intros j Hj Nj. destruct (Nat.eqb_spec j n); [lia|]. ring.
        - intros i Hi Ni. destruct (Nat.eqb_spec i n); [lia|]. transitivity (csum (S n) (fun _ => C0)); [apply csum_ext; intros; apply C_eq; csimp; ring|apply csum_0]. }
      rewrite E in Pd. apply Pd. exists n. split; [lia|]. rewrite Nat.eqb_refl. intros Q. apply (f_equal re) in Q. revert Q. csimp. lra. }
    assert (Na : a <> 0) by lra. set (G := fun i j => (H i j - H i n * H n j * RtoC (/ a))%C).
    pose proof (fun v => qv_step n H v a (fun i => Hh i n) Ha Na) as St. fold G in St.
    assert (HG : forall i j, G i j = Cconj (G j i)).
    { intros i j. unfold G. rewrite (Hh i j), (Hh i n), (Hh n j). apply C_eq; csimp; ring. }
    assert (PG : posdef n G).
    { intros v (i & Hi & Hv). fold (qv n G v). set (b := (csum n (fun j => (H n j * v j)%C) * RtoC (/ a))%C). set (w := fun i => if (i =? n)%nat then (- b)%C else v i).
      pose proof (Pv w) as Pd. rewrite St in Pd.
      assert (E1 : qv n G w = qv n G v).
      { unfold qv. apply csum_ext; intros x Hx. apply csum_ext; intros y Hy. unfold w. destruct (Nat.eqb_spec x n), (Nat.eqb_spec y n); try lia. reflexivity. }
      assert (E2 : csum n (fun j => (H n j * w j)%C) = csum n (fun j => (H n j * v j)%C)).
      { apply csum_ext; intros y Hy. unfold w. destruct (Nat.eqb_spec y n); try lia. reflexivity. }
      rewrite E1, E2 in Pd. fold b in Pd. replace (w n + b)%C with C0 in Pd by (unfold w; rewrite Nat.eqb_refl; ring).
      assert (P : 0 < re (qv n G v + RtoC (a * normsqr C0))%C).
      { apply Pd. exists i. split; [lia|]. unfold w. destruct (Nat.eqb_spec i n); [lia|exact Hv]. }
      revert P. generalize (qv n G v). intros T P. destruct T as (t1, t2). csimp. lra. }
    destruct (IH G HG PG) as (c & Hc & Lo). destruct (lin_bound n (fun j => (H n j * RtoC (/ a))%C)) as (K & HK & Kb).
    set (m := (1 + 2 * K) / c + 2 / a).
    assert (Hm : 0 < m) by (unfold m; apply Rplus_lt_le_0_compat; [apply Rdiv_lt_0_compat; lra|left; apply Rdiv_lt_0_compat; lra]).
    exists (/ m). split; [apply Rinv_0_lt_compat; exact Hm|]. intros v. rewrite St.
    set (b := (csum n (fun j => (H n j * v j)%C) * RtoC (/ a))%C).
    assert (Eb : normsqr b <= K * nv n v).
    { eapply Rle_trans; [|apply Kb]. right. f_equal. unfold b. rewrite <- csum_scal_r. apply csum_ext; intros; ring. }
    specialize (Lo v). set (N := nv n v) in *. set (q := re (qv n G v)) in *. set (z := normsqr (v n + b)%C).
    assert (Hz : normsqr (v n) <= 2 * z + 2 * normsqr b).
    { replace (v n) with ((v n + b) + - b)%C at 1 by ring. eapply Rle_trans; [apply normsqr_add|]. fold z. right. f_equal. f_equal. destruct b. csimp. ring. }
    replace (re (qv n G v + RtoC (a * z))%C) with (q + a * z) by (unfold q; destruct (qv n G v); csimp; ring).
    unfold nv. cbn [rsum]. fold (nv n v). fold N.
    assert (Zp : 0 <= z) by apply normsqr_nonneg. assert (Np : 0 <= N) by apply nv_nonneg.
    assert (Qp : 0 <= q) by nra.
    assert (T1 : (1 + 2 * K) * N <= (1 + 2 * K) / c * q).
    { unfold Rdiv. rewrite Rmult_assoc. apply Rmult_le_compat_l; [lra|]. apply Rmult_le_reg_l with c; [exact Hc|]. rewrite <- Rmult_assoc, Rinv_r by lra. lra. }
    assert (T2 : 2 * z = 2 / a * (a * z)) by (field; exact Na).
    assert (T3 : (1 + 2 * K) / c * q + 2 / a * (a * z) <= m * (q + a * z)).
    { unfold m. assert (0 <= (1 + 2 * K) / c) by (left; apply Rdiv_lt_0_compat; lra). assert (0 <= 2 / a) by (left; apply Rdiv_lt_0_compat; lra).
      assert (0 <= a * z) by (apply Rmult_le_pos; lra). set (u := (1 + 2 * K) / c) in *. set (w := 2 / a) in *. set (y := a * z) in *. nra. }
    apply Rmult_le_reg_l with m; [exact Hm|]. rewrite <- Rmult_assoc, Rinv_r, Rmult_1_l by lra. nra.
Qed.

(** For matrices with n rows and one column. *)
Lemma qv_form n H V : qv n H (fun i => V i 0%nat) = form n H V V 0%nat 0%nat.
Proof. unfold form, mmul, madj, qv. apply csum_ext; intros i Hi. rewrite <- csum_scal. reflexivity. Qed.
Lemma herm_at H : hermitian H -> forall i j, H i j = Cconj (H j i).
Proof. intros Hh i j. apply (f_equal (fun F : mat => F i j)) in Hh. symmetry. exact Hh. Qed.
Lemma pd_lower_form n H : hermitian H -> posdef n H -> exists c, 0 < c /\ forall V, c * nrm n V <= re (form n H V V 0%nat 0%nat).
Proof.
  intros Hh Pd. destruct (pd_lower n H (herm_at H Hh) Pd) as (c & Hc & Lo). exists c. split; [exact Hc|]. intros V. rewrite <- qv_form. apply Lo.
Qed.
