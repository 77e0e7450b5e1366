(** Comparison of the values of two quadratic forms. *)
From Coq Require Import List ZArith Reals Bool Arith Lia Lra Psatz.
From Verif Require Import Base RC Loops M_Evect M_Eig S_Evect S_Eig L_Mat L_Eig2 L_Eig4 L_Eig5 L_Eig7 L_Eig13.
Import ListNotations.
Local Open Scope R_scope.
Add Ring Cring_cmp1 : C_ring_theory.

(** As [poincare], with the form only bounded by the values e. *)
Lemma poincare_le m p Cm lam e : mdim m p Cm -> mmul m (madj Cm) Cm = mid p ->
  (forall V, mdim p 1 V -> rsum m (fun i => lam i * normsqr (mmul p Cm V i 0%nat)) <= rsum p (fun i => e i * normsqr (V i 0%nat))) ->
  (forall i j, (i <= j < m)%nat -> lam i <= lam j) -> (forall i j, (i <= j < p)%nat -> e i <= e j) -> forall k, (k < p)%nat -> (k < m)%nat /\ lam k <= e k.
Proof.
  intros DC Or Fd Al Ae k Hk. destruct (solve k Cm) as (c & (j & Hj & Nj) & Sol).
  set (V := fun (i : nat) (q : nat) => if ((i <=? k) && (q =? 0))%nat then c i else C0).
  assert (DV : mdim p 1 V) by (intros i q H; unfold V; destruct (Nat.leb_spec i k), (Nat.eqb_spec q 0); cbn [andb]; auto; lia).
  pose proof (Fd V DV) as N2. set (U := mmul p Cm V) in *.
  assert (U0 : forall i, U i 0%nat = csum (S k) (fun j => (Cm i j * c j)%C)).
  { intros i. unfold U, mmul. replace p with (S k + (p - S k))%nat by lia. rewrite L_Eig.csum_app. rewrite (csum_ext (p - S k) _ (fun _ => C0)), csum_0.
    - transitivity (csum (S k) (fun l => (Cm i l * V l 0%nat)%C)); [ring|]. apply csum_ext. intros q Hq. unfold V. destruct (Nat.leb_spec q k); [reflexivity|lia].
    - intros q Hq. unfold V. destruct (Nat.leb_spec (S k + q) k); [lia|]. cbn [andb]. ring. }
  assert (N1 : nrm m U = nrm p V).
  { rewrite <- !quad_id. unfold U. rewrite madj_mul, !mmul_assoc, <- (mmul_assoc m p (madj Cm)), Or, (mid_l p 1 V DV). reflexivity. }
  assert (Pv : 0 < nrm p V).
  { eapply Rlt_le_trans; [|apply (nrm_ge p V j); lia]. apply normsqr_pos. unfold V. destruct (Nat.leb_spec j k); [exact Nj|lia]. }
  assert (Zu : forall i, (i < k)%nat -> normsqr (U i 0%nat) = 0) by (intros i Hi; rewrite U0, Sol by exact Hi; unfold normsqr; csimp; ring).
  assert (Nn : forall z, 0 <= normsqr z) by (intros z; unfold normsqr; pose proof (Rle_0_sqr (re z)); pose proof (Rle_0_sqr (im z)); unfold Rsqr in *; lra).
  destruct (Nat.lt_ge_cases k m) as [Hm|Hm].
  - split; [exact Hm|]. assert (B1 : lam k * nrm m U <= rsum m (fun i => lam i * normsqr (U i 0%nat))).
    { unfold nrm. rewrite <- rsum_scal. apply rsum_le. intros i Hi. destruct (Nat.lt_ge_cases i k) as [L|L]; [rewrite Zu by exact L; lra|]. apply Rmult_le_compat_r; [apply Nn|apply Al; lia]. }
    assert (B2 : rsum p (fun i => e i * normsqr (V i 0%nat)) <= e k * nrm p V).
    { unfold nrm. rewrite <- rsum_scal. apply rsum_le. intros i Hi. destruct (Nat.lt_ge_cases k i) as [L|L]; [|apply Rmult_le_compat_r; [apply Nn|apply Ae; lia]].
      unfold V. destruct (Nat.leb_spec i k); [lia|]. cbn [andb]. unfold normsqr. csimp. lra. }
    rewrite N1 in B1. apply (Rmult_le_reg_r (nrm p V)); [exact Pv|]. lra.
  - exfalso. assert (Z : nrm m U = 0) by (unfold nrm; rewrite (rsum_ext m _ (fun _ => 0)) by (intros i Hi; apply Zu; lia); apply rsum_0). lra.
Qed.

(** V has the values lam for A', M has the values e for A, and A' is not above A on combinations of M. *)
Lemma compare n p m A' A B V lam M e : mdim n n B -> mdim n m V -> form n B V V = mid m -> form n A' V V = mdiag m lam -> (forall i j, (i <= j < m)%nat -> lam i <= lam j) ->
  mdim n p M -> M = mmul m V (form n B V M) -> form n B M M = mid p -> form n A M M = mdiag p e -> (forall i j, (i <= j < p)%nat -> e i <= e j) ->
  (forall U, mdim p 1 U -> re (form n A' (mmul p M U) (mmul p M U) 0%nat 0%nat) <= re (form n A (mmul p M U) (mmul p M U) 0%nat 0%nat)) ->
  forall k, (k < p)%nat -> (k < m)%nat /\ lam k <= e k.
Proof.
  intros DB DV FB FA Al DM EM MB MA Ae Le. set (Cm := form n B V M) in *.
  assert (DC : mdim m p Cm) by (apply (mdim_mul m n p); [apply mdim_adj; exact DV|apply (mdim_mul n n p); auto]).
  assert (Fs : forall H, form n H M M = mmul m (madj Cm) (mmul m (form n H V V) Cm)) by (intros H; rewrite EM at 1 2; apply form_span).
  assert (Fu : forall H U, form n H (mmul p M U) (mmul p M U) = mmul p (madj U) (mmul p (form n H M M) U)) by (intros H U; apply form_span).
  apply (poincare_le m p Cm lam e DC); auto.
  - rewrite Fs, FB in MB. rewrite (mid_l m p Cm DC) in MB. exact MB.
  - intros U DU. specialize (Le U DU). rewrite !Fu, MA, Fs, FA in Le. rewrite <- !diag_quad. unfold form. rewrite madj_mul, !mmul_assoc in *. exact Le.
Qed.
