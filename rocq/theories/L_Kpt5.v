(** The lowest modes have the exact values; the solvers keep the promises. *)
From Coq Require Import List ZArith Reals Bool Arith Lia Lra Psatz.
From Verif Require Import Base RC Loops M_Evect M_Lin M_Eig M_Dav M_Kpt S_Evect S_Eig S_Dav S_Kpt L_Mat L_Eig L_Eig2 L_Eig4 L_Eig5 L_Eig7 L_Eig13 L_Kpt1.
Import ListNotations.
Local Open Scope R_scope.
Add Ring Cring_k5 : C_ring_theory.

Lemma diag_dim p e : mdim p p (mdiag p e).
Proof. intros i j H. unfold mdiag. destruct (Nat.ltb_spec i p); cbn [andb]; [|reflexivity]. destruct (Nat.eqb_spec i j); [lia|reflexivity]. Qed.
Lemma lowest_ritz n p P A B M e : lowest n p P A B M e -> ritz_fields n p P A B M e.
Proof.
  intros (D & S & O & St & As & _). split; [exact D|]. split; [exact S|]. split; [exact O|]. split; [|exact As]. rewrite (St p M D S), O. apply (mid_l p p). apply diag_dim.
Qed.

Lemma lowest_modes n p m P A B V lam M e : mdim n n A -> mdim n n B -> hermitian A -> hermitian B -> modes n m P A B V lam -> satisfies n P V -> lowest n p P A B M e ->
  forall k, (k < p)%nat -> (k < m)%nat /\ e k = lam k.
Proof.
  intros DA DB HA HB Md SV L k Hk. pose proof (lowest_ritz _ _ _ _ _ _ _ L) as (DM & SM & OM & FM & As).
  destruct (above n p m P A B V lam M e HB Md DB DM SM OM FM As k Hk) as (Hkm & Le). split; [exact Hkm|]. apply Rle_antisym; [|exact Le]. clear Le.
  destruct Md as (DV & OV & FV & Al & _). destruct L as (_ & _ & _ & St & _ & Lo).
  destruct (solve k (form n B M V)) as (c & (j0 & Hj0 & Nj0) & Sol).
  set (cv := fun (i q : nat) => if ((i <=? k) && (q =? 0))%nat then c i else C0).
  assert (Dc : mdim m 1 cv) by (intros i q H; unfold cv; destruct (Nat.leb_spec i k), (Nat.eqb_spec q 0); cbn [andb]; auto; lia).
  set (X := mmul m V cv). assert (DX : mdim n 1 X) by (apply (mdim_mul n m 1); auto).
  assert (SX : satisfies n P X) by (unfold satisfies, X; rewrite <- mmul_assoc, SV; reflexivity).
  set (a := form n B M X). assert (Da : mdim p 1 a) by (apply (mdim_mul p n 1); [apply mdim_adj; exact DM|apply (mdim_mul n n 1); auto]).
  assert (a0 : forall i, (i < k)%nat -> a i 0%nat = C0).
  { intros i Hi. rewrite <- (Sol i Hi). unfold a, X, form.
    transitivity (mmul m (form n B M V) cv i 0%nat); [unfold form; rewrite !mmul_assoc; reflexivity|]. unfold mmul at 1.
    replace m with (S k + (m - S k))%nat by lia. rewrite csum_app. rewrite (csum_ext (m - S k) _ (fun _ => C0)), csum_0.
    - transitivity (csum (S k) (fun l => (form n B M V i l * cv l 0%nat)%C)); [ring|]. apply csum_ext. intros q Hq. unfold cv. destruct (Nat.leb_spec q k); [reflexivity|lia].
    - intros q Hq. unfold cv. destruct (Nat.leb_spec (S k + q) k); [lia|]. cbn [andb]. ring. }
  set (X' := msub X (mmul p M a)).
  assert (DMa : mdim n 1 (mmul p M a)) by (apply (mdim_mul n p 1); auto).
  assert (DX' : mdim n 1 X') by (unfold X', msub; apply mdim_add; [exact DX|apply mdim_scal; exact DMa]).
  assert (SX' : satisfies n P X') by (unfold satisfies, X', msub; rewrite mmul_add_r, mmul_scal_r, SX, <- mmul_assoc, SM; reflexivity).
  assert (Z : form n B M X' = (fun _ _ => C0)).
  { unfold X', msub, form. rewrite !mmul_add_r, !mmul_scal_r. change (mmul n (madj M) (mmul n B X)) with a.
    replace (mmul n (madj M) (mmul n B (mmul p M a))) with a; [apply mext; intros i j; unfold madd, mscal; apply C_eq; csimp; ring|].
    rewrite <- (mmul_assoc n p B), <- (mmul_assoc n p (madj M)). change (mmul n (madj M) (mmul n B M)) with (form n B M M). rewrite OM. symmetry. apply (mid_l p 1 a Da). }
  pose proof (Lo k X' Hk DX' SX' Z) as Ineq.
  (* the four terms *)
  assert (Ex : forall H T, hermitian H -> form n H X M = mmul p (madj a) T -> form n H M M = T -> mdim p p T -> hermitian T ->
     re (form n H X' X' 0%nat 0%nat) = re (form n H X X 0%nat 0%nat) - re (form p T a a 0%nat 0%nat)).
  { intros H T HH E1 E2 DT HT.
    assert (Q1 : form n H X (mmul p M a) = form p T a a) by (unfold form in *; rewrite <- (mmul_assoc n p H), <- (mmul_assoc n p (madj X)), E1, mmul_assoc; reflexivity).
    assert (Q2 : form n H (mmul p M a) X = form p T a a) by (rewrite <- (form_adj n H X _ HH), Q1; apply form_adj; exact HT).
    assert (Q3 : form n H (mmul p M a) (mmul p M a) = form p T a a) by (rewrite form_span, E2; reflexivity).
    assert (Q : form n H X' X' = madd (form n H X X) (mscal (-1) (form p T a a))).
    { transitivity (madd (madd (form n H X X) (mscal (-1) (form n H X (mmul p M a)))) (madd (mscal (-1) (form n H (mmul p M a) X)) (form n H (mmul p M a) (mmul p M a)))).
      - unfold form, X', msub. rewrite ?madj_add, ?madj_scal. repeat (rewrite ?mmul_add_r, ?mmul_scal_r, ?mmul_add_l, ?mmul_scal_l). apply mext; intros i j. unfold madd, mscal. apply C_eq; csimp; ring.
      - rewrite Q1, Q2, Q3. apply mext; intros i j. unfold madd, mscal. apply C_eq; csimp; ring. }
    rewrite Q. unfold madd, mscal. csimp. ring. }
  assert (FBX : form n B X M = madj a) by (unfold a; rewrite (form_adj n B M X HB); reflexivity).
  assert (Hd : forall e0, hermitian (mdiag p e0)) by (intros e0; unfold hermitian; apply mext; intros i j; unfold madj, mdiag; rewrite (Nat.eqb_sym j i); destruct (Nat.eqb_spec i j) as [->|]; [destruct (j <? p)%nat; cbn [andb]; apply C_eq; csimp; ring|rewrite !andb_false_r; apply C_eq; csimp; ring]).
  rewrite (Ex A (mdiag p e) HA) in Ineq; [|rewrite (St 1%nat X DX SX), FBX; reflexivity|exact FM|apply diag_dim|apply Hd].
  rewrite (Ex B (mid p) HB) in Ineq; [|rewrite FBX; symmetry; apply (mid_r 1 p); apply mdim_adj; exact Da|exact OM|apply mdim_id|apply mid_herm].
  unfold X in Ineq. rewrite !form_span, FV, OV in Ineq. fold (form m (mdiag m lam) cv cv) in Ineq. fold (form m (mid m) cv cv) in Ineq. rewrite (mid_diag m), (mid_diag p), !diag_quad in Ineq.
  assert (Nn : forall z, 0 <= normsqr z) by (intros z; unfold normsqr; pose proof (Rle_0_sqr (re z)); pose proof (Rle_0_sqr (im z)); unfold Rsqr in *; lra).
  set (N := rsum m (fun i => 1 * normsqr (cv i 0%nat))) in *.
  assert (B1 : rsum m (fun i => lam i * normsqr (cv i 0%nat)) <= lam k * N).
  { unfold N. rewrite <- rsum_scal. apply rsum_le. intros i Hi. destruct (Nat.le_gt_cases i k) as [Hik|Hik].
    - pose proof (Al i k ltac:(lia)). pose proof (Nn (cv i 0%nat)). nra.
    - unfold cv. destruct (Nat.leb_spec i k); [lia|]. cbn [andb]. unfold normsqr. csimp. lra. }
  assert (B2 : e k * rsum p (fun i => 1 * normsqr (a i 0%nat)) <= rsum p (fun i => e i * normsqr (a i 0%nat))).
  { rewrite <- rsum_scal. apply rsum_le. intros i Hi. destruct (Nat.lt_ge_cases i k) as [Hik|Hik].
    - rewrite a0 by exact Hik. unfold normsqr. csimp. lra.
    - pose proof (As k i ltac:(lia)). pose proof (Nn (a i 0%nat)). nra. }
  assert (Np : 0 < N).
  { eapply Rlt_le_trans; [apply (normsqr_pos (cv j0 0%nat))|]; [unfold cv; destruct (Nat.leb_spec j0 k); [exact Nj0|lia]|].
    unfold N. rewrite <- (Rmult_1_l (normsqr (cv j0 0%nat))). apply (rsum_le_one m (fun i => 1 * normsqr (cv i 0%nat))); [intros i Hi; pose proof (Nn (cv i 0%nat)); lra|lia]. }
  apply (Rmult_le_reg_r N); [exact Np|]. lra.
Qed.
