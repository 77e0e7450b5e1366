(** Fields at which the trace is stationary are exact. *)
From Coq Require Import List ZArith Reals Bool Arith Lia Lra.
From Verif Require Import Base RC Loops M_Evect M_Eig S_Evect S_Eig L_Mat L_Eig2 L_Eig4 L_Eig5 L_Eig6 L_Eig7 L_Eig8 L_Eig9 L_Eig12 L_Eig13.
Import ListNotations.
Local Open Scope R_scope.
Add Ring Cring_e14 : C_ring_theory.

Lemma frob_zero n p G : mdim n p G -> re (mtr p (mmul n (madj G) G)) = 0 -> G = mzero.
Proof.
  intros D. unfold mtr. rewrite csum_re. intros E. assert (Nn : forall j, 0 <= re (mmul n (madj G) G j j)).
  { intros j. unfold mmul, madj. rewrite csum_re. apply RC.rsum_nonneg. intros i _. csimp. pose proof (Rle_0_sqr (fst (G i j))). pose proof (Rle_0_sqr (snd (G i j))). unfold Rsqr in *. lra. }
  apply mext; intros i j. destruct (Nat.lt_ge_cases i n) as [Hi|Hi]; [|apply D; auto]. destruct (Nat.lt_ge_cases j p) as [Hj|Hj]; [|apply D; auto].
  assert (Z : re (mmul n (madj G) G j j) <= 0) by (rewrite <- E; apply (rsum_le_one p (fun j => re (mmul n (madj G) G j j))); auto).
  assert (Z2 : normsqr (G i j) <= 0).
  { eapply Rle_trans; [|exact Z]. unfold mmul, madj. rewrite csum_re. apply (Rle_trans _ (re (Cconj (G i j) * G i j)%C)); [unfold normsqr; csimp; lra|].
    apply (rsum_le_one n (fun l => re (Cconj (G l j) * G l j)%C)); auto. intros l _. csimp. pose proof (Rle_0_sqr (fst (G l j))). pose proof (Rle_0_sqr (snd (G l j))). unfold Rsqr in *. lra. }
  unfold mzero. destruct (C_eq_dec (G i j) C0) as [H|H]; [exact H|]. pose proof (normsqr_pos _ H). lra.
Qed.
Lemma stationary_exact n p potr A B M e : potr_ok p potr -> mdim n n A -> mdim n n B -> hermitian A -> hermitian B -> mdim n p M -> stationary n p A B M -> form n B M M = mid p -> form n A M M = mdiag p e ->
  mmul n A M = mmul p (mmul n B M) (mdiag p e).
Proof.
  intros Pok DA DB HA HB DM St FB FA. assert (De : mdim p p (mdiag p e)) by (rewrite <- FA; apply form_dim; auto).
  assert (Inv : inverse_of p (form n B M M) (mid p)) by (split; [apply mdim_id|rewrite FB; apply (mid_l p p), mdim_id]).
  assert (Ind : independent n p B M) by (unfold independent; rewrite FB; apply posdef_id).
  set (G := gradm n p A B M (mid p)). assert (EG : G = madd (mmul n A M) (mscal (-1) (mmul p (mmul n B M) (mdiag p e)))).
  { unfold G, gradm. rewrite FA, (mid_r p p (mdiag p e) De), (mid_l p p (mdiag p e) De), (mid_r n p M DM). reflexivity. }
  assert (DG : mdim n p G) by (rewrite EG; apply mdim_add; [apply (mdim_mul n n p); auto|apply mdim_scal, (mdim_mul n p p); auto; apply (mdim_mul n n p); auto]).
  destruct (St G DG) as (f & Hf & Df). destruct (line_exists n p A B M G DA DB DM DG) as (d & Lx & Lz).
  assert (Hf' : forall t x, rayleigh n p A B (turned t M G) x -> f t = x + lagt d t) by (intros u x Ry; rewrite (proj1 (nolag_t d u Lz)), Rplus_0_r; apply Hf; exact Ry).
  assert (K := f_der n p potr d A B M G Pok HA HB DB DM DG Lx f (fun t e _ => Hf' t e) 0 (mid p) ltac:(rewrite turned_0; exact Ind) ltac:(rewrite turned_0; exact Inv)).
  rewrite tder_0, (proj2 (nolag_t d 0 Lz)), Rplus_0_r in K by auto. rewrite (dE_grad n p A B M G HA HB DB DM (mid p) Inv) in K. fold G in K.
  pose proof (uniqueness_limite _ _ _ _ K Df) as Q. assert (G0 : G = mzero) by (apply (frob_zero n p); [exact DG|lra]).
  rewrite EG in G0. apply mext; intros i j. apply (f_equal (fun F => F i j)) in G0. unfold madd, mscal, mzero in G0. revert G0. generalize (mmul n A M i j), (mmul p (mmul n B M) (mdiag p e) i j).
  intros a b Q0. apply C_eq; [apply (f_equal re) in Q0|apply (f_equal im) in Q0]; revert Q0; csimp; intros; lra.
Qed.
