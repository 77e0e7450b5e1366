(** The trace along the line from the fields towards a direction. *)
From Coq Require Import List ZArith Reals Bool Arith Lia Lra.
From Verif Require Import Base RC Loops M_Evect M_Lin M_Eig S_Evect S_Eig L_Evect L_Evect3 L_Mat L_Eig L_Eig2 L_Eig3 L_Eig4 L_Eig5 L_Eig6 L_Eig7.
Import ListNotations.
Local Open Scope R_scope.
Add Ring Cring_e8 : C_ring_theory.

Lemma comb_turned n A Y D x : hermitian A ->
  combm (cos x) (sin x) (form n A Y Y) (form n A D D) (mscal (/ 2) (madd (form n A Y D) (form n A D Y))) = form n A (turned x Y D) (turned x Y D).
Proof.
  intros H. unfold turned, combm. rewrite !form_add_l, !form_add_r, !form_scal_l, !form_scal_r. apply mext; intros i j. unfold madd, mscal. apply C_eq; csimp; field.
Qed.
Lemma turned_dim n p Y D x : mdim n p Y -> mdim n p D -> mdim n p (turned x Y D).
Proof. intros. apply mdim_add; apply mdim_scal; auto. Qed.
Lemma turned_0 Y D : turned 0 Y D = Y.
Proof. unfold turned. rewrite cos_0, sin_0. apply mext; intros i j. unfold madd, mscal. cring. Qed.
Lemma lagrange_eq n p L Y D d x : hermitian L -> lagrange_of n p L Y D d -> lagt d x = lagrange n p L Y D d x.
Proof.
  intros H (E1 & E2 & E3). unfold lagt, lagrange, turned. rewrite E1, E2, E3, !form_add_l, !form_add_r, !form_scal_l, !form_scal_r, !mtr_add, !mtr_scal.
  assert (K : re (mtr p (form n L D Y)) = re (mtr p (form n L Y D))) by (rewrite <- (form_adj n L Y D H), re_tr_adj; reflexivity). csimp. rewrite K. ring.
Qed.
Lemma sym_herm n A Y D : hermitian A -> hermitian (mscal (/ 2) (madd (form n A Y D) (form n A D Y))).
Proof. intros H. rewrite <- (form_adj n A Y D H). apply msym_herm. Qed.

Section Line.
Variables (n p : nat) (potr : Z -> list C -> option (list C)) (d : tfd) (A B Y D : mat).
Hypothesis Hok : potr_ok p potr.
Hypotheses (HhA : hermitian A) (HhB : hermitian B) (DA : mdim n n A) (DB : mdim n n B) (DY : mdim n p Y) (DD : mdim n p D).
Hypothesis Ln : line_of n p A B Y D d.
Let FA := form n A Y Y. Let GA := form n A D D. Let SA := mscal (/ 2) (madd (form n A Y D) (form n A D Y)).
Let FB := form n B Y Y. Let GB := form n B D D. Let SB := mscal (/ 2) (madd (form n B Y D) (form n B D Y)).
Let Nf t := matof p (comb_inv potr d (cos t) (sin t)).
Lemma herms : hermitian FA /\ hermitian GA /\ hermitian SA /\ hermitian FB /\ hermitian GB /\ hermitian SB.
Proof. repeat split; try (apply form_herm; auto); apply sym_herm; auto. Qed.
Lemma tf_value x : independent n p B (turned x Y D) -> exists N, inverse_of p (form n B (turned x Y D) (turned x Y D)) N /\
  trace_func potr d x = Val (re (mtr p (mmul p (form n A (turned x Y D) (turned x Y D)) N)) + lagt d x, tder p FA GA SA FB GB SB x N + lagd d x).
Proof.
  intros Ind. destruct herms as (H1 & H2 & H3 & H4 & H5 & H6). destruct Ln as (Q1 & Q2 & Q3 & Q4 & Q5 & Q6).
  destruct (trace_func_val p potr d FA GA SA FB GB SB Hok Q1 Q2 Q3 Q4 Q5 Q6 H1 H2 H3 H4 H5 H6 x) as (N & Inv & E).
  { unfold FB, GB, SB. rewrite comb_turned by exact HhB. exact Ind. }
  unfold FB, GB, SB in Inv. rewrite comb_turned in Inv by exact HhB. exists N. split; [exact Inv|]. rewrite E. unfold tval. rewrite <- (comb_turned n A Y D x HhA). reflexivity.
Qed.
Lemma near_ind x : independent n p B (turned x Y D) -> exists e, 0 < e /\ forall t, Rabs (t - x) < e -> independent n p B (turned t Y D) /\ inverse_of p (form n B (turned t Y D) (turned t Y D)) (Nf t).
Proof.
  intros Ind. destruct herms as (H1 & H2 & H3 & H4 & H5 & H6). destruct Ln as (Q1 & Q2 & Q3 & Q4 & Q5 & Q6).
  destruct (near_inverse p potr d FB GB SB Hok Q4 Q5 Q6 H4 H5 H6 x) as (e & He & K).
  { unfold FB, GB, SB. rewrite comb_turned by exact HhB. exact Ind. }
  exists e. split; [exact He|]. intros t Ht. destruct (K t Ht) as (K1 & K2). unfold FB, GB, SB in K1, K2. rewrite comb_turned in K1, K2 by exact HhB. split; [exact K1|exact K2].
Qed.
Variable f : R -> R.
Hypothesis Hf : forall t e, independent n p B (turned t Y D) -> rayleigh n p A B (turned t Y D) e -> f t = e + lagt d t.
Lemma f_near x : independent n p B (turned x Y D) -> exists e, 0 < e /\ forall t, Rabs (t - x) < e -> independent n p B (turned t Y D) /\ f t = tval p FA GA SA t (Nf t) + lagt d t.
Proof.
  intros Ind. destruct (near_ind x Ind) as (e & He & K). exists e. split; [exact He|]. intros t Ht. destruct (K t Ht) as (I & Iv). split; [exact I|]. apply Hf; [exact I|]. exists (Nf t). split; [apply Iv|]. split; [apply Iv|]. unfold tval. rewrite <- (comb_turned n A Y D t HhA). reflexivity.
Qed.
Lemma f_der_N x : independent n p B (turned x Y D) -> derivable_pt_lim f x (tder p FA GA SA FB GB SB x (Nf x) + lagd d x).
Proof.
  intros Ind. destruct herms as (H1 & H2 & H3 & H4 & H5 & H6). destruct Ln as (Q1 & Q2 & Q3 & Q4 & Q5 & Q6).
  destruct (f_near x Ind) as (e & He & K). apply (der_local f (fun t => tval p FA GA SA t (Nf t) + lagt d t)).
  - exists e. split; [exact He|]. intros t Ht. apply K. exact Ht.
  - apply (derivable_pt_lim_plus (fun t => tval p FA GA SA t (Nf t)) (lagt d)); [|apply lag_der].
    apply (tval_der p potr d FA GA SA FB GB SB Hok Q4 Q5 Q6 H4 H5 H6 x). unfold FB, GB, SB. rewrite comb_turned by exact HhB. exact Ind.
Qed.
Lemma Nf_inv x N : independent n p B (turned x Y D) -> inverse_of p (form n B (turned x Y D) (turned x Y D)) N -> Nf x = N.
Proof.
  intros Ind Inv. destruct (near_ind x Ind) as (e & He & K). destruct (K x) as (_ & I); [replace (x - x) with 0 by ring; rewrite Rabs_R0; exact He|].
  apply (inv_unique p (form n B (turned x Y D) (turned x Y D))); auto; [apply form_dim; auto; apply turned_dim; auto|apply form_herm; exact HhB].
Qed.
Lemma f_der x N : independent n p B (turned x Y D) -> inverse_of p (form n B (turned x Y D) (turned x Y D)) N -> derivable_pt_lim f x (tder p FA GA SA FB GB SB x N + lagd d x).
Proof. intros Ind Inv. rewrite <- (Nf_inv x N Ind Inv). apply f_der_N. exact Ind. Qed.
Lemma f_der2 N g : (forall t, lagd d t = 0) -> independent n p B Y -> inverse_of p FB N -> (exists e, 0 < e /\ forall t, Rabs t < e -> derivable_pt_lim f t (g t)) ->
  derivable_pt_lim g 0 (d2E_of n p A B Y D N).
Proof.
  intros Lz Ind Inv (e & He & Dg). destruct herms as (H1 & H2 & H3 & H4 & H5 & H6). destruct Ln as (Q1 & Q2 & Q3 & Q4 & Q5 & Q6).
  assert (Ind0 : independent n p B (turned 0 Y D)) by (rewrite turned_0; exact Ind).
  assert (N0 : Nf 0 = N) by (apply Nf_inv; [exact Ind0|rewrite turned_0; exact Inv]).
  destruct (f_near 0 Ind0) as (e' & He' & K). apply (der_local g (fun t => tder p FA GA SA FB GB SB t (Nf t))).
  - exists (Rmin e e'). split; [apply Rmin_pos; auto|]. intros t Ht. assert (Ht1 : Rabs t < e) by (replace t with (t - 0) by ring; eapply Rlt_le_trans; [exact Ht|apply Rmin_l]).
    assert (Ht2 : Rabs (t - 0) < e') by (eapply Rlt_le_trans; [exact Ht|apply Rmin_r]). destruct (K t Ht2) as (I & _).
    pose proof (uniqueness_limite f t _ _ (Dg t Ht1) (f_der_N t I)) as E. rewrite E, Lz. ring.
  - pose proof (tder_der p potr d FA GA SA FB GB SB Hok Q1 Q4 Q5 Q6 H4 H5 H6) as T. 
    assert (Pd : posdef p (combm (cos 0) (sin 0) FB GB SB)) by (unfold FB, GB, SB; rewrite comb_turned by exact HhB; exact Ind0).
    specialize (T Pd). unfold Nf in N0. cbv beta in N0, T. rewrite N0 in T. unfold d2E_of. unfold SA, SB, GA, GB, FA in T |- *. unfold msym. rewrite !form_adj by auto. exact T.
Qed.
Lemma tder_0 N : tder p FA GA SA FB GB SB 0 N = dE_of n p A B Y D N.
Proof.
  assert (E0 : forall F D S, combm (cos 0) (sin 0) F D S = F) by (intros; rewrite cos_0, sin_0; apply mext; intros i j; unfold combm, madd, mscal; cring).
  assert (E1 : forall F D S, dcomb 0 F D S = S) by (intros; unfold dcomb; rewrite Rmult_0_r, cos_0, sin_0; apply mext; intros i j; unfold madd, mscal; cring).
  unfold tder, dE_of. rewrite E0, !E1. unfold FA, SA, SB, msym. rewrite !form_adj by auto. ring.
Qed.
(** The first derivative in terms of the gradient. *)
Lemma re_sym N M : hermitian N -> re (mtr p (mmul p N (msym M))) = re (mtr p (mmul p N M)).
Proof.
  intros H. unfold msym. rewrite mmul_scal_r, mmul_add_r, mtr_scal, mtr_add. assert (K : re (mtr p (mmul p N (madj M))) = re (mtr p (mmul p N M))).
  { rewrite <- (re_tr_adj p (mmul p N (madj M))), madj_mul, madj_adj, H. rewrite mtr_cyc. reflexivity. }
  csimp. rewrite K. field.
Qed.
Lemma dE_grad N : inverse_of p FB N -> dE_of n p A B Y D N = 2 * re (mtr p (mmul n (madj (gradm n p A B Y N)) D)).
Proof.
  intros Inv. destruct (inv_both p FB N) as (HhN & _); [apply form_dim; auto|apply herms|exact Inv|]. destruct herms as (H1 & _).
  unfold dE_of. fold FA. rewrite (re_sym N) by exact HhN. rewrite re_sym by (unfold hermitian; rewrite !madj_mul, HhN, H1, mmul_assoc; reflexivity).
  unfold gradm. fold FA. rewrite madj_add, madj_scal, mmul_add_l, mmul_scal_l, mtr_add, mtr_scal, !madj_mul, HhN, HhA, HhB, H1. unfold form at 1 2.
  rewrite !mmul_assoc. fold FA. csimp. ring.
Qed.
End Line.
