(** Real pairs of matrices have real modes. *)
From Coq Require Import List ZArith Reals Bool Arith Lia Lra Classical.
From Verif Require Import Base RC M_Evect M_Eig S_Evect S_Eig L_Eig L_Mat L_Eig2 L_Eig4 L_Eig5 L_Eig13 S_Kpt L_Kpt1 L_Spec1 L_Spec2 L_Spec3.
Import ListNotations.
Local Open Scope R_scope.
Add Ring Cring_rl7 : C_ring_theory.

Definition realm (M : mat) : Prop := forall i j, im (M i j) = 0.
Definition rem (M : mat) : mat := fun i j => RtoC (re (M i j)).
Definition imm (M : mat) : mat := fun i j => RtoC (im (M i j)).
Lemma rem_real M : realm (rem M). Proof. intros i j. reflexivity. Qed.
Lemma imm_real M : realm (imm M). Proof. intros i j. reflexivity. Qed.
Lemma real_rem M : realm M -> rem M = M.
Proof. intros H. apply mext; intros i j. apply C_eq; [reflexivity|]. rewrite H. reflexivity. Qed.
Lemma parts M : M = madd (rem M) (cmuli (imm M)).
Proof. apply mext; intros i j. unfold madd, cmuli, rem, imm. apply C_eq; csimp; ring. Qed.
Lemma im_csum n f : im (csum n f) = rsum n (fun i => im (f i)).
Proof. induction n as [|n IH]; [reflexivity|]. cbn [csum rsum]. rewrite <- IH. csimp. reflexivity. Qed.
Lemma re_csum' n f : re (csum n f) = rsum n (fun i => re (f i)).
Proof. induction n as [|n IH]; [reflexivity|]. cbn [csum rsum]. rewrite <- IH. csimp. reflexivity. Qed.
Lemma rsum_zero n f : (forall i, (i < n)%nat -> f i = 0) -> rsum n f = 0.
Proof. induction n as [|n IH]; intros H; [reflexivity|]. cbn [rsum]. rewrite IH, H by (intros; auto with arith). ring. Qed.
Lemma realm_mul k A B : realm A -> realm B -> realm (mmul k A B).
Proof. intros HA HB i j. unfold mmul. rewrite im_csum. apply rsum_zero. intros l _. pose proof (HA i l). pose proof (HB l j). csimp. rewrite H, H0. ring. Qed.
Lemma realm_adj A : realm A -> realm (madj A).
Proof. intros HA i j. unfold madj. pose proof (HA j i). csimp. rewrite H. ring. Qed.
Lemma realm_add A B : realm A -> realm B -> realm (madd A B).
Proof. intros HA HB i j. unfold madd. pose proof (HA i j). pose proof (HB i j). csimp. rewrite H, H0. ring. Qed.
Lemma realm_scal a A : realm A -> realm (mscal a A).
Proof. intros HA i j. unfold mscal. pose proof (HA i j). csimp. rewrite H. ring. Qed.
Lemma realm_form n A X Y : realm A -> realm X -> realm Y -> realm (form n A X Y).
Proof. intros. unfold form. apply realm_mul; [apply realm_adj; assumption|apply realm_mul; assumption]. Qed.
Lemma realm_diag p e : realm (mdiag p e).
Proof. intros i j. unfold mdiag. destruct (_ && _); reflexivity. Qed.
Lemma rem_mul_l k A M : realm A -> rem (mmul k A M) = mmul k A (rem M).
Proof.
  intros HA. apply mext; intros i j. unfold rem, mmul. apply C_eq.
  - change (re (RtoC ?x)) with x. rewrite !re_csum'. apply rsum_ext. intros l _. pose proof (HA i l). csimp. rewrite H. ring.
  - change (im (RtoC ?x)) with 0. rewrite im_csum. symmetry. apply rsum_zero. intros l _. pose proof (HA i l). csimp. rewrite H. ring.
Qed.
Lemma imm_mul_l k A M : realm A -> imm (mmul k A M) = mmul k A (imm M).
Proof.
  intros HA. apply mext; intros i j. unfold imm, mmul. apply C_eq.
  - change (re (RtoC ?x)) with x. rewrite im_csum, re_csum'. apply rsum_ext. intros l _. pose proof (HA i l). csimp. rewrite H. ring.
  - change (im (RtoC ?x)) with 0. rewrite im_csum. symmetry. apply rsum_zero. intros l _. pose proof (HA i l). csimp. rewrite H. ring.
Qed.
Lemma rem_mul_r k M B : realm B -> rem (mmul k M B) = mmul k (rem M) B.
Proof.
  intros HA. apply mext; intros i j. unfold rem, mmul. apply C_eq.
  - change (re (RtoC ?x)) with x. rewrite !re_csum'. apply rsum_ext. intros l _. pose proof (HA l j). csimp. rewrite H. ring.
  - change (im (RtoC ?x)) with 0. rewrite im_csum. symmetry. apply rsum_zero. intros l _. pose proof (HA l j). csimp. rewrite H. ring.
Qed.
Lemma imm_mul_r k M B : realm B -> imm (mmul k M B) = mmul k (imm M) B.
Proof.
  intros HA. apply mext; intros i j. unfold imm, mmul. apply C_eq.
  - change (re (RtoC ?x)) with x. rewrite im_csum, re_csum'. apply rsum_ext. intros l _. pose proof (HA l j). csimp. rewrite H. ring.
  - change (im (RtoC ?x)) with 0. rewrite im_csum. symmetry. apply rsum_zero. intros l _. pose proof (HA l j). csimp. rewrite H. ring.
Qed.
Lemma rem_form n A X M : realm A -> realm X -> rem (form n A X M) = form n A X (rem M).
Proof. intros HA HX. unfold form. rewrite (rem_mul_l n (madj X)) by (apply realm_adj; exact HX). rewrite rem_mul_l by exact HA. reflexivity. Qed.
Lemma imm_form n A X M : realm A -> realm X -> imm (form n A X M) = form n A X (imm M).
Proof. intros HA HX. unfold form. rewrite (imm_mul_l n (madj X)) by (apply realm_adj; exact HX). rewrite imm_mul_l by exact HA. reflexivity. Qed.
Lemma rem_dim n m M : mdim n m M -> mdim n m (rem M).
Proof. intros D i j H. unfold rem. rewrite D by exact H. reflexivity. Qed.
Lemma imm_dim n m M : mdim n m M -> mdim n m (imm M).
Proof. intros D i j H. unfold imm. rewrite D by exact H. reflexivity. Qed.
Lemma rem_sat n P M : realm P -> satisfies n P M -> satisfies n P (rem M).
Proof. intros HP S. unfold satisfies. rewrite <- rem_mul_l by exact HP. rewrite S. reflexivity. Qed.
Lemma imm_sat n P M : realm P -> satisfies n P M -> satisfies n P (imm M).
Proof. intros HP S. unfold satisfies. rewrite <- imm_mul_l by exact HP. rewrite S. reflexivity. Qed.
Lemma form_of n A P X M : form n A (mmul n P X) M = mmul n (madj X) (form n A P M).
Proof. unfold form. rewrite madj_mul, mmul_assoc. reflexivity. Qed.

Section One.
Variables (n : nat) (P A B X0 : mat).
Hypotheses (DA : mdim n n A) (DB : mdim n n B) (DP : mdim n n P) (HA : hermitian A) (HB : hermitian B) (Idem : mmul n P P = P) (PB : posdef n B).
Hypotheses (RA : realm A) (RB : realm B) (RP : realm P).
Hypotheses (D0 : mdim n 1 X0) (S0 : satisfies n P X0) (N0 : X0 <> mzero).

(** A field whose equation holds, scaled to length one. *)
Lemma real_lowest l W : mdim n 1 W -> satisfies n P W -> W <> mzero -> realm W -> below n P A B l -> form n A P W = mmul 1 (form n B P W) (mdiag 1 (fun _ => l)) ->
  exists M, lowest n 1 P A B M (fun _ => l) /\ realm M.
Proof.
  intros DW SW NW RW Bl Eq. pose proof (QB_pos n B PB W DW NW) as Pp. cbn beta in Pp. set (q := re (form n B W W 0%nat 0%nat)) in *. set (s := / sqrt q). set (M := mscal s W).
  assert (Ss : s * s * q = 1) by (unfold s; rewrite <- Rinv_mult, sqrt_sqrt by lra; apply Rinv_l; lra).
  assert (DM : mdim n 1 M) by (apply mdim_scal; exact DW).
  assert (SM : satisfies n P M) by (unfold satisfies, M; rewrite mmul_scal_r, SW; reflexivity).
  exists M. split; [|apply realm_scal; exact RW].
  split; [exact DM|]. split; [exact SM|]. split; [|split; [|split; [intros; lra|intros i Y _ DY SY _; apply (Bl Y DY SY)]]].
  - apply mext; intros i j. destruct (Nat.eq_dec i 0) as [->|Ni]; [destruct (Nat.eq_dec j 0) as [->|Nj]|].
    + unfold M. rewrite form_scal_l, form_scal_r, mscal_mscal. unfold mscal, mid. cbn [Nat.ltb Nat.leb Nat.eqb andb]. pose proof (realm_form n B W W RB RW RW 0%nat 0%nat) as E. revert E Ss. unfold q.
      generalize (form n B W W 0%nat 0%nat). intros z. destruct z as (x, y). csimp. intros E Ss. f_equal; [exact Ss|]. rewrite E. ring.
    + rewrite (mdim_form n 1 B M M DB DM DM) by lia. unfold mid. destruct (Nat.eqb_spec 0 j); [lia|]. reflexivity.
    + rewrite (mdim_form n 1 B M M DB DM DM) by lia. unfold mid. destruct (Nat.ltb_spec i 1); [lia|]. reflexivity.
  - intros m X DX SX. pose proof (form_of n A P X M) as Q1. pose proof (form_of n B P X M) as Q2. rewrite SX in Q1, Q2. rewrite Q1, Q2, mmul_assoc. f_equal. unfold M. rewrite !form_scal_r, Eq, mmul_scal_l. reflexivity.
Qed.
Lemma lowest_one_real : exists M l, lowest n 1 P A B M (fun _ => l) /\ realm M.
Proof.
  destruct (lowest_one_below n P A B X0 DB DP HA HB Idem PB D0 S0 N0) as (M & l & (DM & SM & OM & StM & _) & Bl).
  pose proof (StM n P DP Idem) as Eq.
  assert (Er : form n A P (rem M) = mmul 1 (form n B P (rem M)) (mdiag 1 (fun _ => l))).
  { rewrite <- !rem_form by assumption. rewrite Eq. apply rem_mul_r. apply realm_diag. }
  assert (Ei : form n A P (imm M) = mmul 1 (form n B P (imm M)) (mdiag 1 (fun _ => l))).
  { rewrite <- !imm_form by assumption. rewrite Eq. apply imm_mul_r. apply realm_diag. }
  destruct (classic (rem M = mzero)) as [Zr|Nr].
  - destruct (classic (imm M = mzero)) as [Zi|Ni].
    + exfalso. assert (Z : M = mzero).
      { rewrite (parts M), Zr, Zi. apply mext; intros i j. unfold madd, cmuli, mzero. ring. }
      apply (f_equal (fun F : mat => re (F 0%nat 0%nat))) in OM. rewrite Z in OM. unfold form in OM. rewrite !mmul_zero_r in OM. unfold mzero, mid in OM. cbn in OM. lra.
    + destruct (real_lowest l (imm M) (imm_dim n 1 M DM) (imm_sat n P M RP SM) Ni (imm_real M) Bl Ei) as (W & L & RW). exists W, l. split; assumption.
  - destruct (real_lowest l (rem M) (rem_dim n 1 M DM) (rem_sat n P M RP SM) Nr (rem_real M) Bl Er) as (W & L & RW). exists W, l. split; assumption.
Qed.
End One.

Section All.
Variables (n : nat) (P A B : mat).
Hypotheses (DA : mdim n n A) (DB : mdim n n B) (DP : mdim n n P) (HA : hermitian A) (HB : hermitian B) (Idem : mmul n P P = P) (PB : posdef n B).
Hypotheses (RA : realm A) (RB : realm B) (RP : realm P).

Lemma rest_real k Y : realm Y -> realm (rest n k B P Y).
Proof. intros RY. unfold rest, msub. apply realm_add; [exact RP|]. apply realm_scal. repeat apply realm_mul; try assumption. apply realm_adj; exact RY. Qed.
Lemma extend_real k Y e : lowest n k P A B Y e -> realm Y -> (exists X, mdim n 1 X /\ X <> mzero /\ satisfies n (rest n k B P Y) X) -> exists Y' e', lowest n (k + 1) P A B Y' e' /\ realm Y'.
Proof.
  intros L RY (X & DX & NX & SX). pose proof L as (DY & SY & OY & _).
  destruct (lowest_one_real n (rest n k B P Y) A B X DB (rest_dim n k B P Y DB DP DY) HA HB (rest_idem n k B P Y DB Idem DY SY OY) PB RA RB (rest_real k Y RY) DX SX NX) as (M & l & LM & RM).
  exists (hcat k Y M), (fun i => if (i <? k)%nat then e i else l). split.
  - exact (lowest_join_any n k A B P Y (rest n k B P Y) DB DA HB HA DY SY OY (rest_sat n k B P Y DB Idem DY SY OY) (sat_rest n k B P Y) e 1%nat M (fun _ => l) L LM).
  - intros i j. unfold hcat. destruct (_ <? _)%nat; auto.
Qed.
Lemma modes_real : exists m V lam, lowest n m P A B V lam /\ modes n m P A B V lam /\ realm V.
Proof.
  assert (St : forall k, (exists Y e, lowest n k P A B Y e /\ realm Y) \/ exists m V lam, (m < k)%nat /\ lowest n m P A B V lam /\ realm V /\ ~ exists X, mdim n 1 X /\ X <> mzero /\ satisfies n (rest n m B P V) X).
  { induction k as [|k [(Y & e & L & RY)|(m & V & lam & Hm & L)]].
    - left. exists mzero, (fun _ => 0). split; [apply lowest_none|intros i j; reflexivity].
    - destruct (classic (exists X, mdim n 1 X /\ X <> mzero /\ satisfies n (rest n k B P Y) X)) as [K|K].
      + left. rewrite <- Nat.add_1_r. exact (extend_real k Y e L RY K).
      + right. exists k, Y, e. split; [lia|]. split; [exact L|]. split; [exact RY|exact K].
    - right. exists m, V, lam. split; [lia|exact L]. }
  destruct (St (S n)) as [(Y & e & (DY & _ & OY & _) & _)|(m & V & lam & Hm & L & RV & No)]; [pose proof (orthonormal_at_most n B _ _ DY OY); lia|].
  exists m, V, lam. split; [exact L|]. split; [|exact RV]. exact (no_more n P A B DB m V lam L No).
Qed.
End All.
