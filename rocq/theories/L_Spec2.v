(** The lowest mode under any constraint exists. *)
From Coq Require Import List ZArith Reals Bool Arith Lia Lra Classical.
From Verif Require Import Base RC M_Evect M_Eig S_Evect S_Eig L_Mat L_Eig2 L_Eig4 L_Eig5 S_Kpt L_Spec1.
Import ListNotations.
Local Open Scope R_scope.
Add Ring Cring_sp2 : C_ring_theory.

Definition cmuli (A : mat) : mat := fun i j => (Ci * A i j)%C.
Lemma mmul_cmuli k A B : mmul k A (cmuli B) = cmuli (mmul k A B).
Proof. apply mext; intros i j. unfold mmul, cmuli. rewrite <- csum_scal. apply csum_ext; intros. ring. Qed.
Lemma form_cmuli n A X M i j : form n A (cmuli X) M i j = (- Ci * form n A X M i j)%C.
Proof.
  unfold form, mmul, madj, cmuli. rewrite <- csum_scal. apply csum_ext; intros l Hl.
  generalize (csum n (fun l0 => (A l l0 * M l0 j)%C)). intros z. destruct z, (X l i). apply C_eq; csimp; ring.
Qed.
Definition col (X : mat) (j : nat) : mat := fun i k => if (k =? 0)%nat then X i j else C0.
Lemma col_dim n m X j : mdim n m X -> mdim n 1 (col X j).
Proof. intros D i k K. unfold col. destruct (Nat.eqb_spec k 0); [|reflexivity]. subst. apply D. lia. Qed.
Lemma col_sat n P X j : satisfies n P X -> satisfies n P (col X j).
Proof.
  intros E. unfold satisfies. apply mext; intros i k. unfold mmul, col. destruct (Nat.eqb_spec k 0).
  - apply (f_equal (fun F : mat => F i j)) in E. exact E.
  - transitivity (csum n (fun _ => C0)); [apply csum_ext; intros; ring|apply csum_0].
Qed.
Lemma form_col n A X M i j : form n A (col X i) M 0%nat j = form n A X M i j.
Proof. reflexivity. Qed.

Section One.
Variables (n : nat) (P A B X0 : mat).
Hypotheses (DA : mdim n n A) (DB : mdim n n B) (DP : mdim n n P) (HA : hermitian A) (HB : hermitian B) (Idem : mmul n P P = P) (PB : posdef n B).
Hypotheses (D0 : mdim n 1 X0) (S0 : satisfies n P X0) (N0 : X0 <> mzero).

Local Notation QA := (fun X => re (form n A X X 0%nat 0%nat)).
Local Notation QB := (fun X => re (form n B X X 0%nat 0%nat)).
Definition below (l : R) : Prop := forall X, mdim n 1 X -> satisfies n P X -> l * re (form n B X X 0%nat 0%nat) <= re (form n A X X 0%nat 0%nat).

Lemma QB_pos X : mdim n 1 X -> X <> mzero -> 0 < QB X.
Proof. intros D N. exact (proj1 (posdef_iff n B) PB X D N). Qed.

Lemma lam_exists : exists l, below l /\ forall l', below l' -> l' <= l.
Proof.
  destruct (pd_lower_form n B HB PB) as (c & Hc & Lo).
  assert (Ne : exists l, below l).
  { exists (- (mnorm n A) / c). intros X D S. pose proof (quad_bound n A X) as Qb. pose proof (mnorm_pos n A). pose proof (nrm_nonneg n X). specialize (Lo X).
    apply Rle_trans with (- (mnorm n A * nrm n X)); [|apply Ropp_le_cancel; rewrite Ropp_involutive; eapply Rle_trans; [|exact Qb]; rewrite <- Rabs_Ropp; apply Rle_abs].
    apply Rmult_le_reg_l with c; [exact Hc|]. replace (c * (- mnorm n A / c * QB X)) with (- (mnorm n A * QB X)) by (field; lra). cbn beta in *. nra. }
  assert (Bd : bound below).
  { exists (QA X0 / QB X0). intros l Hl. pose proof (QB_pos X0 D0 N0) as Pp. apply Rmult_le_reg_r with (QB X0); [exact Pp|]. unfold Rdiv. rewrite Rmult_assoc, Rinv_l, Rmult_1_r by lra. apply (Hl X0 D0 S0). }
  destruct (completeness below Bd Ne) as (l & Up & Lub). exists l. split; [|intros l' Hl'; apply Up; exact Hl'].
  intros X D S. destruct (classic (X = mzero)) as [->|N].
  - unfold form. rewrite !mmul_zero_r. cbn. lra.
  - pose proof (QB_pos X D N) as Pp. cbn beta in Pp. apply Rmult_le_reg_r with (/ QB X); [apply Rinv_0_lt_compat; exact Pp|]. cbn beta. rewrite Rmult_assoc, Rinv_r, Rmult_1_r by lra.
    apply Lub. intros l' Hl'. apply Rmult_le_reg_r with (QB X); [exact Pp|]. cbn beta. rewrite Rmult_assoc, Rinv_l, Rmult_1_r by lra. apply (Hl' X D S).
Qed.

Lemma attained l : below l -> (forall l', below l' -> l' <= l) -> exists X, mdim n 1 X /\ satisfies n P X /\ X <> mzero /\ re (form n A X X 0%nat 0%nat) = l * re (form n B X X 0%nat 0%nat).
Proof.
  intros Bl Mx. apply NNPP. intros No.
  assert (St : forall X, mdim n 1 X -> satisfies n P X -> X <> mzero -> l * QB X < QA X).
  { intros X D S N. destruct (Rle_lt_or_eq_dec _ _ (Bl X D S)) as [K|K]; [exact K|]. exfalso. apply No. exists X. repeat split; auto. }
  set (D := madd A (mscal (- l) B)). set (Q := msub (mid n) P).
  set (H := madd (mmul n (madj P) (mmul n D P)) (mmul n (madj Q) (mmul n (mid n) Q))).
  assert (HD : hermitian D) by (unfold hermitian, D; rewrite madj_add, madj_scal, HA, HB; reflexivity).
  assert (HH : hermitian H).
  { unfold hermitian, H. rewrite madj_add, !madj_mul, !madj_adj, HD, mid_herm, !mmul_assoc. reflexivity. }
  assert (QD : forall X, re (form n D X X 0%nat 0%nat) = QA X - l * QB X).
  { intros X. unfold D. rewrite form_add_m. unfold madd. replace (form n (mscal (- l) B) X X) with (mscal (- l) (form n B X X)) by (unfold form; rewrite mmul_scal_l, mmul_scal_r; reflexivity).
    unfold mscal. csimp. ring. }
  assert (QH : forall V, re (form n H V V 0%nat 0%nat) = re (form n D (mmul n P V) (mmul n P V) 0%nat 0%nat) + re (form n (mid n) (mmul n Q V) (mmul n Q V) 0%nat 0%nat)).
  { intros V. unfold H. rewrite form_add_m, !form_congr. unfold madd. csimp. reflexivity. }
  assert (QV : forall V, mdim n 1 V -> mmul n Q V = msub V (mmul n P V)).
  { intros V DV. unfold Q, msub. rewrite mmul_add_l, mmul_scal_l, (mid_l n 1 V DV). reflexivity. }
  assert (DQ : mdim n n Q) by (unfold Q, msub; apply mdim_add; [apply mdim_id|apply mdim_scal; exact DP]).
  assert (PH : posdef n H).
  { apply posdef_iff. intros V DV NV. rewrite QH, QD.
    assert (Dp : mdim n 1 (mmul n P V)) by (apply (mdim_mul n n 1); auto).
    assert (Sp : satisfies n P (mmul n P V)) by (unfold satisfies; rewrite <- mmul_assoc, Idem; reflexivity).
    assert (Dq : mdim n 1 (mmul n Q V)) by (apply (mdim_mul n n 1); auto).
    assert (Nq : 0 <= re (form n (mid n) (mmul n Q V) (mmul n Q V) 0%nat 0%nat)).
    { unfold form. rewrite (mid_l n 1) by exact Dq. rewrite quad_id. apply nrm_nonneg. }
    destruct (classic (mmul n P V = mzero)) as [E|E].
    - assert (EV : mmul n Q V = V).
      { rewrite QV by exact DV. rewrite E. apply mext; intros i j. unfold msub, madd, mscal, mzero. apply C_eq; csimp; ring. }
      rewrite EV, E. pose proof (proj1 (posdef_iff n (mid n)) (posdef_id n) V DV NV) as K. unfold form at 1 2. rewrite !mmul_zero_r. cbn beta. revert K. generalize (form n (mid n) V V). intros F K. unfold mzero. csimp. lra.
    - pose proof (St _ Dp Sp E) as K. cbn beta in K. lra. }
  destruct (pd_lower_form n H HH PH) as (c & Hc & Lo).
  pose proof (mnorm_pos n B) as Mb. set (m := mnorm n B + 1).
  assert (Bl2 : below (l + c / m)).
  { intros X DX SX. specialize (Lo X). rewrite QH in Lo. unfold satisfies in SX. rewrite SX, QV, SX in Lo by exact DX.
    replace (msub X X) with mzero in Lo by (apply mext; intros i j; unfold msub, madd, mscal, mzero; apply C_eq; csimp; ring).
    rewrite QD in Lo. unfold form at 3 in Lo. rewrite !mmul_zero_r in Lo. cbn beta in Lo.
    pose proof (quad_bound n B X) as Qb. pose proof (Rle_abs (QB X)) as Qa. pose proof (nrm_nonneg n X) as Nn. cbn beta in Qa.
    assert (K : c / m * QB X <= c * nrm n X).
    { unfold Rdiv. rewrite Rmult_assoc. apply Rmult_le_compat_l; [lra|]. apply Rmult_le_reg_l with m; [unfold m; lra|]. rewrite <- Rmult_assoc, Rinv_r by (unfold m; lra). unfold m. cbn beta in *. nra. }
    unfold mzero in Lo. cbn beta in *. csimp. lra. }
  specialize (Mx _ Bl2). assert (0 < c / m) by (apply Rdiv_lt_0_compat; [exact Hc|unfold m; lra]). lra.
Qed.

Lemma quadratic_zero b c : (forall t, 0 <= 2 * t * b + t * t * c) -> b = 0.
Proof.
  intros H. destruct (Req_dec b 0) as [E|E]; [exact E|]. exfalso. set (k := Rabs c + 1). assert (0 < k) by (unfold k; pose proof (Rabs_pos c); lra).
  specialize (H (- b / k)). assert (c <= k) by (unfold k; pose proof (Rle_abs c); lra).
  assert (E2 : 2 * (- b / k) * b + - b / k * (- b / k) * c = (b * b / (k * k)) * (c - 2 * k)) by (field; lra).
  rewrite E2 in H. assert (0 < b * b / (k * k)) by (apply Rdiv_lt_0_compat; nra). nra.
Qed.

Lemma lowest_one_below : exists M l, lowest n 1 P A B M (fun _ => l) /\ below l.
Proof.
  destruct lam_exists as (l & Bl & Mx). destruct (attained l Bl Mx) as (X & DX & SX & NX & EX).
  pose proof (QB_pos X DX NX) as Pp. cbn beta in Pp. set (s := / sqrt (QB X)). set (M := mscal s X).
  assert (Ss : s * s * QB X = 1).
  { unfold s. cbn beta. rewrite <- Rinv_mult, sqrt_sqrt by lra. apply Rinv_l. lra. }
  assert (DM : mdim n 1 M) by (apply mdim_scal; exact DX).
  assert (SM : satisfies n P M) by (unfold satisfies, M; rewrite mmul_scal_r, SX; reflexivity).
  assert (Fs : forall F, form n F M M = mscal (s * s) (form n F X X)) by (intros F; unfold M; rewrite form_scal_l, form_scal_r, mscal_mscal; reflexivity).
  assert (QM : re (form n A M M 0%nat 0%nat) = l * re (form n B M M 0%nat 0%nat)).
  { rewrite !Fs. unfold mscal. unfold Cscal. cbn [re fst]. change (fst (form n A X X 0%nat 0%nat)) with (QA X). change (fst (form n B X X 0%nat 0%nat)) with (QB X). cbn beta. rewrite EX. ring. }
  assert (OM : form n B M M = mid 1).
  { apply mext; intros i j. destruct (Nat.eq_dec i 0) as [->|Ni]; [destruct (Nat.eq_dec j 0) as [->|Nj]|].
    - rewrite Fs. unfold mscal, mid. cbn [Nat.ltb Nat.leb Nat.eqb andb]. pose proof (herm_at _ (form_adj n B X X HB) 0%nat 0%nat) as E.
      apply (f_equal im) in E. revert E. revert Ss. cbn beta. generalize (form n B X X 0%nat 0%nat). intros z. destruct z as (x, y). csimp. intros Ss E. f_equal; [exact Ss|]. replace y with 0 by lra. ring.
    - rewrite (mdim_form n 1 B M M DB DM DM) by lia. unfold mid. destruct (Nat.eqb_spec 0 j); [lia|]. reflexivity.
    - rewrite (mdim_form n 1 B M M DB DM DM) by lia. unfold mid. destruct (Nat.ltb_spec i 1); [lia|]. reflexivity. }
  assert (Var : forall W, mdim n 1 W -> satisfies n P W -> re (form n A W M 0%nat 0%nat) = l * re (form n B W M 0%nat 0%nat)).
  { intros W DW SW. enough (re (form n A W M 0%nat 0%nat) - l * re (form n B W M 0%nat 0%nat) = 0) by lra.
    apply quadratic_zero with (c := QA W - l * QB W). intros t.
    set (Z := madd M (mscal t W)). assert (DZ : mdim n 1 Z) by (apply mdim_add; [exact DM|apply mdim_scal; exact DW]).
    assert (SZ : satisfies n P Z) by (unfold satisfies, Z; rewrite mmul_add_r, mmul_scal_r, SM, SW; reflexivity).
    pose proof (Bl Z DZ SZ) as K.
    assert (Ex : forall F, hermitian F -> re (form n F Z Z 0%nat 0%nat) = re (form n F M M 0%nat 0%nat) + 2 * t * re (form n F W M 0%nat 0%nat) + t * t * re (form n F W W 0%nat 0%nat)).
    { intros F HF. unfold Z. rewrite form_add_l, !form_add_r, !form_scal_l, !form_scal_r. rewrite <- (form_adj n F W M HF). unfold madd, mscal, madj. csimp. ring. }
    rewrite (Ex A HA), (Ex B HB), QM in K. cbn beta. lra. }
  exists M, l. split; [|exact Bl]. split; [exact DM|]. split; [exact SM|]. split; [exact OM|]. split; [|split; [intros; lra|intros i Y _ DY SY _; apply (Bl Y DY SY)]].
  intros m Y DY SY. apply mext; intros i j. unfold mmul at 1. cbn [csum]. unfold mdiag. cbn [Nat.ltb Nat.leb andb].
  destruct (Nat.eqb_spec 0 j) as [<-|Nj].
  - pose proof (Var (col Y i) (col_dim n m Y i DY) (col_sat n P Y i SY)) as R1.
    assert (DI : mdim n 1 (cmuli (col Y i))) by (intros a b K; unfold cmuli; rewrite (col_dim n m Y i DY a b K); ring).
    assert (SI : satisfies n P (cmuli (col Y i))) by (unfold satisfies; rewrite mmul_cmuli, (col_sat n P Y i SY); reflexivity).
    pose proof (Var _ DI SI) as R2. rewrite !form_cmuli in R2. rewrite !form_col in R1, R2.
    destruct (form n A Y M i 0%nat) as (a1, a2), (form n B Y M i 0%nat) as (b1, b2). apply C_eq; csimp; lra.
  - assert (E : form n A Y M i j = C0).
    { unfold form, mmul. transitivity (csum n (fun _ => C0)); [|apply csum_0]. apply csum_ext; intros a Ha. rewrite (csum_ext n _ (fun _ => C0)); [rewrite csum_0; ring|]. intros b Hb. rewrite (DM b j) by lia. ring. }
    rewrite E. ring.
Qed.
Lemma lowest_one : exists M l, lowest n 1 P A B M (fun _ => l).
Proof. destruct lowest_one_below as (M & l & H & _). exists M, l. exact H. Qed.
End One.
