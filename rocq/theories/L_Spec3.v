(** Any Hermitian pair has a complete set of modes under any constraint. *)
From Coq Require Import List ZArith Reals Bool Arith Lia Lra Classical.
From Verif Require Import Base RC M_Evect M_Eig S_Evect S_Eig L_Eig L_Mat L_Eig2 L_Eig4 L_Eig5 L_Eig13 S_Kpt L_Kpt1 L_Spec1 L_Spec2.
Import ListNotations.
Local Open Scope R_scope.
Add Ring Cring_sp3 : C_ring_theory.

(** The joining of L_Kpt1 for any constraint Q that keeps fields orthogonal to Y. *)
Section Join.
Variables (n d : nat) (A B P0 Y Q : mat).
Hypotheses (DB : mdim n n B) (DA : mdim n n A) (HB : hermitian B) (HA : hermitian A).
Hypotheses (DY : mdim n d Y) (SY : satisfies n P0 Y) (OY : form n B Y Y = mid d).
Hypotheses (QSat : forall M, satisfies n Q M -> satisfies n P0 M /\ form n B Y M = mzero) (SatQ : forall M, satisfies n P0 M -> form n B Y M = mzero -> satisfies n Q M).

Lemma ritz_orth_any q M e : ritz_fields n q Q A B M e ->
  satisfies n P0 (hcat d Y M) /\ form n B (hcat d Y M) (hcat d Y M) = mid (d + q).
Proof.
  intros (DM & SM & OM & _). destruct (QSat M SM) as (S0 & F0). split.
  - unfold satisfies. rewrite mmul_hcat, SY, S0. reflexivity.
  - assert (F1 : form n B M Y = mzero) by (rewrite <- (form_adj n B Y M HB), F0; apply madj_zero).
    apply mext; intros i j. rewrite form_hcat_l, !form_hcat_r, OY, OM, F0, F1. unfold mid, mzero.
    destruct (Nat.ltb_spec i d), (Nat.ltb_spec j d), (Nat.ltb_spec i (d + q)); try destruct (Nat.ltb_spec (i - d) q); try lia; cbn [andb]; try reflexivity;
      destruct (Nat.eqb_spec i j); try destruct (Nat.eqb_spec (i - d) (j - d)); try lia; reflexivity.
Qed.

Lemma lowest_join_any e q M e2 : lowest n d P0 A B Y e -> lowest n q Q A B M e2 ->
  lowest n (d + q) P0 A B (hcat d Y M) (fun i => if (i <? d)%nat then e i else e2 (i - d)%nat).
Proof.
  intros (_ & _ & _ & StY & AscY & LowY) (DM & SM & OM & StM & AscM & LowM).
  destruct (QSat M SM) as (S0 & F0).
  assert (F1 : form n B M Y = mzero) by (rewrite <- (form_adj n B Y M HB), F0; apply madj_zero).
  assert (FA1 : form n A M Y = mzero) by (rewrite (StY q M DM S0), F1; apply mmul_zero_l).
  assert (FA0 : form n A Y M = mzero) by (rewrite <- (form_adj n A M Y HA), FA1; apply madj_zero).
  assert (FAM : form n A M M = mdiag q e2).
  { rewrite (StM q M DM SM), OM. apply (mid_l q q). intros i j H. unfold mdiag. destruct (Nat.ltb_spec i q); cbn [andb]; [|reflexivity]. destruct (Nat.eqb_spec i j); [lia|reflexivity]. }
  split; [apply hcat_dim; assumption|]. split; [unfold satisfies; rewrite mmul_hcat, SY, S0; reflexivity|]. split.
  { apply (ritz_orth_any q M e2). split; [exact DM|]. split; [exact SM|]. split; [exact OM|]. split; [exact FAM|exact AscM]. }
  split; [|split].
  - intros m X DX SX.
    assert (EM : form n A X M = mmul q (form n B X M) (mdiag q e2)).
    { set (X1 := msub X (mmul d Y (form n B Y X))).
      assert (B1 : form n B Y X1 = mzero).
      { unfold X1, msub, form. rewrite mmul_add_r, mmul_scal_r, mmul_add_r, mmul_scal_r. rewrite <- (mmul_assoc n d B), <- (mmul_assoc n d (madj Y)).
        change (mmul n (madj Y) (mmul n B Y)) with (form n B Y Y). rewrite OY. rewrite (mid_l d m (mmul n (madj Y) (mmul n B X))) by (apply (mdim_mul d n m); [apply mdim_adj; exact DY|apply (mdim_mul n n m); auto]).
        apply mext; intros i j. unfold madd, mscal, mzero. apply C_eq; csimp; ring. }
      assert (S1 : satisfies n Q X1).
      { apply SatQ; [|exact B1]. unfold satisfies, X1, msub. rewrite mmul_add_r, mmul_scal_r, SX, <- mmul_assoc, SY. reflexivity. }
      assert (D1 : mdim n m X1).
      { unfold X1, msub. apply mdim_add; [exact DX|]. apply mdim_scal. apply (mdim_mul n d m); [exact DY|]. apply (mdim_mul d n m); [apply mdim_adj; exact DY|apply (mdim_mul n n m); auto]. }
      assert (Sub : forall H, form n H Y M = mzero -> form n H X1 M = form n H X M).
      { intros H E. unfold form, X1, msub. rewrite madj_add, madj_scal, madj_mul, mmul_add_l, mmul_scal_l, mmul_assoc. change (mmul n (madj Y) (mmul n H M)) with (form n H Y M). rewrite E, mmul_zero_r.
        apply mext; intros i j. unfold madd, mscal, mzero. apply C_eq; csimp; ring. }
      rewrite <- (Sub A FA0), <- (Sub B F0). apply (StM m X1 D1 S1). }
    pose proof (StY m X DX SX) as EY. apply mext; intros i j. rewrite form_hcat_r. unfold mmul.
    rewrite (csum_ext (d + q) _ (fun l => if (l =? j)%nat then (form n B X (hcat d Y M) i j * RtoC (if (j <? d)%nat then e j else e2 (j - d)%nat))%C else C0)).
    2: { intros l Hl. unfold mdiag. destruct (Nat.ltb_spec l (d + q)); [|lia]. cbn [andb]. destruct (Nat.eqb_spec l j) as [->|]; [reflexivity|ring]. }
    destruct (Nat.ltb_spec j d) as [Hj|Hj].
    + rewrite (csum_single (d + q) j); [|lia|intros l _ N; destruct (Nat.eqb_spec l j); [congruence|reflexivity]]. rewrite Nat.eqb_refl, form_hcat_r. destruct (Nat.ltb_spec j d); [|lia].
      rewrite EY. unfold mmul. rewrite (csum_single d j); [|exact Hj|intros l Hl N; unfold mdiag; destruct (Nat.eqb_spec l j); [congruence|rewrite andb_false_r; ring]].
      unfold mdiag. destruct (Nat.ltb_spec j d); [|lia]. rewrite Nat.eqb_refl. reflexivity.
    + destruct (Nat.lt_ge_cases j (d + q)) as [Hq|Hq].
      * rewrite (csum_single (d + q) j); [|lia|intros l _ N; destruct (Nat.eqb_spec l j); [congruence|reflexivity]]. rewrite Nat.eqb_refl, form_hcat_r. destruct (Nat.ltb_spec j d); [lia|].
        rewrite EM. unfold mmul. rewrite (csum_single q (j - d)); [|lia|intros l Hl N; unfold mdiag; destruct (Nat.eqb_spec l (j - d)); [congruence|rewrite andb_false_r; ring]].
        unfold mdiag. destruct (Nat.ltb_spec (j - d) q); [|lia]. rewrite Nat.eqb_refl. reflexivity.
      * rewrite (csum_ext (d + q) _ (fun _ => C0)) by (intros l Hl; destruct (Nat.eqb_spec l j); [lia|reflexivity]). rewrite csum_0.
        unfold form, mmul at 1. rewrite (csum_ext n _ (fun _ => C0)); [apply csum_0|]. intros l Hl. rewrite (mdim_mul n n q A M DA DM l (j - d)%nat) by lia. ring.
  - intros i j Hij. destruct (Nat.ltb_spec i d), (Nat.ltb_spec j d); try lia; [apply AscY; lia| |apply AscM; lia].
    set (X := slice (j - d) 1 M). assert (DX : mdim n 1 X) by (apply (slice_dim n q); exact DM).
    pose proof (LowY i X ltac:(lia) DX (satisfies_slice _ _ _ _ _ S0)) as L.
    assert (Z : form n B Y X = (fun _ _ => C0)).
    { apply mext; intros a b. unfold X. rewrite <- (slice_all n d Y DY), form_slice, F0. destruct (_ && _); reflexivity. }
    specialize (L Z). unfold X in L. rewrite !form_slice, OM, FAM in L. cbn [Nat.ltb Nat.leb andb] in L. rewrite Nat.add_0_r in L. unfold mid, mdiag in L. rewrite Nat.eqb_refl in L. destruct (Nat.ltb_spec (j - d) q); [|lia]. cbn [andb] in L. revert L. csimp. lra.
  - intros i X Hi DX SX Z.
    assert (ZY : form n B Y X = (fun _ _ => C0)).
    { apply mext; intros a b. destruct (Nat.lt_ge_cases a d) as [Ha|Ha].
      - pose proof (f_equal (fun f => f a b) Z) as E. cbv beta in E. rewrite form_hcat_l in E. destruct (Nat.ltb_spec a d); [exact E|lia].
      - unfold form, mmul at 1. rewrite (csum_ext n _ (fun _ => C0)); [apply csum_0|]. intros l Hl. rewrite (mdim_adj n d Y DY a l) by lia. ring. }
    assert (ZM : form n B M X = (fun _ _ => C0)).
    { apply mext; intros a b. pose proof (f_equal (fun f => f (d + a)%nat b) Z) as E. cbv beta in E. rewrite form_hcat_l in E. destruct (Nat.ltb_spec (d + a) d); [lia|]. replace (d + a - d)%nat with a in E by lia. exact E. }
    destruct (Nat.ltb_spec i d); [apply LowY; auto|]. apply LowM; [lia|exact DX|apply SatQ; assumption|exact ZM].
Qed.
End Join.

(** The part orthogonal to Y of what P keeps. *)
Section Rest.
Variables (n d : nat) (B P Y : mat).
Hypotheses (DB : mdim n n B) (DP : mdim n n P) (Idem : mmul n P P = P) (DY : mdim n d Y) (SY : satisfies n P Y) (OY : form n B Y Y = mid d).
Definition rest : mat := msub P (mmul d Y (mmul n (mmul n (madj Y) B) P)).
Lemma rest_dim : mdim n n rest.
Proof. unfold rest, msub. apply mdim_add; [exact DP|]. apply mdim_scal. apply (mdim_mul n d n); [exact DY|]. apply (mdim_mul d n n); [|exact DP]. apply (mdim_mul d n n); [apply mdim_adj; exact DY|exact DB]. Qed.
Lemma rest_mul M : mmul n rest M = msub (mmul n P M) (mmul d Y (form n B Y (mmul n P M))).
Proof. unfold rest, msub. rewrite mmul_add_l, mmul_scal_l. unfold form. rewrite !mmul_assoc. reflexivity. Qed.
Lemma form_rest m M : mdim n m M -> form n B Y (msub M (mmul d Y (form n B Y M))) = mzero.
Proof.
  intros DM. unfold msub, form. rewrite mmul_add_r, mmul_scal_r, mmul_add_r, mmul_scal_r. rewrite <- (mmul_assoc n d B), <- (mmul_assoc n d (madj Y)).
  change (mmul n (madj Y) (mmul n B Y)) with (form n B Y Y). rewrite OY. rewrite (mid_l d m (mmul n (madj Y) (mmul n B M))) by (apply (mdim_mul d n m); [apply mdim_adj; exact DY|apply (mdim_mul n n m); auto]).
  apply mext; intros i j. unfold madd, mscal, mzero. apply C_eq; csimp; ring.
Qed.
Lemma form_rest_any M : form n B Y (msub M (mmul d Y (form n B Y M))) = mzero.
Proof.
  apply mext; intros i j. set (M1 := fun a b => if (a <? n)%nat && (b =? j)%nat then M a b else C0).
  assert (D1 : mdim n (S j) M1) by (intros a b K; unfold M1; destruct (Nat.ltb_spec a n), (Nat.eqb_spec b j); try reflexivity; lia).
  pose proof (f_equal (fun F : mat => F i j) (form_rest (S j) M1 D1)) as E. cbv beta in E. rewrite <- E. 
  assert (K : forall a, (a < n)%nat -> M1 a j = M a j) by (intros a Ha; unfold M1; destruct (Nat.ltb_spec a n); [|lia]; rewrite Nat.eqb_refl; reflexivity).
  unfold form, mmul, msub, madd, mscal. apply csum_ext; intros a Ha. f_equal. apply csum_ext; intros b Hb. f_equal. rewrite K by exact Hb. f_equal. f_equal.
  apply csum_ext; intros x Hx. f_equal. apply csum_ext; intros y Hy. f_equal. apply csum_ext; intros z Hz. rewrite K by exact Hz. reflexivity.
Qed.
Lemma rest_sat M : satisfies n rest M -> satisfies n P M /\ form n B Y M = mzero.
Proof.
  intros E. unfold satisfies in E. rewrite rest_mul in E. split.
  - unfold satisfies. rewrite <- E at 1. unfold msub. rewrite mmul_add_r, mmul_scal_r, <- !mmul_assoc, Idem, SY. exact E.
  - rewrite <- E. apply form_rest_any.
Qed.
Lemma sat_rest M : satisfies n P M -> form n B Y M = mzero -> satisfies n rest M.
Proof.
  intros S F. unfold satisfies. rewrite rest_mul, S, F, mmul_zero_r. apply mext; intros i j. unfold msub, madd, mscal, mzero. apply C_eq; csimp; ring.
Qed.
Lemma rest_idem : mmul n rest rest = rest.
Proof.
  apply sat_rest.
  - unfold satisfies, rest, msub. rewrite mmul_add_r, mmul_scal_r, Idem, <- (mmul_assoc n d P Y), SY. reflexivity.
  - unfold rest. replace (mmul n (mmul n (madj Y) B) P) with (form n B Y P) by (unfold form; rewrite mmul_assoc; reflexivity). apply form_rest_any.
Qed.
End Rest.

Section All.
Variables (n : nat) (P A B : mat).
Hypotheses (DA : mdim n n A) (DB : mdim n n B) (DP : mdim n n P) (HA : hermitian A) (HB : hermitian B) (Idem : mmul n P P = P) (PB : posdef n B).

Lemma mzero_dim a b : mdim a b mzero.
Proof. intros i j _. reflexivity. Qed.
Lemma lowest_none e : lowest n 0 P A B mzero e.
Proof.
  split; [apply mzero_dim|]. split; [apply mmul_zero_r|]. split; [unfold form; rewrite !mmul_zero_r; apply mext; intros i j; unfold mzero, mid; destruct (Nat.ltb_spec i 0); [lia|reflexivity]|].
  split; [|split; [intros; lia|intros; lia]]. intros m X DX SX. unfold form. rewrite !mmul_zero_r. apply mext; intros i j. reflexivity.
Qed.
Lemma orthonormal_at_most k Y : mdim n k Y -> form n B Y Y = mid k -> (k <= n)%nat.
Proof.
  intros DY OY. destruct (Nat.lt_ge_cases n k) as [H|H]; [|exact H]. exfalso.
  destruct (solve n (fun i j => Y i j)) as (c & (j & Hj & Nj) & Ec).
  set (U := fun a b => if (a <? S n)%nat && (b =? 0)%nat then c a else C0).
  assert (YU : mmul k Y U = mzero).
  { apply mext; intros a b. unfold mmul, mzero. destruct (Nat.lt_ge_cases a n) as [Ha|Ha].
    - destruct (Nat.eq_dec b 0) as [->|Nb].
      + rewrite <- (Ec a Ha). replace k with (S n + (k - S n))%nat by lia. rewrite csum_app. rewrite (csum_ext (k - S n) _ (fun _ => C0)); [rewrite csum_0|].
        * rewrite (csum_ext (S n) _ (fun j => (Y a j * c j)%C)); [ring|]. intros l Hl. unfold U. destruct (Nat.ltb_spec l (S n)); [|lia]. reflexivity.
        * intros l Hl. unfold U. destruct (Nat.ltb_spec (S n + l) (S n)); [lia|]. cbn [andb]. ring.
      + rewrite (csum_ext k _ (fun _ => C0)); [apply csum_0|]. intros l Hl. unfold U. destruct (Nat.eqb_spec b 0); [lia|]. rewrite andb_false_r. ring.
    - rewrite (csum_ext k _ (fun _ => C0)); [apply csum_0|]. intros l Hl. rewrite DY by lia. ring. }
  assert (DU : mdim k 1 U) by (intros a b K; unfold U; destruct (Nat.ltb_spec a (S n)), (Nat.eqb_spec b 0); try reflexivity; lia).
  assert (E : form k (mid k) U U = mzero) by (rewrite <- OY; unfold form; transitivity (mmul n (madj (mmul k Y U)) (mmul n B (mmul k Y U))); [rewrite madj_mul, !mmul_assoc; reflexivity|rewrite YU, !mmul_zero_r; reflexivity]).
  pose proof (proj1 (posdef_iff k (mid k)) (posdef_id k) U DU) as K. rewrite E in K. unfold mzero in K. csimp.
  assert (NU : U <> mzero).
  { intros Q. apply Nj. pose proof (f_equal (fun F : mat => F j 0%nat) Q) as R. unfold U, mzero in R. destruct (Nat.ltb_spec j (S n)); [|lia]. exact R. }
  specialize (K NU). lra.
Qed.
Lemma extend k Y e : lowest n k P A B Y e -> (exists X, mdim n 1 X /\ X <> mzero /\ satisfies n (rest n k B P Y) X) -> exists Y' e', lowest n (k + 1) P A B Y' e'.
Proof.
  intros L (X & DX & NX & SX). pose proof L as (DY & SY & OY & _).
  destruct (lowest_one n (rest n k B P Y) A B X DB (rest_dim n k B P Y DB DP DY) HA HB (rest_idem n k B P Y DB Idem DY SY OY) PB DX SX NX) as (M & l & LM).
  exists (hcat k Y M), (fun i => if (i <? k)%nat then e i else l).
  exact (lowest_join_any n k A B P Y (rest n k B P Y) DB DA HB HA DY SY OY (rest_sat n k B P Y DB Idem DY SY OY) (sat_rest n k B P Y) e 1%nat M (fun _ => l) L LM).
Qed.
(** If no field that satisfies the constraint is orthogonal to them, they are all. *)
Lemma no_more m V lam : lowest n m P A B V lam -> ~ (exists X, mdim n 1 X /\ X <> mzero /\ satisfies n (rest n m B P V) X) -> modes n m P A B V lam.
Proof.
  intros L No. pose proof L as (DV & SV & OV & StV & As & _).
  split; [exact DV|]. split; [exact OV|]. split.
  - rewrite (StV m V DV SV), OV. apply (mid_l m m). intros i j K. unfold mdiag. destruct (Nat.ltb_spec i m); cbn [andb]; [|reflexivity]. destruct (Nat.eqb_spec i j); [lia|reflexivity].
  - split; [exact As|]. intros p M DM SM. set (R := msub M (mmul m V (form n B V M))).
    assert (DR : mdim n p R).
    { unfold R, msub. apply mdim_add; [exact DM|]. apply mdim_scal. apply (mdim_mul n m p); [exact DV|]. apply (mdim_mul m n p); [apply mdim_adj; exact DV|apply (mdim_mul n n p); auto]. }
    assert (SR : satisfies n (rest n m B P V) R).
    { apply sat_rest; [|apply form_rest_any; assumption]. unfold satisfies, R, msub. rewrite mmul_add_r, mmul_scal_r, SM, <- mmul_assoc, SV. reflexivity. }
    assert (ZR : R = mzero).
    { apply NNPP. intros N. assert (Ex : exists i j, R i j <> C0).
      { apply NNPP. intros Q. apply N. apply mext; intros i j. unfold mzero. apply NNPP. intros K. apply Q. exists i, j. exact K. }
      destruct Ex as (i & j & Nij). apply No. exists (col R j). split; [exact (col_dim n p R j DR)|]. split; [|exact (col_sat n _ R j SR)].
      intros E. apply Nij. apply (f_equal (fun F : mat => F i 0%nat)) in E. exact E. }
    apply mext; intros i j. apply (f_equal (fun F : mat => F i j)) in ZR. unfold R, msub, madd, mscal, mzero in ZR. revert ZR.
    destruct (M i j) as (x, y), (mmul m V (form n B V M) i j) as (s, t). csimp. intros K. injection K as K1 K2. f_equal; lra.
Qed.
(** All of them, and no more than n. *)
Lemma modes_exist : exists m V lam, (m <= n)%nat /\ lowest n m P A B V lam /\ modes n m P A B V lam.
Proof.
  assert (St : forall k, (exists Y e, lowest n k P A B Y e) \/ exists m V lam, (m < k)%nat /\ lowest n m P A B V lam /\ ~ exists X, mdim n 1 X /\ X <> mzero /\ satisfies n (rest n m B P V) X).
  { induction k as [|k [(Y & e & L)|(m & V & lam & Hm & L)]].
    - left. exists mzero, (fun _ => 0). apply lowest_none.
    - destruct (classic (exists X, mdim n 1 X /\ X <> mzero /\ satisfies n (rest n k B P Y) X)) as [K|K].
      + left. rewrite <- Nat.add_1_r. exact (extend k Y e L K).
      + right. exists k, Y, e. split; [lia|]. split; [exact L|exact K].
    - right. exists m, V, lam. split; [lia|exact L]. }
  destruct (St (S n)) as [(Y & e & (DY & _ & OY & _))|(m & V & lam & Hm & L & No)]; [pose proof (orthonormal_at_most _ _ DY OY); lia|].
  exists m, V, lam. split; [|split; [exact L|exact (no_more m V lam L No)]]. pose proof L as (DV & _ & OV & _). exact (orthonormal_at_most _ _ DV OV).
Qed.
End All.
