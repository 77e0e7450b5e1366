(** Slices of matrices, and the constraint of a block that is kept orthogonal to the bands before. *)
From Coq Require Import List ZArith Reals Bool Arith Lia Lra.
From Verif Require Import Base RC Loops M_Evect M_Eig M_Kpt S_Evect S_Eig S_Kpt L_Mat L_Eig2 L_Eig4 L_Eig5 L_Eig7.
Import ListNotations.
Local Open Scope R_scope.
Add Ring Cring_k1 : C_ring_theory.

Definition mzero : mat := fun _ _ => C0.

Lemma slice_dim n m a q M : mdim n m M -> mdim n q (slice a q M).
Proof. intros D i j H. unfold slice. destruct (Nat.ltb_spec j q); [apply D; lia|reflexivity]. Qed.
Lemma slice_all n m M : mdim n m M -> slice 0 m M = M.
Proof. intros D. apply mext; intros i j. unfold slice. destruct (Nat.ltb_spec j m); [reflexivity|]. symmetry. apply D. lia. Qed.
Lemma mmul_slice k P a q M : mmul k P (slice a q M) = slice a q (mmul k P M).
Proof.
  apply mext; intros i j. unfold slice, mmul. destruct (Nat.ltb_spec j q); [reflexivity|].
  rewrite (csum_ext k _ (fun _ => C0)) by (intros; ring). apply csum_0.
Qed.
Lemma satisfies_slice n P a q M : satisfies n P M -> satisfies n P (slice a q M).
Proof. unfold satisfies. intros E. rewrite mmul_slice, E. reflexivity. Qed.
Lemma form_slice n A a q b r M N i j : form n A (slice a q M) (slice b r N) i j =
  if (i <? q)%nat && (j <? r)%nat then form n A M N (a + i)%nat (b + j)%nat else C0.
Proof.
  unfold form. rewrite mmul_slice. unfold mmul at 1, madj, slice. destruct (Nat.ltb_spec i q), (Nat.ltb_spec j r); cbn [andb];
    [reflexivity|rewrite (csum_ext n _ (fun _ => C0)) by (intros; csimp; try apply C_eq; csimp; ring); apply csum_0..].
Qed.

(** Two groups of columns side by side. *)
Definition hcat (d : nat) (Y M : mat) : mat := fun i j => if (j <? d)%nat then Y i j else M i (j - d)%nat.
Lemma hcat_dim n d q Y M : mdim n d Y -> mdim n q M -> mdim n (d + q) (hcat d Y M).
Proof. intros D1 D2 i j H. unfold hcat. destruct (Nat.ltb_spec j d); [apply D1; lia|apply D2; lia]. Qed.
Lemma mmul_hcat k P d Y M : mmul k P (hcat d Y M) = hcat d (mmul k P Y) (mmul k P M).
Proof. apply mext; intros i j. unfold mmul, hcat. destruct (Nat.ltb_spec j d); reflexivity. Qed.
Lemma form_hcat_r n A d X Y M i j : form n A X (hcat d Y M) i j = if (j <? d)%nat then form n A X Y i j else form n A X M i (j - d)%nat.
Proof. unfold form. rewrite mmul_hcat. unfold mmul at 1. unfold hcat. destruct (Nat.ltb_spec j d); reflexivity. Qed.
Lemma form_hcat_l n A d X Y M i j : form n A (hcat d Y M) X i j = if (i <? d)%nat then form n A Y X i j else form n A M X (i - d)%nat j.
Proof. unfold form, mmul at 1, madj, hcat. destruct (Nat.ltb_spec i d); reflexivity. Qed.
Lemma slice_hcat n d q Y M : mdim n d Y -> mdim n q M -> slice 0 d (hcat d Y M) = Y /\ slice d q (hcat d Y M) = M.
Proof.
  intros D1 D2. split; apply mext; intros i j; unfold slice, hcat.
  - cbn [Nat.add]. destruct (Nat.ltb_spec j d); [reflexivity|symmetry; apply D1; lia].
  - destruct (Nat.ltb_spec j q); [|symmetry; apply D2; lia]. destruct (Nat.ltb_spec (d + j) d); [lia|]. f_equal. lia.
Qed.

Lemma form_adj n A X Y : hermitian A -> madj (form n A X Y) = form n A Y X.
Proof. intros H. unfold form. rewrite !madj_mul, madj_adj, H, mmul_assoc. reflexivity. Qed.
Lemma mmul_zero_l k M : mmul k mzero M = mzero.
Proof. apply mext; intros i j. unfold mmul, mzero. rewrite (csum_ext k _ (fun _ => C0)) by (intros; ring). apply csum_0. Qed.
Lemma mmul_zero_r k M : mmul k M mzero = mzero.
Proof. apply mext; intros i j. unfold mmul, mzero. rewrite (csum_ext k _ (fun _ => C0)) by (intros; ring). apply csum_0. Qed.
Lemma madj_zero : madj mzero = mzero.
Proof. apply mext; intros i j. unfold madj, mzero. apply C_eq; csimp; ring. Qed.

(** * The projection for a block *)

Section Defl.
Variables (n d : nat) (A B P0 Y : mat).
Hypotheses (DB : mdim n n B) (DP : mdim n n P0) (HB : hermitian B) (HP : hermitian P0) (Idem : mmul n P0 P0 = P0) (Comm : mmul n P0 B = mmul n B P0).
Hypotheses (DY : mdim n d Y) (SY : satisfies n P0 Y) (OY : form n B Y Y = mid d).

Definition yyb : mat := mmul d Y (mmul n (madj Y) B).
Definition dproj : mat := mmul n P0 (msub (mid n) yyb).

Lemma yb_p0 : mmul n (mmul n (madj Y) B) P0 = mmul n (madj Y) B.
Proof.
  rewrite mmul_assoc, <- Comm, <- mmul_assoc. f_equal. pose proof (f_equal madj SY) as E. rewrite madj_mul, HP in E. exact E.
Qed.
Lemma yyb_dim : mdim n n yyb.
Proof. apply (mdim_mul n d n); [exact DY|]. apply (mdim_mul d n n); [apply mdim_adj; exact DY|exact DB]. Qed.
Lemma dproj_eq : dproj = msub P0 yyb.
Proof.
  unfold dproj, msub. rewrite mmul_add_r, mmul_scal_r. rewrite (mid_r n n P0 DP). f_equal. f_equal. unfold yyb. rewrite <- mmul_assoc. f_equal. exact SY.
Qed.
Lemma yyb_p0 : mmul n yyb P0 = yyb.
Proof. unfold yyb. rewrite mmul_assoc, yb_p0. reflexivity. Qed.
Lemma p0_yyb : mmul n P0 yyb = yyb.
Proof. unfold yyb. rewrite <- mmul_assoc. f_equal. exact SY. Qed.
Lemma yyb_yyb : mmul n yyb yyb = yyb.
Proof.
  unfold yyb. rewrite mmul_assoc. f_equal. rewrite <- mmul_assoc. replace (mmul n (mmul n (madj Y) B) Y) with (mid d).
  - apply (mid_l d n). apply (mdim_mul d n n); [apply mdim_adj; exact DY|exact DB].
  - rewrite mmul_assoc. symmetry. exact OY.
Qed.
Lemma dproj_dim : mdim n n dproj.
Proof. rewrite dproj_eq. unfold msub. apply mdim_add; [exact DP|]. apply mdim_scal. exact yyb_dim. Qed.
Lemma dproj_idem : mmul n dproj dproj = dproj.
Proof.
  rewrite dproj_eq. unfold msub. rewrite mmul_add_l, !mmul_add_r, !mmul_scal_l, !mmul_scal_r, Idem, p0_yyb, yyb_p0, yyb_yyb.
  apply mext; intros i j. unfold madd, mscal. apply C_eq; csimp; ring.
Qed.
(** What it means for a block. *)
Lemma dproj_sat M : satisfies n dproj M -> satisfies n P0 M /\ form n B Y M = mzero.
Proof.
  intros E. unfold satisfies in E. split.
  - unfold satisfies. transitivity (mmul n P0 (mmul n dproj M)); [rewrite E; reflexivity|]. rewrite <- mmul_assoc. replace (mmul n P0 dproj) with dproj; [exact E|].
    unfold dproj. rewrite <- mmul_assoc, Idem. reflexivity.
  - assert (QY : mmul n (mmul n (madj Y) B) yyb = mmul n (madj Y) B).
    { unfold yyb. rewrite <- (mmul_assoc n d). replace (mmul n (mmul n (madj Y) B) Y) with (mid d) by (rewrite mmul_assoc; symmetry; exact OY).
      apply (mid_l d n). apply (mdim_mul d n n); [apply mdim_adj; exact DY|exact DB]. }
    unfold form. rewrite <- mmul_assoc, <- E, dproj_eq, <- mmul_assoc. unfold msub. rewrite mmul_add_r, mmul_scal_r, yb_p0, QY.
    apply mext; intros i j. unfold mmul at 1, madd, mscal, mzero. rewrite (csum_ext n _ (fun _ => C0)); [apply csum_0|]. intros l Hl. apply C_eq; csimp; ring.
Qed.
Lemma sat_dproj M : satisfies n P0 M -> form n B Y M = mzero -> satisfies n dproj M.
Proof.
  intros E F. unfold satisfies. rewrite dproj_eq. unfold msub. rewrite mmul_add_l, mmul_scal_l, E. unfold yyb. rewrite !mmul_assoc. change (mmul n (madj Y) (mmul n B M)) with (form n B Y M). rewrite F, mmul_zero_r.
  apply mext; intros i j. unfold madd, mscal, mzero. apply C_eq; csimp; ring.
Qed.

(** * Putting the block behind the bands before *)

Lemma ritz_orth q M e : ritz_fields n q dproj A B M e ->
  satisfies n P0 (hcat d Y M) /\ form n B (hcat d Y M) (hcat d Y M) = mid (d + q).
Proof.
  intros (DM & SM & OM & _). destruct (dproj_sat M SM) as (S0 & F0). split.
  - unfold satisfies. rewrite mmul_hcat, SY, S0. reflexivity.
  - assert (F1 : form n B M Y = mzero) by (rewrite <- (form_adj n B Y M HB), F0; apply madj_zero).
    apply mext; intros i j. rewrite form_hcat_l, !form_hcat_r, OY, OM, F0, F1. unfold mid, mzero.
    destruct (Nat.ltb_spec i d), (Nat.ltb_spec j d), (Nat.ltb_spec i (d + q)); try destruct (Nat.ltb_spec (i - d) q); try lia; cbn [andb]; try reflexivity;
      destruct (Nat.eqb_spec i j); try destruct (Nat.eqb_spec (i - d) (j - d)); try lia; reflexivity.
Qed.

Hypotheses (DA : mdim n n A) (HA : hermitian A).

Lemma lowest_join e q M e2 : lowest n d P0 A B Y e -> lowest n q dproj A B M e2 ->
  lowest n (d + q) P0 A B (hcat d Y M) (fun i => if (i <? d)%nat then e i else e2 (i - d)%nat).
Proof.
  intros (_ & _ & _ & StY & AscY & LowY) (DM & SM & OM & StM & AscM & LowM).
  destruct (dproj_sat M SM) as (S0 & F0).
  assert (F1 : form n B M Y = mzero) by (rewrite <- (form_adj n B Y M HB), F0; apply madj_zero).
  assert (FA1 : form n A M Y = mzero) by (rewrite (StY q M DM S0), F1; apply mmul_zero_l).
  assert (FA0 : form n A Y M = mzero) by (rewrite <- (form_adj n A M Y HA), FA1; apply madj_zero).
  assert (FAM : form n A M M = mdiag q e2).
  { rewrite (StM q M DM SM), OM. apply (mid_l q q). intros i j H. unfold mdiag. destruct (Nat.ltb_spec i q); cbn [andb]; [|reflexivity]. destruct (Nat.eqb_spec i j); [lia|reflexivity]. }
  split; [apply hcat_dim; assumption|]. split; [unfold satisfies; rewrite mmul_hcat, SY, S0; reflexivity|]. split.
  { apply (ritz_orth q M e2). split; [exact DM|]. split; [exact SM|]. split; [exact OM|]. split; [exact FAM|exact AscM]. }
  split; [|split].
  - intros m X DX SX.
    assert (EM : form n A X M = mmul q (form n B X M) (mdiag q e2)).
    { set (X1 := msub X (mmul d Y (form n B Y X))).
      assert (B1 : form n B Y X1 = mzero).
      { unfold X1, msub, form. rewrite mmul_add_r, mmul_scal_r, mmul_add_r, mmul_scal_r. rewrite <- (mmul_assoc n d B), <- (mmul_assoc n d (madj Y)).
        change (mmul n (madj Y) (mmul n B Y)) with (form n B Y Y). rewrite OY. rewrite (mid_l d m (mmul n (madj Y) (mmul n B X))) by (apply (mdim_mul d n m); [apply mdim_adj; exact DY|apply (mdim_mul n n m); auto]).
        apply mext; intros i j. unfold madd, mscal, mzero. apply C_eq; csimp; ring. }
      assert (S1 : satisfies n dproj X1).
      { apply sat_dproj; [|exact B1]. unfold satisfies, X1, msub. rewrite mmul_add_r, mmul_scal_r, SX, <- mmul_assoc, SY. reflexivity. }
      assert (D1 : mdim n m X1).
      { unfold X1, msub. apply mdim_add; [exact DX|]. apply mdim_scal. apply (mdim_mul n d m); [exact DY|]. apply (mdim_mul d n m); [apply mdim_adj; exact DY|apply (mdim_mul n n m); auto]. }
      assert (Sub : forall H, form n H Y M = mzero -> form n H X1 M = form n H X M).
      { intros H E. unfold form, X1, msub. rewrite madj_add, madj_scal, madj_mul, mmul_add_l, mmul_scal_l, mmul_assoc. change (mmul n (madj Y) (mmul n H M)) with (form n H Y M). rewrite E, mmul_zero_r.
        apply mext; intros i j. unfold madd, mscal, mzero. apply C_eq; csimp; ring. }
      rewrite <- (Sub A FA0), <- (Sub B F0). apply (StM m X1 D1 S1). }
    pose proof (StY m X DX SX) as EY. apply mext; intros i j. rewrite form_hcat_r. unfold mmul.
    rewrite (csum_ext (d + q) _ (fun l => if (l =? j)%nat then (form n B X (hcat d Y M) i j * RtoC (if (j <? d)%nat then e j else e2 (j - d)%nat))%C else C0)).
    2: { intros l Hl. unfold mdiag. destruct (Nat.ltb_spec l (d + q)); [|lia]. cbn [andb]. destruct (Nat.eqb_spec l j) as [->|]; [reflexivity|ring]. }
    destruct (Nat.ltb_spec j d) as [Hj|Hj].
    + rewrite (csum_single (d + q) j); [|lia|intros l _ N; destruct (Nat.eqb_spec l j); [congruence|reflexivity]]. rewrite Nat.eqb_refl, form_hcat_r. destruct (Nat.ltb_spec j d); [|lia].
      rewrite EY. unfold mmul. rewrite (csum_single d j); [|exact Hj|intros l Hl N; unfold mdiag; destruct (Nat.eqb_spec l j); [congruence|rewrite andb_false_r; ring]].
      unfold mdiag. destruct (Nat.ltb_spec j d); [|lia]. rewrite Nat.eqb_refl. reflexivity.
    + destruct (Nat.lt_ge_cases j (d + q)) as [Hq|Hq].
      * rewrite (csum_single (d + q) j); [|lia|intros l _ N; destruct (Nat.eqb_spec l j); [congruence|reflexivity]]. rewrite Nat.eqb_refl, form_hcat_r. destruct (Nat.ltb_spec j d); [lia|].
        rewrite EM. unfold mmul. rewrite (csum_single q (j - d)); [|lia|intros l Hl N; unfold mdiag; destruct (Nat.eqb_spec l (j - d)); [congruence|rewrite andb_false_r; ring]].
        unfold mdiag. destruct (Nat.ltb_spec (j - d) q); [|lia]. rewrite Nat.eqb_refl. reflexivity.
      * rewrite (csum_ext (d + q) _ (fun _ => C0)) by (intros l Hl; destruct (Nat.eqb_spec l j); [lia|reflexivity]). rewrite csum_0.
        unfold form, mmul at 1. rewrite (csum_ext n _ (fun _ => C0)); [apply csum_0|]. intros l Hl. rewrite (mdim_mul n n q A M DA DM l (j - d)%nat) by lia. ring.
  - intros i j Hij. destruct (Nat.ltb_spec i d), (Nat.ltb_spec j d); try lia; [apply AscY; lia| |apply AscM; lia].
    set (X := slice (j - d) 1 M). assert (DX : mdim n 1 X) by (apply (slice_dim n q); exact DM).
    pose proof (LowY i X ltac:(lia) DX (satisfies_slice _ _ _ _ _ S0)) as L.
    assert (Z : form n B Y X = (fun _ _ => C0)).
    { apply mext; intros a b. unfold X. rewrite <- (slice_all n d Y DY), form_slice, F0. destruct (_ && _); reflexivity. }
    specialize (L Z). unfold X in L. rewrite !form_slice, OM, FAM in L. cbn [Nat.ltb Nat.leb andb] in L. rewrite Nat.add_0_r in L. unfold mid, mdiag in L. rewrite Nat.eqb_refl in L. destruct (Nat.ltb_spec (j - d) q); [|lia]. cbn [andb] in L. revert L. csimp. lra.
  - intros i X Hi DX SX Z.
    assert (ZY : form n B Y X = (fun _ _ => C0)).
    { apply mext; intros a b. destruct (Nat.lt_ge_cases a d) as [Ha|Ha].
      - pose proof (f_equal (fun f => f a b) Z) as E. cbv beta in E. rewrite form_hcat_l in E. destruct (Nat.ltb_spec a d); [exact E|lia].
      - unfold form, mmul at 1. rewrite (csum_ext n _ (fun _ => C0)); [apply csum_0|]. intros l Hl. rewrite (mdim_adj n d Y DY a l) by lia. ring. }
    assert (ZM : form n B M X = (fun _ _ => C0)).
    { apply mext; intros a b. pose proof (f_equal (fun f => f (d + a)%nat b) Z) as E. cbv beta in E. rewrite form_hcat_l in E. destruct (Nat.ltb_spec (d + a) d); [lia|]. replace (d + a - d)%nat with a in E by lia. exact E. }
    destruct (Nat.ltb_spec i d); [apply LowY; auto|]. apply LowM; auto; [lia|]. apply sat_dproj; auto.
Qed.
End Defl.
