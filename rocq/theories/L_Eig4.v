(** Positive-definite matrices; the square root. *)
From Coq Require Import List ZArith Reals Bool Arith Lia Lra FunctionalExtensionality.
From Verif Require Import Base RC Loops M_Evect M_Lin M_Eig S_Evect S_Eig L_Evect L_Evect3 L_Mat L_Eig L_Eig2 L_Eig3 L_Op.
Import ListNotations.
Local Open Scope R_scope.
Add Ring Cring_e : C_ring_theory.

Lemma rd_nth {A} (l : list A) i d : (0 <= i < Z.of_nat (length l))%Z -> rd l i = Val (nth (Z.to_nat i) l d).
Proof.
  intros H. unfold rd. destruct (Z.ltb_spec i 0); [lia|]. destruct (nth_error l (Z.to_nat i)) as [v|] eqn:E; [rewrite (nth_error_nth _ _ d E); reflexivity|]. apply nth_error_None in E. lia.
Qed.
Definition mzero : mat := fun _ _ => C0.
Lemma C_dec (z : C) : {z = C0} + {z <> C0}.
Proof.
  destruct (Req_EM_T (re z) 0) as [E1|E1], (Req_EM_T (im z) 0) as [E2|E2]; [left; apply C_eq; [exact E1|exact E2]|right..]; intros Q; rewrite Q in *; cbn in *; auto.
Qed.
Definition cvec (p : nat) (v : nat -> C) : mat := fun i j => if ((i <? p) && (j =? 0))%nat then v i else C0.
Lemma cvec_dim p v : mdim p 1 (cvec p v).
Proof. intros i j H. unfold cvec. destruct (Nat.ltb_spec i p), (Nat.eqb_spec j 0); try reflexivity. lia. Qed.
Lemma qf_eq p M v : csum p (fun i => csum p (fun j => (Cconj (v i) * (M i j * v j))%C)) = form p M (cvec p v) (cvec p v) 0%nat 0%nat.
Proof.
  unfold form, mmul, madj. apply csum_ext; intros i Hi. rewrite <- csum_scal. apply csum_ext; intros j Hj. unfold cvec.
  destruct (Nat.ltb_spec i p), (Nat.ltb_spec j p); try lia. reflexivity.
Qed.
Lemma mat_nonzero p V : mdim p 1 V -> V <> mzero -> exists i, (i < p)%nat /\ V i 0%nat <> C0.
Proof.
  intros D Nz. destruct (List.Exists_dec (fun a => V a 0%nat <> C0) (seq 0 p)) as [Hex|Hno].
  - intros a. destruct (C_dec (V a 0%nat)); [right; auto|left; auto].
  - apply Exists_exists in Hex. destruct Hex as (a & Ha & Na). apply in_seq in Ha. exists a. split; [lia|exact Na].
  - exfalso. apply Nz. apply mext; intros i j. unfold mzero. destruct (Nat.lt_ge_cases i p); [|apply D; lia]. destruct j; [|apply D; lia].
    destruct (C_dec (V i 0%nat)) as [E|E]; [exact E|]. exfalso. apply Hno. apply Exists_exists. exists i. split; [apply in_seq; lia|exact E].
Qed.
Lemma posdef_iff p M : posdef p M <-> forall V, mdim p 1 V -> V <> mzero -> 0 < re (form p M V V 0%nat 0%nat).
Proof.
  split.
  - intros Pd V D Nz. destruct (mat_nonzero p V D Nz) as (i & Hi & Hv). specialize (Pd (fun i => V i 0%nat)). rewrite qf_eq in Pd.
    replace (cvec p (fun i => V i 0%nat)) with V in Pd; [apply Pd; exists i; auto|]. apply mext; intros a b. unfold cvec.
    destruct (Nat.ltb_spec a p), (Nat.eqb_spec b 0); subst; cbn [andb]; try reflexivity; apply D; lia.
  - intros H v (i & Hi & Hv). rewrite qf_eq. apply H; [apply cvec_dim|]. intros E. apply Hv. apply (f_equal (fun F : mat => F i 0%nat)) in E. unfold cvec, mzero in E.
    destruct (Nat.ltb_spec i p); [|lia]. exact E.
Qed.
Lemma form_congr p M T V : form p (mmul p (madj T) (mmul p M T)) V V = form p M (mmul p T V) (mmul p T V).
Proof. unfold form. rewrite madj_mul, !mmul_assoc. reflexivity. Qed.
Lemma mmul_zero_r k A : mmul k A mzero = mzero.
Proof. apply mext; intros i j. unfold mmul, mzero. transitivity (csum k (fun _ => C0)); [apply csum_ext; intros; cring|apply csum_0]. Qed.
Lemma mmul_zero_l k A : mmul k mzero A = mzero.
Proof. apply mext; intros i j. unfold mmul, mzero. transitivity (csum k (fun _ => C0)); [apply csum_ext; intros; cring|apply csum_0]. Qed.
Lemma posdef_congr p M T T' : mdim p p T -> mmul p T' T = mid p -> posdef p M -> posdef p (mmul p (madj T) (mmul p M T)).
Proof.
  intros DT HT Pd. rewrite posdef_iff in *. intros V DV Nz. rewrite form_congr. apply Pd; [apply (mdim_mul p p 1); auto|]. intros E. apply Nz.
  rewrite <- (mid_l p 1 V DV), <- HT, mmul_assoc, E. apply mmul_zero_r.
Qed.
Lemma posdef_inverse p M N : mdim p p M -> hermitian M -> inverse_of p M N -> posdef p M -> posdef p N.
Proof.
  intros DM Hh HN Pd. destruct (inv_both p M N DM Hh HN) as (HhN & NM). destruct HN as (DN & MN).
  pose proof (posdef_congr p M N M DN MN Pd) as Q. rewrite MN in Q. rewrite (mid_r p p) in Q by (apply mdim_adj; exact DN). unfold hermitian in HhN. rewrite HhN in Q. exact Q.
Qed.
Lemma posdef_id p : posdef p (mid p).
Proof.
  apply posdef_iff. intros V DV Nz. destruct (mat_nonzero p V DV Nz) as (i & Hi & Hv). unfold form. rewrite (mid_l p 1) by exact DV. unfold mmul, madj.
  rewrite csum_re. apply Rlt_le_trans with (re (Cconj (V i 0%nat) * V i 0%nat)%C).
  - rewrite normsqr_conj. change (0 < normsqr (V i 0%nat)). unfold normsqr. destruct (V i 0%nat) as (a & b). cbn in *.
    destruct (Req_EM_T a 0) as [->|Ha]; [|nra]. destruct (Req_EM_T b 0) as [->|Hb]; [|nra]. exfalso. apply Hv. reflexivity.
  - apply (rsum_le_one p (fun l => re (Cconj (V l 0%nat) * V l 0%nat)%C)); [|exact Hi]. intros l Hl. rewrite normsqr_conj. change (0 <= normsqr (V l 0%nat)). unfold normsqr. nra.
Qed.

Section Sqrt.
Variables (p : nat) (heev : Z -> list C -> list C * list R).
Hypothesis Hok : heev_ok p heev.
Lemma mdiag_dim e : mdim p p (mdiag p e).
Proof. intros a b Hab. unfold mdiag. destruct (Nat.ltb_spec a p); [|reflexivity]. destruct (Nat.eqb_spec a b); [lia|reflexivity]. Qed.
Lemma mdiag_l e V : mmul p (mdiag p e) V = fun i j => if (i <? p)%nat then (RtoC (e i) * V i j)%C else C0.
Proof.
  apply mext; intros i j. unfold mmul, mdiag. destruct (Nat.ltb_spec i p); cbn [andb].
  - rewrite (csum_single p i); [rewrite Nat.eqb_refl; reflexivity|lia|]. intros l Hl Nl. destruct (Nat.eqb_spec i l); [congruence|]. apply C_eq; csimp; ring.
  - transitivity (csum p (fun _ => C0)); [apply csum_ext; intros; cring|apply csum_0].
Qed.
Lemma mdiag_mul e f : mmul p (mdiag p e) (mdiag p f) = mdiag p (fun i => e i * f i).
Proof.
  rewrite mdiag_l. apply mext; intros i j. unfold mdiag. destruct (Nat.ltb_spec i p); cbn [andb]; [|reflexivity]. destruct (Nat.eqb i j); [rewrite RtoC_mul; reflexivity|apply C_eq; csimp; ring].
Qed.
Lemma mdiag_adj e : madj (mdiag p e) = mdiag p e.
Proof.
  apply mext; intros i j. unfold madj, mdiag. destruct (Nat.eqb_spec j i) as [->|Ne].
  - rewrite Nat.eqb_refl. destruct (i <? p)%nat; cbn [andb]; [apply Cconj_R|apply Cconj_0].
  - destruct (Nat.eqb_spec i j); [congruence|]. rewrite !andb_false_r. apply Cconj_0.
Qed.

Local Open Scope Z_scope.
Lemma eigensolve_ok U M : square p U M -> hermitian M ->
  exists Vs e V, eigensolve heev U = (Vs, e) /\ length e = p /\ square p Vs V /\ mmul p V (madj V) = mid p /\ mmul p (madj V) V = mid p /\
    M = mmul p (madj V) (mmul p (mdiag p (fun i => nth i e 0%R)) V) /\ (forall i j, (i <= j < p)%nat -> (nth i e 0 <= nth j e 0)%R).
Proof.
  intros HU Hh. destruct (Hok (sdata U) M) as (L1 & L2 & V & HV & VV & VV' & EM & Asc); [apply HU|exact Hh|]. unfold eigensolve. rewrite (proj1 HU).
  destruct (heev (Z.of_nat p) (sdata U)) as (d & e). cbn [fst snd] in *. exists (sset U d), e, V. split; [reflexivity|]. split; [exact L2|]. split; [apply (square_set p U M); auto|]. auto.
Qed.
Lemma sqrt_ok Us MUs U M W MW : square p Us MUs -> square p U M -> square p W MW -> hermitian M -> posdef p M ->
  exists Q MQ, sqmatrix_sqrt heev Us U W = Val Q /\ square p Q MQ /\ hermitian MQ /\ mmul p MQ MQ = M.
Proof.
  intros HUs HU HW Hh Pd. unfold sqmatrix_sqrt, check. rewrite (proj1 HUs), (proj1 HU), (proj1 HW), !Z.eqb_refl. cbn [andb bind].
  destruct (eigensolve_ok U M HU Hh) as (Vs & e & V & -> & Le & HV & VV & VV' & EM & _).
  set (ev := fun i => nth i e 0%R) in *. set (z := Z.of_nat p).
  assert (DV : mdim p p V) by apply (square_dim _ _ _ HV).
  assert (Pos : forall i, (i < p)%nat -> (0 < ev i)%R) by (intros i Hi; apply (posdef_row p M V ev i); auto).
  pose proof (square_len _ _ _ HV) as LV. pose proof (square_len _ _ _ HW) as LW.
  rewrite (forZ_ext 0 z _ (fun i w => forZ 0 z (fun j w => let! v := (let! v := rd (sdata Vs) (i * z + j) in Val (Cscal (sqrt (ev (Z.to_nat i))) v)) in wr w (i * z + j) v) w)).
  2: { intros i w Hi. rewrite (rd_nth e i 0%R) by lia. cbn [bind]. fold (ev (Z.to_nat i)). destruct (Rltb_spec 0 (ev (Z.to_nat i))) as [|N]; [|exfalso; apply N; apply Pos; lia]. cbn [bind].
       apply forZ_ext. intros j w' Hj. destruct (rd (sdata Vs) (i * z + j)); reflexivity. }
  destruct (write2_ok (fun i j => i * z + j) (fun i j (_ : list C) => let! v := rd (sdata Vs) (i * z + j) in Val (Cscal (sqrt (ev (Z.to_nat i))) v))
    (fun i j => Cscal (sqrt (ev (Z.to_nat i))) (V (Z.to_nat i) (Z.to_nat j))) z z ltac:(lia) ltac:(lia) (sdata W)) as (w & E & L & Q & _).
  - intros i j Hi Hj. nia.
  - intros i j i' j' Hi Hj Hi' Hj' Eq. apply (rowinj z); lia.
  - intros i j d1 Hi Hj _ _. rewrite gets_in by nia. cbn [bind]. unfold z. rewrite (rep_gets p p _ V) by (try apply HV; lia). reflexivity.
  - rewrite E. cbn [bind]. set (r := fun i => sqrt (ev i)).
    assert (HW' : square p (sset W w) (mmul p (mdiag p r) V)).
    { apply (square_set p W MW); [exact HW|exact L|]. apply rep_of; [lia|apply (mdim_mul p p p); [apply mdiag_dim|exact DV]|]. intros i j Hi Hj. unfold gets. fold z. rewrite (Q i j Hi Hj).
      rewrite mdiag_l. destruct (Nat.ltb_spec (Z.to_nat i) p); [|lia]. unfold r. apply C_eq; csimp; ring. }
    destruct (AeBC_ok p Us MUs Vs V true (sset W w) (mmul p (mdiag p r) V) false HUs HV HW') as (X & EX & HX). exists X, (mmul p (madj V) (mmul p (mdiag p r) V)). split; [exact EX|]. split; [exact HX|]. split.
    + unfold hermitian. rewrite !madj_mul, madj_adj, mdiag_adj, mmul_assoc. reflexivity.
    + rewrite EM, !mmul_assoc. f_equal. rewrite <- (mmul_assoc p p V (madj V)), VV. rewrite (mid_l p p) by (apply (mdim_mul p p p); [apply mdiag_dim|exact DV]).
      rewrite <- (mmul_assoc p p (mdiag p r) (mdiag p r)), mdiag_mul. f_equal. apply mext; intros i j. unfold mdiag. destruct (Nat.ltb_spec i p); cbn [andb]; [|reflexivity].
      unfold r. rewrite sqrt_sqrt; [reflexivity|]. left. apply Pos. auto.
Qed.
End Sqrt.
