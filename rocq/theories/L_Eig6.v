(** The trace along a line: value, first and second derivative. *)
From Coq Require Import List ZArith Reals Bool Arith Lia Lra.
From Verif Require Import Base RC Loops M_Evect M_Lin M_Eig S_Evect S_Eig L_Evect L_Evect3 L_Mat L_Eig L_Eig2 L_Eig3 L_Eig4 L_Eig5.
Import ListNotations.
Local Open Scope R_scope.
Add Ring Cring_e : C_ring_theory.

Definition combm (c s : R) (F D S : mat) : mat := madd (madd (mscal (c * c) F) (mscal (s * s) D)) (mscal (2 * s * c) S).
Definition dcomb (x : R) (F D S : mat) : mat := madd (mscal (- / 2 * sin (2 * x)) (madd F (mscal (-1) D))) (mscal (cos (2 * x)) S).
Lemma comb_dim p c s F D S : mdim p p F -> mdim p p D -> mdim p p S -> mdim p p (combm c s F D S).
Proof. intros. unfold combm. repeat apply mdim_add; apply mdim_scal; auto. Qed.
Lemma comb_herm c s F D S : hermitian F -> hermitian D -> hermitian S -> hermitian (combm c s F D S).
Proof. unfold hermitian. intros H1 H2 H3. unfold combm. rewrite !madj_add, !madj_scal, H1, H2, H3. reflexivity. Qed.
Lemma dcomb_herm x F D S : hermitian F -> hermitian D -> hermitian S -> hermitian (dcomb x F D S).
Proof. unfold hermitian. intros H1 H2 H3. unfold dcomb. rewrite !madj_add, !madj_scal, !madj_add, !madj_scal, H1, H2, H3. reflexivity. Qed.

Lemma der_cos2 x : derivable_pt_lim (fun t => cos t * cos t) x (- sin (2 * x)).
Proof.
  replace (- sin (2 * x)) with (- sin x * cos x + cos x * - sin x) by (rewrite sin_2a; ring).
  apply (derivable_pt_lim_mult cos cos); apply derivable_pt_lim_cos.
Qed.
Lemma der_sin2 x : derivable_pt_lim (fun t => sin t * sin t) x (sin (2 * x)).
Proof.
  replace (sin (2 * x)) with (cos x * sin x + sin x * cos x) by (rewrite sin_2a; ring).
  apply (derivable_pt_lim_mult sin sin); apply derivable_pt_lim_sin.
Qed.
Lemma der_sincos x : derivable_pt_lim (fun t => 2 * sin t * cos t) x (2 * cos (2 * x)).
Proof.
  replace (2 * cos (2 * x)) with (2 * cos x * cos x + 2 * sin x * - sin x) by (rewrite cos_2a; ring).
  apply (derivable_pt_lim_mult (fun t => 2 * sin t) cos); [|apply derivable_pt_lim_cos]. apply (derivable_pt_lim_scal sin 2). apply derivable_pt_lim_sin.
Qed.
Lemma comb_der F D S x : mder (fun t => combm (cos t) (sin t) F D S) x (mscal 2 (dcomb x F D S)).
Proof.
  eapply mder_eq; [|unfold combm; apply (mder_add (fun t => madd (mscal (cos t * cos t) F) (mscal (sin t * sin t) D)) (fun t => mscal (2 * sin t * cos t) S));
    [apply (mder_add (fun t => mscal (cos t * cos t) F) (fun t => mscal (sin t * sin t) D)); apply (mder_scal_c (fun t => _)); [apply der_cos2|apply der_sin2]|apply (mder_scal_c (fun t => _)); apply der_sincos]].
  apply mext; intros i j. unfold dcomb, madd, mscal. apply C_eq; csimp; field.
Qed.
Lemma der_2x x : derivable_pt_lim (fun t => 2 * t) x 2.
Proof. pose proof (derivable_pt_lim_scal (fun t => t) 2 x 1 (derivable_pt_lim_id x)) as H. rewrite Rmult_1_r in H. exact H. Qed.
Lemma dcomb_der F D S x : mder (fun t => dcomb t F D S) x (mscal (-1) (madd (mscal (cos (2 * x)) (madd F (mscal (-1) D))) (mscal (2 * sin (2 * x)) S))).
Proof.
  eapply mder_eq; [|unfold dcomb; apply (mder_add (fun t => mscal (- / 2 * sin (2 * t)) (madd F (mscal (-1) D))) (fun t => mscal (cos (2 * t)) S)); apply (mder_scal_c (fun t => _))].
  2: { apply (derivable_pt_lim_scal (fun t => sin (2 * t)) (- / 2)). apply (derivable_pt_lim_comp (fun t => 2 * t) sin); [apply der_2x|apply derivable_pt_lim_sin]. }
  2: { apply (derivable_pt_lim_comp (fun t => 2 * t) cos); [apply der_2x|apply derivable_pt_lim_cos]. }
  apply mext; intros i j. unfold dcomb, madd, mscal. apply C_eq; csimp; field.
Qed.

(** The Lagrange term of the trace and its derivative. *)
Definition lagt (d : tfd) (x : R) : R :=
  (cos x * cos x * t_YtLY d + sin x * sin x * t_DtLD d + 2 * sin x * cos x * t_YtLD d) * (cos x * t_lag d + sin x * t_d_lag d).
Definition lagd (d : tfd) (x : R) : R :=
  (- sin (2 * x) * t_YtLY d + sin (2 * x) * t_DtLD d + 2 * cos (2 * x) * t_YtLD d) * (cos x * t_lag d + sin x * t_d_lag d) +
  (cos x * cos x * t_YtLY d + sin x * sin x * t_DtLD d + 2 * sin x * cos x * t_YtLD d) * (- sin x * t_lag d + cos x * t_d_lag d).
Lemma der_scal_r f x l k : derivable_pt_lim f x l -> derivable_pt_lim (fun t => f t * k) x (l * k).
Proof.
  intros H. replace (l * k) with (l * k + f x * 0) by ring. apply (derivable_pt_lim_mult f (fun _ => k)); [exact H|apply derivable_pt_lim_const].
Qed.
Lemma lag_der d x : derivable_pt_lim (lagt d) x (lagd d x).
Proof.
  unfold lagt, lagd. apply (derivable_pt_lim_mult (fun x => cos x * cos x * t_YtLY d + sin x * sin x * t_DtLD d + 2 * sin x * cos x * t_YtLD d) (fun x => cos x * t_lag d + sin x * t_d_lag d)).
  - apply (derivable_pt_lim_plus (fun x => cos x * cos x * t_YtLY d + sin x * sin x * t_DtLD d) (fun x => 2 * sin x * cos x * t_YtLD d)).
    + apply (derivable_pt_lim_plus (fun x => cos x * cos x * t_YtLY d) (fun x => sin x * sin x * t_DtLD d)); apply (der_scal_r (fun x => _ * _)); [apply der_cos2|apply der_sin2].
    + apply (der_scal_r (fun x => _ * _)). apply der_sincos.
  - apply (derivable_pt_lim_plus (fun x => cos x * t_lag d) (fun x => sin x * t_d_lag d)); apply der_scal_r; [apply derivable_pt_lim_cos|apply derivable_pt_lim_sin].
Qed.

Definition matof (p : nat) (o : outcome (smat C)) : mat := match o with Val Q => fun i j => if ((i <? p) && (j <? p))%nat then nth (i * p + j) (sdata Q) C0 else C0 | _ => mzero end.
Lemma matof_square p S N : square p S N -> matof p (Val S) = N.
Proof.
  intros (_ & _ & _ & D & H). apply mext; intros i j. unfold matof. destruct (Nat.ltb_spec i p), (Nat.ltb_spec j p); cbn [andb]; [apply H; auto|symmetry; apply D; lia..].
Qed.

Section TF.
Variables (p : nat) (potr : Z -> list C -> option (list C)) (d : tfd) (FA DA SA FB DB SB : mat).
Hypothesis Hok : potr_ok p potr.
Hypotheses (QFA : square p (t_YtAY d) FA) (QDA : square p (t_DtAD d) DA) (QSA : square p (t_symYtAD d) SA)
  (QFB : square p (t_YtBY d) FB) (QDB : square p (t_DtBD d) DB) (QSB : square p (t_symYtBD d) SB).
Hypotheses (HFA : hermitian FA) (HDA : hermitian DA) (HSA : hermitian SA) (HFB : hermitian FB) (HDB : hermitian DB) (HSB : hermitian SB).
Let CA t := combm (cos t) (sin t) FA DA SA.
Let CB t := combm (cos t) (sin t) FB DB SB.
Lemma CB_dim t : mdim p p (CB t).
Proof. apply comb_dim; [apply (square_dim _ _ _ QFB)|apply (square_dim _ _ _ QDB)|apply (square_dim _ _ _ QSB)]. Qed.
Lemma CB_herm t : hermitian (CB t).
Proof. apply comb_herm; auto. Qed.

Lemma comb_ok W MW F MF D MD S MS c s : square p W MW -> square p F MF -> square p D MD -> square p S MS ->
  exists R, (let! S1 := sqmatrix_copy W F in let! S1 := sqmatrix_aApbB (c * c) S1 (s * s) D in sqmatrix_ApaB S1 (2 * s * c) S) = Val R /\ square p R (combm c s MF MD MS).
Proof.
  intros HW HF HD HS. destruct (copy_ok p W MW F MF HW HF) as (S1 & -> & H1). cbn [bind]. destruct (aApbB_ok p S1 MF (c * c) (s * s) D MD H1 HD) as (S2 & -> & H2). cbn [bind].
  destruct (ApaB_ok p S2 _ (2 * s * c) S MS H2 HS) as (S3 & -> & H3). exists S3. split; [reflexivity|exact H3].
Qed.
Lemma comb_inv_ok x : posdef p (CB x) -> exists S1 N, comb_inv potr d (cos x) (sin x) = Val S1 /\ square p S1 N /\ inverse_of p (CB x) N.
Proof.
  intros Pd. unfold comb_inv. rewrite (proj1 QFB). pose proof (create_square p) as HW.
  destruct (comb_ok _ _ _ _ _ _ _ _ (cos x) (sin x) HW QFB QDB QSB) as (S1 & E & H1).
  destruct (sqmatrix_copy (create_sq (Z.of_nat p)) (t_YtBY d)) as [T1| | |]; cbn [bind] in E |- *; try discriminate.
  destruct (sqmatrix_aApbB (cos x * cos x) T1 (sin x * sin x) (t_DtBD d)) as [T2| | |]; cbn [bind] in E |- *; try discriminate. rewrite E. cbn [bind].
  pose proof (invert_ok p potr S1 _ Hok H1 (CB_herm x)) as Iv. destruct (invert potr S1) as [[S2|]| | |]; try contradiction. cbn [bind].
  destruct Iv as (_ & N & HN & Inv). exists S2, N. auto.
Qed.
Lemma dcomb_ok W MW F MF D MD S MS x : square p W MW -> square p F MF -> square p D MD -> square p S MS ->
  exists R, (let! S3 := sqmatrix_copy W F in let! S3 := sqmatrix_ApaB S3 (-1) D in sqmatrix_aApbB (- / 2 * sin (2 * x)) S3 (cos (2 * x)) S) = Val R /\ square p R (dcomb x MF MD MS).
Proof.
  intros HW HF HD HS. destruct (copy_ok p W MW F MF HW HF) as (S1 & -> & H1). cbn [bind]. destruct (ApaB_ok p S1 MF (-1) D MD H1 HD) as (S2 & -> & H2). cbn [bind].
  destruct (aApbB_ok p S2 _ (- / 2 * sin (2 * x)) (cos (2 * x)) S MS H2 HS) as (S3 & -> & H3). exists S3. split; [reflexivity|exact H3].
Qed.

Definition tval (x : R) (N : mat) : R := re (mtr p (mmul p (CA x) N)).
Definition tder (x : R) (N : mat) : R := (re (mtr p (mmul p N (dcomb x FA DA SA))) - re (mtr p (mmul p (mmul p N (mmul p (CA x) N)) (dcomb x FB DB SB)))) * 2.
Lemma trace_func_val x : posdef p (CB x) -> exists N, inverse_of p (CB x) N /\ trace_func potr d x = Val (tval x N + lagt d x, tder x N + lagd d x).
Proof.
  intros Pd. destruct (comb_inv_ok x Pd) as (S1 & N & E1 & H1 & Inv). exists N. split; [exact Inv|].
  destruct (inv_both p (CB x) N (CB_dim x) (CB_herm x) Inv) as (HhN & _). unfold hermitian in HhN.
  unfold trace_func. rewrite E1. cbn [bind]. unfold trace_value. rewrite (proj1 H1). pose proof (create_square p) as HW.
  destruct (comb_ok _ _ _ _ _ _ _ _ (cos x) (sin x) HW QFA QDA QSA) as (S2 & E2 & H2).
  destruct (sqmatrix_copy (create_sq (Z.of_nat p)) (t_YtAY d)) as [T1| | |] eqn:EC; cbn [bind] in E2 |- *; try discriminate.
  destruct (sqmatrix_aApbB (cos x * cos x) T1 (sin x * sin x) (t_DtAD d)) as [T2| | |]; cbn [bind] in E2 |- *; try discriminate. rewrite E2. cbn [bind].
  rewrite (traceAtB_ok p S2 _ S1 N H2 H1). cbn [bind].
  destruct (dcomb_ok _ _ _ _ _ _ _ _ x HW QFA QDA QSA) as (S3 & E3 & H3). rewrite EC in E3. cbn [bind] in E3.
  destruct (sqmatrix_ApaB T1 (-1) (t_DtAD d)) as [T3| | |]; cbn [bind] in E3 |- *; try discriminate. rewrite E3. cbn [bind].
  rewrite (traceAtB_ok p S1 N S3 _ H1 H3). cbn [bind].
  destruct (AeBC_ok p _ _ S1 N false S2 _ true HW H1 H2) as (S4 & -> & H4). cbn [bind opm] in *.
  destruct (AeBC_ok p _ _ S4 _ false S1 N true HW H4 H1) as (S5 & -> & H5). cbn [bind opm] in *.
  destruct (dcomb_ok _ _ _ _ _ _ _ _ x HW QFB QDB QSB) as (S6 & E6 & H6).
  destruct (sqmatrix_copy (create_sq (Z.of_nat p)) (t_YtBY d)) as [T4| | |]; cbn [bind] in E6 |- *; try discriminate.
  destruct (sqmatrix_ApaB T4 (-1) (t_DtBD d)) as [T5| | |]; cbn [bind] in E6 |- *; try discriminate. rewrite E6. cbn [bind].
  rewrite (traceAtB_ok p S5 _ S6 _ H5 H6). cbn [bind].
  assert (HC : madj (combm (cos x) (sin x) FA DA SA) = combm (cos x) (sin x) FA DA SA) by (apply comb_herm; auto).
  rewrite HC, HhN. rewrite HC in *. rewrite HhN in *.
  assert (HP : madj (mmul p (mmul p N (combm (cos x) (sin x) FA DA SA)) N) = mmul p N (mmul p (combm (cos x) (sin x) FA DA SA) N)) by (rewrite !madj_mul, HC, HhN; reflexivity).
  rewrite HP. unfold tval, tder, lagt, lagd. fold (CA x). apply f_equal. apply (f_equal2 pair); [ring|]. unfold CA. ring.
Qed.

Lemma near_inverse x : posdef p (CB x) -> exists e, 0 < e /\ forall t, Rabs (t - x) < e -> posdef p (CB t) /\ inverse_of p (CB t) (matof p (comb_inv potr d (cos t) (sin t))).
Proof.
  intros Pd. destruct (posdef_inverse_exists p potr (CB x) Hok (CB_dim x) (CB_herm x) Pd) as (N & HN).
  destruct (posdef_open p CB x N CB_dim (CB_herm x) HN Pd) as (e & He & Op). { apply (mder_cont CB x _ (comb_der FB DB SB x)). }
  exists e. split; [exact He|]. intros t Ht. specialize (Op t Ht). split; [exact Op|]. destruct (comb_inv_ok t Op) as (S1 & M & -> & H1 & Inv). rewrite (matof_square p S1 M H1). exact Inv.
Qed.
Let Nf t := matof p (comb_inv potr d (cos t) (sin t)).
Lemma Nf_der x : posdef p (CB x) -> mder Nf x (mscal (-1) (mmul p (Nf x) (mmul p (mscal 2 (dcomb x FB DB SB)) (Nf x)))).
Proof.
  intros Pd. apply (mder_inverse_near p CB Nf x).
  - apply comb_der.
  - intros t. split; [apply CB_dim|apply CB_herm].
  - destruct (near_inverse x Pd) as (e & He & H). exists e. split; [exact He|]. intros t Ht. apply H. exact Ht.
Qed.
Lemma tval_der x : posdef p (CB x) -> derivable_pt_lim (fun t => tval t (Nf t)) x (tder x (Nf x)).
Proof.
  intros Pd. pose proof (mder_tr p _ _ _ (mder_mul p CA Nf x _ _ (comb_der FA DA SA x) (Nf_der x Pd))) as H.
  replace (tder x (Nf x)) with (re (mtr p (madd (mmul p (mscal 2 (dcomb x FA DA SA)) (Nf x)) (mmul p (CA x) (mscal (-1) (mmul p (Nf x) (mmul p (mscal 2 (dcomb x FB DB SB)) (Nf x)))))))); [exact H|].
  unfold tder. rewrite mtr_add, !mmul_scal_l, !mmul_scal_r, !mtr_scal.
  rewrite (mtr_cyc p p (dcomb x FA DA SA) (Nf x)). rewrite <- !mmul_assoc. rewrite (mtr_cyc p p _ (Nf x)). rewrite <- !mmul_assoc. csimp. ring.
Qed.
Lemma tder_der : posdef p (CB 0) -> derivable_pt_lim (fun t => tder t (Nf t)) 0
  (2 * (re (mtr p (mmul p (Nf 0) DA)) - re (mtr p (mmul p (mmul p (Nf 0) (mmul p FA (Nf 0))) (madd DB (mscal (-4) (mmul p SB (mmul p (Nf 0) SB)))))) - 4 * re (mtr p (mmul p (Nf 0) (mmul p SA (mmul p (Nf 0) SB)))))).
Proof.
  intros Pd. set (N := Nf 0).
  assert (HN : inverse_of p (CB 0) N) by (destruct (near_inverse 0 Pd) as (e & He & H); apply H; replace (0 - 0) with 0 by ring; rewrite Rabs_R0; exact He).
  assert (E0 : forall F D S, combm (cos 0) (sin 0) F D S = F) by (intros; rewrite cos_0, sin_0; apply mext; intros i j; unfold combm, madd, mscal; cring).
  assert (E1 : forall F D S, dcomb 0 F D S = S) by (intros; unfold dcomb; rewrite Rmult_0_r, cos_0, sin_0; apply mext; intros i j; unfold madd, mscal; cring).
  pose proof (Nf_der 0 Pd) as DN. rewrite E1 in DN. fold N in DN.
  pose proof (comb_der FA DA SA 0) as DC. rewrite E1 in DC. fold CA in DC.
  pose proof (dcomb_der FA DA SA 0) as DdA. pose proof (dcomb_der FB DB SB 0) as DdB. rewrite Rmult_0_r, cos_0, sin_0 in DdA, DdB.
  pose proof (mder_tr p _ _ _ (mder_mul p Nf (fun t => dcomb t FA DA SA) 0 _ _ DN DdA)) as T1.
  pose proof (mder_mul p CA Nf 0 _ _ DC DN) as DCN. pose proof (mder_mul p Nf (fun t => mmul p (CA t) (Nf t)) 0 _ _ DN DCN) as DNCN.
  pose proof (mder_tr p _ _ _ (mder_mul p (fun t => mmul p (Nf t) (mmul p (CA t) (Nf t))) (fun t => dcomb t FB DB SB) 0 _ _ DNCN DdB)) as T2.
  unfold tder. cbn beta in T1, T2. rewrite E1 in T1, T2. unfold CA in T2 at 2 3 4. rewrite E0 in T2. fold N in T1, T2.
  assert (EN : mmul p FB N = mid p) by (destruct HN as (_ & HN); unfold CB in HN; rewrite E0 in HN; exact HN).
  assert (DFA : mdim p p FA) by apply (square_dim _ _ _ QFA).
  pose proof (derivable_pt_lim_minus _ _ _ _ _ T1 T2) as T. apply (der_scal_r _ _ _ 2) in T. unfold minus_fct in T. cbn beta in T.
  match type of T with derivable_pt_lim _ _ ?v => match goal with |- derivable_pt_lim _ _ ?w => replace w with v; [exact T|] end end. clear T T1 T2 DN DC DdA DdB DCN DNCN.
  repeat progress (rewrite ?mmul_add_l, ?mmul_add_r, ?mmul_scal_l, ?mmul_scal_r, ?mtr_add, ?mtr_scal, ?mmul_assoc).
  assert (K1 : mtr p (mmul p N (mmul p FA (mmul p N FB))) = mtr p (mmul p N FA)).
  { rewrite <- (mmul_assoc p p FA), <- (mmul_assoc p p N). rewrite (mtr_cyc p p). 
    destruct (inv_both p FB N) as (_ & NB); [apply (square_dim _ _ _ QFB)|exact HFB|split; [apply HN|exact EN]|]. rewrite (mtr_cyc p p). rewrite !mmul_assoc. rewrite NB, (mid_r p p) by exact DFA. reflexivity. }
  assert (K2 : mtr p (mmul p N (mmul p SB (mmul p N SA))) = mtr p (mmul p N (mmul p SA (mmul p N SB)))).
  { rewrite <- (mmul_assoc p p N SB), (mtr_cyc p p (mmul p N SB)), !mmul_assoc. reflexivity. }
  assert (K3 : mtr p (mmul p N (mmul p SB (mmul p N (mmul p FA (mmul p N SB))))) = mtr p (mmul p N (mmul p FA (mmul p N (mmul p SB (mmul p N SB)))))).
  { rewrite <- (mmul_assoc p p N SB), (mtr_cyc p p (mmul p N SB)), !mmul_assoc. reflexivity. }
  rewrite K1, K2, K3. csimp. ring.
Qed.
End TF.
