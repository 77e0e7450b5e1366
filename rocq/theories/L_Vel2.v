(** The derivative of the eigenvalue and of the frequency along the wave vector. *)
From Coq Require Import List ZArith Reals Lra Lia Bool.
From Verif Require Import Base RC M_Tensor S_Tensor M_Evect S_Evect L_Evect3 M_Grid S_Grid M_Op S_Op L_Op L_Op2 L_Op3 L_Op4 L_Op5 P_Op M_Gv S_Gv L_Gv L_Match S_Fgrad L_Fgrad S_Vel L_Vel.
Import ListNotations.
Local Open Scope R_scope.

Lemma cart_dot d X Y j l : wfd d -> orthonormal_basis d -> fields d X -> dotl X Y j l = inner3 d (cart d X j) (cart d Y l).
Proof.
  intros Wd Ho FX. rewrite (dotl_inner d Wd X Y j l FX). unfold inner, inner3. apply csum_ext. intros g Hg. destruct (Ho g Hg) as (O1 & O2 & O3).
  rewrite csum3. unfold cart, fld. rewrite !Z.add_0_r. destruct (kat d g) as [kk [[m0 m1] m2] [[n0 n1] n2]]. cbn [km kn kmag] in *. unfold rdot in *. cbn [S_Op.comp fst snd].
  generalize (entC X (2 * Z.of_nat g) j) (entC X (2 * Z.of_nat g + 1) j) (entC Y (2 * Z.of_nat g) l) (entC Y (2 * Z.of_nat g + 1) l). intros a b p q.
  transitivity (Cconj a * p * RtoC (m0 * m0 + m1 * m1 + m2 * m2) + Cconj b * q * RtoC (n0 * n0 + n1 * n1 + n2 * n2) + (Cconj a * q + Cconj b * p) * RtoC (m0 * n0 + m1 * n1 + m2 * n2))%C.
  - rewrite O1, O2, O3. change (RtoC 1) with C1. change (RtoC 0) with C0. ring.
  - rewrite !Cconj_add, !Cconj_mul, !Cconj_R, !RtoC_add, !RtoC_mul. ring.
Qed.
Lemma inner3_sym d F G : re (inner3 d F G) = re (inner3 d G F).
Proof.
  transitivity (re (Cconj (inner3 d G F))); [|unfold Cconj; cbn; reflexivity]. f_equal. unfold inner3. rewrite csum_conj. apply csum_ext. intros g _. rewrite csum_conj. apply csum_ext. intros i _.
  generalize (F g i) (G g i). intros a b. apply C_eq; csimp; ring.
Qed.
Lemma mean_sym d V x y : re (mean_form d V x y) = re (mean_form d V y x).
Proof.
  transitivity (re (Cconj (mean_form d V y x))); [|unfold Cconj; cbn; reflexivity]. f_equal. unfold mean_form. rewrite Cconj_mul, Cconj_R. f_equal. rewrite csum_conj. apply csum_ext. intros r _. apply form_conj.
Qed.
Lemma mean_ext d V x x' y y' : (forall r i, (i < 3)%nat -> x r i = x' r i) -> (forall r i, (i < 3)%nat -> y r i = y' r i) -> mean_form d V x y = mean_form d V x' y'.
Proof. intros A B. unfold mean_form. f_equal. apply csum_ext. intros r _. apply form_ext; auto. Qed.

Lemma form_lin2 V a b c e t : form V (fun i => a i + RtoC t * b i)%C (fun i => c i + RtoC t * e i)%C =
  (form V a c + RtoC t * (form V b c + form V a e) + RtoC (t * t) * form V b e)%C.
Proof. unfold form. rewrite !csum3. rewrite !Cconj_add, !Cconj_mul, !Cconj_R, RtoC_mul. ring. Qed.
Lemma mean_lin2 d V a b c e t : mean_form d V (fun r i => a r i + RtoC t * b r i)%C (fun r i => c r i + RtoC t * e r i)%C =
  (mean_form d V a c + RtoC t * (mean_form d V b c + mean_form d V a e) + RtoC (t * t) * mean_form d V b e)%C.
Proof.
  unfold mean_form. rewrite (csum_ext _ _ (fun r => (form (V r) (a r) (c r) + RtoC t * (form (V r) (b r) (c r) + form (V r) (a r) (e r)) + RtoC (t * t) * form (V r) (b r) (e r))%C)) by (intros r _; apply form_lin2).
  rewrite !csum_add, !csum_scal, csum_add. ring.
Qed.

Lemma wcurl_shift d K L u t F r i : (i < 3)%nat -> (forall g, (g < Z.to_nat (npts d))%nat -> K g = vadd3 (L g) (rsc t u)) ->
  wcurl d K F r i = (wcurl d L F r i + RtoC t * wcurl d (fun _ => u) F r i)%C.
Proof.
  intros Hi HK. unfold wcurl, synth. rewrite <- csum_scal, <- csum_add. apply csum_ext. intros g Hg. rewrite (HK g Hg).
  generalize (F g). intros v. destruct (L g) as [[k0 k1] k2], u as [[u0 u1] u2]. unfold vadd3, rsc, ccross.
  destruct i as [|[|[|i]]]; [| | |lia]; cbn [S_Op.comp fst snd]; rewrite !RtoC_add, !RtoC_mul; ring.
Qed.
Lemma wcurl_ext d K F G r i : (forall g c, (g < Z.to_nat (npts d))%nat -> (c < 3)%nat -> F g c = G g c) -> wcurl d K F r i = wcurl d K G r i.
Proof.
  intros H. unfold wcurl, synth. apply csum_ext. intros g Hg. f_equal. unfold ccross. rewrite !H by (exact Hg || lia). reflexivity.
Qed.
Lemma wcurl_cc d K F r i : (forall g c, (g < Z.to_nat (npts d))%nat -> (c < 3)%nat -> cc (fun t => F t g c)) -> cc (fun t => wcurl d K (F t) r i).
Proof.
  intros H. unfold wcurl, synth. apply cc_csum. intros g Hg. apply cc_mul; [apply cc_const|]. unfold ccross.
  destruct i as [|[|i]]; apply cc_sub; (apply cc_mul; [apply cc_const|apply H; [exact Hg|lia]]).
Qed.
Lemma mean_cc d V x y : (forall r i, (i < 3)%nat -> cc (fun t => y t r i)) -> cc (fun t => mean_form d V x (y t)).
Proof.
  intros H. unfold mean_form. apply cc_mul; [apply cc_const|]. apply cc_csum. intros r _. unfold form. apply cc_csum. intros i _. apply cc_csum. intros j Hj.
  apply cc_mul; [apply cc_const|apply H; exact Hj].
Qed.
Lemma inner3_cc d F G : (forall g i, (g < Z.to_nat (npts d))%nat -> (i < 3)%nat -> cc (fun t => G t g i)) -> cc (fun t => inner3 d F (G t)).
Proof. intros H. unfold inner3. apply cc_csum. intros g Hg. apply cc_csum. intros i Hi. apply cc_mul; [apply cc_const|apply H; assumption]. Qed.

(** Velocity of the squared frequency: the change of the expectation value along u. *)
Definition slope (d : mdata) (u : vec) (H : emat C) (b : Z) : R := re (mean_form d (sym_at (d_eps_inv d)) (curl d H b) (wcurl d (fun _ => u) (cart d H b))).
Lemma slope_gvv d u H b : wfd d -> orthonormal_basis d -> d_mu_inv d = None -> gvv d u H b = slope d u H b.
Proof. intros Wd Ho Hm. unfold gvv, slope, mumaybe. rewrite Hm. f_equal. exact (ucol_dot d u H H b b Ho). Qed.

Lemma same_table d : with_kG (d_kG d) d = d.
Proof. destruct d. reflexivity. Qed.

(** The eigenvalues at two wave vectors. *)
Definition rest_of (d : mdata) (u : vec) (h0 ht : nat -> nat -> C) (t : R) : R :=
  let V := sym_at (d_eps_inv d) in
  re (mean_form d V (wcurl d (fun _ => u) h0) (wcurl d (kvec d) ht)) + re (mean_form d V (wcurl d (kvec d) h0) (wcurl d (fun _ => u) ht)) + t * re (mean_form d V (wcurl d (fun _ => u) h0) (wcurl d (fun _ => u) ht)).
Lemma k_difference d G1 G2 G3 k u t ks H Y b j lam mu : wfd d -> d_mu_inv d = None -> table_at d G1 G2 G3 k (d_kG d) -> table_at d G1 G2 G3 (vadd3 k (rsc t u)) ks ->
  eigenfield d H b mu -> eigenfield (with_kG ks d) Y j lam ->
  (lam - mu) * re (inner3 d (cart d H b) (cart (with_kG ks d) Y j)) = t * rest_of d u (cart d H b) (cart (with_kG ks d) Y j) t.
Proof.
  intros Wd Hm T0 Tt EH EY. destruct (table_facts _ _ _ _ _ _ Wd T0) as (_ & Ho & _). rewrite same_table in Ho.
  destruct (table_facts _ _ _ _ _ _ Wd Tt) as (Lt & Hot & _). pose proof (table_moves d G1 G2 G3 k u (d_kG d) t ks Wd T0 Tt) as Mv. rewrite same_table in Mv.
  pose proof (weak_cartesian (with_kG ks d) (cart d H b) Y j lam (wfd_kG ks d Wd Lt) Hot Hm EY) as W1.
  pose proof (weak_cartesian d (cart (with_kG ks d) Y j) H b mu Wd Ho Hm EH) as W2.
  set (h0 := cart d H b) in *. set (ht := cart (with_kG ks d) Y j) in *.
  apply (f_equal re) in W1, W2.
  assert (A : forall s z, re (RtoC s * z)%C = s * re z) by (intros s z; csimp; ring).
  rewrite A in W1, W2. rewrite (inner3_sym d ht h0) in W2.
  change (inner3 (with_kG ks d) h0 ht) with (inner3 d h0 ht) in W1.
  assert (W1' : re (mean_form (with_kG ks d) (sym_at (d_eps_inv (with_kG ks d))) (wcurl (with_kG ks d) (kvec (with_kG ks d)) h0) (curl (with_kG ks d) Y j)) =
    re (mean_form d (sym_at (d_eps_inv d)) (fun r i => wcurl d (kvec d) h0 r i + RtoC t * wcurl d (fun _ => u) h0 r i)%C (fun r i => wcurl d (kvec d) ht r i + RtoC t * wcurl d (fun _ => u) ht r i)%C)).
  { f_equal. change (mean_form (with_kG ks d)) with (mean_form d). change (d_eps_inv (with_kG ks d)) with (d_eps_inv d).
    apply mean_ext; intros r i Hi; [exact (wcurl_shift d (kvec (with_kG ks d)) (kvec d) u t h0 r i Hi Mv)|exact (wcurl_shift d (kvec (with_kG ks d)) (kvec d) u t ht r i Hi Mv)]. }
  rewrite W1', mean_lin2 in W1. rewrite mean_sym in W2. change (curl d H b) with (wcurl d (kvec d) h0) in W2.
  rewrite Rmult_minus_distr_r, W1, W2. unfold rest_of.
  generalize (mean_form d (sym_at (d_eps_inv d)) (wcurl d (kvec d) h0) (wcurl d (kvec d) ht)) (mean_form d (sym_at (d_eps_inv d)) (wcurl d (fun _ => u) h0) (wcurl d (kvec d) ht))
    (mean_form d (sym_at (d_eps_inv d)) (wcurl d (kvec d) h0) (wcurl d (fun _ => u) ht)) (mean_form d (sym_at (d_eps_inv d)) (wcurl d (fun _ => u) h0) (wcurl d (fun _ => u) ht)).
  intros z0 z1 z2 z3. csimp. ring.
Qed.

Lemma eigenvalue_moves d G1 G2 G3 k u H b mu ks Y j lam : wfd d -> d_mu_inv d = None -> table_at d G1 G2 G3 k (d_kG d) -> dotl H H b b = C1 -> eigenfield d H b mu ->
  followed d G1 G2 G3 k u H b ks Y j lam -> lam 0 = mu /\ derivable_pt_lim lam 0 (2 * slope d u H b).
Proof.
  intros Wd Hm T0 N1 EH ((del & Hd & Near) & Co). destruct (table_facts _ _ _ _ _ _ Wd T0) as (_ & Ho & _). rewrite same_table in Ho.
  set (h0 := cart d H b) in *. set (ht := fun t => cart (with_kG (ks t) d) (Y t) j) in *.
  assert (H0 : forall g i, (g < Z.to_nat (npts d))%nat -> (i < 3)%nat -> ht 0 g i = h0 g i) by (intros g i Hg Hi; exact (proj1 (Co g i Hg Hi))).
  assert (Hc : forall g i, (g < Z.to_nat (npts d))%nat -> (i < 3)%nat -> cc (fun t => ht t g i)) by (intros g i Hg Hi; exact (proj2 (Co g i Hg Hi))).
  set (D := fun t => re (inner3 d h0 (ht t))). set (P := fun t => rest_of d u h0 (ht t) t).
  assert (ED : forall t, Rabs t < del -> (lam t - mu) * D t = t * P t).
  { intros t Ht. destruct (Near t Ht) as (Tt & Et). exact (k_difference d G1 G2 G3 k u t (ks t) H (Y t) b j (lam t) mu Wd Hm T0 Tt EH Et). }
  assert (D0 : D 0 = 1).
  { unfold D. transitivity (re (inner3 d h0 h0)).
    - f_equal. unfold inner3. apply csum_ext. intros g Hg. apply csum_ext. intros i Hi. rewrite H0 by assumption. reflexivity.
    - unfold h0. rewrite <- (cart_dot d H H b b Wd Ho (proj1 EH)), N1. reflexivity. }
  assert (CD : continuity_pt D 0) by (exact (proj1 (inner3_cc d h0 ht Hc))).
  assert (CP : continuity_pt P 0).
  { unfold P, rest_of. assert (Q : forall K L, continuity_pt (fun t => re (mean_form d (sym_at (d_eps_inv d)) (wcurl d K h0) (wcurl d L (ht t)))) 0).
    { intros K L. refine (proj1 (mean_cc d (sym_at (d_eps_inv d)) (wcurl d K h0) (fun t => wcurl d L (ht t)) _)). intros r i _. apply wcurl_cc. exact Hc. }
    refine (continuity_pt_plus (fun t => re (mean_form d (sym_at (d_eps_inv d)) (wcurl d (fun _ => u) h0) (wcurl d (kvec d) (ht t))) + re (mean_form d (sym_at (d_eps_inv d)) (wcurl d (kvec d) h0) (wcurl d (fun _ => u) (ht t))))
      (fun t => t * re (mean_form d (sym_at (d_eps_inv d)) (wcurl d (fun _ => u) h0) (wcurl d (fun _ => u) (ht t)))) 0 _ _).
    - exact (continuity_pt_plus _ _ 0 (Q _ _) (Q _ _)).
    - refine (continuity_pt_mult (fun t => t) _ 0 _ (Q _ _)). apply derivable_continuous_pt. apply derivable_pt_id. }
  assert (P0 : P 0 = 2 * slope d u H b).
  { unfold P, rest_of. assert (Q : forall K L, mean_form d (sym_at (d_eps_inv d)) (wcurl d K h0) (wcurl d L (ht 0)) = mean_form d (sym_at (d_eps_inv d)) (wcurl d K h0) (wcurl d L h0)).
    { intros K L. apply mean_ext; intros r i Hi; [reflexivity|]. apply wcurl_ext. exact H0. }
    rewrite !Q. rewrite (mean_sym d _ (wcurl d (fun _ => u) h0) (wcurl d (kvec d) h0)). unfold slope. fold h0. change (curl d H b) with (wcurl d (kvec d) h0). ring. }
  assert (L0 : lam 0 = mu).
  { pose proof (ED 0 ltac:(rewrite Rabs_R0; exact Hd)) as Q. rewrite D0 in Q. lra. }
  split; [exact L0|].
  assert (Dpos : exists del', 0 < del' /\ forall t, Rabs t < del' -> D t <> 0).
  { destruct (CD (/ 2) ltac:(lra)) as (al & Ha & Q). exists al. split; [exact Ha|]. intros t Ht E.
    destruct (Req_dec t 0) as [->|Nt]; [lra|]. specialize (Q t). assert (X : dist R_met (D t) (D 0) < / 2).
    { apply Q. split; [split; [exact I|intros E'; apply Nt; symmetry; exact E']|]. cbn. unfold R_dist. rewrite Rminus_0_r. exact Ht. }
    cbn in X. unfold R_dist in X. rewrite E, D0 in X. replace (0 - 1) with (- (1)) in X by ring. rewrite Rabs_Ropp, Rabs_R1 in X. lra. }
  destruct Dpos as (del' & Hd' & Dn).
  apply (deriv_near (fun t => mu + t * (P t * / D t))).
  - exists (Rmin del del'). split; [apply Rmin_pos; assumption|]. intros t Ht.
    assert (T1 : Rabs t < del) by (eapply Rlt_le_trans; [exact Ht|apply Rmin_l]). assert (T2 : Rabs t < del') by (eapply Rlt_le_trans; [exact Ht|apply Rmin_r]).
    rewrite <- Rmult_assoc, <- (ED t T1). field. exact (Dn t T2).
  - rewrite <- P0. replace (P 0) with (0 + 1 * (P 0 * / D 0)) by (rewrite D0; field).
    apply (derivable_pt_lim_plus (fun _ => mu) (fun t => t * (P t * / D t)) 0 0 _); [apply derivable_pt_lim_const|].
    apply (deriv_times (fun t => t) (fun t => P t * / D t) 1 eq_refl (derivable_pt_lim_id 0)).
    refine (continuity_pt_mult P (fun t => / D t) 0 CP _). exact (continuity_pt_inv D 0 CD ltac:(rewrite D0; lra)).
Qed.

Lemma frequency_moves d G1 G2 G3 k u H b w ks Y j lam : wfd d -> d_mu_inv d = None -> table_at d G1 G2 G3 k (d_kG d) -> dotl H H b b = C1 -> 0 < w -> eigenfield d H b (w * w) ->
  followed d G1 G2 G3 k u H b ks Y j lam -> derivable_pt_lim (fun t => sqrt (lam t)) 0 (slope d u H b / w).
Proof.
  intros Wd Hm T0 N1 Hw EH Fo. destruct (eigenvalue_moves _ _ _ _ _ _ _ _ _ _ _ _ _ Wd Hm T0 N1 EH Fo) as (L0 & D).
  assert (S : derivable_pt_lim sqrt (lam 0) (/ (2 * w))).
  { rewrite L0. replace (/ (2 * w)) with (/ (2 * sqrt (w * w))) by (rewrite sqrt_square by lra; reflexivity). apply derivable_pt_lim_sqrt. nra. }
  pose proof (derivable_pt_lim_comp lam sqrt 0 _ _ D S) as Q. replace (slope d u H b / w) with (/ (2 * w) * (2 * slope d u H b)) by (field; lra). exact Q.
Qed.

(** The slope is linear in the direction. *)
Lemma slope_add d u v H b : slope d (vadd3 u v) H b = slope d u H b + slope d v H b.
Proof.
  pose proof (mean_lin2 d (sym_at (d_eps_inv d)) (curl d H b) (fun _ _ => C0) (wcurl d (fun _ => u) (cart d H b)) (wcurl d (fun _ => v) (cart d H b)) 1) as L.
  unfold slope. transitivity (re (mean_form d (sym_at (d_eps_inv d)) (fun r i => (curl d H b r i + RtoC 1 * C0)%C) (fun r i => (wcurl d (fun _ => u) (cart d H b) r i + RtoC 1 * wcurl d (fun _ => v) (cart d H b) r i)%C))).
  - f_equal. apply mean_ext; intros r i Hi; [cring|]. apply wcurl_shift; [exact Hi|]. intros g _. destruct v as [[v0 v1] v2], u as [[u0 u1] u2]. cbn. f_equal; [f_equal|]; ring.
  - rewrite L. assert (Z : forall y, mean_form d (sym_at (d_eps_inv d)) (fun _ _ => C0) y = C0).
    { intros y. unfold mean_form. rewrite (csum_ext _ _ (fun _ => (C0 * C0)%C)); [rewrite csum_scal; cring|]. intros r _. unfold form. rewrite !csum3. cring. }
    rewrite !Z. generalize (mean_form d (sym_at (d_eps_inv d)) (curl d H b) (wcurl d (fun _ => u) (cart d H b))) (mean_form d (sym_at (d_eps_inv d)) (curl d H b) (wcurl d (fun _ => v) (cart d H b))).
    intros p q. csimp. ring.
Qed.
Lemma slope_scale d s u H b : slope d (rsc s u) H b = s * slope d u H b.
Proof.
  unfold slope. assert (A : forall s z, re (RtoC s * z)%C = s * re z) by (intros s' z; csimp; ring). rewrite <- A. f_equal. unfold mean_form.
  transitivity (RtoC (/ IZR (npts d)) * (RtoC s * csum (Z.to_nat (npts d)) (fun r => form (sym_at (d_eps_inv d) r) (curl d H b r) (wcurl d (fun _ => u) (cart d H b) r))))%C; [|ring].
  f_equal. rewrite <- csum_scal. apply csum_ext. intros r _.
  assert (E : forall i, (i < 3)%nat -> wcurl d (fun _ => rsc s u) (cart d H b) r i = (RtoC s * wcurl d (fun _ => u) (cart d H b) r i)%C).
  { intros i Hi. unfold wcurl, synth. rewrite <- csum_scal. apply csum_ext. intros g _. generalize (cart d H b g). intros v. destruct u as [[u0 u1] u2]. unfold rsc, ccross.
    destruct i as [|[|[|i]]]; [| | |lia]; cbn [S_Op.comp fst snd]; rewrite !RtoC_mul; ring. }
  unfold form. rewrite !csum3, !E by lia. ring.
Qed.
