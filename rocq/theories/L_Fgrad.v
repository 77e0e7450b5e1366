(** Derivatives and continuity used for the gradient of a frequency. *)
From Coq Require Import List ZArith Reals Lra Lia Bool.
From Verif Require Import Base RC M_Tensor S_Tensor M_Evect S_Evect L_Evect3 M_Grid S_Grid L_Grid5 P_Grid M_Op S_Op L_Op3 P_Op M_Interp S_Interp M_Matgrid S_Matgrid L_Matgrid2 M_Fld S_Fld L_Fld3 M_Half S_Half L_Half L_Half2 M_Match S_Match L_Match M_Fgrad S_Fgrad.
Import ListNotations.
Local Open Scope R_scope.

Lemma deriv_near f g l : (exists del, 0 < del /\ forall t, Rabs t < del -> f t = g t) -> derivable_pt_lim f 0 l -> derivable_pt_lim g 0 l.
Proof.
  intros (del & Hd & E) D eps He. destruct (D eps He) as (d1 & H). assert (Hm : 0 < Rmin del d1) by (apply Rmin_pos; [exact Hd|apply cond_pos]).
  exists (mkposreal _ Hm). intros h Hh Hl. cbn in Hl. rewrite <- !E.
  - apply H; [exact Hh|]. eapply Rlt_le_trans; [exact Hl|apply Rmin_r].
  - rewrite Rabs_R0. exact Hd.
  - rewrite Rplus_0_l. eapply Rlt_le_trans; [exact Hl|apply Rmin_l].
Qed.
(** A differentiable function that vanishes, times a continuous one. *)
Lemma deriv_times f c l : f 0 = 0 -> derivable_pt_lim f 0 l -> continuity_pt c 0 -> derivable_pt_lim (fun t => f t * c t) 0 (l * c 0).
Proof.
  intros F0 D Cc eps He. set (K := Rabs (c 0) + 1). set (M := Rabs l + 1). pose proof (Rabs_pos (c 0)) as P1. pose proof (Rabs_pos l) as P2.
  assert (HK : 0 < K) by (unfold K; lra). assert (HM : 0 < M) by (unfold M; lra).
  destruct (D (eps / (2 * K))) as (d1 & H1); [apply Rdiv_lt_0_compat; lra|].
  set (e2 := Rmin 1 (eps / (2 * M))). assert (He2 : 0 < e2) by (apply Rmin_pos; [lra|apply Rdiv_lt_0_compat; lra]).
  destruct (Cc e2 He2) as (d2 & Hd2 & H2).
  assert (Hm : 0 < Rmin d1 d2) by (apply Rmin_pos; [apply cond_pos|exact Hd2]). exists (mkposreal _ Hm). intros h Hh Hl. cbn in Hl.
  assert (A : Rabs (f h / h - l) < eps / (2 * K)).
  { specialize (H1 h Hh). rewrite Rplus_0_l, F0, Rminus_0_r in H1. apply H1. eapply Rlt_le_trans; [exact Hl|apply Rmin_l]. }
  assert (B : Rabs (c h - c 0) < e2).
  { apply (H2 h). split; [split; [exact I|lra]|]. unfold dist. cbn. unfold R_dist. rewrite Rminus_0_r. eapply Rlt_le_trans; [exact Hl|apply Rmin_r]. }
  rewrite Rplus_0_l, F0. replace ((f h * c h - 0 * c 0) / h - l * c 0) with ((f h / h - l) * c h + l * (c h - c 0)) by (field; exact Hh).
  eapply Rle_lt_trans; [apply Rabs_triang|]. rewrite !Rabs_mult.
  assert (Ck : Rabs (c h) <= K).
  { replace (c h) with (c h - c 0 + c 0) by ring. eapply Rle_trans; [apply Rabs_triang|]. unfold K. pose proof (Rmin_l 1 (eps / (2 * M))). fold e2 in H. lra. }
  assert (X : Rabs (f h / h - l) * Rabs (c h) <= eps / (2 * K) * K) by (apply Rmult_le_compat; try apply Rabs_pos; lra).
  assert (Y : Rabs l * Rabs (c h - c 0) <= Rabs l * (eps / (2 * M))) by (apply Rmult_le_compat_l; [exact P2|]; pose proof (Rmin_r 1 (eps / (2 * M))); fold e2 in H; lra).
  assert (Z1 : eps / (2 * K) * K = eps / 2) by (field; lra).
  assert (Z2 : Rabs l * (eps / (2 * M)) < eps / 2).
  { replace (eps / 2) with (M * (eps / (2 * M))) by (field; lra). apply Rmult_lt_compat_r; [apply Rdiv_lt_0_compat; lra|unfold M; lra]. }
  lra.
Qed.
Lemma deriv_inv f l : f 0 <> 0 -> derivable_pt_lim f 0 l -> derivable_pt_lim (fun t => / f t) 0 (- l / (f 0 * f 0)).
Proof.
  intros N D. pose proof (derivable_pt_lim_div (fun _ => 1) f 0 0 l (derivable_pt_lim_const 1 0) D N) as Q.
  apply (deriv_ext (div_fct (fun _ => 1) f)); [intros t; unfold div_fct; unfold Rdiv; ring|]. replace (- l / (f 0 * f 0)) with ((0 * f 0 - l * 1) / Rsqr (f 0)); [exact Q|]. unfold Rsqr. field. exact N.
Qed.
Lemma deriv_mul_const f c l : derivable_pt_lim f 0 l -> derivable_pt_lim (fun t => c * f t) 0 (c * l).
Proof. intros D. exact (derivable_pt_lim_scal f c 0 l D). Qed.
Lemma deriv_minus_const f c l : derivable_pt_lim f 0 l -> derivable_pt_lim (fun t => f t - c) 0 l.
Proof. intros D. pose proof (derivable_pt_lim_minus f (fun _ => c) 0 l 0 D (derivable_pt_lim_const c 0)) as Q. rewrite Rminus_0_r in Q. exact Q. Qed.
Lemma cont_ext f g : (forall t, f t = g t) -> continuity_pt f 0 -> continuity_pt g 0.
Proof. intros E Cf eps He. destruct (Cf eps He) as (al & Ha & H). exists al. split; [exact Ha|]. intros x Hx. rewrite <- !E. exact (H x Hx). Qed.

(** Continuity at 0 of a complex function. *)
Definition cc (F : R -> C) : Prop := continuity_pt (fun t => re (F t)) 0 /\ continuity_pt (fun t => im (F t)) 0.
Lemma cc_const z : cc (fun _ => z).
Proof. split; apply continuity_pt_const; intros x y; reflexivity. Qed.
Lemma cc_add F G : cc F -> cc G -> cc (fun t => F t + G t)%C.
Proof. intros (A & B) (A' & B'). split; [exact (continuity_pt_plus _ _ _ A A')|exact (continuity_pt_plus _ _ _ B B')]. Qed.
Lemma cc_sub F G : cc F -> cc G -> cc (fun t => F t - G t)%C.
Proof. intros (A & B) (A' & B'). split; [exact (continuity_pt_minus _ _ _ A A')|exact (continuity_pt_minus _ _ _ B B')]. Qed.
Lemma cc_mul F G : cc F -> cc G -> cc (fun t => F t * G t)%C.
Proof.
  intros (A & B) (A' & B'). split.
  - exact (continuity_pt_minus _ _ _ (continuity_pt_mult _ _ _ A A') (continuity_pt_mult _ _ _ B B')).
  - exact (continuity_pt_plus _ _ _ (continuity_pt_mult _ _ _ A B') (continuity_pt_mult _ _ _ B A')).
Qed.
Lemma cc_csum n F : (forall i, (i < n)%nat -> cc (fun t => F t i)) -> cc (fun t => csum n (F t)).
Proof. induction n as [|n IH]; intros H; cbn [csum]; [apply cc_const|]. apply cc_add; [apply IH; intros i Hi; apply H; lia|apply H; lia]. Qed.

(** The curl of a band that moves continuously. *)
Lemma cc_cart d Y j g i : (g < Z.to_nat (npts d))%nat -> (forall i, (0 <= i < 2 * npts d)%Z -> cc (fun t => entC (Y t) i j)) -> cc (fun t => cart d (Y t) j g i).
Proof. intros Hg H. unfold cart. apply cc_add; (apply cc_mul; [apply cc_const|apply H; lia]). Qed.
Lemma cc_curl d Y j r i : (forall i, (0 <= i < 2 * npts d)%Z -> cc (fun t => entC (Y t) i j)) -> cc (fun t => curl d (Y t) j r i).
Proof.
  intros H. unfold curl, synth. apply cc_csum. intros g Hg. apply cc_mul; [apply cc_const|]. unfold ccross.
  destruct i as [|[|i]]; apply cc_sub; (apply cc_mul; [apply cc_const|apply cc_cart; assumption]).
Qed.
Lemma curl_same d X Y j l r i : (forall i, (0 <= i < 2 * npts d)%Z -> entC X i j = entC Y i l) -> curl d X j r i = curl d Y l r i.
Proof.
  intros H. unfold curl, synth. apply csum_ext. intros g Hg. f_equal. assert (K : forall c, cart d X j g c = cart d Y l g c) by (intros c; unfold cart; rewrite !H by lia; reflexivity).
  unfold ccross. rewrite !K. reflexivity.
Qed.

(** The product of two curls at a point. *)
Definition cross_at (d : mdata) (X Y : emat C) (j l : Z) (r : nat) : R := re (csum 3 (fun c => Cconj (curl d X j r c) * curl d Y l r c)%C).
Lemma cross_cont d X Y b j r : (forall i, (0 <= i < 2 * npts d)%Z -> cc (fun t => entC (Y t) i j)) -> continuity_pt (fun t => cross_at d X (Y t) b j r) 0.
Proof. intros H. refine (proj1 (cc_csum 3 (fun t c => Cconj (curl d X b r c) * curl d (Y t) j r c)%C _)). intros i _. apply cc_mul; [apply cc_const|]. apply cc_curl. exact H. Qed.
Lemma cross_sym d X Y j l r : cross_at d X Y j l r = cross_at d Y X l j r.
Proof. unfold cross_at. rewrite !csum3. generalize (curl d X j r 0%nat) (curl d X j r 1%nat) (curl d X j r 2%nat) (curl d Y l r 0%nat) (curl d Y l r 1%nat) (curl d Y l r 2%nat). intros. csimp. ring. Qed.

Lemma mean_iso d es (e : nat -> R) X Y j l : (forall r, (r < Z.to_nat (npts d))%nat -> sym_at es r = iso (e r)) ->
  re (mean_form d (sym_at es) (curl d X j) (curl d Y l)) = / IZR (npts d) * rsum (Z.to_nat (npts d)) (fun r => e r * cross_at d X Y j l r).
Proof.
  intros H. unfold mean_form. transitivity (/ IZR (npts d) * re (csum (Z.to_nat (npts d)) (fun r => form (sym_at es r) (curl d X j r) (curl d Y l r))));
    [generalize (csum (Z.to_nat (npts d)) (fun r => form (sym_at es r) (curl d X j r) (curl d Y l r))); intros z; csimp; ring|].
  f_equal. rewrite csum_re. apply rsum_ext. intros r Hr. rewrite (H r Hr). unfold form, cross_at. rewrite !csum3. cbn [entry iso m00 m11 m22 m01 m02 m12].
  generalize (curl d X j r 0%nat) (curl d X j r 1%nat) (curl d X j r 2%nat) (curl d Y l r 0%nat) (curl d Y l r 1%nat) (curl d Y l r 2%nat). intros. csimp. ring.
Qed.

Lemma dotl_scaled2 X Y Z j l s : (forall i, (0 <= i < en X)%Z -> entC Y i l = (RtoC s * entC Z i l)%C) -> re (S_Evect.dotl X Y j l) = s * re (S_Evect.dotl X Z j l).
Proof.
  intros H. unfold S_Evect.dotl. rewrite (csum_ext _ _ (fun i => (RtoC s * (Cconj (entC X (Z.of_nat i) j) * entC Z (Z.of_nat i) l))%C)).
  - rewrite csum_scal. generalize (csum (Z.to_nat (en X)) (fun i => (Cconj (entC X (Z.of_nat i) j) * entC Z (Z.of_nat i) l)%C)). intros z. csimp. ring.
  - intros i Hi. rewrite H by lia. ring.
Qed.

(** Two eigenfields of two media: the difference of the eigenvalues. *)
Lemma eig_difference d es (e e0 : nat -> R) H Y b j lam mu : wfd d -> orthonormal_basis d -> d_mu_inv d = None -> Z.of_nat (length es) = npts d ->
  (forall r, (r < Z.to_nat (npts d))%nat -> sym_at (d_eps_inv d) r = iso (e0 r)) -> (forall r, (r < Z.to_nat (npts d))%nat -> sym_at es r = iso (e r)) ->
  eigenfield d H b mu -> eigenfield (with_eps es d) Y j lam ->
  (lam - mu) * re (S_Evect.dotl H Y b j) = / IZR (npts d) * rsum (Z.to_nat (npts d)) (fun r => (e r - e0 r) * cross_at d H Y b j r).
Proof.
  intros Wd Ho Hm Ls H0 H1 (FH & Hb & n & o & f & AH & g & Rd & E & Ev) (FY & Hj & n' & o' & f' & AY & g' & Rd' & E' & Ev').
  assert (Wd' : wfd (with_eps es d)) by (destruct Wd as (A1 & A2 & A3 & A4 & A5 & A6 & A7 & A8 & A9 & A10 & A11); repeat split; try assumption; exact Ls).
  pose proof FH as (_ & EH). pose proof FY as (_ & EY). change (npts (with_eps es d)) with (npts d) in EY.
  pose proof (C13_weak_form n' (with_eps es d) H Y o' f' AY g' b j Wd' Ho Hm FH Rd' E' Hj) as W1.
  pose proof (C13_weak_form n d Y H o f AH g j b Wd Ho Hm FY Rd E Hb) as W2.
  apply (f_equal re) in W1, W2. rewrite (dotl_scaled2 H AY Y b j lam) in W1 by (intros i Hi; apply Ev'; lia). rewrite (dotl_scaled2 Y AH H j b mu) in W2 by (intros i Hi; apply Ev; lia).
  rewrite (mean_iso d _ e0 Y H j b H0) in W2.
  assert (W1' : lam * re (S_Evect.dotl H Y b j) = / IZR (npts d) * rsum (Z.to_nat (npts d)) (fun r => e r * cross_at d H Y b j r)) by (rewrite W1; exact (mean_iso d es e H Y b j H1)).
  assert (S1 : re (S_Evect.dotl Y H j b) = re (S_Evect.dotl H Y b j)) by (rewrite <- (dotl_conj H Y b j) by lia; reflexivity). rewrite S1 in W2.
  rewrite (rsum_ext _ (fun r => e0 r * cross_at d Y H j b r) (fun r => e0 r * cross_at d H Y b j r)) in W2 by (intros r _; rewrite cross_sym; reflexivity).
  replace ((lam - mu) * re (S_Evect.dotl H Y b j)) with (lam * re (S_Evect.dotl H Y b j) - mu * re (S_Evect.dotl H Y b j)) by ring. rewrite W1', W2.
  replace (/ IZR (npts d) * rsum (Z.to_nat (npts d)) (fun r => e r * cross_at d H Y b j r) - / IZR (npts d) * rsum (Z.to_nat (npts d)) (fun r => e0 r * cross_at d H Y b j r))
    with (/ IZR (npts d) * (rsum (Z.to_nat (npts d)) (fun r => e r * cross_at d H Y b j r) + (-1) * rsum (Z.to_nat (npts d)) (fun r => e0 r * cross_at d H Y b j r))) by ring.
  f_equal. rewrite <- rsum_scal, <- rsum_add. apply rsum_ext. intros r _. ring.
Qed.
