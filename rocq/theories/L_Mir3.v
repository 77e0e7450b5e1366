(** Mirrored fields of mirror symmetric structures. *)
From Coq Require Import List ZArith Reals Bool Arith Lia Lra.
From Verif Require Import Base RC M_Tensor S_Tensor M_Evect S_Evect L_Evect M_Grid S_Grid L_Grid L_Grid2 L_Grid3 L_Grid5 L_Grid6 M_Op S_Op L_Op L_Op2 L_Op3 L_Op4 L_Op5 L_Dft P_Op L_Mx1 L_Mx2 S_Mir L_Mir1 L_Mir2.
Import ListNotations.
Local Open Scope Z_scope.
Add Ring Cring_mir3 : C_ring_theory.

Lemma made_wfd d k G1 G2 G3 : made d k G1 G2 G3 -> wfd d.
Proof. intros (mx & my & mz & nfb & t & eps & mu & kn2 & em & Hx & Hy & Hz & E & Le & Lm & ->). apply (C13_setup mx my mz nfb k G1 G2 G3 t eps mu kn2 em Hx Hy Hz E Le Lm). Qed.
Lemma made_basis d k G1 G2 G3 : made d k G1 G2 G3 -> orthonormal_basis d.
Proof. intros (mx & my & mz & nfb & t & eps & mu & kn2 & em & Hx & Hy & Hz & E & Le & Lm & ->). apply (C13_setup mx my mz nfb k G1 G2 G3 t eps mu kn2 em Hx Hy Hz E Le Lm). Qed.
Lemma one_sq : (1 * 1 = 1)%R. Proof. lra. Qed.
Lemma mone_sq : (-1 * -1 = 1)%R. Proof. lra. Qed.

Section D.
Variables (d : mdata) (k G1 G2 G3 : vec).
Hypothesis Md : made d k G1 G2 G3.
Let Wd : wfd d := made_wfd d k G1 G2 G3 Md.

Lemma z_mu : zstructure d -> mu_sym d (zmir d) zsgn.
Proof. intros (_ & H) mu E. apply ztsym; [exact Wd|]. apply H. exact E. Qed.
Lemma y_mu : ystructure d -> mu_sym d (ymir d) ysgn.
Proof. intros (_ & H) mu E. apply ytsym; [exact Wd|]. apply H. exact E. Qed.
Lemma z_im : zplane k G1 G2 G3 -> d_mu_inv d = None \/ d_nz d = 1 -> d_mu_inv d = None \/ all_image d (zmir d) zsgn 1.
Proof. intros Pl [E|E]; [left; exact E|right; apply (zall d Wd k G1 G2 G3); assumption]. Qed.
Lemma y_im : yplane k G1 G2 G3 -> d_mu_inv d = None \/ d_ny d = 1 -> d_mu_inv d = None \/ all_image d (ymir d) ysgn (-1).
Proof. intros Pl [E|E]; [left; exact E|right; apply (yall d Wd k G1 G2 G3); assumption]. Qed.

Lemma inner_op_ext f h f' h' : feq d f f' -> feq d h h' -> inner d f (opcol d h) = inner d f' (opcol d h').
Proof.
  intros H1 H2. rewrite (inner_ext d f f' (opcol d h) (opcol d h) H1 (feq_refl _ _)). rewrite (opcol_herm d f' h), (opcol_herm d f' h'). f_equal. apply inner_ext; [exact H2|apply feq_refl].
Qed.

Lemma z_form X Y X' Y' j l j' l' : zplane k G1 G2 G3 -> zstructure d -> d_mu_inv d = None \/ d_nz d = 1 -> zlimited d X j -> zlimited d Y l -> zimage d X' j' X j -> zimage d Y' l' Y l ->
  inner d (fld X' j') (opcol d (fld Y' l')) = inner d (fld X j) (opcol d (fld Y l)).
Proof.
  intros Pl St Mu L1 L2 I1 I2. rewrite (inner_op_ext _ _ _ _ (zimage_fld d Wd X' j' X j I1) (zimage_fld d Wd Y' l' Y l I2)).
  apply (op_form_flip d (zmir d) zsgn 1 (zmir_in d Wd) (zmir_inv d Wd) (csum_zmir d Wd) (zkern d Wd) one_sq); [apply z_im; assumption|apply z_mu; exact St| | | ].
  - apply ztsym; [exact Wd|exact (proj1 St)].
  - apply (zlimited_ok d Wd k G1 G2 G3); assumption.
  - apply (zlimited_ok d Wd k G1 G2 G3); assumption.
Qed.
Lemma y_form X Y X' Y' j l j' l' : yplane k G1 G2 G3 -> ystructure d -> d_mu_inv d = None \/ d_ny d = 1 -> ylimited d X j -> ylimited d Y l -> yimage d X' j' X j -> yimage d Y' l' Y l ->
  inner d (fld X' j') (opcol d (fld Y' l')) = inner d (fld X j) (opcol d (fld Y l)).
Proof.
  intros Pl St Mu L1 L2 I1 I2. rewrite (inner_op_ext _ _ _ _ (yimage_fld d Wd X' j' X j I1) (yimage_fld d Wd Y' l' Y l I2)).
  apply (op_form_flip d (ymir d) ysgn (-1) (ymir_in d Wd) (ymir_inv d Wd) (csum_ymir d Wd) (ykern d Wd) mone_sq); [apply y_im; assumption|apply y_mu; exact St| | | ].
  - apply ytsym; [exact Wd|exact (proj1 St)].
  - apply (ylimited_ok d Wd k G1 G2 G3); assumption.
  - apply (ylimited_ok d Wd k G1 G2 G3); assumption.
Qed.
Lemma sgn_prod s : s = 1 \/ s = -1 -> (IZR s * IZR (- s) = -1)%R.
Proof. intros [-> | ->]; cbn; lra. Qed.
Lemma z_select X Y j l s : zplane k G1 G2 G3 -> zstructure d -> d_mu_inv d = None \/ d_nz d = 1 -> zlimited d X j -> zlimited d Y l -> zparity d s X j -> zparity d (- s) Y l -> s = 1 \/ s = -1 ->
  inner d (fld X j) (opcol d (fld Y l)) = C0.
Proof.
  intros Pl St Mu L1 L2 P1 P2 Hs.
  apply (op_select d (zmir d) zsgn 1 (zmir_in d Wd) (zmir_inv d Wd) (csum_zmir d Wd) (zkern d Wd) one_sq _ _ (IZR s) (IZR (- s))); [apply z_im; assumption|apply z_mu; exact St| | | | | |apply sgn_prod; exact Hs].
  - apply ztsym; [exact Wd|exact (proj1 St)].
  - apply (zlimited_ok d Wd k G1 G2 G3); assumption.
  - apply (zlimited_ok d Wd k G1 G2 G3); assumption.
  - apply zparity_fld; assumption.
  - apply zparity_fld; assumption.
Qed.
Lemma y_select X Y j l s : yplane k G1 G2 G3 -> ystructure d -> d_mu_inv d = None \/ d_ny d = 1 -> ylimited d X j -> ylimited d Y l -> yparity d s X j -> yparity d (- s) Y l -> s = 1 \/ s = -1 ->
  inner d (fld X j) (opcol d (fld Y l)) = C0.
Proof.
  intros Pl St Mu L1 L2 P1 P2 Hs.
  apply (op_select d (ymir d) ysgn (-1) (ymir_in d Wd) (ymir_inv d Wd) (csum_ymir d Wd) (ykern d Wd) mone_sq _ _ (IZR s) (IZR (- s))); [apply y_im; assumption|apply y_mu; exact St| | | | | |apply sgn_prod; exact Hs].
  - apply ytsym; [exact Wd|exact (proj1 St)].
  - apply (ylimited_ok d Wd k G1 G2 G3); assumption.
  - apply (ylimited_ok d Wd k G1 G2 G3); assumption.
  - apply yparity_fld; assumption.
  - apply yparity_fld; assumption.
Qed.

Lemma opcol_scal s f h : feq d f (fun g c => RtoC s * h g c)%C -> feq d (opcol d f) (fun g c => RtoC s * opcol d h g c)%C.
Proof.
  intros H. apply (inner_sep d). intros u. rewrite opcol_herm, (inner_scal_l d s h f _ H), Cconj_mul, Cconj_R, <- opcol_herm. unfold inner. rewrite <- csum_scal. apply csum_ext. intros g _. ring.
Qed.
Lemma z_flat s X b AX : feq d (fld AX b) (opcol d (fld X b)) -> zplane k G1 G2 G3 -> zstructure d -> d_nz d = 1 -> zparity d s X b -> zparity d s AX b.
Proof.
  intros Q Pl St N1 P. apply zparity_fld; [exact Wd|]. apply (zparity_fld d Wd) in P.
  eapply feq_trans; [apply (flip_ext d (zmir d) 1 (zmir_in d Wd)); exact Q|]. eapply feq_trans.
  - apply feq_sym. apply (op_flip d (zmir d) zsgn 1 (zmir_in d Wd) (zmir_inv d Wd) (csum_zmir d Wd) (zkern d Wd) one_sq); [apply (zall d Wd k G1 G2 G3); assumption|apply z_mu; exact St|apply ztsym; [exact Wd|exact (proj1 St)]].
  - eapply feq_trans; [apply (opcol_scal (IZR s)); exact P|]. intros g c Hg Hc. rewrite Q by assumption. reflexivity.
Qed.
Lemma y_flat s X b AX : feq d (fld AX b) (opcol d (fld X b)) -> yplane k G1 G2 G3 -> ystructure d -> d_ny d = 1 -> yparity d s X b -> yparity d s AX b.
Proof.
  intros Q Pl St N1 P. apply yparity_fld; [exact Wd|]. apply (yparity_fld d Wd) in P.
  eapply feq_trans; [apply (flip_ext d (ymir d) (-1) (ymir_in d Wd)); exact Q|]. eapply feq_trans.
  - apply feq_sym. apply (op_flip d (ymir d) ysgn (-1) (ymir_in d Wd) (ymir_inv d Wd) (csum_ymir d Wd) (ykern d Wd) mone_sq); [apply (yall d Wd k G1 G2 G3); assumption|apply y_mu; exact St|apply ytsym; [exact Wd|exact (proj1 St)]].
  - eapply feq_trans; [apply (opcol_scal (IZR s)); exact P|]. intros g c Hg Hc. rewrite Q by assumption. reflexivity.
Qed.
End D.
