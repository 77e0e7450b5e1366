(** All modes together are bands. *)
From Coq Require Import List ZArith Reals Bool Arith Lia Lra.
From Verif Require Import Base RC M_Tensor S_Tensor M_Evect S_Evect M_Grid S_Grid M_Op S_Op L_Op L_Op2 L_Op3 L_Op4 L_Op5 M_Eig S_Eig L_Mat M_Kpt S_Kpt M_Mx S_Mir S_Mx L_Mx1 L_Mx2 L_Mx3 S_Cmp L_Cmp2.
Import ListNotations.
Local Open Scope Z_scope.
Add Ring Cring_cmp7 : C_ring_theory.

Lemma modes_bands d m parity zero_k V MV lam : wfd d -> 0 < d_nfb d -> (1 <= m)%nat -> all_modes d m parity zero_k V MV lam -> modes_allowed d m parity zero_k V ->
  mx_bands d m m 0 zero_k true parity V MV (map lam (seq 0 m)) lam.
Proof.
  intros Wd Hn Hm [ (FV & PV) EV OV CV AV Cp ] Al. destruct (mu_cols d Wd Hn V MV FV EV) as (FM & PM & Mu). constructor.
  - split; [exact FV|]. split; [exact PV|]. split; [exact FM|]. split; [lia|]. rewrite map_length, seq_length. reflexivity.
  - intros i Hi. cbn [freq_of]. rewrite (nth_indep _ 0%R (lam 0%nat)) by (rewrite map_length, seq_length; exact Hi). rewrite map_nth, seq_nth by exact Hi. reflexivity.
  - intros i Hi. lia.
  - intros i j Hi Hj. apply OV; lia.
  - intros mu Em i j Hi Hj. rewrite (dotl_inner d Wd) by exact FV. rewrite (inner_ext d _ _ _ _ (feq_refl d _) (Mu (Z.of_nat j) ltac:(lia))). unfold mumaybe. rewrite Em, mucol_form. apply gform_h.
  - intros Em i r Hi Hr. destruct (row_in d (Z.to_nat r) ltac:(rewrite <- (rows_Z d Wd) in Hr; lia)) as (Hg & Hc & Er). rewrite Z2Nat.id in * by lia.
    pose proof (Mu (Z.of_nat i) ltac:(lia) _ _ Hg Hc) as Q. unfold mumaybe in Q. rewrite Em in Q. unfold fld in Q. rewrite Er in Q. exact Q.
  - intros i j Hi Hj _. split; [apply CV; lia|intros Hij; apply AV; lia].
  - intros Wz x y z c i (Hx & Hy & Hz & Hc & Hi) _. destruct (Al (Z.to_nat i) ltac:(lia)) as (Q & _). specialize (Q Wz x y z c Hx Hy Hz Hc). rewrite PV in Q. rewrite !Z2Nat.id in Q by lia. exact Q.
  - intros Wy x y z c i (Hx & Hy & Hz & Hc & Hi) _. destruct (Al (Z.to_nat i) ltac:(lia)) as (_ & Q & _). specialize (Q Wy x y z c Hx Hy Hz Hc). rewrite PV in Q. rewrite !Z2Nat.id in Q by lia. exact Q.
  - intros Z0 i r Hi Hr. apply (Al i ltac:(lia)); assumption.
Qed.
