(** A case for the gradient of a frequency. *)
From Coq Require Import List ZArith Reals Lra Lia Bool.
From Verif Require Import Base RC M_Tensor S_Tensor M_Evect S_Evect M_Grid S_Grid M_Op S_Op L_Op L_Op2 L_Op4 L_Op5 P_Op M_Interp S_Interp M_Matgrid S_Matgrid L_Matgrid2 M_Fld S_Fld M_Half S_Half L_Half M_Match S_Match L_Match L_Match2 M_Fgrad S_Fgrad L_Fgrad L_Fgrad2.
Import ListNotations.
Local Open Scope R_scope.

Definition fx_q : mproblem := {| q_n1 := 2; q_n2 := 1; q_n3 := 1; q_sx := 1; q_sy := 1; q_sz := 1; q_eps := []; q_ex := 1; q_ey := 1; q_ez := 1;
  q_grids := [mx_g]; q_tree := fun p => {| f_kind := U_SUM; f_lo := 1; f_hi := 2; f_over := []; f_dflt := Some (p, O) |} |}.
Definition fx_es (x : R) : list sym := [iso (/ (x + 1)); iso (/ (x + 1))].
Definition fx_d : mdata := create_shape 2 1 1 1 [ex_k (/ 2); ex_k (- / 2)] (fx_es (/ 2)) None [/ 4; / 4]%R (/ 3)%R.
Definition fx_H : emat C := {| en := 4; ep := 1; ealloc := 1; edata := repeat (/ 2, 0) 4 |}.
Lemma fx_eps rest c x : eps_here fx_q rest c [x] = x + 1.
Proof. unfold eps_here, there, entries. cbn [fx_q q_tree f_over f_dflt f_kind f_lo f_hi q_grids app opt_list]. unfold eps_of, combine, entry_value. cbn [map fst snd nth with_params mx_g gx gy gz fold_right length INR]. change (Z.to_nat (1 * 1 * 1)) with 1%nat. cbn [firstn]. rewrite value1. field. Qed.
Lemma fx_hold rest x : tensors_hold fx_q rest [x] (fx_es x).
Proof.
  split; [reflexivity|]. intros i j k H. rewrite fx_eps. apply whole_in in H. cbn [fx_q q_n1 q_n2 q_n3] in *. assert (j = 0 /\ k = 0 /\ (i = 0 \/ i = 1))%Z as (-> & -> & [-> | ->]) by lia; reflexivity.
Qed.
Lemma fx_wfd x : wfd (with_eps (fx_es x) fx_d) /\ orthonormal_basis (with_eps (fx_es x) fx_d).
Proof.
  split.
  - exact (create_wfd 2 1 1 1 [ex_k (/ 2); ex_k (- / 2)] (fx_es x) None [/ 4; / 4] (/ 3) ltac:(lia) ltac:(lia) ltac:(lia) eq_refl eq_refl ltac:(discriminate)).
  - intros g Hg. unfold npts in Hg. cbn in Hg. destruct g as [|[|g]]; [| |lia]; unfold kat; cbn; repeat split; ring.
Qed.
Lemma fx_eigen x : eigenfield (with_eps (fx_es x) fx_d) fx_H 0 (/ (x + 1) * (/ 2 * / 2)).
Proof.
  destruct (fx_wfd x) as (Wd & Ho). set (d := with_eps (fx_es x) fx_d) in *.
  assert (Rd : ready 1 d fx_H fx_H (repeat C0 6)) by (unfold ready, fields, wf, scratch, npts; cbn; repeat split; lia).
  split; [exact (proj1 Rd)|]. split; [cbn; lia|]. destruct (C13_total 1 d fx_H fx_H (repeat C0 6) Wd Rd) as (AY & g & E & _). exists 1%nat, fx_H, (repeat C0 6), AY, g. split; [exact Rd|]. split; [exact E|].
  destruct (op_result _ _ _ _ _ _ _ Wd Rd E) as (_ & _ & Q). specialize (Q 0%Z ltac:(cbn; lia)).
  assert (U : uniform d (d_eps_inv d) (/ (x + 1))) by (intros r Hr; unfold npts in Hr; cbn in Hr; destruct r as [|[|r]]; [reflexivity|reflexivity|lia]).
  intros i Hi. cbn [fx_H en] in Hi. assert (HN : npts d = 2%Z) by reflexivity. assert (Hg : (0 <= i / 2 < npts d)%Z) by (rewrite HN; split; [apply Z.div_pos; lia|apply Z.div_lt_upper_bound; lia]).
  pose proof (Z.mod_pos_bound i 2 ltac:(lia)) as Hc. specialize (Q (i / 2)%Z (i mod 2)%Z Hg Hc). unfold fld at 1 in Q. rewrite <- (Z.div_mod i 2) in Q by lia. rewrite Q.
  unfold opcol. change (d_mu_inv d) with (@None (list sym)). cbv iota. rewrite (epscol_iso d Wd _ _ Ho U _ _ Hg Hc). unfold fld. rewrite <- (Z.div_mod i 2) by lia. f_equal. f_equal. f_equal.
  rewrite HN in Hg. assert (i / 2 = 0 \/ i / 2 = 1)%Z as [-> | ->] by lia; unfold kz, kat; cbn; [ring|]. change (Pos.to_nat 1) with 1%nat. cbn. ring.
Qed.
