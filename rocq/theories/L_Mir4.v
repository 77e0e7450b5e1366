(** The wave at the edge of the frequency table has no mirror image there. *)
From Coq Require Import List ZArith Reals Bool Arith Lia Lra.
From Verif Require Import Base RC M_Tensor S_Tensor M_Evect S_Evect L_Evect M_Grid S_Grid L_Grid L_Grid2 L_Grid3 L_Grid5 L_Grid6 M_Op S_Op L_Op L_Op2 L_Op3 L_Op4 L_Op5 L_Dft P_Op L_Mx1 L_Mx2 S_Mir L_Mir1 L_Mir2 L_Mir3.
Import ListNotations.
Local Open Scope Z_scope.
Add Ring Cring_mir4 : C_ring_theory.

Definition mr_T : sym := mkSym 1 1 1 (/ 2, 0)%R C0 C0.
Definition mr_d (t : list kdata) : mdata := create_shape 1 1 2 1 t [mr_T; mr_T] None [] 0%R.
Definition mr_X : emat C := {| en := 4; ep := 1; ealloc := 1; edata := [C0; C0; C1; C0] |}.
Definition mr_k : vec := (1, 0, 0)%R.
Definition mr_2 : vec := (0, 1, 0)%R.
Definition mr_3 : vec := (0, 0, 1)%R.

Lemma mr_trans e : transverse (1, 0, 1)%R = Val e -> kmag e = sqrt 2 /\ km e = (/ sqrt 2, 0, - / sqrt 2)%R /\ kn e = (0, 1, 0)%R.
Proof.
  unfold transverse. cbn [vcross]. destruct (Reqb_spec (1 * 1 + 0 * 0 + 1 * 1) 0); [lra|]. destruct (Reqb_spec 1 0); [lra|]. cbn [andb].
  unfold vcross. cbn [fst snd]. replace ((0 * 1 - 1 * 0) * (0 * 1 - 1 * 0) + (1 * 1 - 0 * 1) * (1 * 1 - 0 * 1) + (0 * 0 - 0 * 1) * (0 * 0 - 0 * 1))%R with 1%R by ring. rewrite sqrt_1.
  rewrite (fdiv_nz 1 1) by lra. cbn [bind]. unfold vscale. cbn [fst snd].
  match goal with |- context [fdiv 1 (sqrt ?a)] => replace a with 2%R by field end. assert (E : sqrt 2 <> 0%R) by (pose proof (sqrt_lt_R0 2 ltac:(lra)); lra). rewrite (fdiv_nz 1 (sqrt 2) E). cbn [bind].
  intros [= <-]. cbn [kmag km kn]. replace (1 * 1 + 0 * 0 + 1 * 1)%R with 2%R by ring. split; [reflexivity|]. split; [|f_equal; [f_equal|]; field]. f_equal; [f_equal|]; field; exact E.
Qed.

Lemma mr_table : exists t, k_plus_G 1 1 2 0 1 mr_k mr_k mr_2 mr_3 = Val t.
Proof. destruct (table_ok 1 1 2 0 1 mr_k mr_k mr_2 mr_3 ltac:(lia) ltac:(lia) ltac:(lia)) as (t & E & _). eauto. Qed.
Lemma mr_made t : k_plus_G 1 1 2 0 1 mr_k mr_k mr_2 mr_3 = Val t -> made (mr_d t) mr_k mr_k mr_2 mr_3.
Proof. intros E. exists 1, 1, 2, 1, t, [mr_T; mr_T], None, [], 0%R. repeat (split; [lia || reflexivity || exact E || discriminate|]). reflexivity. Qed.
Lemma mr_kz t : k_plus_G 1 1 2 0 1 mr_k mr_k mr_2 mr_3 = Val t -> kmag (kz (mr_d t) 1) = sqrt 2 /\ km (kz (mr_d t) 1) = (/ sqrt 2, 0, - / sqrt 2)%R /\ kn (kz (mr_d t) 1) = (0, 1, 0)%R.
Proof.
  intros E. pose proof (made_kat (mr_d t) mr_k mr_k mr_2 mr_3 0 0 1 (mr_made t E)) as H. cbn [mr_d create_shape d_nx d_ny d_nz] in H. specialize (H ltac:(lia) ltac:(lia) ltac:(lia)).
  apply mr_trans. replace (1, 0, 1)%R with (kpG mr_k mr_k mr_2 mr_3 (kidx 1 0) (kidx 1 0) (kidx 2 1)); [exact H|]. unfold kpG, kidx. cbn -[IZR]. f_equal; [f_equal|]; cbn; ring.
Qed.
Lemma kern_unit d g r : (normsqr (kern d 1 g r) = 1)%R.
Proof. unfold kern, normsqr. cbn [re im fst snd Z.ltb Z.compare]. rewrite <- (sin2_cos2 (phase (d_nx d) (d_ny d) (d_nz d) g r)). unfold Rsqr. ring. Qed.
Lemma mr_position t f r i : (i < 3)%nat -> f 0 0 = C0 -> f 0 1 = C0 ->
  vsel i (position (mr_d t) assign_cross_t2c f r) = (kern (mr_d t) 1 1 r * vsel i (assign_cross_t2c (kz (mr_d t) 1) (f 1 0%Z) (f 1 1%Z)))%C.
Proof.
  intros Hi E0 E1. unfold position. rewrite vsel_build by exact Hi. change (Z.to_nat (npts (mr_d t))) with 2%nat. cbn [csum]. cbn [Z.of_nat Pos.of_succ_nat Pos.succ]. rewrite E0, E1, cross_zero.
  replace (vsel i (C0, C0, C0)) with C0 by (destruct i as [|[|[|]]]; reflexivity). ring.
Qed.
Lemma mr_value t : k_plus_G 1 1 2 0 1 mr_k mr_k mr_2 mr_3 = Val t -> opcol (mr_d t) (fld mr_X 0) 1 1 = (- (sqrt 2 / 2), 0)%R.
Proof.
  intros E. pose proof (made_wfd _ _ _ _ _ (mr_made t E)) as Wd. destruct (mr_kz t E) as (K1 & K2 & K3).
  pose proof (inner_unit (mr_d t) 3 (opcol (mr_d t) (fld mr_X 0)) ltac:(cbn; lia)) as I. change (Z.of_nat 3 / 2) with 1 in I. change (Z.of_nat 3 mod 2) with 1 in I. rewrite <- I.
  rewrite opcol_form. change (mumaybe (mr_d t) (unit_at 3)) with (unit_at 3). change (mumaybe (mr_d t) (fld mr_X 0)) with (fld mr_X 0).
  unfold gform. change (Z.to_nat (npts (mr_d t))) with 2%nat. change (mN (mr_d t)) with 2%R.
  assert (F : forall r, (r < 2)%nat -> form (sym_at (d_eps_inv (mr_d t)) r) (fun i => vsel i (position (mr_d t) assign_cross_t2c (unit_at 3) (Z.of_nat r))) (fun i => vsel i (position (mr_d t) assign_cross_t2c (fld mr_X 0) (Z.of_nat r))) = (- (sqrt 2 / 2), 0)%R).
  { intros r Hr. replace (sym_at (d_eps_inv (mr_d t)) r) with mr_T by (destruct r as [|[|]]; [reflexivity|reflexivity|lia]).
    pose proof (kern_unit (mr_d t) 1 (Z.of_nat r)) as U. unfold form. cbn [csum]. rewrite !mr_position by (reflexivity || lia). destruct (kern (mr_d t) 1 1 (Z.of_nat r)) as [a b].
    unfold assign_cross_t2c. rewrite K1, K2, K3. change (unit_at 3 1 0) with C0. change (unit_at 3 1 1) with C1. change (fld mr_X 0 1 0) with C1. change (fld mr_X 0 1 1) with C0.
    pose proof (sqrt_lt_R0 2 ltac:(lra)) as S0. pose proof (sqrt_sqrt 2 ltac:(lra)) as S2. unfold normsqr in U. cbn [re im fst snd] in U.
    unfold mr_T. cbn [entry vsel m00 m11 m22 m01 m02 m12]. apply C_eq; csimp.
    - transitivity (- (a * a + b * b) * (sqrt 2 / 2))%R; [field; lra|rewrite U; ring].
    - field. lra. }
  cbn [csum]. rewrite !F by lia. apply C_eq; csimp; field.
Qed.

Lemma mr_ready t : ready 1 (mr_d t) mr_X mr_X (repeat C0 6).
Proof. unfold ready, fields, wf, scratch. repeat split; cbn; lia. Qed.
Lemma mr_structure t : zstructure (mr_d t).
Proof.
  split; [|discriminate]. cbn [mr_d create_shape d_eps_inv d_nx d_ny d_nz]. intros x y z i j Hx Hy Hz Hi Hj. cbn [mr_d create_shape d_nx d_ny d_nz] in *. assert (Ex : x = 0) by lia. assert (Ey : y = 0) by lia. subst.
  assert (O : forall w, 0 <= w < 2 -> sym_at [mr_T; mr_T] (idx (mr_d t) 0 0 w) = mr_T) by (intros w Hw; assert (w = 0 \/ w = 1) as [-> | ->] by lia; reflexivity).
  rewrite !O by (auto; apply opp_range; lia). destruct i as [|[|[|]]], j as [|[|[|]]]; try lia; unfold mr_T; cbn [entry m00 m11 m22 m01 m02 m12 zsgn]; apply C_eq; csimp; ring.
Qed.
Lemma mr_even t : zparity (mr_d t) 1 mr_X 0.
Proof.
  intros x y z c Hx Hy Hz Hc. cbn [mr_d create_shape d_nx d_ny d_nz] in *. assert (Ex : x = 0) by lia. assert (Ey : y = 0) by lia. subst.
  assert (z = 0 \/ z = 1) as [-> | ->] by lia; assert (c = 0 \/ c = 1) as [-> | ->] by lia; unfold zflip; try change (opp 2 0) with 0; try change (opp 2 1) with 1; cbn [Z.eqb Pos.eqb]; try change (amp 1 2 (ep mr_X) (edata mr_X) 0 0 0 0 0) with C0; try change (amp 1 2 (ep mr_X) (edata mr_X) 0 0 0 1 0) with C0; try change (amp 1 2 (ep mr_X) (edata mr_X) 0 0 1 1 0) with C0; apply C_eq; csimp; ring.
Qed.
Lemma mr_odd t AX : k_plus_G 1 1 2 0 1 mr_k mr_k mr_2 mr_3 = Val t -> feq (mr_d t) (fld AX 0) (opcol (mr_d t) (fld mr_X 0)) -> ~ zparity (mr_d t) 1 AX 0.
Proof.
  intros E Q P. specialize (P 0 0 1 1). cbn [mr_d create_shape d_nx d_ny d_nz] in P. specialize (P ltac:(lia) ltac:(lia) ltac:(lia) ltac:(lia)). unfold zflip in P. change (opp 2 1) with 1 in P.
  pose proof (Q 1 1 ltac:(cbn; lia) ltac:(lia)) as V. rewrite (mr_value t E) in V. change (fld AX 0 1 1) with (amp 1 2 (ep AX) (edata AX) 0 0 1 1 0) in V. rewrite V in P. injection P. csimp. intros _ H.
  pose proof (sqrt_lt_R0 2 ltac:(lra)) as S0. lra.
Qed.
