(** Self-adjointness and complementarity of the mirror constraints; reported parities. *)
From Coq Require Import List ZArith Reals Lia Lra Bool.
From Verif Require Import Base RC Loops M_Tensor M_Evect S_Evect L_Evect L_Evect2 L_Evect3 M_Grid S_Grid L_Grid L_Grid2.
Import ListNotations.
Local Open Scope Z_scope.

Lemma csum_app n m f : csum (n + m) f = (csum n f + csum m (fun i => f (n + i)%nat))%C.
Proof.
  induction m as [|m IH]; [rewrite Nat.add_0_r; cbn; cring|]. rewrite Nat.add_succ_r. cbn [csum]. rewrite IH. ring.
Qed.
Lemma csum_flat n m f : csum (n * m) f = csum n (fun i => csum m (fun j => f (i * m + j)%nat)).
Proof.
  induction n as [|n IH]; [reflexivity|]. replace (S n * m)%nat with (n * m + m)%nat by lia. rewrite csum_app, IH. reflexivity.
Qed.
Lemma csum_rev n f : csum n f = csum n (fun i => f (n - 1 - i)%nat).
Proof.
  induction n as [|n IH]; [reflexivity|]. pose proof (csum_app 1 n (fun i => f (S n - 1 - i)%nat)) as E. change (1 + n)%nat with (S n) in E. rewrite E. cbn [csum].
  replace (S n - 1 - 0)%nat with n by lia. rewrite IH.
  rewrite (csum_ext n (fun i => f (S n - 1 - (1 + i))%nat) (fun i => f (n - 1 - i)%nat)); [ring|]. intros. f_equal. lia.
Qed.
Lemma csum_opp_idx n (f : Z -> C) : 0 < n -> csum (Z.to_nat n) (fun i => f (opp n (Z.of_nat i))) = csum (Z.to_nat n) (fun i => f (Z.of_nat i)).
Proof.
  intros Hn. remember (Z.to_nat n - 1)%nat as m. replace (Z.to_nat n) with (1 + m)%nat by lia. rewrite !csum_app. cbn [csum].
  rewrite opp_mir by lia. change (mir n (Z.of_nat 0)) with 0. f_equal. rewrite (csum_rev m (fun i => f (Z.of_nat (1 + i)))). apply csum_ext. intros i Hi.
  rewrite opp_mir by lia. unfold mir. rewrite Z.gtb_ltb. destruct (Z.ltb_spec 0 (Z.of_nat (1 + i))); [|lia]. f_equal. lia.
Qed.

Section Inner.
Variables lnx ny nz p : Z.
Hypothesis Hx : 0 <= lnx. Hypothesis Hy : 0 < ny. Hypothesis Hz : 0 < nz.
Notation inn := (inner lnx ny nz p).
Notation a := (amp ny nz p).
Definition sum4 (f : Z -> Z -> Z -> Z -> C) : C :=
  csum (Z.to_nat lnx) (fun x => csum (Z.to_nat ny) (fun y => csum (Z.to_nat nz) (fun z => csum 2 (fun c =>
    f (Z.of_nat x) (Z.of_nat y) (Z.of_nat z) (Z.of_nat c))))).
Lemma inner4 X Y b b' : inn X Y b b' = sum4 (fun x y z c => (Cconj (a X x y z c b) * a Y x y z c b')%C).
Proof.
  unfold inner, sum4. replace (Z.to_nat (lnx * ny * nz * 2)) with (Z.to_nat lnx * (Z.to_nat ny * (Z.to_nat nz * 2)))%nat by (rewrite !Z2Nat.inj_mul by nia; change (Z.to_nat 2) with 2%nat; lia).
  rewrite csum_flat. apply csum_ext. intros x Hx'. rewrite csum_flat. apply csum_ext. intros y Hy'. rewrite csum_flat. apply csum_ext. intros z Hz'. apply csum_ext. intros c Hc.
  unfold amp. replace (Z.of_nat (x * (Z.to_nat ny * (Z.to_nat nz * 2)) + (y * (Z.to_nat nz * 2) + (z * 2 + c)))) with
    (((Z.of_nat x * ny + Z.of_nat y) * nz + Z.of_nat z) * 2 + Z.of_nat c); [reflexivity|].
  rewrite !Nat2Z.inj_add, !Nat2Z.inj_mul, !Z2Nat.id by lia. change (Z.of_nat 2) with 2. ring.
Qed.
Lemma sum4_ext f g : (forall x y z c, 0 <= x < lnx -> 0 <= y < ny -> 0 <= z < nz -> 0 <= c < 2 -> f x y z c = g x y z c) -> sum4 f = sum4 g.
Proof. intros H. unfold sum4. apply csum_ext; intros; apply csum_ext; intros; apply csum_ext; intros; apply csum_ext; intros. apply H; lia. Qed.
Lemma sum4_add f g : sum4 (fun x y z c => (f x y z c + g x y z c)%C) = (sum4 f + sum4 g)%C.
Proof.
  unfold sum4. rewrite <- csum_add. apply csum_ext; intros. rewrite <- csum_add. apply csum_ext; intros. rewrite <- csum_add. apply csum_ext; intros. apply csum_add.
Qed.
Lemma sum4_scal k f : sum4 (fun x y z c => (k * f x y z c)%C) = (k * sum4 f)%C.
Proof.
  unfold sum4. rewrite <- csum_scal. apply csum_ext; intros. rewrite <- csum_scal. apply csum_ext; intros. rewrite <- csum_scal. apply csum_ext; intros. apply csum_scal.
Qed.
Lemma sum4_oppz f : sum4 (fun x y z c => f x y (opp nz z) c) = sum4 f.
Proof.
  unfold sum4. apply csum_ext; intros x _. apply csum_ext; intros y _.
  apply (csum_opp_idx nz (fun z => csum 2 (fun c => f (Z.of_nat x) (Z.of_nat y) z (Z.of_nat c)))). exact Hz.
Qed.
Lemma sum4_oppy f : sum4 (fun x y z c => f x (opp ny y) z c) = sum4 f.
Proof.
  unfold sum4. apply csum_ext; intros x _.
  apply (csum_opp_idx ny (fun y => csum (Z.to_nat nz) (fun z => csum 2 (fun c => f (Z.of_nat x) y (Z.of_nat z) (Z.of_nat c))))). exact Hy.
Qed.

Lemma adj_z s X X' Y Y' b b' : 0 <= b < p -> 0 <= b' < p ->
  projected lnx ny nz p s (fun y z => y) (fun y z => opp nz z) X X' -> projected lnx ny nz p s (fun y z => y) (fun y z => opp nz z) Y Y' ->
  inn X' Y b b' = inn X Y' b b'.
Proof.
  intros Hb Hb' (_ & QX & _) (_ & QY & _). rewrite !inner4.
  set (e := fun c : Z => if c =? 0 then s else (- s)%R).
  transitivity (sum4 (fun x y z c => (RtoC (/ 2) * (Cconj (a X x y z c b) * a Y x y z c b' + RtoC (e c) * (Cconj (a X x y (opp nz z) c b) * a Y x y z c b')))%C)).
  - apply sum4_ext. intros x y z c I1 I2 I3 I4. rewrite QX by (repeat split; lia). fold (e c).
    generalize (a X x y z c b) (a X x y (opp nz z) c b) (a Y x y z c b') (e c). intros. cring.
  - transitivity (sum4 (fun x y z c => (RtoC (/ 2) * (Cconj (a X x y z c b) * a Y x y z c b' + RtoC (e c) * (Cconj (a X x y z c b) * a Y x y (opp nz z) c b')))%C)).
    + rewrite !sum4_scal, !sum4_add. f_equal. f_equal.
      rewrite <- (sum4_oppz (fun x y z c => (RtoC (e c) * (Cconj (a X x y z c b) * a Y x y (opp nz z) c b'))%C)).
      apply sum4_ext. intros x y z c I1 I2 I3 I4. rewrite opp_opp by lia. reflexivity.
    + apply sum4_ext. intros x y z c I1 I2 I3 I4. rewrite QY by (repeat split; lia). fold (e c).
      generalize (a X x y z c b) (a Y x y (opp nz z) c b') (a Y x y z c b') (e c). intros. cring.
Qed.
Lemma adj_y s X X' Y Y' b b' : 0 <= b < p -> 0 <= b' < p ->
  projected lnx ny nz p s (fun y z => opp ny y) (fun y z => z) X X' -> projected lnx ny nz p s (fun y z => opp ny y) (fun y z => z) Y Y' ->
  inn X' Y b b' = inn X Y' b b'.
Proof.
  intros Hb Hb' (_ & QX & _) (_ & QY & _). rewrite !inner4.
  set (e := fun c : Z => if c =? 0 then s else (- s)%R).
  transitivity (sum4 (fun x y z c => (RtoC (/ 2) * (Cconj (a X x y z c b) * a Y x y z c b' + RtoC (e c) * (Cconj (a X x (opp ny y) z c b) * a Y x y z c b')))%C)).
  - apply sum4_ext. intros x y z c I1 I2 I3 I4. rewrite QX by (repeat split; lia). fold (e c).
    generalize (a X x y z c b) (a X x (opp ny y) z c b) (a Y x y z c b') (e c). intros. cring.
  - transitivity (sum4 (fun x y z c => (RtoC (/ 2) * (Cconj (a X x y z c b) * a Y x y z c b' + RtoC (e c) * (Cconj (a X x y z c b) * a Y x (opp ny y) z c b')))%C)).
    + rewrite !sum4_scal, !sum4_add. f_equal. f_equal.
      rewrite <- (sum4_oppy (fun x y z c => (RtoC (e c) * (Cconj (a X x y z c b) * a Y x (opp ny y) z c b'))%C)).
      apply sum4_ext. intros x y z c I1 I2 I3 I4. rewrite opp_opp by lia. reflexivity.
    + apply sum4_ext. intros x y z c I1 I2 I3 I4. rewrite QY by (repeat split; lia). fold (e c).
      generalize (a X x y z c b) (a Y x (opp ny y) z c b') (a Y x y z c b') (e c). intros. cring.
Qed.
End Inner.

Lemma zc_adj nx lnx ny nz parity p X X' Y Y' b b' : field lnx ny nz p X -> field lnx ny nz p Y -> sizes nx lnx ny nz -> 0 <= b < p -> 0 <= b' < p ->
  zparity_constraint nx lnx ny nz parity p X = Val X' -> zparity_constraint nx lnx ny nz parity p Y = Val Y' ->
  inner lnx ny nz p X' Y b b' = inner lnx ny nz p X Y' b b'.
Proof.
  intros FX FY S Hb Hb' EX EY. destruct (zc_ok nx lnx ny nz parity p X FX S) as (X2 & EX2 & HX & _). destruct (zc_ok nx lnx ny nz parity p Y FY S) as (Y2 & EY2 & HY & _).
  rewrite EX in EX2. injection EX2 as <-. rewrite EY in EY2. injection EY2 as <-. destruct FX as (F1 & F2 & F3 & _).
  destruct HX as [(W & ->)|(W & PX)], HY as [(W' & ->)|(W' & PY)]; try contradiction; [reflexivity|]. eapply adj_z; eauto.
Qed.
Lemma yc_adj lnx ny nz parity p X X' Y Y' b b' : field lnx ny nz p X -> field lnx ny nz p Y -> 0 <= b < p -> 0 <= b' < p ->
  yparity_constraint lnx ny nz parity p X = Val X' -> yparity_constraint lnx ny nz parity p Y = Val Y' ->
  inner lnx ny nz p X' Y b b' = inner lnx ny nz p X Y' b b'.
Proof.
  intros FX FY Hb Hb' EX EY. destruct (yc_ok lnx ny nz parity p X FX) as (X2 & EX2 & HX & _). destruct (yc_ok lnx ny nz parity p Y FY) as (Y2 & EY2 & HY & _).
  rewrite EX in EX2. injection EX2 as <-. rewrite EY in EY2. injection EY2 as <-. destruct FX as (F1 & F2 & F3 & _).
  destruct HX as [(W & ->)|(W & PX)], HY as [(W' & ->)|(W' & PY)]; try contradiction; [reflexivity|]. eapply adj_y; eauto.
Qed.
Lemma pc_adj nx lnx ny nz parity p X X' Y Y' b b' : field lnx ny nz p X -> field lnx ny nz p Y -> sizes nx lnx ny nz -> 0 <= b < p -> 0 <= b' < p ->
  parity_constraint nx lnx ny nz parity p X = Val X' -> parity_constraint nx lnx ny nz parity p Y = Val Y' ->
  inner lnx ny nz p X' Y b b' = inner lnx ny nz p X Y' b b'.
Proof.
  intros FX FY S Hb Hb' EX EY. rewrite pc_eq in EX. rewrite pc_eq, zy_commute in EY by auto.
  destruct (zc_ok nx lnx ny nz parity p X FX S) as (X1 & EX1 & _ & LX). rewrite EX1 in EX. cbn [bind] in EX.
  destruct (yc_ok lnx ny nz parity p Y FY) as (Y1 & EY1 & _ & LY). rewrite EY1 in EY. cbn [bind] in EY.
  pose proof (field_len _ _ _ _ _ _ LX FX) as FX1. pose proof (field_len _ _ _ _ _ _ LY FY) as FY1.
  rewrite (yc_adj lnx ny nz parity p X1 X' Y Y1) by auto. exact (zc_adj nx lnx ny nz parity p X X1 Y1 Y' b b' FX FY1 S Hb Hb' EX1 EY).
Qed.

(** Even and odd parts. *)
Lemma z_complement nx lnx ny nz p X : field lnx ny nz p X -> sizes nx lnx ny nz ->
  exists Xe Xo, zparity_constraint nx lnx ny nz 1 p X = Val Xe /\ zparity_constraint nx lnx ny nz 2 p X = Val Xo /\
    (forall x y z c b, inside lnx ny nz p x y z c b -> amp ny nz p X x y z c b = (amp ny nz p Xe x y z c b + amp ny nz p Xo x y z c b)%C) /\
    exists Z1 Z2, zparity_constraint nx lnx ny nz 2 p Xe = Val Z1 /\ zparity_constraint nx lnx ny nz 1 p Xo = Val Z2 /\
    (forall x y z c b, inside lnx ny nz p x y z c b -> amp ny nz p Z1 x y z c b = C0 /\ amp ny nz p Z2 x y z c b = C0).
Proof.
  intros F S. destruct (zproj_ok nx lnx ny nz 1 p X F S ltac:(discriminate)) as (Xe & Ee & Le & Qe & _). destruct (zproj_ok nx lnx ny nz 2 p X F S ltac:(discriminate)) as (Xo & Eo & Lo & Qo & _).
  exists Xe, Xo. split; [exact Ee|]. split; [exact Eo|].
  destruct (zproj_ok nx lnx ny nz 2 p Xe (field_len _ _ _ _ _ _ Le F) S ltac:(discriminate)) as (Z1 & E1 & L1 & Q1 & _).
  destruct (zproj_ok nx lnx ny nz 1 p Xo (field_len _ _ _ _ _ _ Lo F) S ltac:(discriminate)) as (Z2 & E2 & L2 & Q2 & _).
  change (wanted 1 0 1) with 1 in *. change (wanted 2 0 1) with (-1) in *. cbv beta in *.
  split.
  - intros x y z c b I. rewrite Qe, Qo by exact I. generalize (amp ny nz p X x y z c b) (amp ny nz p X x y (opp nz z) c b). intros u v. clear. destruct (c =? 0); apply C_eq; csimp; lra.
  - exists Z1, Z2. split; [exact E1|]. split; [exact E2|]. intros x y z c b I. pose proof (inside_oppz _ _ _ _ _ _ _ _ _ I) as Iz.
    rewrite Q1, Q2 by exact I. rewrite (Qe x y z), (Qo x y z) by exact I. rewrite (Qe x y (opp nz z)), (Qo x y (opp nz z)) by exact Iz. rewrite opp_opp by apply I.
    generalize (amp ny nz p X x y z c b) (amp ny nz p X x y (opp nz z) c b). intros u v. clear. split; destruct (c =? 0); apply C_eq; csimp; lra.
Qed.
Lemma y_complement lnx ny nz p X : field lnx ny nz p X ->
  exists Xe Xo, yparity_constraint lnx ny nz 4 p X = Val Xe /\ yparity_constraint lnx ny nz 8 p X = Val Xo /\
    (forall x y z c b, inside lnx ny nz p x y z c b -> amp ny nz p X x y z c b = (amp ny nz p Xe x y z c b + amp ny nz p Xo x y z c b)%C) /\
    exists Z1 Z2, yparity_constraint lnx ny nz 8 p Xe = Val Z1 /\ yparity_constraint lnx ny nz 4 p Xo = Val Z2 /\
    (forall x y z c b, inside lnx ny nz p x y z c b -> amp ny nz p Z1 x y z c b = C0 /\ amp ny nz p Z2 x y z c b = C0).
Proof.
  intros F. destruct (yproj_ok lnx ny nz 4 p X F ltac:(discriminate)) as (Xe & Ee & Le & Qe & _). destruct (yproj_ok lnx ny nz 8 p X F ltac:(discriminate)) as (Xo & Eo & Lo & Qo & _).
  exists Xe, Xo. split; [exact Ee|]. split; [exact Eo|].
  destruct (yproj_ok lnx ny nz 8 p Xe (field_len _ _ _ _ _ _ Le F) ltac:(discriminate)) as (Z1 & E1 & L1 & Q1 & _).
  destruct (yproj_ok lnx ny nz 4 p Xo (field_len _ _ _ _ _ _ Lo F) ltac:(discriminate)) as (Z2 & E2 & L2 & Q2 & _).
  change (- wanted 4 2 3) with (-1) in *. change (- wanted 8 2 3) with 1 in *. cbv beta in *.
  split.
  - intros x y z c b I. rewrite Qe, Qo by exact I. generalize (amp ny nz p X x y z c b) (amp ny nz p X x (opp ny y) z c b). intros u v. clear. destruct (c =? 0); apply C_eq; csimp; lra.
  - exists Z1, Z2. split; [exact E1|]. split; [exact E2|]. intros x y z c b I. pose proof (inside_oppy _ _ _ _ _ _ _ _ _ I) as Iy.
    rewrite Q1, Q2 by exact I. rewrite (Qe x y z), (Qo x y z) by exact I. rewrite (Qe x (opp ny y) z), (Qo x (opp ny y) z) by exact Iy. rewrite opp_opp by apply I.
    generalize (amp ny nz p X x y z c b) (amp ny nz p X x (opp ny y) z c b). intros u v. clear. split; destruct (c =? 0); apply C_eq; csimp; lra.
Qed.
