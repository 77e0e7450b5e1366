(** The Maxwell operator near a target frequency: its preconditioners give some fields; what the
    solution needs. *)
From Coq Require Import List ZArith Reals Bool Arith Lia Lra.
From Verif Require Import Base RC Loops M_Tensor S_Tensor M_Evect S_Evect L_Evect L_Evect3 M_Grid S_Grid L_Grid M_Op S_Op L_Op L_Op2 L_Op3 L_Op4 L_Op5 M_Eig S_Eig L_Mat L_Eig2 L_Eig3 M_Dav S_Dav M_Kpt S_Kpt L_Kpt1 L_Kpt2 L_Kpt6 M_Mx S_Mx L_Mx1 L_Mx2 L_Mx3 L_Mx4 M_Tgt S_Tgt L_Tgt1.
Import ListNotations.
Local Open Scope Z_scope.
Add Ring Cring_tg4 : C_ring_theory.

Section D.
Variable d : mdata.
Hypothesis Wd : wfd d.
Notation N := (npts d).

Lemma target_simple_ok X : S_Op.fields d X -> Z.of_nat (length (d_kn2 d)) = N ->
  exists Y, target_simple d X = Val Y /\ S_Op.fields d Y /\ ep Y = ep X /\
    (forall b, 0 <= b < ep X -> feq d (fld Y b) (fun g c => RtoC (1 / FIX_DENOM (nth (Z.to_nat g) (d_kn2 d) 0%R * d_eps_inv_mean d * (nth (Z.to_nat g) (d_kn2 d) 0%R * d_eps_inv_mean d))) * fld X b g c)%C).
Proof.
  intros (W & En) Lk. pose proof W as (Wn & Wp & Wl). pose proof (N_pos d Wd) as Np. unfold target_simple. change (d_nx d * d_ny d * d_nz d) with N.
  destruct (Z_le_gt_dec (ep X) 0) as [Hz|Hp].
  { rewrite forZ_id by (intros i s; apply forZ_id; intros c s1; apply forZ_nil; lia). cbn [bind]. rewrite set_data_same. exists X. split; [reflexivity|]. split; [split; assumption|]. split; [reflexivity|]. intros; lia. }
  set (sc := fun i : Z => (1 / FIX_DENOM (nth (Z.to_nat i) (d_kn2 d) 0%R * d_eps_inv_mean d * (nth (Z.to_nat i) (d_kn2 d) 0%R * d_eps_inv_mean d)))%R).
  set (body := fun (x : Z) (dt : list C) => let! v := rd dt x in wr dt x (Cscal (sc (x / ep X / 2)) v)).
  assert (Hrd : forall i, 0 <= i < N -> rd (d_kn2 d) i = Val (nth (Z.to_nat i) (d_kn2 d) 0%R)).
  { intros i Hi. unfold rd. destruct (Z.ltb_spec i 0); [lia|]. rewrite (nth_error_nth' _ 0%R) by lia. reflexivity. }
  rewrite (forZ_ext 0 N _ (fun i dt => forZ 0 2 (fun c dt => forZ 0 (ep X) (fun b dt => body ((i * 2 + c) * ep X + b) dt) dt) dt)).
  2:{ intros i s Hi. apply forZ_ext. intros c s1 Hc. apply forZ_ext. intros b s2 Hb. cbv zeta. rewrite Hrd by exact Hi. cbn [bind]. unfold body.
      rewrite Z.div_add_l, (Z.div_small b), Z.add_0_r by lia. rewrite Z.div_add_l, (Z.div_small c), Z.add_0_r by lia. reflexivity. }
  rewrite (forZ_flat N 2 (fun r dt => forZ 0 (ep X) (fun b dt => body (r * ep X + b) dt) dt)) by lia.
  rewrite (forZ_flat (N * 2) (ep X) body) by lia.
  destruct (forZ_inv (fun i s => length s = length (edata X) /\ (forall x, 0 <= x < i -> gets s x = Cscal (sc (x / ep X / 2)) (gets (edata X) x)) /\
     (forall x, i <= x -> gets s x = gets (edata X) x)) body 0 (N * 2 * ep X) (edata X)) as (dt & E & L & H & _).
  - nia.
  - split; [reflexivity|]. split; [intros; lia|reflexivity].
  - intros i s Hi (L & H1 & H2). assert (Hin : 0 <= i < Z.of_nat (length s)) by (rewrite L, Wl, En; nia).
    unfold body. rewrite (gets_in s i Hin). cbn [bind]. pose proof (wr_in s i (Cscal (sc (i / ep X / 2)) (gets s i)) Hin) as Wr. eexists. split; [exact Wr|].
    split; [rewrite upd_length; exact L|]. split.
    + intros x Hx. unfold gets at 1. rewrite (rd_wr _ _ _ _ _ Wr). destruct (Z.eqb_spec x i) as [->|]; [rewrite H2 by lia; reflexivity|]. apply H1. lia.
    + intros x Hx. unfold gets at 1. rewrite (rd_wr _ _ _ _ _ Wr). destruct (Z.eqb_spec x i) as [->|]; [lia|]. apply H2. lia.
  - rewrite E. cbn [bind]. exists (set_data X dt). split; [reflexivity|]. split; [split; [apply wf_set; [exact W|exact L]|exact En]|]. split; [reflexivity|].
    intros b Hb g c Hg Hc. unfold fld, entC. cbn [edata ep set_data].
    assert (Hi : 0 <= (2 * g + c) * ep X + b < N * 2 * ep X) by (apply rowin; [lia|exact Hb|lia]).
    rewrite H by exact Hi. rewrite Z.div_add_l, (Z.div_small b), Z.add_0_r by lia. rewrite (Z.mul_comm 2 g), Z.div_add_l, (Z.div_small c), Z.add_0_r by lia.
    rewrite Cscal_mul. reflexivity.
Qed.

Hypothesis Hn : 0 < d_nfb d.
Notation n := (rows d).

Lemma tpre_total simple X M q : pre_fits simple d -> S_Eig.fields n q X M ->
  exists Y MY, (if simple then target_simple d X else
    let! X := mx_finish (preconditioner2 (Z.to_nat (ep X)) d X (mx_scratch d)) in mx_finish (preconditioner2 (Z.to_nat (ep X)) d X (mx_scratch d))) = Val Y /\ S_Eig.fields n q Y MY.
Proof.
  intros Pf FX. destruct simple.
  - pose proof (to_op d Wd q X M FX) as OX. destruct (target_simple_ok X OX Pf) as (Y & E & FY & PY & _). exists Y. rewrite E.
    destruct (of_op d Wd q Y FY) as (MY & H); [rewrite PY; apply FX|]. exists MY. auto.
  - destruct (pre_total d Wd Hn false X M q Pf FX) as (Y & MY & E & FY). cbv iota in E. rewrite E. cbn [bind]. exact (pre_total d Wd Hn false Y MY q Pf FY).
Qed.
Lemma tK_total simple q : pre_fits simple d -> (1 <= q)%nat -> forall G Y S MG MS, S_Eig.fields n q G MG -> square q S MS -> exists X MX, target_K simple d G Y S = Val X /\ S_Eig.fields n q X MX.
Proof.
  intros Pf Hq G Y S MG MS FG FS. unfold target_K. destruct (XeYS_ok n q G MG G MG S MS true Hq FG FG FS) as (X & E & FX). rewrite E. cbn [bind]. apply (tpre_total simple X _ q Pf FX).
Qed.
Lemma tKI_total simple q : pre_fits simple d -> forall G Y e MG, S_Eig.fields n q G MG -> exists X MX, target_KI simple d G Y e = Val X /\ S_Eig.fields n q X MX.
Proof.
  intros Pf G Y e MG FG. unfold target_KI, target_K. destruct (eaXpbY_ok n q 0 G MG 1 G MG FG FG) as (X & E & FX).
  assert (EX : XeYS G G (create_sq 0) true = Val X) by exact E. rewrite EX. cbn [bind]. apply (tpre_total simple X _ q Pf FX).
Qed.

Notation A := (omat d (opcol d)).
Lemma A_dim : mdim n n A. Proof. apply omat_dim. Qed.
Lemma A_herm : hermitian A. Proof. apply (omat_herm d), opcol_sym. Qed.

Lemma t_solver_ok bs potr heev simple w : lapack_ok bs potr heev -> pre_fits simple d -> forall q, (1 <= q <= bs)%nat ->
  solver_ok n q potr heev (target_operator (mx_A d) w) None (Some (target_K simple d)) None false (square_shift n A (w * w)) (mid n) (mid n).
Proof.
  intros La Pf q Hq. destruct (La q Hq) as (Lp & Lh). constructor; auto; try apply mdim_id; try apply mid_herm; try lia.
  - apply sq_dim, A_dim.
  - apply sq_herm, A_herm.
  - apply target_ok, A_applies; auto. lia.
  - reflexivity.
  - intros G Y S MG MY MS FG _ FS. apply (tK_total simple q Pf ltac:(lia) G Y S MG MS FG FS).
  - reflexivity.
  - apply (mid_l n n), mdim_id.
Qed.
Lemma t_dav_call bs nb potr heev simple w e W : davidson_arrays d bs nb potr heev e W -> pre_fits simple d ->
  dav_call n bs nb potr heev (target_operator (mx_A d) w) (Some (target_KI simple d)) (square_shift n A (w * w)) e W.
Proof.
  intros (Hnb & Le & Q) Pf q Hq. destruct (Q q Hq) as (Lp & Lh & Enb & HW). split; [|split; [exact Enb|split; [exact Hnb|split; [lia|]]]].
  - constructor; auto; try lia.
    + apply sq_dim, A_dim.
    + apply sq_herm, A_herm.
    + apply target_ok, A_applies; auto. lia.
    + intros G Y e' MG MY FG _ _. apply (tKI_total simple q Pf G Y e' MG FG).
    + reflexivity.
    + apply (mid_l n n), mdim_id.
  - intros w' Hw. destruct (HW w' Hw) as (Fw & Pw). apply (of_op d Wd q w' Fw Pw).
Qed.

(** The call: as without target, but no constant bands, whatever k is. *)
Lemma mx_tcall num bs zero_k same parity fuel S2 ev H Hblock BY : mx_call d num bs 0 false same parity fuel S2 ev H Hblock BY -> d_mu_inv d = None ->
  tcall n num bs (mx_parity d parity) zero_k same (mx_muinv d) A (Pall d parity zero_k) fuel S2 ev H Hblock BY.
Proof.
  intros Cl Em. assert (EB : omat d (mumaybe d) = mid n) by (apply omat_id; intros g; unfold mumaybe; rewrite Em; apply feq_refl).
  pose proof (mx_kcall d Wd Hn num bs 0 false same parity fuel S2 ev H Hblock BY Cl) as (_ & Ar & _ & _ & Hf). destruct Cl as (_ & Ho & _).
  pose proof (mx_kpoint d Wd Hn num parity zero_k Ho (or_introl Em)) as Kp. rewrite EB in Ar, Kp. split; [exact Kp|]. split; [exact Ar|exact Hf].
Qed.
Lemma mx_tresult num bs zero_k negative_ok parity H f M w : orthonormal_basis d -> d_mu_inv d = None -> tbands n num bs negative_ok A (Pall d parity zero_k) H f M w ->
  exists MH, mx_muinv d H H = Val MH /\ mx_bands d num bs 0 zero_k negative_ok parity H MH f w.
Proof.
  intros Ho Em (F & L & Fr & Sa & Or & Bl). assert (EB : omat d (mumaybe d) = mid n) by (apply omat_id; intros g; unfold mumaybe; rewrite Em; apply feq_refl).
  pose proof (fields_dim _ _ _ _ F) as DM. apply (mx_result d Wd Hn num bs 0 zero_k negative_ok parity H f M w Ho ltac:(lia)).
  - split; [exact F|]. split; [exact L|]. split; [exact Fr|]. intros i Hi. lia.
  - rewrite Nat.sub_0_r, (slice_all n num M DM). exact Sa.
  - rewrite Nat.sub_0_r, (slice_all n num M DM), EB. unfold S_Eig.form. rewrite (mid_l n num M DM). exact Or.
  - intros i j Hi Hj Sb. apply Bl; auto; lia.
Qed.
End D.
