(** The Maxwell operator and the constraints as matrices; what the solution at a k point needs. *)
From Coq Require Import List ZArith Reals Bool Arith Lia Lra.
From Verif Require Import Base RC M_Tensor S_Tensor M_Evect S_Evect L_Evect M_Grid S_Grid L_Grid M_Op S_Op L_Op L_Op2 L_Op3 L_Op4 L_Op5 M_Eig S_Eig L_Mat L_Eig2 M_Dav S_Dav M_Kpt S_Kpt L_Kpt1 L_Kpt2 L_Kpt6 M_Mx S_Mx L_Mx1 L_Mx2.
Import ListNotations.
Local Open Scope Z_scope.
Add Ring Cring_mx3 : C_ring_theory.

Section D.
Variable d : mdata.
Hypothesis Wd : wfd d.
Hypothesis Hn : 0 < d_nfb d.
Notation N := (npts d).
Notation n := (rows d).

Lemma scratch_ok p : scratch d p (mx_scratch d).
Proof.
  pose proof (N_pos d Wd) as Np. unfold scratch, mx_scratch. rewrite repeat_length. change (d_nx d * d_ny d * d_nz d) with N. rewrite Z2Nat.id by nia. apply Z.mul_le_mono_nonneg_l; lia.
Qed.
Lemma opcol_sym : symmetric d (opcol d).
Proof. intros f h. apply opcol_herm. Qed.
Lemma mumaybe_sym : symmetric d (mumaybe d).
Proof. intros f h. unfold mumaybe. destruct (d_mu_inv d); [rewrite mucol_adj|]; apply inner_conj. Qed.

Lemma A_applies q : (1 <= q)%nat -> applies n q (mx_A d) (omat d (opcol d)).
Proof.
  intros Hq. apply col_applies; auto; [apply opcol_sym|]. intros X FX PX. destruct (operator_ok d Wd (Z.to_nat (ep X)) X X (mx_scratch d) FX FX eq_refl Hn (scratch_ok _) (le_n _)) as (Y & f & E & FY & PY & _ & H).
  exists Y. unfold mx_A. rewrite E. cbn [mx_finish bind]. auto.
Qed.
Lemma B_applies q : (1 <= q)%nat -> applies_opt n q (mx_B d) (omat d (mumaybe d)).
Proof.
  intros Hq. unfold mx_B, applies_opt. destruct (d_mu_inv d) as [mu|] eqn:Em.
  - apply col_applies; auto; [apply mumaybe_sym|]. intros X FX PX. destruct (muinv_ok d Wd (Z.to_nat (ep X)) X X (mx_scratch d) FX FX eq_refl Hn (scratch_ok _) (le_n _)) as (Y & f & E & FY & PY & _ & H).
    exists Y. rewrite E. cbn [mx_finish bind]. auto.
  - apply omat_id. intros f. unfold mumaybe. rewrite Em. apply feq_refl.
Qed.

(** The preconditioners give some fields. *)
Lemma pre_total simple X M q : pre_fits simple d -> S_Eig.fields n q X M ->
  exists Y MY, (if simple then simple_precondition d X else mx_finish (preconditioner2 (Z.to_nat (ep X)) d X (mx_scratch d))) = Val Y /\ S_Eig.fields n q Y MY.
Proof.
  intros Pf FX. pose proof (to_op d Wd q X M FX) as OX. assert (K : exists Y, (if simple then simple_precondition d X else mx_finish (preconditioner2 (Z.to_nat (ep X)) d X (mx_scratch d))) = Val Y /\ S_Op.fields d Y /\ ep Y = ep X).
  { unfold pre_fits in Pf. destruct simple.
    - destruct (simple_ok d Wd X OX Pf) as (Y & E & FY & PY & _). eauto.
    - destruct (precond2_ok d Wd (Z.to_nat (ep X)) X (mx_scratch d) Pf OX Hn (scratch_ok _) (le_n _)) as (Y & f & E & FY & PY & _). exists Y. rewrite E. cbn [mx_finish bind]. auto. }
  destruct K as (Y & E & (WY & NY) & PY). exists Y, (fun i j => if ((i <? n) && (j <? q))%nat then entC Y (Z.of_nat i) (Z.of_nat j) else C0). split; [exact E|].
  apply fields_of; [exact WY|rewrite NY; symmetry; apply (rows_Z d Wd)|rewrite PY; apply FX| |].
  - intros i j H. destruct (Nat.ltb_spec i n), (Nat.ltb_spec j q); cbn [andb]; try reflexivity; lia.
  - intros i j Hi Hj. destruct (Nat.ltb_spec i n), (Nat.ltb_spec j q); try lia. reflexivity.
Qed.
Lemma K_total simple q : pre_fits simple d -> (1 <= q)%nat -> forall G Y S MG MS, S_Eig.fields n q G MG -> square q S MS -> exists X MX, mx_K simple d G Y S = Val X /\ S_Eig.fields n q X MX.
Proof.
  intros Pf Hq G Y S MG MS FG FS. unfold mx_K. destruct (XeYS_ok n q G MG G MG S MS true Hq FG FG FS) as (X & E & FX). rewrite E. cbn [bind]. apply (pre_total simple X _ q Pf FX).
Qed.
Lemma KI_total simple q : pre_fits simple d -> forall G Y e MG, S_Eig.fields n q G MG -> exists X MX, mx_KI simple d G Y e = Val X /\ S_Eig.fields n q X MX.
Proof.
  intros Pf G Y e MG FG. unfold mx_KI, mx_K. destruct (eaXpbY_ok n q 0 G MG 1 G MG FG FG) as (X & E & FX).
  assert (EX : XeYS G G (create_sq 0) true = Val X) by exact E. rewrite EX. cbn [bind]. apply (pre_total simple X _ q Pf FX).
Qed.

(** The inverse permeability of the first bands. *)
Lemma batches_alloc a (step : Z * Z -> emat C * list C -> outcome (emat C * list C)) : (forall b s s', ealloc (fst s) = a -> step b s = Val s' -> ealloc (fst s') = a) ->
  forall l s s', ealloc (fst s) = a -> run step l s = Val s' -> ealloc (fst s') = a.
Proof.
  intros St. induction l as [|b l IH]; intros s s' Ha E; cbn [run] in E.
  - injection E as <-. exact Ha.
  - destruct (step b s) as [s1| | |] eqn:E1; cbn [bind] in E; try discriminate. apply (IH s1); [apply (St b s s1 Ha E1)|exact E].
Qed.
Lemma set_alloc (X : emat C) (o : outcome (list C)) Y : bind o (fun dt => Val (set_data X dt)) = Val Y -> ealloc Y = ealloc X.
Proof. destruct o; cbn [bind]; try discriminate. intros E. injection E as <-. reflexivity. Qed.
Lemma H_from_B_alloc B H bs hs nb f H' f' : H_from_B d false B H bs hs nb f = Val (H', f') -> ealloc H' = ealloc H.
Proof.
  unfold H_from_B. destruct (fdiv 1 (mN d)); cbn [bind]; try discriminate. destruct (d_mu_inv d) as [mu|].
  - destruct (h_from_H d B bs nb f) as [l0| | |]; cbn [bind]; try discriminate. destruct (e_from_d d nb mu l0); cbn [bind]; try discriminate. destruct (compute_fft _ _ _ _ _ _) as [l1| | |]; cbn [bind]; try discriminate.
    destruct (to_transverse _ d H hs nb l1) as [Y| | |] eqn:E; cbn [bind]; try discriminate. intros Q. injection Q as <- <-. apply (set_alloc _ _ _ E).
  - destruct (evectmatrix_copy_slice H B hs bs nb) as [Y| | |] eqn:E; cbn [bind]; try discriminate. intros Q. injection Q as <- <-. unfold evectmatrix_copy_slice in E.
    destruct (check _); cbn [bind] in E; try discriminate. destruct (_ && _)%bool; [|destruct (nb =? 1); apply (set_alloc _ _ _ E)].
    unfold evectmatrix_copy in E. destruct (check _); cbn [bind] in E; try discriminate. apply (set_alloc _ _ _ E).
Qed.
Lemma muinv_wide H b : S_Op.fields d H -> S_Op.fields d b -> ep b <= ep H ->
  exists b', mx_muinv d H b = Val b' /\ S_Op.fields d b' /\ ep b' = ep b /\ ealloc b' = ealloc b /\ forall i, 0 <= i < ep b -> feq d (fld b' i) (mumaybe d (fld H i)).
Proof.
  intros FH Fb Hle. unfold mx_muinv, muinv_operator. set (step := fun bt s => let '(Xo, f) := s in H_from_B d false H Xo (fst bt) (fst bt) (snd bt) f).
  assert (St : forall start nb (s : emat C * list C), 0 <= start -> 0 < nb <= d_nfb d -> start + nb <= ep b -> L_Op2.state_ok d (ep b) (length (mx_scratch d)) s ->
    exists s', step (start, nb) s = Val s' /\ batch_ok d (ep b) (length (mx_scratch d)) (fun i => mumaybe d (fld H i)) start nb s s').
  { intros start nb (Y & f) Hs Hb Hp (S1 & S2 & S3). cbn [fst snd] in *.
    assert (Hf' : 3 * N * nb <= Z.of_nat (length f)) by (rewrite S3; apply (scratch_batch d Wd (ep b)); [apply scratch_ok|lia|lia]).
    unfold step. cbn [fst snd]. unfold mumaybe. destruct (d_mu_inv d) as [mu|] eqn:Emu.
    - destruct (H_from_B_mu d Wd mu false H Y start start nb f Emu FH S1 Hs Hs ltac:(lia) ltac:(lia) ltac:(lia) Hf') as (Y1 & f1 & E1 & L1 & F1 & P1 & A1 & N1 & O1).
      rewrite E1. eexists. split; [reflexivity|]. split; [|split]; cbn [fst snd].
      + split; [exact F1|]. split; cbn; congruence.
      + intros i Hi. replace i with (start + (i - start)) by lia. apply N1. lia.
      + intros i Hi Hno. apply O1; [lia|exact Hno].
    - destruct (H_from_B_none d Wd H Y start start nb f Emu FH S1 Hs Hs ltac:(lia) ltac:(lia) ltac:(lia)) as (Y1 & E1 & F1 & P1 & A1 & N1 & O1).
      rewrite E1. eexists. split; [reflexivity|]. split; [|split]; cbn [fst snd].
      + split; [exact F1|]. split; cbn; congruence.
      + intros i Hi. replace i with (start + (i - start)) by lia. apply N1. lia.
      + intros i Hi Hno. apply O1; [lia|exact Hno]. }
  destruct (batches_run d (ep b) (length (mx_scratch d)) (fun i _ => mumaybe d (fld H i)) step Hn) with (fuel := Z.to_nat (ep b)) (s := (b, mx_scratch d)) as (l & (Y & f') & El & Er & (K1 & K2 & K3) & Nw).
  - destruct Fb as ((_ & W & _) & _). lia.
  - intros i f g _ x c _ _. reflexivity.
  - intros start nb s Hs Hb Hp Hst. apply St; assumption.
  - split; [exact Fb|]. split; reflexivity.
  - reflexivity.
  - rewrite El. cbn [option_map]. fold step. rewrite Er. cbn [mx_finish bind]. exists Y. cbn [fst snd] in *. split; [reflexivity|]. split; [exact K1|]. split; [exact K2|]. split; [|exact Nw].
    refine (batches_alloc (ealloc b) step _ l (b, mx_scratch d) (Y, f') eq_refl Er). intros (start & nb) (X1 & f1) (X2 & f2) Ha E. cbn [fst snd] in *. rewrite <- Ha.
    unfold step in E. cbn [fst snd] in E. apply (H_from_B_alloc H X1 start start nb f1 X2 f2 E).
Qed.
End D.
