From Coq Require Import List ZArith Reals Bool Lia Lra.
From Verif Require Import Base RC M_Tensor M_Evect S_Evect L_Evect L_Evect3 M_Grid S_Grid M_Op S_Op L_Op L_Op2 L_Op3 L_Op5 M_Gv L_Gv M_Pha S_Pha L_Pha L_Pha2 M_Ovl S_Ovl L_Ovl L_Ovl2.
Import ListNotations.
Local Open Scope Z_scope.

Lemma dots_result d junk mx num_bands H m b W0 fft n o f MH f' : wfd d -> ovl_ready mx num_bands d H m b W0 fft ->
  ready n d H o f -> muinv_operator n d H o f = Some (Val (MH, f')) ->
  exists s, dot_eigenvectors junk mx num_bands d H m b W0 fft = Some (Val s) /\ sp (o_U s) = ep m /\
    (forall i j, 0 <= i < ep m -> 0 <= j < ep m -> sent (o_U s) i j = Val (dotl m MH i (b - 1 + j))) /\
    (d_mu_inv d = None -> o_W s = W0 /\ o_d s = d) /\
    (d_mu_inv d <> None -> ep (o_W s) = ep W0 /\ ealloc (o_W s) = ealloc W0 /\ o_d s = with_nfb (Z.min (ealloc W0) mx) d).
Proof.
  intros Wd Rd R1 E1. pose proof Rd as (FH & Fm & EH & Hb & Hnb & Hmu).
  destruct (dots_ok d Wd junk mx H m b FH Fm Hb ltac:(lia) num_bands W0 fft Rd) as (s & E & WU & SU & Q & HN & HS).
  destruct (mu_result _ _ _ _ _ _ _ Wd R1 E1) as (FM & PM & HM).
  exists s. split; [exact E|]. split; [exact SU|]. split; [|split].
  - intros i j Hi Hj. rewrite Q by assumption. f_equal. rewrite (dotl_inner d Wd m MH i _ Fm). unfold ovl. apply inner_ext; [apply feq_refl|].
    intros g c Hg Hc. symmetry. apply HM; try assumption. lia.
  - intros K. destruct (HN K) as (A & B & _). auto.
  - intros K. destruct (HS K) as (_ & A & B & D & _). auto.
Qed.

Lemma dots_refused d junk mx num_bands H m b W0 fft : wfd d -> fields d H -> fields d m -> 1 <= ep m ->
  (d_mu_inv d <> None -> fields d W0 /\ ep W0 = ealloc W0 /\ 1 <= ealloc W0) ->
  b < 1 \/ num_bands < b - 1 + ep m ->
  dot_eigenvectors junk mx num_bands d H m b W0 fft = Some Abort.
Proof.
  intros Wd FH Fm Hm HW Hb. unfold dot_eigenvectors. cbv zeta.
  destruct (Z.leb_spec (b - 1 + ep m) num_bands); [|reflexivity]. destruct Hb as [Hb|Hb]; [|lia]. cbn [negb].
  destruct (d_mu_inv d) as [mu|] eqn:Em.
  - destruct (HW ltac:(discriminate)) as (FW & EW & A1).
    destruct (Z.to_nat (ep m)) as [|k] eqn:Ek; [lia|]. cbn [ov_loop]. destruct (Z.ltb_spec (b - 1) (b - 1 + ep m)); [|lia].
    unfold ov_block. cbn [o_U o_W o_d o_fft]. cbv zeta.
    assert (HB : forall d' W f, wfd d' -> d_mu_inv d' = Some mu -> H_from_B d' false H W (b - 1) 0 (ep W) f = Abort).
    { intros d' W f Wd' E'. unfold H_from_B. rewrite fdiv_nz by apply (N_nz _ Wd'). cbn [bind]. rewrite E'. unfold h_from_H, band_range, check.
      destruct (Z.leb_spec 0 (b - 1)); [lia|]. reflexivity. }
    destruct (Z.gtb_spec (b - 1 + ealloc W0) (b - 1 + ep m)).
    + destruct (resize_ok_f d W0 (b - 1 + ep m - (b - 1)) FW ltac:(lia)) as (W & E & _). rewrite E. cbn [bind].
      rewrite HB; [reflexivity|apply (wfd_nfb (Z.min (b - 1 + ep m - (b - 1)) mx) d Wd)|exact Em].
    + cbn [bind]. rewrite HB; [reflexivity|exact Wd|exact Em].
  - unfold XtY_slice2, check. destruct (Z.leb_spec 0 (b - 1)); [lia|]. rewrite !andb_false_r, ?andb_false_l. cbn. destruct (0 + ep m <=? ep m); [|reflexivity]. destruct (b - 1 + ep m <=? ep H); reflexivity.
Qed.

Lemma dots_overflow d junk mx num_bands H m b W0 fft : wfd d -> fields d H -> fields d m -> ep H = num_bands ->
  1 <= b -> b - 1 + ep m <= num_bands -> d_mu_inv d <> None -> fields d W0 -> ep W0 = ealloc W0 -> 1 <= ealloc W0 ->
  ealloc W0 <= ep m -> 0 < mx -> mx < ealloc W0 -> Z.of_nat (length fft) = 3 * npts d * mx ->
  dot_eigenvectors junk mx num_bands d H m b W0 fft = Some UB.
Proof.
  intros Wd FH Fm EH Hb Hnb Hmu FW EW A1 Hle Hmx0 Hmx Lf. unfold dot_eigenvectors. cbv zeta.
  destruct (Z.leb_spec (b - 1 + ep m) num_bands); [|lia]. cbn [negb].
  destruct (d_mu_inv d) as [mu|] eqn:Em; [|contradiction].
  destruct (Z.to_nat (ep m)) as [|k] eqn:Ek; [lia|]. cbn [ov_loop]. destruct (Z.ltb_spec (b - 1) (b - 1 + ep m)); [|lia].
  unfold ov_block. cbn [o_U o_W o_d o_fft]. cbv zeta. destruct (Z.gtb_spec (b - 1 + ealloc W0) (b - 1 + ep m)); [lia|]. cbn [bind].
  unfold H_from_B. rewrite fdiv_nz by apply (N_nz _ Wd). cbn [bind]. rewrite Em. unfold h_from_H. rewrite range_ok by lia. cbn [bind].
  rewrite (to_cartesian_ub d); [reflexivity|exact Wd|exact FH|lia|lia|lia|]. rewrite Lf, EW. pose proof (N_pos d Wd). nia.
Qed.

Lemma entry_result d junk mx num_bands H m b_start W0 fft n o f MH f' : wfd d -> ovl_ready mx num_bands d H m b_start W0 fft ->
  ready n d H o f -> muinv_operator n d H o f = Some (Val (MH, f')) ->
  exists s, dot_eigenvectors junk mx num_bands d H m b_start W0 fft = Some (Val s) /\
    (forall i j, 0 <= i < ep m -> 0 <= j < ep m -> sqmatrix_ref (o_U s) i j = Val (dotl m MH i (b_start - 1 + j))) /\
    (forall i j, i < 0 \/ j < 0 \/ ep m <= i \/ ep m <= j -> sqmatrix_ref (o_U s) i j = Abort).
Proof.
  intros Wd R Rd E. destruct (dots_result d junk mx num_bands H m b_start W0 fft n o f MH f' Wd R Rd E) as (s & Es & Ep & Q & _).
  exists s. split; [exact Es|]. split; intros i j; unfold sqmatrix_ref, check; rewrite Ep.
  - intros Hi Hj. destruct (Z.leb_spec 0 i), (Z.leb_spec 0 j), (Z.ltb_spec i (ep m)), (Z.ltb_spec j (ep m)); try lia. cbn [andb bind]. rewrite <- Ep. apply (Q i j Hi Hj).
  - intros K. destruct (Z.leb_spec 0 i), (Z.leb_spec 0 j), (Z.ltb_spec i (ep m)), (Z.ltb_spec j (ep m)); try lia; reflexivity.
Qed.
