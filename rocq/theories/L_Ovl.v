From Coq Require Import List ZArith Reals Bool Lia Lra.
From Verif Require Import Base RC M_Tensor M_Evect S_Evect L_Evect L_Evect3 M_Grid S_Grid M_Op S_Op L_Op L_Op2 L_Op3 L_Op5 M_Gv L_Gv M_Pha S_Pha L_Pha L_Pha2 M_Ovl S_Ovl.
Import ListNotations.
Local Open Scope Z_scope.

Lemma new_wf junk p : 0 <= p -> wfs (new_sq junk p).
Proof. intros H. split; cbn; [lia|]. rewrite repeat_length, Z2Nat.id; [reflexivity|nia]. Qed.

Section Ovl.
Variable d : mdata.
Hypothesis Wd : wfd d.
Variables (junk : C) (mx : Z) (H m : emat C) (b_start : Z).
Hypothesis FH : fields d H.
Hypothesis Fm : fields d m.
Hypothesis Hb : 1 <= b_start.
Let final := b_start - 1 + ep m.
Hypothesis Hfin : final <= ep H.

Definition ovl (i j : Z) : C := inner d (fld m i) (mumaybe d (fld H (b_start - 1 + j))).

Lemma ov_block_ok n ib s : fields d (o_W s) -> ep (o_W s) = ealloc (o_W s) -> 1 <= ealloc (o_W s) ->
  3 * npts d * ealloc (o_W s) <= Z.of_nat (length (o_fft s)) -> o_d s = with_nfb n d -> wfs (o_U s) -> sp (o_U s) = ep m ->
  b_start - 1 <= ib < final ->
  let q := Z.min (ealloc (o_W s)) (final - ib) in
  exists s' n', ov_block junk mx H m b_start final ib s = Val s' /\
    fields d (o_W s') /\ ep (o_W s') = q /\ ealloc (o_W s') = ealloc (o_W s) /\ length (o_fft s') = length (o_fft s) /\
    o_d s' = with_nfb n' d /\ wfs (o_U s') /\ sp (o_U s') = ep m /\
    (forall i j, 0 <= i < ep m -> 0 <= j < q -> sent (o_U s') i (ib - (b_start - 1) + j) = Val (ovl i (ib - (b_start - 1) + j))) /\
    (forall i j, 0 <= i < ep m -> 0 <= j < ep m -> ~ (ib - (b_start - 1) <= j < ib - (b_start - 1) + q) -> sent (o_U s') i j = sent (o_U s) i j).
Proof.
  intros FW EW A1 Lf Ed WU SU Hib q.
  assert (HW : exists n' W, (if ib + ealloc (o_W s) >? final then set_num_bands mx (final - ib) (o_d s) else o_d s) = with_nfb n' d /\
     (if ib + ealloc (o_W s) >? final then evectmatrix_resize (o_W s) (final - ib) false else Val (o_W s)) = Val W /\
     fields d W /\ ep W = q /\ ealloc W = ealloc (o_W s)).
  { rewrite Ed. destruct (Z.gtb_spec (ib + ealloc (o_W s)) final).
    - destruct (resize_ok_f d (o_W s) (final - ib) FW ltac:(lia)) as (W & E & F & P & A).
      exists (Z.min (final - ib) mx), W. split; [reflexivity|]. split; [exact E|]. split; [exact F|]. split; [unfold q; lia|exact A].
    - exists n, (o_W s). split; [reflexivity|]. split; [reflexivity|]. split; [exact FW|]. split; [unfold q; lia|reflexivity]. }
  destruct HW as (n' & W & E1 & E2 & FW' & PW & AW). unfold ov_block. cbv zeta. rewrite E1, E2. cbn [bind].
  destruct FH as (WH & NH). destruct Fm as (Wm & Nm).
  destruct (HfB_ok d Wd n' H W ib (ep W) (o_fft s)) as (W2 & f2 & E3 & L3 & F3 & P3 & A3 & Q3); try lia; auto.
  { intros _. rewrite PW. pose proof (N_pos d Wd). unfold q. nia. }
  rewrite E3. cbn [bind].
  destruct F3 as (WW & NW). destruct Wm as (Wm1 & Wm2 & Wm3).
  destruct (slice2_ok (o_U s) m W2 0 0 (ep m) (ep W2) (ib - (b_start - 1)) (new_sq junk (ep m)) (new_sq junk (ep m)))
    as (U' & E4 & WU' & SU' & Q4 & O4); auto; try (cbn; lia); try (apply new_wf; lia); try (rewrite P3, PW; unfold q; lia).
  { repeat split; auto; lia. }
  rewrite E4. cbn [bind]. exists (mkO U' W2 (with_nfb n' d) f2), n'. split; [reflexivity|]. cbn [o_U o_W o_d o_fft].
  split; [split; assumption|]. split; [congruence|]. split; [congruence|]. split; [exact L3|]. split; [reflexivity|]. split; [exact WU'|]. split; [congruence|].
  rewrite P3, PW in *. split.
  - intros i j Hi Hj. rewrite Q4 by lia. f_equal. cbn [Z.add]. rewrite (dotl_inner d Wd m W2) by (split; [repeat split; auto; lia|exact Nm]).
    unfold ovl. apply inner_ext; [apply feq_refl|]. replace (b_start - 1 + (ib - (b_start - 1) + j)) with (ib + j) by lia. apply Q3. lia.
  - intros i j Hi Hj Hn. apply O4; assumption.
Qed.

Lemma ov_loop_ok fuel : forall n ib s, (Z.to_nat (final - ib) <= fuel)%nat -> fields d (o_W s) -> 1 <= ealloc (o_W s) ->
  (ib < final -> ep (o_W s) = ealloc (o_W s)) ->
  3 * npts d * ealloc (o_W s) <= Z.of_nat (length (o_fft s)) -> o_d s = with_nfb n d -> wfs (o_U s) -> sp (o_U s) = ep m ->
  b_start - 1 <= ib ->
  (forall i j, 0 <= i < ep m -> 0 <= j < ep m -> j < ib - (b_start - 1) -> sent (o_U s) i j = Val (ovl i j)) ->
  exists s' n', ov_loop fuel junk mx H m b_start final ib s = Some (Val s') /\
    fields d (o_W s') /\ ealloc (o_W s') = ealloc (o_W s) /\ length (o_fft s') = length (o_fft s) /\
    o_d s' = with_nfb n' d /\ wfs (o_U s') /\ sp (o_U s') = ep m /\
    (forall i j, 0 <= i < ep m -> 0 <= j < ep m -> sent (o_U s') i j = Val (ovl i j)).
Proof.
  induction fuel as [|fuel IH]; intros n ib s Hf FW A1 EW Lf Ed WU SU Hib Q; cbn [ov_loop].
  - destruct (Z.ltb_spec ib final); [lia|]. exists s, n. do 7 (split; [first [reflexivity|assumption]|]). intros i j Hi Hj. apply Q; try assumption. unfold final in *. lia.
  - destruct (Z.ltb_spec ib final).
    + destruct (ov_block_ok n ib s FW (EW ltac:(lia)) A1 Lf Ed WU SU ltac:(lia)) as (s1 & n1 & E1 & B1 & B2 & B3 & B4 & B5 & B6 & B7 & B8 & B9).
      rewrite E1.
      destruct (IH n1 (ib + ealloc (o_W s1)) s1) as (s2 & n2 & E2 & C1 & C2 & C3 & C4 & C5 & C6 & C7); try (rewrite ?B3, ?B4; first [assumption|lia]).
      { intros i j Hi Hj Hlt. rewrite B3 in Hlt. destruct (Z_lt_ge_dec j (ib - (b_start - 1))).
        - rewrite B9 by lia. apply Q; assumption.
        - replace j with (ib - (b_start - 1) + (j - (ib - (b_start - 1)))) by lia. apply B8; unfold final in *; lia. }
      exists s2, n2. split; [exact E2|]. split; [exact C1|]. split; [congruence|]. split; [congruence|]. repeat (split; [assumption|]). exact C7.
    + exists s, n. do 7 (split; [first [reflexivity|assumption]|]). intros i j Hi Hj. apply Q; try assumption. unfold final in *. lia.
Qed.

Lemma dots_ok num_bands W0 fft : ovl_ready mx num_bands d H m b_start W0 fft ->
  exists s, dot_eigenvectors junk mx num_bands d H m b_start W0 fft = Some (Val s) /\
    wfs (o_U s) /\ sp (o_U s) = ep m /\
    (forall i j, 0 <= i < ep m -> 0 <= j < ep m -> sent (o_U s) i j = Val (ovl i j)) /\
    (d_mu_inv d = None -> o_W s = W0 /\ o_d s = d /\ o_fft s = fft) /\
    (d_mu_inv d <> None -> fields d (o_W s) /\ ep (o_W s) = ep W0 /\ ealloc (o_W s) = ealloc W0 /\
       o_d s = with_nfb (Z.min (ealloc W0) mx) d /\ length (o_fft s) = length fft).
Proof.
  intros (_ & _ & EH & _ & Hnb & Hmu). unfold dot_eigenvectors. fold final. cbv zeta.
  destruct (Z.leb_spec final num_bands); [|unfold final in *; lia]. cbn [negb].
  destruct Fm as (Wm & Nm). destruct FH as (WH & NH). pose proof Wm as (Wm1 & Wm2 & Wm3).
  destruct (d_mu_inv d) as [mu|] eqn:Em.
  - destruct (Hmu ltac:(discriminate)) as (FW & EW & A1 & Lf).
    destruct (ov_loop_ok (Z.to_nat (ep m)) (d_nfb d) (b_start - 1) (mkO (new_sq junk (ep m)) W0 d fft)) as (s & n & E & B1 & B2 & B3 & B4 & B5 & B6 & B7);
      cbn [o_U o_W o_d o_fft]; auto; try lia.
    { clear. destruct d; reflexivity. } { apply new_wf. lia. }
    cbn [o_U o_W o_d o_fft] in *.
    rewrite E. cbn [option_map bind].
    destruct (resize_ok_f d (o_W s) (ealloc (o_W s)) B1) as (W2 & E2 & F2 & P2 & A2). { destruct B1 as ((_ & P & _) & _). lia. }
    rewrite E2. cbn [bind]. eexists. split; [reflexivity|]. cbn [o_U o_W o_d o_fft].
    split; [exact B5|]. split; [exact B6|]. split; [exact B7|]. split; [discriminate|]. intros _.
    split; [exact F2|]. split; [congruence|]. split; [congruence|]. split; [|exact B3].
    rewrite B4, A2, B2. reflexivity.
  - destruct (slice2_ok (new_sq junk (ep m)) m H 0 (b_start - 1) (ep m) (ep m) 0 (new_sq junk (ep m)) (new_sq junk (ep m)))
      as (U' & E4 & WU' & SU' & Q4 & _); auto; try (cbn; lia); try (apply new_wf; lia); try (unfold final in *; lia); try congruence.
    rewrite E4. cbn [bind]. eexists. split; [reflexivity|]. cbn [o_U o_W o_d o_fft]. split; [exact WU'|]. split; [exact SU'|].
    split; [|split; [intros _; auto|intros K; congruence]].
    intros i j Hi Hj. specialize (Q4 i j Hi Hj). cbn [Z.add] in Q4. rewrite Q4. f_equal. rewrite (dotl_inner d Wd) by (split; assumption).
    unfold ovl, mumaybe. rewrite Em. reflexivity.
Qed.
End Ovl.
