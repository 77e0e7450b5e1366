(** The operators of the two builds, for every batch size of either. *)
From Coq Require Import List ZArith Reals Bool Lia Lra.
From Verif Require Import Base RC Loops M_Tensor S_Tensor M_Evect S_Evect L_Evect L_Evect3 M_Grid S_Grid M_Op S_Op L_Op L_Op2 M_Real S_Real L_Real1 L_Real2 L_Real3.
Import ListNotations.
Local Open Scope Z_scope.

Section D.
Variables d dc : mdata.
Hypothesis Wr : wfr d.
Hypothesis Sp : same_problem d dc.
Hypothesis Sy : symmetric_structure dc.
Notation N := (npts d).
Notation O := (d_other d).
Notation S := (stored d).

Lemma same_npts : npts d = npts dc.
Proof. destruct Sp as (E1 & E2 & E3 & _). unfold npts. rewrite E1, E2, E3. reflexivity. Qed.
Lemma same_kern dir g r : kern d dir g r = kern dc dir g r.
Proof. destruct Sp as (E1 & E2 & E3 & _). unfold kern. rewrite E1, E2, E3. reflexivity. Qed.
Lemma same_kz g : kz d g = kz dc g.
Proof. destruct Sp as (_ & _ & _ & E & _). unfold kz, kat. rewrite E. reflexivity. Qed.
Lemma same_mN : mN d = mN dc.
Proof. destruct Sp as (E1 & E2 & E3 & _). unfold mN. rewrite E1, E2, E3. reflexivity. Qed.
Lemma same_feq f g : feq d f g <-> feq dc f g.
Proof. unfold feq. rewrite same_npts. tauto. Qed.
Lemma same_inversion t : inversion dc t -> inversion d t.
Proof. destruct Sp as (E1 & E2 & E3 & _). unfold inversion, pt. rewrite E1, E2, E3. auto. Qed.
Lemma same_half a b : half_of dc a b -> half_of d a b.
Proof. destruct Sp as (E1 & E2 & E3 & _). unfold half_of, pt. rewrite E1, E2, E3. auto. Qed.
Lemma same_sand asg prj F f : feq d (sand d asg prj F f) (sand dc asg prj F f).
Proof.
  intros g c Hg Hc. unfold sand. cbv zeta. rewrite same_kz. replace (back d (fun r => F r (position d asg f r)) g) with (back dc (fun r => F r (position dc asg f r)) g); [reflexivity|].
  unfold back. rewrite same_npts. apply vbuild_ext. intros i. apply csum_ext. intros r Hr. rewrite same_kern. f_equal. f_equal. f_equal.
  unfold position. rewrite same_npts. apply vbuild_ext. intros j. apply csum_ext. intros g' Hg'. rewrite same_kern, same_kz. reflexivity.
Qed.

(** Bands of the two builds hold the same amplitudes. *)
Lemma r_mN : mN d <> 0%R.
Proof. unfold mN. pose proof (r_N d Wr) as H. unfold npts in H. apply not_0_IZR. lia. Qed.
Lemma range_r X start nb : 0 <= start -> start + nb <= ep X -> band_range_r X start nb = Val tt.
Proof. intros H1 H2. unfold band_range_r, check. destruct (Z.leb_spec 0 start); [|lia]. destruct (Z.leb_spec (start + nb) (ep X)); [reflexivity|lia]. Qed.

(** A sandwich of the real build. *)
Lemma sand_r asg asg_r prj prj_r th t X Y xs ys nb fft : asg_match asg asg_r -> prj_match prj prj_r ->
  half_of d th t -> inversion d t -> Z.of_nat (length th) = O * S ->
  fields_r d X -> fields_r d Y -> 0 <= xs -> 0 <= ys -> 0 < nb -> xs + nb <= ep X -> ys + nb <= ep Y -> 3 * M d * nb <= Z.of_nat (length fft) ->
  exists f0 f1 f2 f3 Y', to_cartesian_r asg_r d X xs nb fft = Val f0 /\ compute_fft_r 1 d f0 (nb * 3) (nb * 3) 1 = Val f1 /\ e_from_d_r d nb th f1 = Val f2 /\
    compute_fft_r (-1) d f2 (nb * 3) (nb * 3) 1 = Val f3 /\ to_transverse_r prj_r d Y ys nb f3 = Val Y' /\ length f3 = length fft /\
    fields_r d Y' /\ ep Y' = ep Y /\ ealloc Y' = ealloc Y /\
    (forall b, 0 <= b < nb -> feq d (lift Y' (ys + b)) (sand d asg prj (tens t) (lift X (xs + b)))) /\
    (forall b, 0 <= b < ep Y -> ~ (ys <= b < ys + nb) -> feq d (lift Y' b) (lift Y b)).
Proof.
  intros Ma Mp Hh Hi Lt HX HY Hxs Hys Hb Hx Hy Hf.
  destruct (fwd_r d Wr asg asg_r X xs nb fft Ma HX Hxs Hb Hx Hf) as (f0 & f1 & E0 & E1 & L1 & A1).
  destruct (e_from_d_r_ok d Wr th nb f1 Lt Hb) as (f2 & E2 & L2 & A2); [rewrite L1; exact Hf|].
  destruct (bwd_r d Wr prj prj_r Y ys nb f2 (fun b r => tens t r (position d asg (lift X (xs + b)) r)) Mp HY Hys Hb Hy)
    as (f3 & Y' & E3 & E4 & L3 & FY & P1 & P2 & Q1 & Q2).
  - rewrite L2, L1. exact Hf.
  - intros h b Hh' Hbb. rewrite A2, A1 by assumption. unfold tens. rewrite (half_tensor d Wr th t h Hh Hh'). reflexivity.
  - intros b Hbb. apply (tens_symmetric d Wr t); [exact Hi|]. apply (position_symmetric d Wr asg asg_r). exact Ma.
  - exists f0, f1, f2, f3, Y'. split; [exact E0|]. split; [exact E1|]. split; [exact E2|]. split; [exact E3|]. split; [exact E4|]. split; [congruence|]. split; [exact FY|]. split; [exact P1|]. split; [exact P2|]. split; [exact Q1|exact Q2].
Qed.

Definition state_r (p : Z) (L : nat) (s : emat R * list R) : Prop := fields_r d (fst s) /\ ep (fst s) = p /\ length (snd s) = L.
Definition batch_r (p : Z) (L : nat) (new : Z -> ff) (start nb : Z) (s s' : emat R * list R) : Prop :=
  state_r p L s' /\ (forall b, start <= b < start + nb -> feq d (lift (fst s') b) (new b)) /\
  (forall b, 0 <= b < p -> ~ (start <= b < start + nb) -> feq d (lift (fst s') b) (lift (fst s) b)).
Lemma batches_run_r p L (new : Z -> ff) (step : Z * Z -> emat R * list R -> outcome (emat R * list R)) : 0 < d_nfb d -> 0 <= p ->
  (forall start nb s, 0 <= start -> 0 < nb <= d_nfb d -> start + nb <= p -> state_r p L s ->
     exists s', step (start, nb) s = Val s' /\ batch_r p L new start nb s s') ->
  forall fuel s, state_r p L s -> (Z.to_nat p <= fuel)%nat ->
  exists l s', batches fuel 0 p (d_nfb d) = Some l /\ run step l s = Val s' /\ state_r p L s' /\
    (forall b, 0 <= b < p -> feq d (lift (fst s') b) (new b)).
Proof.
  intros Hn Hp St.
  assert (G : forall fuel cur s1, 0 <= cur -> (Z.to_nat (p - cur) <= fuel)%nat -> state_r p L s1 ->
    exists l s', batches fuel cur p (d_nfb d) = Some l /\ run step l s1 = Val s' /\ state_r p L s' /\
    (forall b, 0 <= b < cur -> b < p -> feq d (lift (fst s') b) (lift (fst s1) b)) /\
    (forall b, cur <= b < p -> feq d (lift (fst s') b) (new b))).
  { induction fuel as [|fuel IH]; intros cur s1 Hc Hfu Hs1.
    - cbn [batches]. destruct (Z.ltb_spec cur p); [lia|]. exists [], s1. split; [reflexivity|]. split; [reflexivity|]. split; [exact Hs1|]. split.
      + intros b _ _ g c _ _. reflexivity.
      + intros; lia.
    - cbn [batches]. destruct (Z.ltb_spec cur p) as [Hlt|Hge].
      + destruct (St cur (Z.min (d_nfb d) (p - cur)) s1 ltac:(lia) ltac:(lia) ltac:(lia) Hs1) as (s2 & E2 & K2 & New & Old).
        destruct (IH (cur + d_nfb d) s2 ltac:(lia) ltac:(lia) K2) as (l & s' & El & Er & K' & O' & N').
        exists ((cur, Z.min (d_nfb d) (p - cur)) :: l), s'. rewrite El. split; [reflexivity|]. split; [cbn [run]; rewrite E2; cbn [bind]; exact Er|].
        split; [exact K'|]. split.
        * intros b Hb Hbp. eapply feq_trans; [apply O'; lia|]. apply Old; lia.
        * intros b Hb. destruct (Z_lt_le_dec b (cur + d_nfb d)) as [Hin|Hout].
          -- eapply feq_trans; [apply O'; lia|]. apply New. lia.
          -- apply N'. lia.
      + exists [], s1. split; [reflexivity|]. split; [reflexivity|]. split; [exact Hs1|]. split; [intros b _ _ g c _ _; reflexivity|intros; lia]. }
  intros fuel s Hs Hf. destruct (G fuel 0 s ltac:(lia) ltac:(lia) Hs) as (l & s' & El & Er & K & _ & Nw). exists l, s'. auto.
Qed.

Lemma eps_half : half_of d (d_eps_inv d) (d_eps_inv dc) /\ inversion d (d_eps_inv dc) /\ Z.of_nat (length (d_eps_inv d)) = O * S.
Proof.
  split; [|split].
  - apply same_half. apply Sp.
  - apply same_inversion. apply Sy.
  - rewrite <- (r_out d Wr). destruct Wr as (_ & _ & _ & _ & _ & _ & _ & _ & _ & E & _). exact E.
Qed.
Lemma mu_half mr : d_mu_inv d = Some mr -> exists mc, d_mu_inv dc = Some mc /\ half_of d mr mc /\ inversion d mc /\ Z.of_nat (length mr) = O * S.
Proof.
  intros E. destruct Sp as (_ & _ & _ & _ & _ & H). rewrite E in H. destruct (d_mu_inv dc) as [mc|] eqn:Ec; [|contradiction]. exists mc. split; [reflexivity|]. split; [apply same_half; exact H|]. split.
  - apply same_inversion. destruct Sy as (_ & I). rewrite Ec in I. exact I.
  - rewrite <- (r_out d Wr). apply Wr. exact E.
Qed.
Lemma mu_none : d_mu_inv d = None -> d_mu_inv dc = None.
Proof. intros E. destruct Sp as (_ & _ & _ & _ & _ & H). rewrite E in H. destruct (d_mu_inv dc); [contradiction|reflexivity]. Qed.

Lemma mucol_same mc f : feq d (sand d assign_t2c (project_c2t (1 / mN d)) (tens mc) f) (mucol dc mc f).
Proof. unfold mucol. rewrite <- same_mN. apply same_sand. Qed.
Lemma epscol_same f : feq d (sand d assign_cross_t2c (assign_cross_c2t (-1 / mN d)) (tens (d_eps_inv dc)) f) (epscol dc f).
Proof. unfold epscol. rewrite <- same_mN. apply same_sand. Qed.

Lemma H_from_B_r_mu mr mc same B H bs hs nb fft : d_mu_inv d = Some mr -> d_mu_inv dc = Some mc -> fields_r d B -> fields_r d H -> 0 <= bs -> 0 <= hs -> 0 < nb ->
  bs + nb <= ep B -> hs + nb <= ep H -> 3 * M d * nb <= Z.of_nat (length fft) ->
  exists H' f', H_from_B_r d same B H bs hs nb fft = Val (H', f') /\ length f' = length fft /\ fields_r d H' /\ ep H' = ep H /\ ealloc H' = ealloc H /\
    (forall b, 0 <= b < nb -> feq d (lift H' (hs + b)) (mucol dc mc (lift B (bs + b)))) /\
    (forall b, 0 <= b < ep H -> ~ (hs <= b < hs + nb) -> feq d (lift H' b) (lift H b)).
Proof.
  intros Em Ec HB HH Hbs Hhs Hb Hbp Hhp Hf. unfold H_from_B_r. rewrite fdiv_nz by apply r_mN. cbn [bind]. rewrite Em.
  destruct (mu_half mr Em) as (mc' & Ec' & Hh & Hi & Lm). rewrite Ec in Ec'. injection Ec' as <-.
  destruct (sand_r assign_t2c assign_t2c_r (project_c2t (1 / mN d)) (project_c2t_r (1 / mN d)) mr mc B H bs hs nb fft match_t2c (match_c2t _) Hh Hi Lm HB HH Hbs Hhs Hb Hbp Hhp Hf)
    as (f0 & f1 & f2 & f3 & H' & E0 & E1 & E2 & E3 & E4 & L3 & FH & P1 & P2 & Q1 & Q2).
  unfold h_from_H_r. rewrite range_r by assumption. cbn [bind]. rewrite E0. cbn [bind]. rewrite E1. cbn [bind]. rewrite E2. cbn [bind]. rewrite E3. cbn [bind]. rewrite E4. cbn [bind].
  exists H', f3. split; [reflexivity|]. split; [exact L3|]. split; [exact FH|]. split; [exact P1|]. split; [exact P2|]. split; [|exact Q2].
  intros b Hbb. eapply feq_trans; [apply Q1; exact Hbb|]. apply mucol_same.
Qed.
Lemma H_from_B_r_none B H bs hs nb fft : d_mu_inv d = None -> fields_r d B -> fields_r d H -> 0 <= bs -> 0 <= hs -> 0 < nb -> bs + nb <= ep B -> hs + nb <= ep H ->
  exists H', H_from_B_r d false B H bs hs nb fft = Val (H', fft) /\ fields_r d H' /\ ep H' = ep H /\ ealloc H' = ealloc H /\
    (forall b, 0 <= b < nb -> feq d (lift H' (hs + b)) (lift B (bs + b))) /\
    (forall b, 0 <= b < ep H -> ~ (hs <= b < hs + nb) -> feq d (lift H' b) (lift H b)).
Proof.
  intros Emu (WB & NB) (WH & NH) Hbs Hhs Hb Hbp Hhp. unfold H_from_B_r. rewrite fdiv_nz by apply r_mN. cbn [bind]. rewrite Emu.
  destruct (copy_slice_ok H B hs bs nb WH WB ltac:(congruence) Hhs Hbs Hhp Hbp) as (H' & E & W' & N' & P' & A' & Q1 & Q2).
  rewrite E. cbn [bind]. exists H'. split; [reflexivity|]. split; [split; [exact W'|congruence]|]. split; [exact P'|]. split; [exact A'|]. split.
  - intros b Hbb g c Hg Hc. unfold lift, fldr, entR. rewrite Q1 by lia. reflexivity.
  - intros b Hbb Hn g c Hg Hc. unfold lift, fldr, entR. rewrite Q2 by lia. reflexivity.
Qed.

Lemma curl_curl_r X Y start nb fft : fields_r d X -> fields_r d Y -> 0 <= start -> 0 < nb -> start + nb <= ep X -> start + nb <= ep Y -> 3 * M d * nb <= Z.of_nat (length fft) ->
  exists f1 f2 Y' f3, d_from_H_r d X start nb fft = Val f1 /\ e_from_d_r d nb (d_eps_inv d) f1 = Val f2 /\ H_from_e_r d Y start nb (-1 / mN d) f2 = Val (Y', f3) /\
    length f3 = length fft /\ fields_r d Y' /\ ep Y' = ep Y /\ ealloc Y' = ealloc Y /\
    (forall b, 0 <= b < nb -> feq d (lift Y' (start + b)) (epscol dc (lift X (start + b)))) /\
    (forall b, 0 <= b < ep Y -> ~ (start <= b < start + nb) -> feq d (lift Y' b) (lift Y b)).
Proof.
  intros HX HY Hs Hb Hxp Hyp Hf. destruct eps_half as (Hh & Hi & Le).
  destruct (sand_r assign_cross_t2c assign_cross_t2c_r (assign_cross_c2t (-1 / mN d)) (assign_cross_c2t_r (-1 / mN d)) (d_eps_inv d) (d_eps_inv dc) X Y start start nb fft match_cross (match_cross_c2t _) Hh Hi Le HX HY Hs Hs Hb Hxp Hyp Hf)
    as (f0 & f1 & f2 & f3 & Y' & E0 & E1 & E2 & E3 & E4 & L3 & FY & P1 & P2 & Q1 & Q2).
  exists f1, f2, Y', f3. unfold d_from_H_r, H_from_e_r. rewrite !range_r by assumption. cbn [bind]. rewrite E0. cbn [bind]. split; [exact E1|]. split; [exact E2|]. rewrite E3. cbn [bind]. rewrite E4. cbn [bind].
  split; [reflexivity|]. split; [exact L3|]. split; [exact FY|]. split; [exact P1|]. split; [exact P2|]. split; [|exact Q2].
  intros b Hbb. eapply feq_trans; [apply Q1; exact Hbb|]. apply epscol_same.
Qed.

Lemma sand_ext_c asg prj F f f' : feq d f f' -> feq d (sand dc asg prj F f) (sand dc asg prj F f').
Proof. intros H. apply same_feq. apply sand_ext. apply same_feq. exact H. Qed.

Lemma operator_batch_r_ok Xin start nb Xout fft : fields_r d Xin -> fields_r d Xout -> ep Xin = ep Xout -> 0 <= start -> 0 < nb -> start + nb <= ep Xin ->
  3 * M d * nb <= Z.of_nat (length fft) ->
  exists s', operator_batch_r d Xin (-1 / mN d) (start, nb) (Xout, fft) = Val s' /\
    batch_r (ep Xin) (length fft) (fun b => opcol dc (lift Xin b)) start nb (Xout, fft) s'.
Proof.
  intros HX HY Ep Hs Hb Hp Hf. unfold operator_batch_r, opcol. destruct (d_mu_inv d) as [mr|] eqn:Emu.
  - destruct (mu_half mr Emu) as (mc & Ec & _). rewrite Ec.
    destruct (H_from_B_r_mu mr mc false Xin Xout start start nb fft Emu Ec HX HY Hs Hs Hb Hp ltac:(lia) Hf) as (Y1 & f1 & E1 & L1 & F1 & P1 & A1 & N1 & O1).
    rewrite E1. cbn [bind].
    destruct (curl_curl_r Y1 Y1 start nb f1 F1 F1 Hs Hb ltac:(lia) ltac:(lia) ltac:(rewrite L1; exact Hf)) as (f2 & f3 & Y2 & f4 & E2 & E3 & E4 & L4 & F2 & P2 & A2 & N2 & O2).
    rewrite E2. cbn [bind]. rewrite E3. cbn [bind]. rewrite E4. cbn [bind].
    destruct (H_from_B_r_mu mr mc true Y2 Y2 start start nb f4 Emu Ec F2 F2 Hs Hs Hb ltac:(lia) ltac:(lia) ltac:(rewrite L4, L1; exact Hf)) as (Y3 & f5 & E5 & L5 & F5 & P5 & A5 & N5 & O5).
    rewrite E5. eexists. split; [reflexivity|]. split; [|split]; cbn [fst snd].
    + split; [exact F5|]. split; [cbn; congruence|cbn; congruence].
    + intros b Hbb. replace b with (start + (b - start)) by lia. eapply feq_trans; [apply N5; lia|]. apply sand_ext_c.
      eapply feq_trans; [apply N2; lia|]. apply sand_ext_c. apply N1. lia.
    + intros b Hbb Hn. eapply feq_trans; [apply O5; [lia|exact Hn]|]. eapply feq_trans; [apply O2; [lia|exact Hn]|]. apply O1; [lia|exact Hn].
  - rewrite (mu_none Emu).
    destruct (curl_curl_r Xin Xout start nb fft HX HY Hs Hb Hp ltac:(lia) Hf) as (f2 & f3 & Y2 & f4 & E2 & E3 & E4 & L4 & F2 & P2 & A2 & N2 & O2).
    rewrite E2. cbn [bind]. rewrite E3. cbn [bind]. rewrite E4. cbn [bind]. unfold H_from_B_r. rewrite fdiv_nz by apply r_mN. cbn [bind]. rewrite Emu.
    eexists. split; [reflexivity|]. split; [|split]; cbn [fst snd].
    + split; [exact F2|]. split; [cbn; congruence|cbn; congruence].
    + intros b Hbb. replace b with (start + (b - start)) by lia. apply N2. lia.
    + intros b Hbb Hn. apply O2; [lia|exact Hn].
Qed.

Lemma scratch_batch_r p fft nb : scratch_r d p fft -> 0 < nb <= d_nfb d -> nb <= p -> 3 * M d * nb <= Z.of_nat (length fft).
Proof.
  unfold scratch_r. fold (M d). intros H H1 H2. pose proof (r_M d Wr) as E. pose proof (r_O d Wr). pose proof (r_S_bounds d Wr). assert (0 <= M d) by (rewrite E; nia). assert (nb <= Z.min (d_nfb d) p) by lia. nia.
Qed.

Lemma operator_r_ok fuel Xin Xout fft : ready_r fuel d Xin Xout fft ->
  exists Y f', maxwell_operator_r fuel d Xin Xout fft = Some (Val (Y, f')) /\ fields_r d Y /\ ep Y = ep Xin /\ length f' = length fft /\
    (forall b, 0 <= b < ep Xin -> feq d (lift Y b) (opcol dc (lift Xin b))).
Proof.
  intros (HX & HY & Ep & Hn & Hf & Hfu). unfold maxwell_operator_r. rewrite fdiv_nz by apply r_mN. cbn [bind].
  destruct (batches_run_r (ep Xin) (length fft) (fun b => opcol dc (lift Xin b)) (operator_batch_r d Xin (-1 / mN d)) Hn) with (fuel := fuel) (s := (Xout, fft))
    as (l & (Y & f') & El & Er & (K1 & K2 & K3) & Nw).
  - destruct HX as (W & _). destruct W as (_ & W & _). lia.
  - intros start nb (Y & f) Hs Hb Hp (S1 & S2 & S3). cbn [fst snd] in *.
    destruct (operator_batch_r_ok Xin start nb Y f HX S1 ltac:(congruence) Hs ltac:(lia) Hp) as (s' & E & K).
    + rewrite S3. apply (scratch_batch_r (ep Xin)); [exact Hf|lia|lia].
    + exists s'. split; [exact E|]. rewrite S3 in K. exact K.
  - split; [exact HY|]. split; [cbn; congruence|reflexivity].
  - exact Hfu.
  - rewrite El. cbn [option_map]. rewrite Er. exists Y, f'. split; [reflexivity|]. cbn [fst snd] in *. auto.
Qed.
Lemma muinv_r_ok fuel Xin Xout fft : ready_r fuel d Xin Xout fft ->
  exists Y f', muinv_operator_r fuel d Xin Xout fft = Some (Val (Y, f')) /\ fields_r d Y /\ ep Y = ep Xin /\ length f' = length fft /\
    (forall b, 0 <= b < ep Xin -> feq d (lift Y b) (mumaybe dc (lift Xin b))).
Proof.
  intros (HX & HY & Ep & Hn & Hf & Hfu). unfold muinv_operator_r. rewrite <- Ep.
  destruct (batches_run_r (ep Xin) (length fft) (fun b => mumaybe dc (lift Xin b))
     (fun bt s => let '(Xo, f) := s in H_from_B_r d false Xin Xo (fst bt) (fst bt) (snd bt) f) Hn) with (fuel := fuel) (s := (Xout, fft))
    as (l & (Y & f') & El & Er & (K1 & K2 & K3) & Nw).
  - destruct HX as (W & _). destruct W as (_ & W & _). lia.
  - intros start nb (Y & f) Hs Hb Hp (S1 & S2 & S3). cbn [fst snd] in *.
    assert (Hf' : 3 * M d * nb <= Z.of_nat (length f)) by (rewrite S3; apply (scratch_batch_r (ep Xin)); [exact Hf|lia|lia]).
    unfold mumaybe. destruct (d_mu_inv d) as [mr|] eqn:Emu.
    + destruct (mu_half mr Emu) as (mc & Ec & _). rewrite Ec.
      destruct (H_from_B_r_mu mr mc false Xin Y start start nb f Emu Ec HX S1 Hs Hs ltac:(lia) Hp ltac:(lia) Hf') as (Y1 & f1 & E1 & L1 & F1 & P1 & A1 & N1 & O1).
      rewrite E1. eexists. split; [reflexivity|]. split; [|split]; cbn [fst snd].
      * split; [exact F1|]. split; cbn; congruence.
      * intros b Hbb. replace b with (start + (b - start)) by lia. apply N1. lia.
      * intros b Hbb Hno. apply O1; [lia|exact Hno].
    + rewrite (mu_none Emu). destruct (H_from_B_r_none Xin Y start start nb f Emu HX S1 Hs Hs ltac:(lia) Hp ltac:(lia)) as (Y1 & E1 & F1 & P1 & A1 & N1 & O1).
      rewrite E1. eexists. split; [reflexivity|]. split; [|split]; cbn [fst snd].
      * split; [exact F1|]. split; cbn; congruence.
      * intros b Hbb. replace b with (start + (b - start)) by lia. apply N1. lia.
      * intros b Hbb Hno. apply O1; [lia|exact Hno].
  - split; [exact HY|]. split; [cbn; congruence|reflexivity].
  - exact Hfu.
  - rewrite El. cbn [option_map]. rewrite Er. exists Y, f'. split; [reflexivity|]. cbn [fst snd] in *. auto.
Qed.

(** Fields of the two builds. *)
Lemma pair_index n i : 0 <= i < 2 * n -> 0 <= i / 2 < n /\ 0 <= i mod 2 < 2 /\ i = 2 * (i / 2) + i mod 2.
Proof. intros H. pose proof (Z.mod_pos_bound i 2 ltac:(lia)). pose proof (Z.div_mod i 2 ltac:(lia)). lia. Qed.
Lemma amplitudes_feq X Xc : fields_r d X -> same_amplitudes X Xc -> forall b, 0 <= b < ep X -> feq d (fld Xc b) (lift X b).
Proof. intros (_ & En) (_ & _ & H) b Hb g c Hg Hc. unfold fld, lift, fldr. apply H; lia. Qed.
Lemma feq_amplitudes X Xc : fields_r d X -> fields dc Xc -> ep Xc = ep X -> (forall b, 0 <= b < ep X -> feq d (fld Xc b) (lift X b)) -> same_amplitudes X Xc.
Proof.
  intros (_ & En) (_ & Ec) Ep H. split; [exact Ep|]. split; [rewrite En, Ec, same_npts; reflexivity|]. intros i j Hi Hj. rewrite En in Hi.
  destruct (pair_index N i Hi) as (A & B & E). specialize (H j Hj (i / 2) (i mod 2) A B). unfold fld, lift, fldr in H. rewrite E. exact H.
Qed.

Hypothesis Wc : wfd dc.
Lemma opcol_ext f f' : feq d f f' -> feq d (opcol dc f) (opcol dc f').
Proof. intros H. unfold opcol. destruct (d_mu_inv dc); repeat apply sand_ext_c; exact H. Qed.
Lemma mumaybe_ext f f' : feq d f f' -> feq d (mumaybe dc f) (mumaybe dc f').
Proof. intros H. unfold mumaybe. destruct (d_mu_inv dc); [apply sand_ext_c|]; exact H. Qed.
Lemma feq_sym f f' : feq d f f' -> feq d f' f.
Proof. intros H g c Hg Hc. symmetry. apply H; assumption. Qed.

Theorem operators_agree fuel fuel' X out fft Xc outc fftc : ready_r fuel d X out fft -> ready fuel' dc Xc outc fftc -> same_amplitudes X Xc ->
  exists Y f Yc fc, maxwell_operator_r fuel d X out fft = Some (Val (Y, f)) /\ maxwell_operator fuel' dc Xc outc fftc = Some (Val (Yc, fc)) /\
    fields_r d Y /\ fields dc Yc /\ same_amplitudes Y Yc.
Proof.
  intros Hr (HXc & HYc & Epc & Hnc & Hfc & Hfuc) Sa. pose proof Hr as (HX & _).
  destruct (operator_r_ok fuel X out fft Hr) as (Y & f & E & FY & P & _ & H).
  destruct (operator_ok dc Wc fuel' Xc outc fftc HXc HYc Epc Hnc Hfc Hfuc) as (Yc & fc & Ec & FYc & Pc & _ & Hc).
  exists Y, f, Yc, fc. split; [exact E|]. split; [exact Ec|]. split; [exact FY|]. split; [exact FYc|].
  assert (Epx : ep Xc = ep X) by apply Sa. apply feq_amplitudes; [exact FY|exact FYc|congruence|]. intros b Hb.
  eapply feq_trans; [apply same_feq; apply Hc; lia|]. apply feq_sym. eapply feq_trans; [apply H; lia|]. apply opcol_ext. apply feq_sym. apply amplitudes_feq; [exact HX|exact Sa|lia].
Qed.
Theorem muinvs_agree fuel fuel' X out fft Xc outc fftc : ready_r fuel d X out fft -> ready fuel' dc Xc outc fftc -> same_amplitudes X Xc ->
  exists Y f Yc fc, muinv_operator_r fuel d X out fft = Some (Val (Y, f)) /\ muinv_operator fuel' dc Xc outc fftc = Some (Val (Yc, fc)) /\
    fields_r d Y /\ fields dc Yc /\ same_amplitudes Y Yc.
Proof.
  intros Hr (HXc & HYc & Epc & Hnc & Hfc & Hfuc) Sa. pose proof Hr as (HX & _).
  destruct (muinv_r_ok fuel X out fft Hr) as (Y & f & E & FY & P & _ & H).
  destruct (muinv_ok dc Wc fuel' Xc outc fftc HXc HYc Epc Hnc Hfc Hfuc) as (Yc & fc & Ec & FYc & Pc & _ & Hc).
  exists Y, f, Yc, fc. split; [exact E|]. split; [exact Ec|]. split; [exact FY|]. split; [exact FYc|].
  assert (Epx : ep Xc = ep X) by apply Sa. apply feq_amplitudes; [exact FY|exact FYc|congruence|]. intros b Hb.
  eapply feq_trans; [apply same_feq; apply Hc; lia|]. apply feq_sym. eapply feq_trans; [apply H; lia|]. apply mumaybe_ext. apply feq_sym. apply amplitudes_feq; [exact HX|exact Sa|lia].
Qed.
End D.

(** The shape the code makes. *)
Lemma shape_real nx ny nz nfb kG e mu kn2 em : 1 <= nx -> 1 <= ny -> 1 <= nz ->
  let d := create_shape_real nx ny nz nfb kG e mu kn2 em in
  Z.of_nat (length kG) = nx * ny * nz -> Z.of_nat (length e) = d_out d -> (forall m, mu = Some m -> Z.of_nat (length m) = d_out d) -> wfr d.
Proof.
  intros Hx Hy Hz d Lk Le Lm. set (last := last_dim nx ny nz) in *.
  assert (Lp : 1 <= last) by (unfold last, last_dim; destruct (_ =? 1); [lia|]; destruct (_ =? 2); lia).
  assert (Dv : (last | nx * ny * nz)).
  { unfold last, last_dim, fft_rank. destruct (nz =? 1); [destruct (ny =? 1)|]; cbn.
    - exists (ny * nz). ring.
    - exists (nx * nz). ring.
    - exists (nx * ny). ring. }
  destruct Dv as (q & Eq). assert (Hq : 0 <= q) by (assert (0 < nx * ny) by nia; assert (0 < nx * ny * nz) by nia; nia).
  assert (Ed : d_other d = q) by (unfold d, create_shape_real; cbn [d_other]; cbv zeta; fold last; rewrite Eq; apply Z.quot_mul; lia).
  assert (E2 : Z.quot last 2 = last / 2) by (apply Z.quot_div_nonneg; lia).
  assert (Eo : d_out d = q * (last / 2 + 1)).
  { unfold d, create_shape_real. cbn [d_out]. cbv zeta. fold last. rewrite Eq, (Z.quot_mul q last) by lia. rewrite E2. replace (q * (2 * (last / 2 + 1))) with (q * (last / 2 + 1) * 2) by ring. apply Z.quot_mul. lia. }
  unfold wfr. rewrite Ed, Eo. change (d_nx d) with nx. change (d_ny d) with ny. change (d_nz d) with nz. change (d_last d) with last. change (d_kG d) with kG. change (d_eps_inv d) with e. change (d_mu_inv d) with mu.
  assert (En : npts d = q * last) by exact Eq. rewrite En. rewrite Eo in Le, Lm.
  split; [exact Hx|]. split; [exact Hy|]. split; [exact Hz|]. split; [reflexivity|]. split; [exact Hq|]. split; [reflexivity|].
  split; [unfold d, create_shape_real; cbn [d_last_size]; cbv zeta; fold last; rewrite E2; reflexivity|]. split; [reflexivity|]. split; [congruence|]. split; [exact Le|exact Lm].
Qed.
