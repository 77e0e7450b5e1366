(** What the operators compute, band by band, for every batch size. *)
From Coq Require Import List ZArith Reals Bool Lia Lra.
From Verif Require Import Base RC Loops M_Tensor S_Tensor M_Evect S_Evect L_Evect L_Evect3 M_Grid S_Grid M_Op S_Op L_Op.
Import ListNotations.
Local Open Scope Z_scope.

Section D.
Variable d : mdata.
Hypothesis Wd : wfd d.
Notation N := (npts d).
Notation NN := (Z.to_nat (npts d)).

(** A band as a function of plane wave and component. *)
Definition ff := Z -> Z -> C.
Definition position (asg : kdata -> C -> C -> cvec) (f : ff) (r : Z) : cvec :=
  vbuild (fun i => csum NN (fun g => (kern d 1 (Z.of_nat g) r * vsel i (asg (kz d (Z.of_nat g)) (f (Z.of_nat g) 0) (f (Z.of_nat g) 1)))%C)).
Definition back (u : Z -> cvec) (g : Z) : cvec :=
  vbuild (fun i => csum NN (fun r => (kern d (-1) (Z.of_nat r) g * vsel i (u (Z.of_nat r)))%C)).
Definition sand (asg : kdata -> C -> C -> cvec) (prj : kdata -> cvec -> C * C) (F : Z -> cvec -> cvec) (f : ff) : ff := fun g c =>
  let v := prj (kz d g) (back (fun r => F r (position asg f r)) g) in if c =? 0 then fst v else snd v.

Definition feq (f f' : ff) : Prop := forall g c, 0 <= g < N -> 0 <= c < 2 -> f g c = f' g c.
Lemma feq_trans f g h : feq f g -> feq g h -> feq f h.
Proof. intros H1 H2 x c Hx Hc. rewrite H1 by assumption. apply H2; assumption. Qed.

Lemma vbuild_ext f g : (forall i, f i = g i) -> vbuild f = vbuild g.
Proof. intros H. unfold vbuild. rewrite !H. reflexivity. Qed.
Lemma vsel_build i f : (i < 3)%nat -> vsel i (vbuild f) = f i.
Proof. intros H. destruct i as [|[|[|i]]]; try reflexivity. lia. Qed.
Lemma position_ext asg f f' r : feq f f' -> position asg f r = position asg f' r.
Proof.
  intros H. apply vbuild_ext. intros i. apply csum_ext. intros g Hg. rewrite !H by lia. reflexivity.
Qed.
Lemma back_ext u u' g : (forall r, 0 <= r < N -> u r = u' r) -> back u g = back u' g.
Proof. intros H. apply vbuild_ext. intros i. apply csum_ext. intros r Hr. rewrite H by lia. reflexivity. Qed.
Lemma sand_ext asg prj F f f' : feq f f' -> feq (sand asg prj F f) (sand asg prj F f').
Proof.
  intros H g c _ _. unfold sand. cbv zeta. rewrite (back_ext (fun r => F r (position asg f r)) (fun r => F r (position asg f' r))); [reflexivity|].
  intros r _. rewrite (position_ext asg f f') by exact H. reflexivity.
Qed.

Definition mid_ok (nb : Z) (mid : list C -> outcome (list C)) (F : Z -> cvec -> cvec) : Prop :=
  forall fft, 3 * N * nb <= Z.of_nat (length fft) -> exists f', mid fft = Val f' /\ length f' = length fft /\
    (forall i b, 0 <= i < N -> 0 <= b < nb -> arr f' (i * nb + b) = F i (arr fft (i * nb + b))).

(** To position space... *)
Lemma fwd_ok asg X start nb fft : fields d X -> 0 <= start -> 0 < nb -> start + nb <= ep X -> 3 * N * nb <= Z.of_nat (length fft) ->
  exists f0 f', to_cartesian asg d X start nb fft = Val f0 /\ compute_fft 1 d f0 (nb * 3) (nb * 3) 1 = Val f' /\ length f' = length fft /\
    (forall r b, 0 <= r < N -> 0 <= b < nb -> arr f' (r * nb + b) = position asg (fld X (start + b)) r).
Proof.
  intros HX Hs Hb Hp Hf.
  destruct (to_cartesian_ok d Wd asg X start nb fft HX Hs Hb Hp Hf) as (f0 & E0 & L0 & A0).
  destruct (compute_fft_ok d Wd 1 nb f0 Hb) as (f' & E' & L' & A'); [rewrite L0; exact Hf|].
  exists f0, f'. split; [exact E0|]. split; [exact E'|]. split; [congruence|]. intros r b Hr Hbb. rewrite A' by assumption.
  apply vbuild_ext. intros i. apply csum_ext. intros g Hg. rewrite A0 by lia. reflexivity.
Qed.

(** ... and back. *)
Lemma bwd_ok prj Y start nb fft (u : Z -> Z -> cvec) : fields d Y -> 0 <= start -> 0 < nb -> start + nb <= ep Y -> 3 * N * nb <= Z.of_nat (length fft) ->
  (forall r b, 0 <= r < N -> 0 <= b < nb -> arr fft (r * nb + b) = u b r) ->
  exists f' Y', compute_fft (-1) d fft (nb * 3) (nb * 3) 1 = Val f' /\ to_transverse prj d Y start nb f' = Val Y' /\ length f' = length fft /\
    fields d Y' /\ ep Y' = ep Y /\ ealloc Y' = ealloc Y /\
    (forall b, 0 <= b < nb -> feq (fld Y' (start + b)) (fun g c => let v := prj (kz d g) (back (u b) g) in if c =? 0 then fst v else snd v)) /\
    (forall b, 0 <= b < ep Y -> ~ (start <= b < start + nb) -> feq (fld Y' b) (fld Y b)).
Proof.
  intros HY Hs Hb Hp Hf Hu.
  destruct (compute_fft_ok d Wd (-1) nb fft Hb Hf) as (f' & E' & L' & A').
  destruct (to_transverse_ok d Wd prj Y start nb f' HY Hs Hb Hp) as (Y' & EY & FY & P1 & P2 & Q1 & Q2); [rewrite L'; exact Hf|].
  exists f', Y'. split; [exact E'|]. split; [exact EY|]. split; [exact L'|]. split; [exact FY|]. split; [exact P1|]. split; [exact P2|]. split.
  - intros b Hbb g c Hg Hc. destruct (Q1 g b Hg Hbb) as (R0 & R1).
    assert (Eb : arr f' (g * nb + b) = back (u b) g).
    { rewrite A' by assumption. apply vbuild_ext. intros i. apply csum_ext. intros r Hr. rewrite Hu by lia. reflexivity. }
    rewrite Eb in R0, R1. assert (c = 0 \/ c = 1) as [-> | ->] by lia; cbn [Z.eqb]; assumption.
  - intros b Hbb Hn g c Hg Hc. apply Q2; assumption.
Qed.

Lemma e_mid t nb : Z.of_nat (length t) = N -> 0 < nb -> mid_ok nb (e_from_d d nb t) (fun r v => assign_symmatrix_vector (sym_at t (Z.to_nat r)) v).
Proof. intros Lt Hb fft Hf. apply e_from_d_ok; assumption. Qed.

Definition state_ok (p : Z) (L : nat) (s : emat C * list C) : Prop := fields d (fst s) /\ ep (fst s) = p /\ length (snd s) = L.

(** A batch: the bands of the batch get new values and the others stay. *)
Definition batch_ok (p : Z) (L : nat) (new : Z -> ff) (start nb : Z) (s s' : emat C * list C) : Prop :=
  state_ok p L s' /\ (forall b, start <= b < start + nb -> feq (fld (fst s') b) (new b)) /\
  (forall b, 0 <= b < p -> ~ (start <= b < start + nb) -> feq (fld (fst s') b) (fld (fst s) b)).

Lemma batches_run p L (new : Z -> ff -> ff) (step : Z * Z -> emat C * list C -> outcome (emat C * list C)) : 0 < d_nfb d -> 0 <= p ->
  (forall b f f', feq f f' -> feq (new b f) (new b f')) ->
  (forall start nb s, 0 <= start -> 0 < nb <= d_nfb d -> start + nb <= p -> state_ok p L s ->
     exists s', step (start, nb) s = Val s' /\ batch_ok p L (fun b => new b (fld (fst s) b)) start nb s s') ->
  forall fuel s, state_ok p L s -> (Z.to_nat p <= fuel)%nat ->
  exists l s', batches fuel 0 p (d_nfb d) = Some l /\ run step l s = Val s' /\ state_ok p L s' /\
    (forall b, 0 <= b < p -> feq (fld (fst s') b) (new b (fld (fst s) b))).
Proof.
  intros Hn Hp Ext St.
  assert (G : forall fuel cur s1, 0 <= cur -> (Z.to_nat (p - cur) <= fuel)%nat -> state_ok p L s1 ->
    exists l s', batches fuel cur p (d_nfb d) = Some l /\ run step l s1 = Val s' /\ state_ok p L s' /\
    (forall b, 0 <= b < cur -> b < p -> feq (fld (fst s') b) (fld (fst s1) b)) /\
    (forall b, cur <= b < p -> feq (fld (fst s') b) (new b (fld (fst s1) b)))).
  { induction fuel as [|fuel IH]; intros cur s1 Hc Hfu Hs1.
    - cbn [batches]. destruct (Z.ltb_spec cur p); [lia|]. exists [], s1. split; [reflexivity|]. split; [reflexivity|]. split; [exact Hs1|]. split.
      + intros b _ _ g c _ _. reflexivity.
      + intros; lia.
    - cbn [batches]. destruct (Z.ltb_spec cur p) as [Hlt|Hge].
      + destruct (St cur (Z.min (d_nfb d) (p - cur)) s1 ltac:(lia) ltac:(lia) ltac:(lia) Hs1) as (s2 & E2 & K2 & New & Old).
        destruct (IH (cur + d_nfb d) s2 ltac:(lia) ltac:(lia) K2) as (l & s' & El & Er & K' & O' & N').
        exists ((cur, Z.min (d_nfb d) (p - cur)) :: l), s'. rewrite El. split; [reflexivity|]. split; [cbn [run]; rewrite E2; cbn [bind]; exact Er|].
        split; [exact K'|]. split.
        * intros b Hb Hbp. eapply feq_trans; [apply O'; lia|]. apply Old; lia.
        * intros b Hb. destruct (Z_lt_le_dec b (cur + d_nfb d)) as [Hin|Hout].
          -- eapply feq_trans; [apply O'; lia|]. apply New. lia.
          -- eapply feq_trans; [apply N'; lia|]. apply Ext. apply Old; lia.
      + exists [], s1. split; [reflexivity|]. split; [reflexivity|]. split; [exact Hs1|]. split; [intros b _ _ g c _ _; reflexivity|intros; lia]. }
  intros fuel s Hs Hf. destruct (G fuel 0 s ltac:(lia) ltac:(lia) Hs) as (l & s' & El & Er & K & _ & Nw). exists l, s'. auto.
Qed.

Lemma N_nz : mN d <> 0%R.
Proof. unfold mN. fold N. pose proof (N_pos d Wd). apply not_0_IZR. lia. Qed.
Lemma eps_len : Z.of_nat (length (d_eps_inv d)) = N.
Proof. destruct Wd as (_ & _ & _ & _ & _ & _ & _ & _ & _ & L & _). exact L. Qed.
Lemma range_ok X start nb : 0 <= start -> start + nb <= ep X -> band_range X start nb = Val tt.
Proof. intros H1 H2. unfold band_range, check. destruct (Z.leb_spec 0 start); [|lia]. destruct (Z.leb_spec (start + nb) (ep X)); [reflexivity|lia]. Qed.

Definition tens (t : list sym) (r : Z) (v : cvec) : cvec := assign_symmatrix_vector (sym_at t (Z.to_nat r)) v.
Definition mucol (mu : list sym) : ff -> ff := sand assign_t2c (project_c2t (1 / mN d)) (tens mu).
Definition epscol : ff -> ff := sand assign_cross_t2c (assign_cross_c2t (-1 / mN d)) (tens (d_eps_inv d)).

(** H_from_B with a permeability. *)
Lemma H_from_B_mu mu same B H bs hs nb fft : d_mu_inv d = Some mu -> fields d B -> fields d H -> 0 <= bs -> 0 <= hs -> 0 < nb ->
  bs + nb <= ep B -> hs + nb <= ep H -> 3 * N * nb <= Z.of_nat (length fft) ->
  exists H' f', H_from_B d same B H bs hs nb fft = Val (H', f') /\ length f' = length fft /\ fields d H' /\ ep H' = ep H /\ ealloc H' = ealloc H /\
    (forall b, 0 <= b < nb -> feq (fld H' (hs + b)) (mucol mu (fld B (bs + b)))) /\
    (forall b, 0 <= b < ep H -> ~ (hs <= b < hs + nb) -> feq (fld H' b) (fld H b)).
Proof.
  intros Emu HB HH Hbs Hhs Hb Hbp Hhp Hf. unfold H_from_B. rewrite fdiv_nz by apply N_nz. cbn [bind]. rewrite Emu.
  unfold h_from_H. rewrite range_ok by assumption. cbn [bind].
  destruct (fwd_ok assign_t2c B bs nb fft HB Hbs Hb Hbp Hf) as (f0 & f1 & E0 & E1 & L1 & A1). rewrite E0. cbn [bind]. rewrite E1. cbn [bind].
  assert (Lmu : Z.of_nat (length mu) = N) by (apply Wd; exact Emu).
  destruct (e_mid mu nb Lmu Hb f1) as (f2 & E2 & L2 & A2); [rewrite L1; exact Hf|]. rewrite E2. cbn [bind].
  destruct (bwd_ok (project_c2t (1 / mN d)) H hs nb f2 (fun b r => tens mu r (position assign_t2c (fld B (bs + b)) r)) HH Hhs Hb Hhp)
    as (f3 & H' & E3 & E4 & L3 & FH & P1 & P2 & Q1 & Q2).
  - rewrite L2, L1. exact Hf.
  - intros r b Hr Hbb. rewrite A2 by assumption. rewrite A1 by assumption. reflexivity.
  - rewrite E3. cbn [bind]. rewrite E4. cbn [bind]. exists H', f3. split; [reflexivity|]. split; [congruence|]. split; [exact FH|]. split; [exact P1|]. split; [exact P2|]. split; [exact Q1|exact Q2].
Qed.

Lemma H_from_B_none B H bs hs nb fft : d_mu_inv d = None -> fields d B -> fields d H -> 0 <= bs -> 0 <= hs -> 0 < nb -> bs + nb <= ep B -> hs + nb <= ep H ->
  exists H', H_from_B d false B H bs hs nb fft = Val (H', fft) /\ fields d H' /\ ep H' = ep H /\ ealloc H' = ealloc H /\
    (forall b, 0 <= b < nb -> feq (fld H' (hs + b)) (fld B (bs + b))) /\
    (forall b, 0 <= b < ep H -> ~ (hs <= b < hs + nb) -> feq (fld H' b) (fld H b)).
Proof.
  intros Emu (WB & NB) (WH & NH) Hbs Hhs Hb Hbp Hhp. unfold H_from_B. rewrite fdiv_nz by apply N_nz. cbn [bind]. rewrite Emu.
  destruct (copy_slice_ok H B hs bs nb WH WB ltac:(congruence) Hhs Hbs Hhp Hbp) as (H' & E & W' & N' & P' & A' & Q1 & Q2).
  rewrite E. cbn [bind]. exists H'. split; [reflexivity|]. split; [split; [exact W'|congruence]|]. split; [exact P'|]. split; [exact A'|].
  assert (G : forall (X Y : emat C) i j i' j', ent X i j = ent Y i' j' -> entC X i j = entC Y i' j').
  { intros X Y i j i' j' Hx. unfold ent in Hx. unfold entC, gets. rewrite Hx. reflexivity. }
  split.
  - intros b Hbb g c Hg Hc. unfold fld. apply G. apply Q1; lia.
  - intros b Hbb Hn g c Hg Hc. unfold fld. apply G. apply Q2; lia.
Qed.

(** curl, eps_inv, curl. *)
Lemma curl_curl X Y start nb fft : fields d X -> fields d Y -> 0 <= start -> 0 < nb -> start + nb <= ep X -> start + nb <= ep Y -> 3 * N * nb <= Z.of_nat (length fft) ->
  exists f1 f2 Y' f3, d_from_H d X start nb fft = Val f1 /\ e_from_d d nb (d_eps_inv d) f1 = Val f2 /\ H_from_e d Y start nb (-1 / mN d) f2 = Val (Y', f3) /\
    length f3 = length fft /\ fields d Y' /\ ep Y' = ep Y /\ ealloc Y' = ealloc Y /\
    (forall b, 0 <= b < nb -> feq (fld Y' (start + b)) (epscol (fld X (start + b)))) /\
    (forall b, 0 <= b < ep Y -> ~ (start <= b < start + nb) -> feq (fld Y' b) (fld Y b)).
Proof.
  intros HX HY Hs Hb Hxp Hyp Hf. unfold d_from_H. rewrite range_ok by assumption. cbn [bind].
  destruct (fwd_ok assign_cross_t2c X start nb fft HX Hs Hb Hxp Hf) as (f0 & f1 & E0 & E1 & L1 & A1).
  pose proof eps_len as Le.
  destruct (e_mid (d_eps_inv d) nb Le Hb f1) as (f2 & E2 & L2 & A2); [rewrite L1; exact Hf|].
  destruct (bwd_ok (assign_cross_c2t (-1 / mN d)) Y start nb f2 (fun b r => tens (d_eps_inv d) r (position assign_cross_t2c (fld X (start + b)) r)) HY Hs Hb Hyp)
    as (f3 & Y' & E3 & E4 & L3 & FH & P1 & P2 & Q1 & Q2).
  - rewrite L2, L1. exact Hf.
  - intros r b Hr Hbb. rewrite A2 by assumption. rewrite A1 by assumption. reflexivity.
  - exists f1, f2, Y', f3. split; [rewrite E0; cbn [bind]; exact E1|]. split; [exact E2|]. unfold H_from_e. rewrite range_ok by assumption. cbn [bind].
    rewrite E3. cbn [bind]. rewrite E4. cbn [bind]. split; [reflexivity|]. split; [congruence|]. split; [exact FH|]. split; [exact P1|]. split; [exact P2|]. split; [exact Q1|exact Q2].
Qed.

(** The operator on one band. *)
Definition opcol (f : ff) : ff :=
  match d_mu_inv d with None => epscol f | Some mu => mucol mu (epscol (mucol mu f)) end.

Lemma operator_batch_ok Xin start nb Xout fft : fields d Xin -> fields d Xout -> ep Xin = ep Xout -> 0 <= start -> 0 < nb -> start + nb <= ep Xin ->
  3 * N * nb <= Z.of_nat (length fft) ->
  exists s', operator_batch d Xin (-1 / mN d) (start, nb) (Xout, fft) = Val s' /\
    batch_ok (ep Xin) (length fft) (fun b => opcol (fld Xin b)) start nb (Xout, fft) s'.
Proof.
  intros HX HY Ep Hs Hb Hp Hf. unfold operator_batch, opcol. destruct (d_mu_inv d) as [mu|] eqn:Emu.
  - destruct (H_from_B_mu mu false Xin Xout start start nb fft Emu HX HY Hs Hs Hb Hp ltac:(lia) Hf) as (Y1 & f1 & E1 & L1 & F1 & P1 & A1 & N1 & O1).
    rewrite E1. cbn [bind].
    destruct (curl_curl Y1 Y1 start nb f1 F1 F1 Hs Hb ltac:(lia) ltac:(lia) ltac:(rewrite L1; exact Hf)) as (f2 & f3 & Y2 & f4 & E2 & E3 & E4 & L4 & F2 & P2 & A2 & N2 & O2).
    rewrite E2. cbn [bind]. rewrite E3. cbn [bind]. rewrite E4. cbn [bind].
    destruct (H_from_B_mu mu true Y2 Y2 start start nb f4 Emu F2 F2 Hs Hs Hb ltac:(lia) ltac:(lia) ltac:(rewrite L4, L1; exact Hf)) as (Y3 & f5 & E5 & L5 & F5 & P5 & A5 & N5 & O5).
    rewrite E5. eexists. split; [reflexivity|]. split; [|split]; cbn [fst snd].
    + split; [exact F5|]. split; [cbn; congruence|cbn; congruence].
    + intros b Hbb. replace b with (start + (b - start)) by lia. eapply feq_trans; [apply N5; lia|]. apply sand_ext.
      eapply feq_trans; [apply N2; lia|]. apply sand_ext. apply N1. lia.
    + intros b Hbb Hn. eapply feq_trans; [apply O5; [lia|exact Hn]|]. eapply feq_trans; [apply O2; [lia|exact Hn]|]. apply O1; [lia|exact Hn].
  - destruct (curl_curl Xin Xout start nb fft HX HY Hs Hb Hp ltac:(lia) Hf) as (f2 & f3 & Y2 & f4 & E2 & E3 & E4 & L4 & F2 & P2 & A2 & N2 & O2).
    rewrite E2. cbn [bind]. rewrite E3. cbn [bind]. rewrite E4. cbn [bind]. unfold H_from_B. rewrite fdiv_nz by apply N_nz. cbn [bind]. rewrite Emu.
    eexists. split; [reflexivity|]. split; [|split]; cbn [fst snd].
    + split; [exact F2|]. split; [cbn; congruence|cbn; congruence].
    + intros b Hbb. replace b with (start + (b - start)) by lia. apply N2. lia.
    + intros b Hbb Hn. apply O2; [lia|exact Hn].
Qed.

Lemma scratch_batch p fft nb : scratch d p fft -> 0 < nb <= d_nfb d -> nb <= p -> 3 * N * nb <= Z.of_nat (length fft).
Proof. unfold scratch. intros H H1 H2. pose proof (N_pos d Wd). assert (nb <= Z.min (d_nfb d) p) by lia. nia. Qed.

Lemma operator_ok fuel Xin Xout fft : fields d Xin -> fields d Xout -> ep Xin = ep Xout -> 0 < d_nfb d -> scratch d (ep Xin) fft -> (Z.to_nat (ep Xin) <= fuel)%nat ->
  exists Y f', maxwell_operator fuel d Xin Xout fft = Some (Val (Y, f')) /\ fields d Y /\ ep Y = ep Xin /\ length f' = length fft /\
    (forall b, 0 <= b < ep Xin -> feq (fld Y b) (opcol (fld Xin b))).
Proof.
  intros HX HY Ep Hn Hf Hfu. unfold maxwell_operator. rewrite fdiv_nz by apply N_nz. cbn [bind].
  destruct (batches_run (ep Xin) (length fft) (fun b _ => opcol (fld Xin b)) (operator_batch d Xin (-1 / mN d)) Hn) with (fuel := fuel) (s := (Xout, fft))
    as (l & (Y & f') & El & Er & (K1 & K2 & K3) & Nw).
  - destruct HX as (W & _). destruct W as (_ & W & _). lia.
  - intros b f g _ x c _ _. reflexivity.
  - intros start nb (Y & f) Hs Hb Hp (S1 & S2 & S3). cbn [fst snd] in *.
    destruct (operator_batch_ok Xin start nb Y f HX S1 ltac:(congruence) Hs ltac:(lia) Hp) as (s' & E & K).
    + rewrite S3. apply (scratch_batch (ep Xin)); [exact Hf|lia|lia].
    + exists s'. split; [exact E|]. rewrite S3 in K. exact K.
  - split; [exact HY|]. split; [cbn; congruence|reflexivity].
  - exact Hfu.
  - rewrite El. cbn [option_map]. rewrite Er. exists Y, f'. split; [reflexivity|]. cbn [fst snd] in *. auto.
Qed.

(** mu_inv. *)
Definition mumaybe (f : ff) : ff := match d_mu_inv d with None => f | Some mu => mucol mu f end.
Lemma muinv_ok fuel Xin Xout fft : fields d Xin -> fields d Xout -> ep Xin = ep Xout -> 0 < d_nfb d -> scratch d (ep Xin) fft -> (Z.to_nat (ep Xin) <= fuel)%nat ->
  exists Y f', muinv_operator fuel d Xin Xout fft = Some (Val (Y, f')) /\ fields d Y /\ ep Y = ep Xin /\ length f' = length fft /\
    (forall b, 0 <= b < ep Xin -> feq (fld Y b) (mumaybe (fld Xin b))).
Proof.
  intros HX HY Ep Hn Hf Hfu. unfold muinv_operator. rewrite <- Ep.
  destruct (batches_run (ep Xin) (length fft) (fun b _ => mumaybe (fld Xin b))
     (fun bt s => let '(Xo, f) := s in H_from_B d false Xin Xo (fst bt) (fst bt) (snd bt) f) Hn) with (fuel := fuel) (s := (Xout, fft))
    as (l & (Y & f') & El & Er & (K1 & K2 & K3) & Nw).
  - destruct HX as (W & _). destruct W as (_ & W & _). lia.
  - intros b f g _ x c _ _. reflexivity.
  - intros start nb (Y & f) Hs Hb Hp (S1 & S2 & S3). cbn [fst snd] in *.
    assert (Hf' : 3 * N * nb <= Z.of_nat (length f)) by (rewrite S3; apply (scratch_batch (ep Xin)); [exact Hf|lia|lia]).
    unfold mumaybe. destruct (d_mu_inv d) as [mu|] eqn:Emu.
    + destruct (H_from_B_mu mu false Xin Y start start nb f Emu HX S1 Hs Hs ltac:(lia) Hp ltac:(lia) Hf') as (Y1 & f1 & E1 & L1 & F1 & P1 & A1 & N1 & O1).
      rewrite E1. eexists. split; [reflexivity|]. split; [|split]; cbn [fst snd].
      * split; [exact F1|]. split; cbn; congruence.
      * intros b Hbb. replace b with (start + (b - start)) by lia. apply N1. lia.
      * intros b Hbb Hno. apply O1; [lia|exact Hno].
    + destruct (H_from_B_none Xin Y start start nb f Emu HX S1 Hs Hs ltac:(lia) Hp ltac:(lia)) as (Y1 & E1 & F1 & P1 & A1 & N1 & O1).
      rewrite E1. eexists. split; [reflexivity|]. split; [|split]; cbn [fst snd].
      * split; [exact F1|]. split; cbn; congruence.
      * intros b Hbb. replace b with (start + (b - start)) by lia. apply N1. lia.
      * intros b Hbb Hno. apply O1; [lia|exact Hno].
  - split; [exact HY|]. split; [cbn; congruence|reflexivity].
  - exact Hfu.
  - rewrite El. cbn [option_map]. rewrite Er. exists Y, f'. split; [reflexivity|]. cbn [fst snd] in *. auto.
Qed.

(** curl eps_inv u x. *)
Definition ucol (u : vec) : ff -> ff := sand (assign_ucross_t2c u) (assign_cross_c2t (-1 / mN d)) (tens (d_eps_inv d)).
Lemma ucross_ok fuel u Xin Xout fft : fields d Xin -> fields d Xout -> ep Xin = ep Xout -> 0 < d_nfb d -> scratch d (ep Xin) fft -> (Z.to_nat (ep Xin) <= fuel)%nat ->
  exists Y f', ucross_op fuel d u Xin Xout fft = Some (Val (Y, f')) /\ fields d Y /\ ep Y = ep Xin /\ length f' = length fft /\
    (forall b, 0 <= b < ep Xin -> feq (fld Y b) (ucol u (fld Xin b))).
Proof.
  intros HX HY Ep Hn Hf Hfu. unfold ucross_op. rewrite fdiv_nz by apply N_nz. cbn [bind].
  destruct (batches_run (ep Xin) (length fft) (fun b _ => ucol u (fld Xin b)) (ucross_batch d u Xin (-1 / mN d)) Hn) with (fuel := fuel) (s := (Xout, fft))
    as (l & (Y & f') & El & Er & (K1 & K2 & K3) & Nw).
  - destruct HX as (W & _). destruct W as (_ & W & _). lia.
  - intros b f g _ x c _ _. reflexivity.
  - intros start nb (Y & f) Hs Hb Hp (S1 & S2 & S3). cbn [fst snd] in *.
    assert (Hf' : 3 * N * nb <= Z.of_nat (length f)) by (rewrite S3; apply (scratch_batch (ep Xin)); [exact Hf|lia|lia]).
    unfold ucross_batch.
    destruct (fwd_ok (assign_ucross_t2c u) Xin start nb f HX Hs ltac:(lia) Hp Hf') as (f0 & f1 & E0 & E1 & L1 & A1). rewrite E0. cbn [bind]. rewrite E1. cbn [bind].
    pose proof eps_len as Le.
    destruct (e_mid (d_eps_inv d) nb Le ltac:(lia) f1) as (f2 & E2 & L2 & A2); [rewrite L1; exact Hf'|]. rewrite E2. cbn [bind].
    destruct (bwd_ok (assign_cross_c2t (-1 / mN d)) Y start nb f2 (fun b r => tens (d_eps_inv d) r (position (assign_ucross_t2c u) (fld Xin (start + b)) r)) S1 Hs ltac:(lia) ltac:(lia))
      as (f3 & Y' & E3 & E4 & L3 & FH & P1 & P2 & Q1 & Q2).
    + rewrite L2, L1. exact Hf'.
    + intros r b Hr Hbb. rewrite A2 by assumption. rewrite A1 by assumption. reflexivity.
    + unfold H_from_e. rewrite range_ok by lia. cbn [bind]. rewrite E3. cbn [bind]. rewrite E4. cbn [bind]. eexists. split; [reflexivity|].
      split; [|split]; cbn [fst snd].
      * split; [exact FH|]. split; cbn; congruence.
      * intros b Hbb. replace b with (start + (b - start)) by lia. apply Q1. lia.
      * intros b Hbb Hno. apply Q2; [lia|exact Hno].
  - split; [exact HY|]. split; [cbn; congruence|reflexivity].
  - exact Hfu.
  - rewrite El. cbn [option_map]. rewrite Er. exists Y, f'. split; [reflexivity|]. cbn [fst snd] in *. auto.
Qed.

(** The second preconditioner. *)
Local Notation trace_at := (S_Op.trace_at d).
Definition epsmul (r : Z) (v : cvec) : cvec := let '(x, y, z) := v in let e := (3 / trace_at r)%R in (Cscal e x, Cscal e y, Cscal e z).
Definition precol : ff -> ff := sand assign_crossinv_t2c (assign_crossinv_c2t (-1 / mN d)) epsmul.
Lemma times_eps_ok nb fft : (forall r, 0 <= r < N -> trace_at r <> 0%R) -> 0 < nb -> 3 * N * nb <= Z.of_nat (length fft) ->
  exists f', times_eps d nb fft = Val f' /\ length f' = length fft /\
    (forall i b, 0 <= i < N -> 0 <= b < nb -> arr f' (i * nb + b) = epsmul i (arr fft (i * nb + b))).
Proof.
  intros Ht Hb Hf. unfold times_eps. assert (O : d_out d = N) by apply Wd. rewrite O.
  pose proof eps_len as Le.
  destruct (grid_loop d Wd (fun i => let! t := rd (d_eps_inv d) i in fdiv 3 (m00 t + m11 t + m22 t)) (fun i => (3 / trace_at i)%R)
    (fun e v => let '(x, y, z) := v in (Cscal e x, Cscal e y, Cscal e z)) nb fft Hb Hf) as (f' & E & L & A).
  - intros i Hi. rewrite (rd_sym d _ i Le Hi). cbn [bind]. apply fdiv_nz. apply Ht. exact Hi.
  - exists f'. split; [|split; [exact L|]].
    + rewrite <- E. apply forZ_ext. intros i s Hi. rewrite (rd_sym d _ i Le Hi). cbn [bind].
      match goal with |- bind ?a _ = _ => destruct a as [e| | |] end; cbn [bind]; try reflexivity. apply forZ_ext. intros b s' _.
      destruct (rd3 s' (3 * (i * nb + b))) as [[[x y] z]| | |]; reflexivity.
    + intros i b Hi Hbb. rewrite A by assumption. unfold epsmul. destruct (arr fft (i * nb + b)) as [[x y] z]. reflexivity.
Qed.
Lemma precond2_ok fuel X fft : (forall r, 0 <= r < N -> trace_at r <> 0%R) -> fields d X -> 0 < d_nfb d -> scratch d (ep X) fft -> (Z.to_nat (ep X) <= fuel)%nat ->
  exists Y f', preconditioner2 fuel d X fft = Some (Val (Y, f')) /\ fields d Y /\ ep Y = ep X /\ length f' = length fft /\
    (forall b, 0 <= b < ep X -> feq (fld Y b) (precol (fld X b))).
Proof.
  intros Ht HX Hn Hf Hfu. unfold preconditioner2. rewrite fdiv_nz by apply N_nz. cbn [bind].
  destruct (batches_run (ep X) (length fft) (fun b f => precol f) (precond2_batch d (-1 / mN d)) Hn) with (fuel := fuel) (s := (X, fft))
    as (l & (Y & f') & El & Er & (K1 & K2 & K3) & Nw).
  - destruct HX as (W & _). destruct W as (_ & W & _). lia.
  - intros b f g H. apply sand_ext. exact H.
  - intros start nb (Y & f) Hs Hb Hp (S1 & S2 & S3). cbn [fst snd] in *.
    assert (Hf' : 3 * N * nb <= Z.of_nat (length f)) by (rewrite S3; apply (scratch_batch (ep X)); [exact Hf|lia|lia]).
    unfold precond2_batch.
    destruct (fwd_ok assign_crossinv_t2c Y start nb f S1 Hs ltac:(lia) ltac:(lia) Hf') as (f0 & f1 & E0 & E1 & L1 & A1). rewrite E0. cbn [bind]. rewrite E1. cbn [bind].
    destruct (times_eps_ok nb f1 Ht ltac:(lia)) as (f2 & E2 & L2 & A2); [rewrite L1; exact Hf'|]. rewrite E2. cbn [bind].
    destruct (bwd_ok (assign_crossinv_c2t (-1 / mN d)) Y start nb f2 (fun b r => epsmul r (position assign_crossinv_t2c (fld Y (start + b)) r)) S1 Hs ltac:(lia) ltac:(lia))
      as (f3 & Y' & E3 & E4 & L3 & FH & P1 & P2 & Q1 & Q2).
    + rewrite L2, L1. exact Hf'.
    + intros r b Hr Hbb. rewrite A2 by assumption. rewrite A1 by assumption. reflexivity.
    + rewrite E3. cbn [bind]. rewrite E4. cbn [bind]. eexists. split; [reflexivity|].
      split; [|split]; cbn [fst snd].
      * split; [exact FH|]. split; cbn; congruence.
      * intros b Hbb. replace b with (start + (b - start)) by lia. apply Q1. lia.
      * intros b Hbb Hno. apply Q2; [lia|exact Hno].
  - split; [exact HX|]. split; [reflexivity|reflexivity].
  - exact Hfu.
  - rewrite El. cbn [option_map]. rewrite Er. exists Y, f'. split; [reflexivity|]. cbn [fst snd] in *. auto.
Qed.
End D.
