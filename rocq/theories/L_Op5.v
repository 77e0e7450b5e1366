(** Statements about results of the operators, for the property theorems. *)
From Coq Require Import List ZArith Reals Bool Lia Lra.
From Verif Require Import Base RC Loops M_Tensor S_Tensor M_Evect S_Evect L_Evect L_Evect3 M_Grid S_Grid M_Op S_Op L_Op L_Op2 L_Op3 L_Dft L_Op4.
Import ListNotations.
Local Open Scope Z_scope.

Lemma op_result fuel d X out fft AX f : wfd d -> ready fuel d X out fft -> maxwell_operator fuel d X out fft = Some (Val (AX, f)) ->
  fields d AX /\ ep AX = ep X /\ (forall b, 0 <= b < ep X -> feq d (fld AX b) (opcol d (fld X b))).
Proof.
  intros Wd (F1 & F2 & Ep & Hn & Hs & Hf) E. destruct (operator_ok d Wd fuel X out fft F1 F2 Ep Hn Hs Hf) as (Y & f' & E' & FY & EY & _ & H).
  rewrite E in E'. injection E' as <- <-. auto.
Qed.
Lemma mu_result fuel d X out fft MX f : wfd d -> ready fuel d X out fft -> muinv_operator fuel d X out fft = Some (Val (MX, f)) ->
  fields d MX /\ ep MX = ep X /\ (forall b, 0 <= b < ep X -> feq d (fld MX b) (mumaybe d (fld X b))).
Proof.
  intros Wd (F1 & F2 & Ep & Hn & Hs & Hf) E. destruct (muinv_ok d Wd fuel X out fft F1 F2 Ep Hn Hs Hf) as (Y & f' & E' & FY & EY & _ & H).
  rewrite E in E'. injection E' as <- <-. auto.
Qed.
Lemma u_result fuel d u X out fft MX f : wfd d -> ready fuel d X out fft -> ucross_op fuel d u X out fft = Some (Val (MX, f)) ->
  fields d MX /\ ep MX = ep X /\ (forall b, 0 <= b < ep X -> feq d (fld MX b) (ucol d u (fld X b))).
Proof.
  intros Wd (F1 & F2 & Ep & Hn & Hs & Hf) E. destruct (ucross_ok d Wd fuel u X out fft F1 F2 Ep Hn Hs Hf) as (Y & f' & E' & FY & EY & _ & H).
  rewrite E in E'. injection E' as <- <-. auto.
Qed.
Lemma feq_refl d f : feq d f f.
Proof. intros g c _ _. reflexivity. Qed.
Lemma feq_sym d f h : feq d f h -> feq d h f.
Proof. intros H g c Hg Hc. symmetry. apply H; assumption. Qed.

Lemma op_dot fuel d X Y out fft AY f j l : wfd d -> fields d X -> ready fuel d Y out fft -> maxwell_operator fuel d Y out fft = Some (Val (AY, f)) -> 0 <= l < ep Y ->
  dotl X AY j l = inner d (fld X j) (opcol d (fld Y l)).
Proof.
  intros Wd FX Rd E Hl. destruct (op_result _ _ _ _ _ _ _ Wd Rd E) as (FA & _ & H). rewrite (dotl_inner d Wd X AY j l FX).
  apply inner_ext; [apply feq_refl|apply H; exact Hl].
Qed.
Lemma mu_dot fuel d X Y out fft MY f j l : wfd d -> fields d X -> ready fuel d Y out fft -> muinv_operator fuel d Y out fft = Some (Val (MY, f)) -> 0 <= l < ep Y ->
  dotl X MY j l = inner d (fld X j) (mumaybe d (fld Y l)).
Proof.
  intros Wd FX Rd E Hl. destruct (mu_result _ _ _ _ _ _ _ Wd Rd E) as (FA & _ & H). rewrite (dotl_inner d Wd X MY j l FX).
  apply inner_ext; [apply feq_refl|apply H; exact Hl].
Qed.
Lemma opcol_herm d f h : inner d f (opcol d h) = Cconj (inner d h (opcol d f)).
Proof. rewrite !opcol_form. apply gform_conj. Qed.

(** Batches. *)
Lemma batches_count fuel : forall cur p n l b, 0 < n -> batches fuel cur p n = Some l ->
  length (filter (in_batch b) l) = (if (cur <=? b) && (b <? p) then 1%nat else 0%nat).
Proof.
  induction fuel as [|fuel IH]; intros cur p n l b Hn E; cbn [batches] in E; destruct (Z.ltb_spec cur p) as [H|H].
  - discriminate.
  - injection E as <-. cbn. destruct (Z.leb_spec cur b), (Z.ltb_spec b p); cbn; lia || reflexivity.
  - destruct (batches fuel (cur + n) p n) as [l'|] eqn:E'; [|discriminate]. injection E as <-. specialize (IH _ _ _ _ b Hn E').
    cbn [filter]. unfold in_batch at 1. cbn [fst snd]. destruct (Z.leb_spec cur b); cbn [andb].
    + destruct (Z.ltb_spec b (cur + Z.min n (p - cur))) as [H1|H1]; [cbn [length]|]; rewrite IH; destruct (Z.leb_spec (cur + n) b), (Z.ltb_spec b p); cbn [andb]; lia || reflexivity.
    + rewrite IH. destruct (Z.leb_spec (cur + n) b); [lia|reflexivity].
  - injection E as <-. cbn. destruct (Z.leb_spec cur b), (Z.ltb_spec b p); cbn; lia || reflexivity.
Qed.
Lemma batches_zero fuel : forall p, 0 < p -> batches fuel 0 p 0 = None.
Proof. intros p Hp. induction fuel as [|fuel IH]; cbn [batches]; destruct (Z.ltb_spec 0 p); try lia; [reflexivity|]. rewrite Z.add_0_l, IH. reflexivity. Qed.
Lemma batches_some fuel : forall cur p n, 0 < n -> (Z.to_nat (p - cur) <= fuel)%nat -> exists l, batches fuel cur p n = Some l.
Proof.
  induction fuel as [|fuel IH]; intros cur p n Hn Hf; cbn [batches]; destruct (Z.ltb_spec cur p) as [H|H]; eauto; [lia|].
  destruct (IH (cur + n) p n Hn ltac:(lia)) as (l & ->). cbn. eauto.
Qed.

Lemma wfd_nfb n d : wfd d -> wfd (with_nfb n d).
Proof. intros H. exact H. Qed.
Lemma opcol_nfb n d f : opcol (with_nfb n d) f = opcol d f.
Proof. reflexivity. Qed.
Lemma ent_fld d X i j : fields d X -> 0 <= i < en X -> exists g c, 0 <= g < npts d /\ 0 <= c < 2 /\ entC X i j = fld X j g c.
Proof.
  intros (W & En) Hi. exists (i / 2), (i mod 2). pose proof (Z.div_mod i 2 ltac:(lia)). pose proof (Z.mod_pos_bound i 2 ltac:(lia)).
  split; [split; [apply Z.div_pos; lia|apply Z.div_lt_upper_bound; lia]|]. split; [lia|]. unfold fld. f_equal. lia.
Qed.
Lemma same_ent d X Y j : fields d X -> fields d Y -> feq d (fld X j) (fld Y j) -> forall i, 0 <= i < en X -> entC X i j = entC Y i j.
Proof.
  intros FX FY H i Hi. pose proof (Z.div_mod i 2 ltac:(lia)). pose proof (Z.mod_pos_bound i 2 ltac:(lia)). destruct FX as (_ & En).
  specialize (H (i / 2) (i mod 2)). unfold fld in H. replace (2 * (i / 2) + i mod 2) with i in H by lia. apply H; [|lia].
  split; [apply Z.div_pos; lia|apply Z.div_lt_upper_bound; lia].
Qed.

(** Homogeneous medium. *)
Lemma kvec_sq d g : orthonormal_basis d -> (g < Z.to_nat (npts d))%nat -> rdot (kvec d g) (kvec d g) = (kmag (kat d g) * kmag (kat d g))%R.
Proof.
  intros Ho Hg. destruct (Ho g Hg) as (H1 & H2 & H3). unfold kvec. destruct (kat d g) as [q [[a b] c] [[x y] z]]. cbn [km kn kmag] in *.
  unfold rdot, rsc, rcross in *.
  transitivity (q * q * ((a*a+b*b+c*c)*(x*x+y*y+z*z) - (a*x+b*y+c*z)*(a*x+b*y+c*z)))%R; [ring|]. rewrite H1, H2, H3. ring.
Qed.

(** The data create_maxwell_data and update_maxwell_data_k set up. *)
Lemma create_wfd nx ny nz nfb kG eps mu kn2 em : 1 <= nx -> 1 <= ny -> 1 <= nz ->
  Z.of_nat (length kG) = nx * ny * nz -> Z.of_nat (length eps) = nx * ny * nz -> (forall m, mu = Some m -> Z.of_nat (length m) = nx * ny * nz) ->
  wfd (create_shape nx ny nz nfb kG eps mu kn2 em).
Proof.
  intros Hx Hy Hz Lk Le Lm. unfold wfd, npts, create_shape. cbn [d_nx d_ny d_nz d_other d_last d_last_size d_out d_kG d_eps_inv d_mu_inv].
  assert (Hl : 1 <= last_dim nx ny nz /\ exists q, nx * ny * nz = q * last_dim nx ny nz /\ 0 <= q).
  { unfold last_dim, fft_rank. destruct (Z.eqb_spec nz 1) as [->|]; [destruct (Z.eqb_spec ny 1) as [->|]|]; cbn [Z.eqb Pos.eqb].
    - split; [lia|]. exists 1. lia.
    - split; [lia|]. exists nx. lia.
    - split; [lia|]. exists (nx * ny). split; [reflexivity|]. lia. }
  destruct Hl as (H1 & q & Eq & Hq). rewrite Eq, Z.quot_mul by lia. rewrite <- Eq. repeat split; auto; lia.
Qed.
Lemma classic_vec (q : vec) : q = (0, 0, 0)%R \/ q <> (0, 0, 0)%R.
Proof.
  destruct q as [[a b] c]. destruct (Req_dec a 0) as [->|]; [destruct (Req_dec b 0) as [->|]; [destruct (Req_dec c 0) as [->|]|]|].
  - left. reflexivity.
  - right. intros E. injection E. auto.
  - right. intros E. injection E. auto.
  - right. intros E. injection E. auto.
Qed.
Lemma point_exists nx ny nz g : 0 < nx -> 0 < ny -> 0 < nz -> 0 <= g < nx * ny * nz ->
  exists x y z, 0 <= x < nx /\ 0 <= y < ny /\ 0 <= z < nz /\ g = (x * ny + y) * nz + z.
Proof.
  intros Hx Hy Hz Hg. exists (g / nz / ny), (g / nz mod ny), (g mod nz).
  pose proof (Z.div_mod g nz ltac:(lia)). pose proof (Z.mod_pos_bound g nz Hz). pose proof (Z.div_mod (g / nz) ny ltac:(lia)). pose proof (Z.mod_pos_bound (g / nz) ny Hy).
  assert (0 <= g / nz) by (apply Z.div_pos; lia). assert (0 <= g / nz / ny) by (apply Z.div_pos; lia).
  assert (g / nz < nx * ny) by (apply Z.div_lt_upper_bound; lia). assert (g / nz / ny < nx) by (apply Z.div_lt_upper_bound; lia).
  repeat split; lia.
Qed.
Lemma diag_herm d (s : Z -> R) f h : inner d f (fun g c => RtoC (s g) * h g c)%C = Cconj (inner d h (fun g c => RtoC (s g) * f g c)%C).
Proof. unfold inner. rewrite csum_conj. apply csum_ext. intros g _. rewrite Cconj_add, !Cconj_mul, !Cconj_conj, !Cconj_R. ring. Qed.
Lemma diag_pos d (s : Z -> R) f : wfd d -> (forall g, 0 <= g < npts d -> (0 < s g)%R) -> (exists g c, 0 <= g < npts d /\ 0 <= c < 2 /\ f g c <> C0) ->
  im (inner d f (fun g c => RtoC (s g) * f g c)%C) = 0%R /\ (0 < re (inner d f (fun g c => RtoC (s g) * f g c)%C))%R.
Proof.
  intros Wd Hs (g & c & Hg & Hc & Hne). unfold inner.
  rewrite (csum_ext _ _ (fun g => RtoC (s (Z.of_nat g) * (normsqr (f (Z.of_nat g) 0%Z) + normsqr (f (Z.of_nat g) 1%Z))))).
  2:{ intros g' _. rewrite RtoC_mul, RtoC_add, <- !normsqr_conj. ring. }
  rewrite csum_RtoC. unfold RtoC, re, im. cbn [fst snd]. split; [reflexivity|].
  assert (T : forall i, (i < Z.to_nat (npts d))%nat -> (0 <= s (Z.of_nat i) * (normsqr (f (Z.of_nat i) 0%Z) + normsqr (f (Z.of_nat i) 1%Z)))%R).
  { intros i Hi. specialize (Hs (Z.of_nat i) ltac:(lia)). pose proof (normsqr_nonneg (f (Z.of_nat i) 0%Z)). pose proof (normsqr_nonneg (f (Z.of_nat i) 1%Z)). apply Rmult_le_pos; lra. }
  assert (T' : (0 < s g * (normsqr (f g 0%Z) + normsqr (f g 1%Z)))%R).
  { specialize (Hs g Hg). apply Rmult_lt_0_compat; [exact Hs|]. pose proof (normsqr_nonneg (f g 0%Z)). pose proof (normsqr_nonneg (f g 1%Z)).
    assert (c = 0 \/ c = 1) as [-> | ->] by lia; pose proof (normsqr_pos _ Hne); lra. }
  apply Rlt_le_trans with (s g * (normsqr (f g 0%Z) + normsqr (f g 1%Z)))%R; [exact T'|].
  set (F := fun i => if (i =? Z.to_nat g)%nat then (s g * (normsqr (f g 0%Z) + normsqr (f g 1%Z)))%R else 0%R).
  assert (EF : rsum (Z.to_nat (npts d)) F = (s g * (normsqr (f g 0%Z) + normsqr (f g 1%Z)))%R).
  { rewrite (rsum_single _ (Z.to_nat g)); [unfold F; rewrite Nat.eqb_refl; reflexivity|lia|].
    intros i Hi Hne'. unfold F. destruct (Nat.eqb_spec i (Z.to_nat g)); [contradiction|reflexivity]. }
  rewrite <- EF. apply rsum_le. intros i Hi. unfold F. destruct (Nat.eqb_spec i (Z.to_nat g)) as [->|]; [rewrite Z2Nat.id by lia; lra|apply T; exact Hi].
Qed.
