(** The mirrors z -> -z and y -> -y. *)
From Coq Require Import List ZArith Reals Bool Arith Lia Lra.
From Verif Require Import Base RC M_Tensor S_Tensor M_Evect S_Evect L_Evect M_Grid S_Grid L_Grid L_Grid2 L_Grid3 L_Grid5 L_Grid6 L_Half L_Out2 M_Op S_Op L_Op L_Op2 L_Op3 L_Op4 L_Op5 L_Dft L_Mx1 L_Mx2 S_Mir L_Mir1.
Import ListNotations.
Local Open Scope Z_scope.
Add Ring Cring_mir2 : C_ring_theory.

Lemma kidx_opp n x : 0 <= x < n -> ~ outermost n x -> kidx n (opp n x) = - kidx n x.
Proof.
  intros Hx Ho. unfold outermost in Ho. unfold kidx. cbv zeta. rewrite !Z.geb_leb.
  assert (Q : Z.quot n 2 = n / 2) by (apply Z.quot_div_nonneg; lia). rewrite Q. pose proof (Z.div_mod n 2 ltac:(lia)) as Dn. pose proof (Z.mod_pos_bound n 2 ltac:(lia)) as Mn.
  destruct (opp_cases n x Hx) as [(-> & ->)|(Hp & ->)].
  - destruct (Z.leb_spec (Z.max 1 (n / 2)) 0); lia.
  - destruct (Z.leb_spec (Z.max 1 (n / 2)) (n - x)), (Z.leb_spec (Z.max 1 (n / 2)) x); lia.
Qed.

Lemma sq_opp a b c : (a * a + b * b + - c * - c = a * a + b * b + c * c)%R.
Proof. ring. Qed.
Lemma transverse_z x y z e e' : transverse (x, y, z) = Val e -> transverse (x, y, (- z)%R) = Val e' ->
  kmag e' = kmag e /\ forall i, (i < 3)%nat -> (1 * comp i (km e') = - zsgn i * comp i (km e))%R /\ (1 * comp i (kn e') = zsgn i * comp i (kn e))%R.
Proof.
  unfold transverse. rewrite sq_opp. destruct (Reqb_spec (x * x + y * y + z * z) 0) as [E0|E0].
  - intros E E'. injection E as <-. injection E' as <-. cbn [kmag km kn]. split; [reflexivity|]. intros i Hi. destruct i as [|[|[|]]]; [| | |lia]; cbn; lra.
  - assert (M : forall n0 n1 k k', (let '(a1, b1, c1) := vcross (n0, n1, 0%R) (x, y, z) in let! leninv := fdiv 1 (sqrt (a1 * a1 + b1 * b1 + c1 * c1)) in Val {| kmag := sqrt (x * x + y * y + z * z); km := vscale leninv (a1, b1, c1); kn := (n0, n1, 0%R) |}) = Val k ->
      (let '(a1, b1, c1) := vcross (n0, n1, 0%R) (x, y, (- z)%R) in let! leninv := fdiv 1 (sqrt (a1 * a1 + b1 * b1 + c1 * c1)) in Val {| kmag := sqrt (x * x + y * y + z * z); km := vscale leninv (a1, b1, c1); kn := (n0, n1, 0%R) |}) = Val k' ->
      kmag k' = kmag k /\ forall i, (i < 3)%nat -> (1 * comp i (km k') = - zsgn i * comp i (km k))%R /\ (1 * comp i (kn k') = zsgn i * comp i (kn k))%R).
    { intros n0 n1 k k'. unfold vcross.
      replace ((n1 * - z - 0 * y) * (n1 * - z - 0 * y) + (0 * x - n0 * - z) * (0 * x - n0 * - z) + (n0 * y - n1 * x) * (n0 * y - n1 * x))%R
        with ((n1 * z - 0 * y) * (n1 * z - 0 * y) + (0 * x - n0 * z) * (0 * x - n0 * z) + (n0 * y - n1 * x) * (n0 * y - n1 * x))%R by ring.
      destruct (fdiv 1 _) as [l| | |]; cbn [bind]; try discriminate. intros E E'. injection E as <-. injection E' as <-. cbn [kmag km kn]. split; [reflexivity|].
      intros i Hi. unfold vscale. destruct i as [|[|[|]]]; [| | |lia]; cbn [comp fst snd zsgn]; split; ring. }
    destruct (Reqb x 0 && Reqb y 0).
    + cbn [bind]. apply (M 0%R 1%R).
    + cbv beta iota delta [vcross vscale] in M |- *. replace (0 * - z - 1 * y)%R with (0 * z - 1 * y)%R by ring. replace (1 * x - 0 * - z)%R with (1 * x - 0 * z)%R by ring. replace (0 * y - 0 * x)%R with 0%R by ring.
      destruct (fdiv 1 _) as [l| | |]; cbn [bind]; try discriminate. rewrite (Rmult_0_l l). intros E E'. eapply M; [exact E|exact E'].
Qed.
Lemma transverse_y x y z e e' : transverse (x, y, z) = Val e -> transverse (x, (- y)%R, z) = Val e' ->
  kmag e' = kmag e /\ forall i, (i < 3)%nat -> (-1 * comp i (km e') = - ysgn i * comp i (km e))%R /\ (-1 * comp i (kn e') = ysgn i * comp i (kn e))%R.
Proof.
  unfold transverse. replace (x * x + - y * - y + z * z)%R with (x * x + y * y + z * z)%R by ring. destruct (Reqb_spec (x * x + y * y + z * z) 0) as [E0|E0].
  - intros E E'. injection E as <-. injection E' as <-. cbn [kmag km kn]. split; [reflexivity|]. intros i Hi. destruct i as [|[|[|]]]; [| | |lia]; cbn; lra.
  - assert (M : forall n0 n1 k k', (let '(a1, b1, c1) := vcross (n0, n1, 0%R) (x, y, z) in let! leninv := fdiv 1 (sqrt (a1 * a1 + b1 * b1 + c1 * c1)) in Val {| kmag := sqrt (x * x + y * y + z * z); km := vscale leninv (a1, b1, c1); kn := (n0, n1, 0%R) |}) = Val k ->
      (let '(a1, b1, c1) := vcross ((- n0)%R, n1, 0%R) (x, (- y)%R, z) in let! leninv := fdiv 1 (sqrt (a1 * a1 + b1 * b1 + c1 * c1)) in Val {| kmag := sqrt (x * x + y * y + z * z); km := vscale leninv (a1, b1, c1); kn := ((- n0)%R, n1, 0%R) |}) = Val k' ->
      kmag k' = kmag k /\ forall i, (i < 3)%nat -> (-1 * comp i (km k') = - ysgn i * comp i (km k))%R /\ (-1 * comp i (kn k') = ysgn i * comp i (kn k))%R).
    { intros n0 n1 k k'. unfold vcross.
      replace ((n1 * z - 0 * - y) * (n1 * z - 0 * - y) + (0 * x - - n0 * z) * (0 * x - - n0 * z) + (- n0 * - y - n1 * x) * (- n0 * - y - n1 * x))%R
        with ((n1 * z - 0 * y) * (n1 * z - 0 * y) + (0 * x - n0 * z) * (0 * x - n0 * z) + (n0 * y - n1 * x) * (n0 * y - n1 * x))%R by ring.
      destruct (fdiv 1 _) as [l| | |]; cbn [bind]; try discriminate. intros E E'. injection E as <-. injection E' as <-. cbn [kmag km kn]. split; [reflexivity|].
      intros i Hi. unfold vscale. destruct i as [|[|[|]]]; [| | |lia]; cbn [comp fst snd ysgn]; split; ring. }
    replace (Reqb (- y) 0) with (Reqb y 0) by (destruct (Reqb_spec y 0), (Reqb_spec (- y) 0); try reflexivity; exfalso; lra).
    destruct (Reqb x 0 && Reqb y 0) eqn:Exy.
    + cbn [bind]. intros E E'. refine (M 0%R 1%R e e' E _). rewrite Ropp_0. exact E'.
    + cbv beta iota delta [vcross vscale] in M |- *. replace ((0 * z - 1 * - y) * (0 * z - 1 * - y) + (1 * x - 0 * z) * (1 * x - 0 * z) + (0 * - y - 0 * x) * (0 * - y - 0 * x))%R
        with ((0 * z - 1 * y) * (0 * z - 1 * y) + (1 * x - 0 * z) * (1 * x - 0 * z) + (0 * y - 0 * x) * (0 * y - 0 * x))%R by ring.
      destruct (fdiv 1 _) as [l| | |]; cbn [bind]; try discriminate.
      replace ((0 * y - 0 * x) * l)%R with 0%R by ring. replace ((0 * - y - 0 * x) * l)%R with 0%R by ring. replace ((0 * z - 1 * - y) * l)%R with (- ((0 * z - 1 * y) * l))%R by ring. intros E E'. eapply M; [exact E|exact E'].
Qed.

(** Fourier factors. *)
Lemma cis_turn a k : cis (a + 2 * PI * IZR k) = cis a.
Proof. rewrite cis_add, cis_2pi. ring. Qed.
Lemma opp_turn n a b : 0 < n -> exists k, (IZR (opp n a * b) / IZR n = IZR (a * opp n b) / IZR n + IZR k)%R.
Proof.
  intros Hn. unfold opp. pose proof (Z.div_mod (- a) n ltac:(lia)) as E1. pose proof (Z.div_mod (- b) n ltac:(lia)) as E2.
  exists (a * (- b / n) - (- a / n) * b). replace ((- a) mod n * b) with (a * ((- b) mod n) + n * (a * (- b / n) - (- a / n) * b)) by nia.
  rewrite plus_IZR, (mult_IZR n). field. apply IZR_neq. lia.
Qed.

Lemma point_at ny nz x y z : 0 <= y < ny -> 0 <= z < nz -> point ny nz ((x * ny + y) * nz + z) = (x, y, z).
Proof.
  intros Hy Hz. unfold point. assert (E : ((x * ny + y) * nz + z) / nz = x * ny + y) by (rewrite Z.div_add_l, (Z.div_small z) by lia; lia).
  rewrite E. rewrite (Z.mul_comm ny nz), <- Z.div_div by lia. rewrite E. rewrite Z.div_add_l, (Z.div_small y) by lia.
  rewrite (Z.add_comm (x * ny)), Z.mod_add, (Z.mod_small y) by lia. rewrite (Z.add_comm _ z), Z.mod_add, (Z.mod_small z) by lia. f_equal. f_equal. lia.
Qed.

Section D.
Variable d : mdata.
Hypothesis Wd : wfd d.
Notation N := (npts d).
Notation NN := (Z.to_nat (npts d)).
Notation nx := (d_nx d). Notation ny := (d_ny d). Notation nz := (d_nz d).

Lemma kern_cis g r : kern d 1 g r = cis (- phase nx ny nz g r).
Proof. unfold kern, cis. cbn [Z.ltb Z.compare]. rewrite cos_neg, sin_neg. reflexivity. Qed.
Lemma zkern g r : 0 <= g < N -> 0 <= r < N -> kern d 1 (zmir d g) r = kern d 1 g (zmir d r).
Proof.
  intros Hg Hr. destruct (grid_point d Wd g Hg) as (x & y & z & Hx & Hy & Hz & ->). destruct (grid_point d Wd r Hr) as (u & v & w & Hu & Hv & Hw & ->).
  rewrite !zmir_at by assumption. rewrite !kern_cis. unfold phase. rewrite !point_at by (auto; apply opp_range; lia).
  destruct (opp_turn nz z w ltac:(lia)) as (k & ->). match goal with |- cis ?a = cis ?b => replace a with (b + 2 * PI * IZR (- k))%R by (rewrite opp_IZR; ring) end. apply cis_turn.
Qed.
Lemma ykern g r : 0 <= g < N -> 0 <= r < N -> kern d 1 (ymir d g) r = kern d 1 g (ymir d r).
Proof.
  intros Hg Hr. destruct (grid_point d Wd g Hg) as (x & y & z & Hx & Hy & Hz & ->). destruct (grid_point d Wd r Hr) as (u & v & w & Hu & Hv & Hw & ->).
  rewrite !ymir_at by assumption. rewrite !kern_cis. unfold phase. rewrite !point_at by (auto; apply opp_range; lia).
  destruct (opp_turn ny y v ltac:(lia)) as (k & ->). match goal with |- cis ?a = cis ?b => replace a with (b + 2 * PI * IZR (- k))%R by (rewrite opp_IZR; ring) end. apply cis_turn.
Qed.

Lemma made_kat k G1 G2 G3 x y z : made d k G1 G2 G3 -> 0 <= x < nx -> 0 <= y < ny -> 0 <= z < nz ->
  transverse (kpG k G1 G2 G3 (kidx nx x) (kidx ny y) (kidx nz z)) = Val (kz d ((x * ny + y) * nz + z)).
Proof.
  intros (mx & my & mz & nfb & t & eps & mu & kn2 & em & Hx & Hy & Hz & E & _ & _ & Ed) Ix Iy Iz. assert (Es : nx = mx /\ ny = my /\ nz = mz) by (rewrite Ed; auto).
  destruct Es as (Ex & Ey & Ez). rewrite Ex, Ey, Ez in *. destruct (table_ok mx my mz 0 mx k G1 G2 G3 ltac:(lia) ltac:(lia) ltac:(lia)) as (t' & E' & L & H). rewrite E in E'. injection E' as <-.
  destruct (H x y z Ix Iy Iz) as (e & Er & Et). rewrite Z.add_0_l in Et. rewrite Et. f_equal. unfold kz, kat. rewrite Ed. cbn [create_shape d_kG]. unfold rd in Er.
  destruct (Z.ltb_spec ((x * my + y) * mz + z) 0); [discriminate|]. destruct (nth_error t (Z.to_nat ((x * my + y) * mz + z))) as [e'|] eqn:En; [|discriminate]. injection Er as ->. symmetry. apply nth_error_nth. exact En.
Qed.

Lemma zimage_at k G1 G2 G3 x y z : made d k G1 G2 G3 -> zplane k G1 G2 G3 -> 0 <= x < nx -> 0 <= y < ny -> 0 <= z < nz -> ~ outermost nz z ->
  image d (zmir d) zsgn 1 ((x * ny + y) * nz + z).
Proof.
  intros Md (P1 & P2 & P3 & P4 & P5) Hx Hy Hz Ho. pose proof (made_kat k G1 G2 G3 x y z Md Hx Hy Hz) as E. pose proof (opp_range nz z ltac:(lia)) as Hz'.
  pose proof (made_kat k G1 G2 G3 x y (opp nz z) Md Hx Hy Hz') as E'. rewrite (kidx_opp nz z Hz Ho) in E'. unfold image. rewrite zmir_at by exact Hz.
  destruct k as ((k0, k1), k2), G1 as ((a0, a1), a2), G2 as ((b0, b1), b2), G3 as ((c0, c1), c2). cbn [comp fst snd] in *. subst. unfold kpG in E, E'. cbn [fst snd] in E, E'. apply (transverse_z _ _ _ _ _ E). rewrite <- E'. f_equal.
  rewrite opp_IZR. f_equal; [f_equal|]; ring.
Qed.
Lemma yimage_at k G1 G2 G3 x y z : made d k G1 G2 G3 -> yplane k G1 G2 G3 -> 0 <= x < nx -> 0 <= y < ny -> 0 <= z < nz -> ~ outermost ny y ->
  image d (ymir d) ysgn (-1) ((x * ny + y) * nz + z).
Proof.
  intros Md (P1 & P2 & P3 & P4 & P5) Hx Hy Hz Ho. pose proof (made_kat k G1 G2 G3 x y z Md Hx Hy Hz) as E. pose proof (opp_range ny y ltac:(lia)) as Hy'.
  pose proof (made_kat k G1 G2 G3 x (opp ny y) z Md Hx Hy' Hz) as E'. rewrite (kidx_opp ny y Hy Ho) in E'. unfold image. rewrite ymir_at by assumption.
  destruct k as ((k0, k1), k2), G1 as ((a0, a1), a2), G2 as ((b0, b1), b2), G3 as ((c0, c1), c2). cbn [comp fst snd] in *. subst. unfold kpG in E, E'. cbn [fst snd] in E, E'. apply (transverse_y _ _ _ _ _ E). rewrite <- E'. f_equal.
  rewrite opp_IZR. f_equal; [f_equal|]; ring.
Qed.
Lemma outermost_opp n j : 0 <= j < n -> outermost n (opp n j) -> outermost n j.
Proof. intros Hj (H1 & H2). split; [exact H1|]. destruct (opp_cases n j Hj) as [(-> & E)|(Hp & E)]; rewrite E in H2; lia. Qed.
Lemma outermost_dec n j : outermost n j \/ ~ outermost n j.
Proof. unfold outermost. lia. Qed.

Lemma fld_amp X b x y z c : fld X b ((x * ny + y) * nz + z) c = amp ny nz (ep X) (edata X) x y z c b.
Proof. unfold fld, entC, amp. f_equal. ring. Qed.

Lemma zlimited_ok k G1 G2 G3 X b : made d k G1 G2 G3 -> zplane k G1 G2 G3 -> zlimited d X b -> limited d (zmir d) zsgn 1 (fld X b).
Proof.
  intros Md Pl Lm g Hg. destruct (grid_point d Wd g Hg) as (x & y & z & Hx & Hy & Hz & ->). rewrite zmir_at by exact Hz. pose proof (opp_range nz z ltac:(lia)) as Hz'.
  destruct (outermost_dec nz (opp nz z)) as [O|O]; [right|left; apply (zimage_at k G1 G2 G3); assumption].
  rewrite !fld_amp. pose proof (outermost_opp nz z Hz O) as O'. split; [|split; [|split]]; apply Lm; auto; lia.
Qed.
Lemma ylimited_ok k G1 G2 G3 X b : made d k G1 G2 G3 -> yplane k G1 G2 G3 -> ylimited d X b -> limited d (ymir d) ysgn (-1) (fld X b).
Proof.
  intros Md Pl Lm g Hg. destruct (grid_point d Wd g Hg) as (x & y & z & Hx & Hy & Hz & ->). rewrite ymir_at by assumption. pose proof (opp_range ny y ltac:(lia)) as Hy'.
  destruct (outermost_dec ny (opp ny y)) as [O|O]; [right|left; apply (yimage_at k G1 G2 G3); assumption].
  rewrite !fld_amp. pose proof (outermost_opp ny y Hy O) as O'. split; [|split; [|split]]; apply Lm; auto; lia.
Qed.
Lemma zall k G1 G2 G3 : made d k G1 G2 G3 -> zplane k G1 G2 G3 -> nz = 1 -> all_image d (zmir d) zsgn 1.
Proof. intros Md Pl E1 g Hg. destruct (grid_point d Wd g Hg) as (x & y & z & Hx & Hy & Hz & ->). apply (zimage_at k G1 G2 G3); auto. unfold outermost. lia. Qed.
Lemma yall k G1 G2 G3 : made d k G1 G2 G3 -> yplane k G1 G2 G3 -> ny = 1 -> all_image d (ymir d) ysgn (-1).
Proof. intros Md Pl E1 g Hg. destruct (grid_point d Wd g Hg) as (x & y & z & Hx & Hy & Hz & ->). apply (yimage_at k G1 G2 G3); auto. unfold outermost. lia. Qed.

Lemma ztsym t : zmirrored d t -> tsym d (zmir d) zsgn t.
Proof. intros H r i j Hr Hi Hj. destruct (grid_point d Wd r Hr) as (x & y & z & Hx & Hy & Hz & ->). rewrite zmir_at by exact Hz. apply H; assumption. Qed.
Lemma ytsym t : ymirrored d t -> tsym d (ymir d) ysgn t.
Proof. intros H r i j Hr Hi Hj. destruct (grid_point d Wd r Hr) as (x & y & z & Hx & Hy & Hz & ->). rewrite ymir_at by assumption. apply H; assumption. Qed.
Lemma zsgn_sq i : (zsgn i * zsgn i = 1)%R.
Proof. destruct i as [|[|[|]]]; cbn; lra. Qed.
Lemma ysgn_sq i : (ysgn i * ysgn i = 1)%R.
Proof. destruct i as [|[|[|]]]; cbn; lra. Qed.

Lemma zflip_fld X b : feq d (flip (zmir d) 1 (fld X b)) (fun g c => zflip ny nz (ep X) (edata X) (g / nz / ny) ((g / nz) mod ny) (g mod nz) c b).
Proof.
  intros g c Hg Hc. destruct (grid_point d Wd g Hg) as (x & y & z & Hx & Hy & Hz & ->). unfold flip. rewrite zmir_at, fld_amp by exact Hz.
  pose proof (point_at ny nz x y z Hy Hz) as P. unfold point in P. rewrite (Z.mul_comm ny nz), <- Z.div_div in P by lia. injection P as -> -> ->. unfold zflip, sgc. rewrite Cscal_mul. destruct (c =? 0); reflexivity.
Qed.
Lemma yflip_fld X b : feq d (flip (ymir d) (-1) (fld X b)) (fun g c => yflip ny nz (ep X) (edata X) (g / nz / ny) ((g / nz) mod ny) (g mod nz) c b).
Proof.
  intros g c Hg Hc. destruct (grid_point d Wd g Hg) as (x & y & z & Hx & Hy & Hz & ->). unfold flip. rewrite ymir_at, fld_amp by assumption.
  pose proof (point_at ny nz x y z Hy Hz) as P. unfold point in P. rewrite (Z.mul_comm ny nz), <- Z.div_div in P by lia. injection P as -> -> ->. unfold yflip, sgc. rewrite Cscal_mul. destruct (c =? 0); f_equal; f_equal; lra.
Qed.
Lemma fld_grid X b : feq d (fld X b) (fun g c => amp ny nz (ep X) (edata X) (g / nz / ny) ((g / nz) mod ny) (g mod nz) c b).
Proof.
  intros g c Hg Hc. destruct (grid_point d Wd g Hg) as (x & y & z & Hx & Hy & Hz & ->). rewrite fld_amp.
  pose proof (point_at ny nz x y z Hy Hz) as P. unfold point in P. rewrite (Z.mul_comm ny nz), <- Z.div_div in P by lia. injection P as -> -> ->. reflexivity.
Qed.
Lemma coords g : 0 <= g < N -> 0 <= g / nz / ny < nx /\ 0 <= (g / nz) mod ny < ny /\ 0 <= g mod nz < nz.
Proof.
  intros Hg. destruct (grid_point d Wd g Hg) as (x & y & z & Hx & Hy & Hz & ->).
  pose proof (point_at ny nz x y z Hy Hz) as P. unfold point in P. rewrite (Z.mul_comm ny nz), <- Z.div_div in P by lia. injection P as -> -> ->. auto.
Qed.
Lemma zimage_fld X' b' X b : zimage d X' b' X b -> feq d (fld X' b') (flip (zmir d) 1 (fld X b)).
Proof.
  intros H. eapply feq_trans; [apply fld_grid|]. apply feq_sym. eapply feq_trans; [apply zflip_fld|]. intros g c Hg Hc. destruct (coords g Hg) as (A & B & D). symmetry. apply H; assumption.
Qed.
Lemma yimage_fld X' b' X b : yimage d X' b' X b -> feq d (fld X' b') (flip (ymir d) (-1) (fld X b)).
Proof.
  intros H. eapply feq_trans; [apply fld_grid|]. apply feq_sym. eapply feq_trans; [apply yflip_fld|]. intros g c Hg Hc. destruct (coords g Hg) as (A & B & D). symmetry. apply H; assumption.
Qed.
Lemma fld_zimage X' b' X b : feq d (fld X' b') (flip (zmir d) 1 (fld X b)) -> zimage d X' b' X b.
Proof.
  intros H x y z c Hx Hy Hz Hc. pose proof (H ((x * ny + y) * nz + z) c ltac:(apply (grid_in d); assumption) Hc) as E. rewrite fld_amp in E. rewrite E. unfold flip. rewrite zmir_at, fld_amp by exact Hz. unfold zflip, sgc. rewrite Cscal_mul. destruct (c =? 0); reflexivity.
Qed.
Lemma fld_yimage X' b' X b : feq d (fld X' b') (flip (ymir d) (-1) (fld X b)) -> yimage d X' b' X b.
Proof.
  intros H x y z c Hx Hy Hz Hc. pose proof (H ((x * ny + y) * nz + z) c ltac:(apply (grid_in d); assumption) Hc) as E. rewrite fld_amp in E. rewrite E. unfold flip. rewrite ymir_at, fld_amp by assumption. unfold yflip, sgc. rewrite Cscal_mul. destruct (c =? 0); f_equal; f_equal; lra.
Qed.
Lemma zparity_fld s X b : zparity d s X b <-> feq d (flip (zmir d) 1 (fld X b)) (fun g c => RtoC (IZR s) * fld X b g c)%C.
Proof.
  split; intros H.
  - eapply feq_trans; [apply zflip_fld|]. intros g c Hg Hc. rewrite (fld_grid X b g c Hg Hc). destruct (coords g Hg) as (A & B & D). rewrite (H _ _ _ c A B D Hc). apply Cscal_mul.
  - intros x y z c Hx Hy Hz Hc. pose proof (H ((x * ny + y) * nz + z) c ltac:(apply (grid_in d); assumption) Hc) as E. cbv beta in E. rewrite fld_amp in E. unfold flip in E. rewrite zmir_at, fld_amp in E by exact Hz. rewrite Cscal_mul, <- E. unfold zflip, sgc. rewrite Cscal_mul. destruct (c =? 0); reflexivity.
Qed.
Lemma yparity_fld s X b : yparity d s X b <-> feq d (flip (ymir d) (-1) (fld X b)) (fun g c => RtoC (IZR s) * fld X b g c)%C.
Proof.
  split; intros H.
  - eapply feq_trans; [apply yflip_fld|]. intros g c Hg Hc. rewrite (fld_grid X b g c Hg Hc). destruct (coords g Hg) as (A & B & D). rewrite (H _ _ _ c A B D Hc). apply Cscal_mul.
  - intros x y z c Hx Hy Hz Hc. pose proof (H ((x * ny + y) * nz + z) c ltac:(apply (grid_in d); assumption) Hc) as E. cbv beta in E. rewrite fld_amp in E. unfold flip in E. rewrite ymir_at, fld_amp in E by assumption. rewrite Cscal_mul, <- E. unfold yflip, sgc. rewrite Cscal_mul. destruct (c =? 0); f_equal; f_equal; lra.
Qed.
End D.
