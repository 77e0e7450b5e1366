(** Opposite wave vectors and the time-reversed fields. *)
From Coq Require Import List ZArith Reals Bool Arith Lia Lra.
From Verif Require Import Base RC M_Tensor S_Tensor M_Evect S_Evect L_Evect M_Grid S_Grid L_Grid L_Grid2 L_Grid3 L_Grid5 L_Grid6 L_Half L_Out2 M_Op S_Op L_Op L_Op2 L_Op3 L_Op4 L_Op5 L_Dft L_Trans2 L_Mx1 L_Mx2 S_Mir L_Mir1 L_Mir2 L_Mir3 S_Rev.
Import ListNotations.
Local Open Scope Z_scope.
Add Ring Cring_rev1 : C_ring_theory.

(** The vectors at -q. *)
Definition antipode (e e' : kdata) (a b : R) : Prop :=
  kmag e' = kmag e /\ km e' = rsc a (km e) /\ kn e' = rsc b (kn e) /\ (a * a = 1)%R /\ (b * b = 1)%R /\ (a * b = -1 \/ kmag e = 0)%R.
Lemma transverse_neg q e e' : transverse q = Val e -> transverse (rsc (-1) q) = Val e' -> exists a b, antipode e e' a b /\ (q = (0, 0, 0)%R -> a = 1%R /\ b = 1%R).
Proof.
  destruct q as ((x & y) & z). unfold rsc, transverse. replace (-1 * x * (-1 * x) + -1 * y * (-1 * y) + -1 * z * (-1 * z))%R with (x * x + y * y + z * z)%R by ring. set (s := (x * x + y * y + z * z)%R).
  destruct (Reqb_spec s 0) as [E0|E0].
  - intros E E'. injection E as <-. injection E' as <-. exists 1%R, 1%R. split; [|auto]. unfold antipode. cbn [kmag km kn]. split; [reflexivity|]. split; [unfold rsc; f_equal; [f_equal|]; ring|]. split; [unfold rsc; f_equal; [f_equal|]; ring|]. split; [ring|]. split; [ring|]. right. rewrite E0. apply sqrt_0.
  - assert (Nq : (x, y, z) <> (0, 0, 0)%R) by (intros K; injection K as -> -> ->; apply E0; unfold s; ring).
    assert (M : forall n b k k', (b * b = 1)%R -> (let '(a1, b1, c1) := vcross n (x, y, z) in let! leninv := fdiv 1 (sqrt (a1 * a1 + b1 * b1 + c1 * c1)) in Val {| kmag := sqrt s; km := vscale leninv (a1, b1, c1); kn := n |}) = Val k ->
      (let '(a1, b1, c1) := vcross (rsc b n) (-1 * x, -1 * y, -1 * z)%R in let! leninv := fdiv 1 (sqrt (a1 * a1 + b1 * b1 + c1 * c1)) in Val {| kmag := sqrt s; km := vscale leninv (a1, b1, c1); kn := rsc b n |}) = Val k' ->
      exists a b, antipode k k' a b /\ ((x, y, z) = (0, 0, 0)%R -> a = 1%R /\ b = 1%R)).
    { intros ((n0 & n1) & n2) b k k' Hb. unfold vcross, rsc. set (u := (n1 * z - n2 * y)%R). set (v := (n2 * x - n0 * z)%R). set (w := (n0 * y - n1 * x)%R).
      replace (b * n1 * (-1 * z) - b * n2 * (-1 * y))%R with (- b * u)%R by (unfold u; ring). replace (b * n2 * (-1 * x) - b * n0 * (-1 * z))%R with (- b * v)%R by (unfold v; ring). replace (b * n0 * (-1 * y) - b * n1 * (-1 * x))%R with (- b * w)%R by (unfold w; ring).
      replace (- b * u * (- b * u) + - b * v * (- b * v) + - b * w * (- b * w))%R with ((b * b) * (u * u + v * v + w * w))%R by ring. rewrite Hb, Rmult_1_l.
      destruct (fdiv 1 _) as [l| | |]; cbn [bind]; try discriminate. intros E E'. injection E as <-. injection E' as <-. exists (- b)%R, b. split; [|intros K; contradiction].
      unfold antipode. cbn [kmag km kn]. split; [reflexivity|]. split; [unfold rsc, vscale; f_equal; [f_equal|]; ring|]. split; [reflexivity|]. split; [lra|]. split; [exact Hb|]. left. lra. }
    assert (Bx : forall t, Reqb (-1 * t) 0 = Reqb t 0) by (intros t; destruct (Reqb_spec t 0), (Reqb_spec (-1 * t) 0); auto; exfalso; lra).
    rewrite !Bx. destruct (Reqb x 0 && Reqb y 0).
    + cbn [bind]. intros E E'. apply (M (0, 1, 0)%R 1%R e e'); [lra|exact E|]. rewrite <- E'. replace (rsc 1 (0, 1, 0)%R) with (0, 1, 0)%R by (unfold rsc; f_equal; [f_equal|]; ring). reflexivity.
    + unfold vcross at 1 3. replace (0 * (-1 * z) - 1 * (-1 * y))%R with (-1 * (0 * z - 1 * y))%R by ring. replace (1 * (-1 * x) - 0 * (-1 * z))%R with (-1 * (1 * x - 0 * z))%R by ring. replace (0 * (-1 * y) - 0 * (-1 * x))%R with (-1 * (0 * y - 0 * x))%R by ring.
      set (u := (0 * z - 1 * y)%R). set (v := (1 * x - 0 * z)%R). set (w := (0 * y - 0 * x)%R).
      replace (-1 * u * (-1 * u) + -1 * v * (-1 * v) + -1 * w * (-1 * w))%R with (u * u + v * v + w * w)%R by ring.
      destruct (fdiv 1 (sqrt (u * u + v * v + w * w))) as [l| | |]; cbn [bind]; try discriminate. intros E E'. apply (M (vscale l (u, v, w)) (-1)%R e e'); [lra|exact E|]. rewrite <- E'. replace (rsc (-1) (vscale l (u, v, w))) with (vscale l (-1 * u, -1 * v, -1 * w)%R) by (unfold rsc, vscale; f_equal; [f_equal|]; ring). reflexivity.
Qed.
Lemma kpG_neg k G1 G2 G3 a b c : kpG (rsc (-1) k) G1 G2 G3 (- a) (- b) (- c) = rsc (-1) (kpG k G1 G2 G3 a b c).
Proof. destruct k as ((k0 & k1) & k2), G1 as ((a0 & a1) & a2), G2 as ((b0 & b1) & b2), G3 as ((c0 & c1) & c2). unfold kpG, rsc. cbn [fst snd]. rewrite !opp_IZR. f_equal; [f_equal|]; ring. Qed.

Section R.
Variables (d d' : mdata) (k G1 G2 G3 : vec).
Hypothesis Rv : reversed d d' k G1 G2 G3.
Notation N := (npts d).
Notation NN := (Z.to_nat (npts d)).
Notation nx := (d_nx d). Notation ny := (d_ny d). Notation nz := (d_nz d).

Lemma rev_wfd : wfd d. Proof. destruct Rv as (M & _). exact (made_wfd _ _ _ _ _ M). Qed.
Lemma rev_wfd' : wfd d'. Proof. destruct Rv as (_ & M & _). exact (made_wfd _ _ _ _ _ M). Qed.
Lemma rev_npts : npts d' = N. Proof. destruct Rv as (_ & _ & E1 & E2 & E3 & _). unfold npts. congruence. Qed.

(** The opposite plane wave. *)
Definition xmir (g : Z) : Z := (opp nx (g / nz / ny) * ny + (g / nz) mod ny) * nz + g mod nz.
Definition rmir (g : Z) : Z := (opp nx (g / nz / ny) * ny + opp ny ((g / nz) mod ny)) * nz + opp nz (g mod nz).
Lemma rmir_at x y z : 0 <= y < ny -> 0 <= z < nz -> rmir ((x * ny + y) * nz + z) = (opp nx x * ny + opp ny y) * nz + opp nz z.
Proof.
  intros Hy Hz. unfold rmir. rewrite Z.div_add_l, (Z.div_small z) by lia. rewrite Z.add_0_r, Z.div_add_l, (Z.div_small y) by lia. rewrite Z.add_0_r.
  rewrite (Z.add_comm _ z), Z.mod_add, (Z.mod_small z) by lia. rewrite (Z.add_comm (x * ny) y), Z.mod_add, (Z.mod_small y) by lia. reflexivity.
Qed.
Lemma rmir_in g : 0 <= g < N -> 0 <= rmir g < N.
Proof. intros Hg. destruct (grid_point d rev_wfd g Hg) as (x & y & z & Hx & Hy & Hz & ->). rewrite rmir_at by assumption. apply grid_in; auto using rev_wfd; apply opp_range; lia. Qed.
Lemma rmir_inv g : 0 <= g < N -> rmir (rmir g) = g.
Proof. intros Hg. destruct (grid_point d rev_wfd g Hg) as (x & y & z & Hx & Hy & Hz & ->). rewrite rmir_at, rmir_at by (auto; apply opp_range; lia). rewrite !opp_opp by lia. reflexivity. Qed.
Definition rn (g : nat) : nat := Z.to_nat (rmir (Z.of_nat g)).
Lemma rn_in g : (g < NN)%nat -> (rn g < NN)%nat.
Proof. intros H. unfold rn. pose proof (rmir_in (Z.of_nat g) ltac:(lia)). lia. Qed.
Lemma rn_inv g : (g < NN)%nat -> rn (rn g) = g.
Proof. intros H. unfold rn. pose proof (rmir_in (Z.of_nat g) ltac:(lia)). rewrite Z2Nat.id by lia. rewrite rmir_inv by lia. apply Nat2Z.id. Qed.
Lemma rn_sum F : csum NN (fun g => F (rn g)) = csum NN F.
Proof. apply csum_perm; [exact rn_in|]. intros i j Hi Hj E. rewrite <- (rn_inv i Hi), <- (rn_inv j Hj), E. reflexivity. Qed.

Lemma wave_rev g r : (g < NN)%nat -> (r < NN)%nat -> wave d' (rn g) r = Cconj (wave d g r).
Proof.
  intros Hg Hr. destruct (grid_point d rev_wfd (Z.of_nat g) ltac:(lia)) as (x & y & z & Hx & Hy & Hz & Eg).
  assert (Er : Z.of_nat (rn g) = (opp nx x * ny + opp ny y) * nz + opp nz z) by (unfold rn; rewrite Z2Nat.id by (apply rmir_in; lia); rewrite Eg; apply rmir_at; assumption).
  pose proof (opp_range nx x ltac:(lia)). pose proof (opp_range ny y ltac:(lia)). pose proof (opp_range nz z ltac:(lia)).
  destruct Rv as (_ & _ & E1 & E2 & E3 & _). unfold wave. rewrite E1, E2, E3, Er, Eg.
  assert (D1 : forall a b c, 0 <= b < ny -> 0 <= c < nz -> ((a * ny + b) * nz + c) / (ny * nz) = a) by (intros a b c Hb Hc; rewrite (Z.mul_comm ny), <- Z.div_div by lia; rewrite Z.div_add_l, (Z.div_small c), Z.add_0_r, Z.div_add_l, (Z.div_small b) by lia; lia).
  assert (D2 : forall a b c, 0 <= b < ny -> 0 <= c < nz -> (((a * ny + b) * nz + c) / nz) mod ny = b) by (intros a b c Hb Hc; rewrite Z.div_add_l, (Z.div_small c), Z.add_0_r, (Z.add_comm (a * ny)), Z.mod_add, Z.mod_small by lia; reflexivity).
  assert (D3 : forall a b c, 0 <= c < nz -> ((a * ny + b) * nz + c) mod nz = c) by (intros a b c Hc; rewrite Z.add_comm, Z.mod_add, Z.mod_small by lia; reflexivity).
  rewrite !D1, !D2, !D3 by assumption. set (u := Z.of_nat r / (ny * nz)). set (v := (Z.of_nat r / nz) mod ny). set (w := Z.of_nat r mod nz).
  assert (Op : forall n i l, 0 <= i < n -> exists m, (IZR (opp n i * l) / IZR n = - (IZR (i * l) / IZR n) + IZR m)%R).
  { intros n i l Hi. exists (- ((- i) / n) * l). unfold opp. pose proof (Z.div_mod (- i) n ltac:(lia)) as E. assert (Em : (- i) mod n = - i - n * ((- i) / n)) by lia. rewrite Em.
    assert (Nn : IZR n <> 0%R) by (apply not_0_IZR; lia). rewrite !mult_IZR, minus_IZR, mult_IZR, !opp_IZR. field. exact Nn. }
  destruct (Op nx x u Hx) as (m1 & ->), (Op ny y v Hy) as (m2 & ->), (Op nz z w Hz) as (m3 & ->). set (s := (IZR (x * u) / IZR nx + IZR (y * v) / IZR ny + IZR (z * w) / IZR nz)%R).
  replace (- (2 * PI) * (- (IZR (x * u) / IZR nx) + IZR m1 + (- (IZR (y * v) / IZR ny) + IZR m2) + (- (IZR (z * w) / IZR nz) + IZR m3)))%R with (2 * PI * s + 2 * PI * IZR (- (m1 + m2 + m3)))%R by (unfold s; rewrite opp_IZR, !plus_IZR; ring).
  pose proof (cis_turn (2 * PI * s) (- (m1 + m2 + m3))) as Ct. unfold cis in Ct. rewrite Ct. replace (- (2 * PI) * s)%R with (- (2 * PI * s))%R by ring. rewrite cos_neg, sin_neg. apply C_eq; csimp; ring.
Qed.

(** Vectors of opposite plane waves. *)
Definition outer (g : nat) : Prop := outermost nx (Z.of_nat g / nz / ny) \/ outermost ny ((Z.of_nat g / nz) mod ny) \/ outermost nz (Z.of_nat g mod nz).
Lemma outer_dec g : outer g \/ ~ outer g.
Proof. unfold outer. destruct (outermost_dec nx (Z.of_nat g / nz / ny)), (outermost_dec ny ((Z.of_nat g / nz) mod ny)), (outermost_dec nz (Z.of_nat g mod nz)); tauto. Qed.
Lemma rev_kat g : (g < NN)%nat -> ~ outer g -> exists a b, antipode (kat d g) (kat d' (rn g)) a b /\ (g = 0%nat -> k = (0, 0, 0)%R -> a = 1%R /\ b = 1%R).
Proof.
  intros Hg No. destruct (coords d rev_wfd (Z.of_nat g) ltac:(lia)) as (Hx & Hy & Hz). set (x := Z.of_nat g / nz / ny) in *. set (y := (Z.of_nat g / nz) mod ny) in *. set (z := Z.of_nat g mod nz) in *.
  assert (Eg : Z.of_nat g = (x * ny + y) * nz + z) by (unfold x, y, z; rewrite (Z.mul_comm _ ny), <- Z.div_mod by lia; rewrite (Z.mul_comm _ nz), <- Z.div_mod by lia; reflexivity).
  pose proof Rv as (Md & Md' & E1 & E2 & E3 & _). pose proof (made_kat d k G1 G2 G3 x y z Md Hx Hy Hz) as T.
  pose proof (opp_range nx x ltac:(lia)) as Ox. pose proof (opp_range ny y ltac:(lia)) as Oy. pose proof (opp_range nz z ltac:(lia)) as Oz.
  assert (T' := made_kat d' (rsc (-1) k) G1 G2 G3 (opp nx x) (opp ny y) (opp nz z) Md' ltac:(lia) ltac:(lia) ltac:(lia)). rewrite E1, E2, E3 in T'.
  assert (No3 : ~ outermost nx x /\ ~ outermost ny y /\ ~ outermost nz z) by (unfold outer in No; fold x y z in No; tauto). destruct No3 as (N1 & N2 & N3).
  rewrite (kidx_opp nx x Hx N1), (kidx_opp ny y Hy N2), (kidx_opp nz z Hz N3), kpG_neg in T'.
  destruct (transverse_neg _ _ _ T T') as (a & b & An & Z0). exists a, b. split.
  - rewrite <- Eg in An. rewrite <- (rmir_at x y z Hy Hz), <- Eg in An. unfold kz in An. rewrite Nat2Z.id in An. exact An.
  - intros G0 K0. apply Z0. subst k. assert (x = 0 /\ y = 0 /\ z = 0) as (-> & -> & ->) by (unfold x, y, z; subst g; cbn [Z.of_nat]; rewrite !Z.div_0_l, !Z.mod_0_l by lia; rewrite ?Z.div_0_l, ?Z.mod_0_l by lia; auto).
    unfold kidx. cbv zeta. assert (Q : forall n, (0 >=? Z.max 1 (Z.quot n 2)) = false) by (intros n; rewrite Z.geb_leb; apply Z.leb_gt; lia). rewrite !Q. destruct G1 as ((a0 & a1) & a2), G2 as ((b0 & b1) & b2), G3 as ((c0 & c1) & c2). unfold kpG. cbn [fst snd]. f_equal; [f_equal|]; ring.
Qed.
End R.
