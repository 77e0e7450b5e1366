(** The real-scalar operator computes what the complex one does on real amplitudes. *)
From Coq Require Import List ZArith Reals Bool Lia Lra.
From Verif Require Import Base RC Loops M_Tensor S_Tensor M_Evect S_Evect L_Evect L_Evect3 M_Grid S_Grid L_Grid M_Op S_Op L_Op L_Op2 L_Op3 L_Op5 L_Dft L_Trans2 L_Mir2 M_Real S_Real L_Real1 L_Real2.
Import ListNotations.
Local Open Scope Z_scope.

Add Ring CringReal : C_ring_theory.

Definition conjv (v : cvec) : cvec := vbuild (fun i => Cconj (vsel i v)).
Definition revec (v : cvec) : rvec := (re (vsel 0 v), re (vsel 1 v), re (vsel 2 v)).
Definition realv (v : cvec) : Prop := forall i, (i < 3)%nat -> im (vsel i v) = 0%R.

(** Matching pairs of the steps between plane-wave components and Cartesian ones. *)
Definition asg_match (asg : kdata -> C -> C -> cvec) (asg_r : kdata -> R -> R -> rvec) : Prop :=
  forall k a b i, (i < 3)%nat -> vsel i (asg k (RtoC a) (RtoC b)) = RtoC (rsel (Z.of_nat i) (asg_r k a b)).
Definition prj_match (prj : kdata -> cvec -> C * C) (prj_r : kdata -> rvec -> R * R) : Prop :=
  forall k v, realv v -> fst (prj k v) = RtoC (fst (prj_r k (revec v))) /\ snd (prj k v) = RtoC (snd (prj_r k (revec v))).
Lemma match_cross : asg_match assign_cross_t2c assign_cross_t2c_r.
Proof. intros [m [[m0 m1] m2] [[n0 n1] n2]] a b i Hi. destruct i as [|[|[|i]]]; [| | |lia]; unfold assign_cross_t2c, assign_cross_t2c_r, rsel, vsel; cbn [Z.of_nat Pos.of_succ_nat Pos.succ kmag km kn fst snd]; repeat (change (0 =? 0) with true || change (1 =? 0) with false || change (1 =? 1) with true || change (2 =? 0) with false || change (2 =? 1) with false); cbv iota; apply C_eq; csimp; ring. Qed.
Lemma match_t2c : asg_match assign_t2c assign_t2c_r.
Proof. intros [m [[m0 m1] m2] [[n0 n1] n2]] a b i Hi. destruct i as [|[|[|i]]]; [| | |lia]; unfold assign_t2c, assign_t2c_r, lin, rsel, vsel; cbn [Z.of_nat Pos.of_succ_nat Pos.succ kmag km kn fst snd]; repeat (change (0 =? 0) with true || change (1 =? 0) with false || change (1 =? 1) with true || change (2 =? 0) with false || change (2 =? 1) with false); cbv iota; apply C_eq; csimp; ring. Qed.
Lemma real_parts v : realv v -> exists a b c, v = (RtoC a, RtoC b, RtoC c) /\ revec v = (a, b, c).
Proof.
  destruct v as [[[a a'] [b b']] [c c']]. intros H. pose proof (H 0%nat ltac:(lia)) as H0. pose proof (H 1%nat ltac:(lia)) as H1. pose proof (H 2%nat ltac:(lia)) as H2.
  cbn in H0, H1, H2. subst. exists a, b, c. split; reflexivity.
Qed.
Lemma match_c2t s : prj_match (project_c2t s) (project_c2t_r s).
Proof.
  intros [m [[m0 m1] m2] [[n0 n1] n2]] v H. destruct (real_parts v H) as (a & b & c & -> & ->). unfold project_c2t, project_c2t_r, rdot3, cdot3. cbn [km kn kmag fst snd].
  split; apply C_eq; csimp; ring.
Qed.
Lemma match_cross_c2t s : prj_match (assign_cross_c2t s) (assign_cross_c2t_r s).
Proof.
  intros [m [[m0 m1] m2] [[n0 n1] n2]] v H. destruct (real_parts v H) as (a & b & c & -> & ->). unfold assign_cross_c2t, assign_cross_c2t_r, rdot3, cdot3. cbn [km kn kmag fst snd].
  split; apply C_eq; csimp; ring.
Qed.

Lemma vbuild_ext3 f g : (forall i, (i < 3)%nat -> f i = g i) -> vbuild f = vbuild g.
Proof. intros H. unfold vbuild. rewrite !H by lia. reflexivity. Qed.

Section D.
Variable d : mdata.
Hypothesis Wr : wfr d.
Notation N := (npts d).
Notation NN := (Z.to_nat (npts d)).
Notation L := (d_last d).
Notation S := (stored d).
Notation O := (d_other d).
Notation nx := (d_nx d). Notation ny := (d_ny d). Notation nz := (d_nz d).

Lemma kern_opposite g r : 0 <= r < N -> kern d 1 g (opposite d r) = Cconj (kern d 1 g r).
Proof.
  intros Hr. destruct (r_point d Wr r Hr) as (x & y & z & Hx & Hy & Hz & ->). rewrite opposite_pt by assumption.
  rewrite !(L_Dft.kern_cis d). f_equal. unfold phase. rewrite !(pt_point d) by (assumption || (apply opp_range; lia)). destruct (point ny nz g) as ((gx & gy) & gz).
  assert (Op : forall n i l, 0 <= i < n -> exists m, (IZR (l * opp n i) / IZR n = - (IZR (l * i) / IZR n) + IZR m)%R).
  { intros n i l Hi. exists (- ((- i) / n) * l). unfold opp. pose proof (Z.div_mod (- i) n ltac:(lia)) as E. assert (Em : (- i) mod n = - i - n * ((- i) / n)) by lia. rewrite Em.
    assert (Nn : IZR n <> 0%R) by (apply not_0_IZR; lia). rewrite !mult_IZR, minus_IZR, mult_IZR, !opp_IZR. field. exact Nn. }
  destruct (Op nx x gx Hx) as (m1 & ->), (Op ny y gy Hy) as (m2 & ->), (Op nz z gz Hz) as (m3 & ->).
  set (s := (IZR (gx * x) / IZR nx + IZR (gy * y) / IZR ny + IZR (gz * z) / IZR nz)%R).
  replace (2 * PI * (- (IZR (gx * x) / IZR nx) + IZR m1 + (- (IZR (gy * y) / IZR ny) + IZR m2) + (- (IZR (gz * z) / IZR nz) + IZR m3)))%R with (- (2 * PI * s) + 2 * PI * IZR (m1 + m2 + m3))%R by (unfold s; rewrite !plus_IZR; ring).
  rewrite cis_turn. fold s. unfold cis. rewrite cos_neg, sin_neg. apply C_eq; csimp; ring.
Qed.
Definition on (r : nat) : nat := Z.to_nat (opposite d (Z.of_nat r)).
Lemma on_in r : (r < NN)%nat -> (on r < NN)%nat.
Proof. intros H. unfold on. pose proof (opposite_in d Wr (Z.of_nat r) ltac:(lia)). lia. Qed.
Lemma on_inv r : (r < NN)%nat -> on (on r) = r.
Proof. intros H. unfold on. pose proof (opposite_in d Wr (Z.of_nat r) ltac:(lia)). rewrite Z2Nat.id by lia. rewrite opposite_inv by (auto; lia). apply Nat2Z.id. Qed.
Lemma on_sum F : csum NN (fun r => F (on r)) = csum NN F.
Proof. apply csum_perm; [exact on_in|]. intros i j Hi Hj E. rewrite <- (on_inv i Hi), <- (on_inv j Hj), E. reflexivity. Qed.

(** Fields in position space of real amplitudes. *)
Definition symmetric (u : Z -> cvec) : Prop := forall r, 0 <= r < N -> u (opposite d r) = conjv (u r).
Definition lift (X : emat R) (b : Z) : ff := fun g c => RtoC (fldr X b g c).
Lemma position_symmetric asg asg_r X b : asg_match asg asg_r -> symmetric (position d asg (lift X b)).
Proof.
  intros Hm r Hr. unfold conjv, position. apply vbuild_ext3. intros i Hi. rewrite vsel_build by exact Hi. rewrite csum_conj. apply csum_ext. intros g Hg.
  rewrite kern_opposite, Cconj_mul by exact Hr. f_equal. unfold lift. rewrite Hm by exact Hi. rewrite Cconj_R. reflexivity.
Qed.
Lemma mirrored_symmetric u r : 0 <= r < N -> symmetric u -> mirrored d u r = u r.
Proof.
  intros Hr Hu. unfold mirrored. destruct (r mod L <? S); [reflexivity|]. change (vbuild (fun i => Cconj (vsel i (u (opposite d r))))) with (conjv (u (opposite d r))).
  rewrite <- Hu by (apply opposite_in; assumption). rewrite opposite_inv by assumption. reflexivity.
Qed.
Lemma back_real u g : symmetric u -> realv (back d u g).
Proof.
  intros Hu i Hi. unfold back. rewrite vsel_build by exact Hi.
  assert (E : Cconj (csum NN (fun r => (kern d (-1) (Z.of_nat r) g * vsel i (u (Z.of_nat r)))%C)) = csum NN (fun r => (kern d (-1) (Z.of_nat r) g * vsel i (u (Z.of_nat r)))%C)).
  { rewrite csum_conj. rewrite <- (on_sum (fun r => (kern d (-1) (Z.of_nat r) g * vsel i (u (Z.of_nat r)))%C)). apply csum_ext. intros r Hr.
    unfold on. rewrite Z2Nat.id by (pose proof (opposite_in d Wr (Z.of_nat r) ltac:(lia)); lia). rewrite Hu by lia. unfold conjv. rewrite vsel_build by exact Hi.
    rewrite Cconj_mul. f_equal. rewrite !kern_conj, kern_opposite by lia. reflexivity. }
  apply (f_equal im) in E. revert E. generalize (csum NN (fun r => (kern d (-1) (Z.of_nat r) g * vsel i (u (Z.of_nat r)))%C)). intros [a b]. csimp. lra.
Qed.

Lemma tens_symmetric t u : inversion d t -> symmetric u -> symmetric (fun r => tens t r (u r)).
Proof.
  intros Ht Hu r Hr. cbv beta. rewrite Hu by exact Hr. destruct (r_point d Wr r Hr) as (x & y & z & Hx & Hy & Hz & Er).
  assert (Eo : opposite d r = pt d (opp nx x) (opp ny y) (opp nz z)) by (rewrite Er; apply opposite_pt; assumption). unfold tens. rewrite Eo.
  pose proof (fun i j Hi Hj => Ht x y z i j Hx Hy Hz Hi Hj) as K. rewrite <- Er in K.
  set (A := sym_at t (Z.to_nat (pt d (opp nx x) (opp ny y) (opp nz z)))) in *. set (B := sym_at t (Z.to_nat r)) in *.
  pose proof (K 0%nat 0%nat ltac:(lia) ltac:(lia)) as K0. pose proof (K 1%nat 1%nat ltac:(lia) ltac:(lia)) as K1. pose proof (K 2%nat 2%nat ltac:(lia) ltac:(lia)) as K2.
  pose proof (K 0%nat 1%nat ltac:(lia) ltac:(lia)) as K3. pose proof (K 0%nat 2%nat ltac:(lia) ltac:(lia)) as K4. pose proof (K 1%nat 2%nat ltac:(lia) ltac:(lia)) as K5.
  cbn [entry] in *. rewrite Cconj_R in K0, K1, K2. injection K0 as K0. injection K1 as K1. injection K2 as K2.
  destruct (u r) as [[v0 v1] v2]. unfold assign_symmatrix_vector, conjv, vbuild, vsel. cbn [fst snd]. rewrite K0, K1, K2, K3, K4, K5.
  f_equal; [f_equal|]; apply C_eq; csimp; ring.
Qed.

(** The tensor of a stored complex number. *)
Lemma real_visit h : 0 <= h < O * S -> exists x y z, In (x, y, z, h) (loop_real nx ny nz) /\ pt d x y z = unstored d h.
Proof.
  intros Ih. pose proof (r_S_bounds d Wr) as Sb. pose proof (r_O d Wr) as Ob. destruct (r_sizes d Wr) as (P1 & P2 & P3).
  pose proof (Z.mod_pos_bound h S ltac:(lia)) as Mh. assert (Dh : 0 <= h / S) by (apply Z.div_pos; lia). assert (Dl : h / S < O) by (apply Z.div_lt_upper_bound; lia).
  assert (Eh : h = h / S * S + h mod S) by (pose proof (Z.div_mod h S ltac:(lia)); lia).
  assert (EL : L = last_dim nx ny nz) by apply Wr. assert (EO : O * L = N) by apply Wr. pose proof (r_L d Wr) as Lp.
  assert (Eo : other_dims nx nx ny nz = O). { unfold other_dims, local_N. rewrite <- EL. change (nx * ny * nz) with N. rewrite <- EO. apply Z.quot_mul. lia. }
  assert (Es : Z.quot (last_dim_size nx ny nz) 2 = S). { unfold last_dim_size, stored. rewrite <- EL. rewrite Z.mul_comm. apply Z.quot_mul. lia. }
  { unfold loop_real. rewrite Eo, Es.
    set (c := if fft_rank ny nz =? 2 then (h / S, h mod S, 0, h) else if fft_rank ny nz =? 3 then (Z.quot (h / S) ny, Z.rem (h / S) ny, h mod S, h) else (h mod S, 0, 0, h)).
    assert (I : In c (flat_map (fun i1_ => map (fun i2_ => let xyz_index := i1_ * S + i2_ in
       if fft_rank ny nz =? 2 then (i1_, i2_, 0, xyz_index) else if fft_rank ny nz =? 3 then (Z.quot i1_ ny, Z.rem i1_ ny, i2_, xyz_index) else (i2_, 0, 0, xyz_index)) (zrange S)) (zrange O))).
    { assert (Zr : forall n i, 0 <= i < n -> In i (zrange n)) by (intros n i Hi; unfold zrange; apply in_map_iff; exists (Z.to_nat i); split; [lia|apply in_seq; lia]).
      apply in_flat_map. exists (h / S). split; [apply Zr; lia|]. apply in_map_iff. exists (h mod S). split; [|apply Zr; lia]. cbv zeta. rewrite <- Eh. reflexivity. }
    unfold unstored, pt. revert I. unfold c. clear c. unfold last_dim, fft_rank in EL.
    assert (EN : N = nx * ny * nz) by reflexivity.
    unfold fft_rank. destruct (Z.eqb_spec nz 1) as [E3|E3]; [destruct (Z.eqb_spec ny 1) as [E2|E2]|].
    - change (1 =? 2) with false. change (1 =? 3) with false. cbv iota. change (1 =? 1) with true in EL. cbv iota in EL. intros I. exists (h mod S), 0, 0. split; [exact I|].
      assert (O = 1) by nia. assert (h / S = 0) by lia. rewrite E2, E3. lia.
    - change (2 =? 2) with true. cbv iota. change (2 =? 1) with false in EL. change (2 =? 2) with true in EL. cbv iota in EL. intros I. exists (h / S), (h mod S), 0. split; [exact I|]. rewrite E3, EL. ring.
    - change (3 =? 2) with false. change (3 =? 3) with true. cbv iota. change (3 =? 1) with false in EL. change (3 =? 2) with false in EL. cbv iota in EL. intros I.
      exists (Z.quot (h / S) ny), (Z.rem (h / S) ny), (h mod S). split; [exact I|]. rewrite EL. f_equal. f_equal. rewrite Z.mul_comm. symmetry. apply Z.quot_rem'. }
Qed.
Lemma half_tensor th t h : half_of d th t -> 0 <= h < O * S -> sym_at th (Z.to_nat h) = sym_at t (Z.to_nat (unstored d h)).
Proof. intros Hh Ih. destruct (real_visit h Ih) as (x & y & z & I & E). rewrite (Hh x y z h I), E. reflexivity. Qed.

(* ------------------------------------------------------------------ *)
Lemma fwd_r asg asg_r X start nb fft : asg_match asg asg_r -> fields_r d X -> 0 <= start -> 0 < nb -> start + nb <= ep X -> 3 * M d * nb <= Z.of_nat (length fft) ->
  exists f0 f', to_cartesian_r asg_r d X start nb fft = Val f0 /\ compute_fft_r 1 d f0 (nb * 3) (nb * 3) 1 = Val f' /\ length f' = length fft /\
    (forall h b, 0 <= h < O * S -> 0 <= b < nb -> carr f' (h * nb + b) = position d asg (lift X (start + b)) (unstored d h)).
Proof.
  intros Hm HX Hs Hb Hp Hf.
  destruct (to_cartesian_r_ok d Wr asg_r X start nb fft HX Hs Hb Hp Hf) as (f0 & E0 & L0 & A0).
  destruct (r2c_ok d Wr nb f0 Hb) as (f' & E' & L' & A'); [rewrite L0; exact Hf|].
  exists f0, f'. split; [exact E0|]. split; [exact E'|]. split; [congruence|]. intros h b Hh Hbb. rewrite A' by assumption.
  apply vbuild_ext3. intros i Hi. apply csum_ext. intros g Hg. rewrite A0 by lia. unfold lift. rewrite <- Hm by exact Hi. reflexivity.
Qed.
Lemma bwd_r prj prj_r Y start nb fft (u : Z -> Z -> cvec) : prj_match prj prj_r -> fields_r d Y -> 0 <= start -> 0 < nb -> start + nb <= ep Y -> 3 * M d * nb <= Z.of_nat (length fft) ->
  (forall h b, 0 <= h < O * S -> 0 <= b < nb -> carr fft (h * nb + b) = u b (unstored d h)) -> (forall b, 0 <= b < nb -> symmetric (u b)) ->
  exists f' Y', compute_fft_r (-1) d fft (nb * 3) (nb * 3) 1 = Val f' /\ to_transverse_r prj_r d Y start nb f' = Val Y' /\ length f' = length fft /\
    fields_r d Y' /\ ep Y' = ep Y /\ ealloc Y' = ealloc Y /\
    (forall b, 0 <= b < nb -> feq d (lift Y' (start + b)) (fun g c => let v := prj (kz d g) (back d (u b) g) in if c =? 0 then fst v else snd v)) /\
    (forall b, 0 <= b < ep Y -> ~ (start <= b < start + nb) -> feq d (lift Y' b) (lift Y b)).
Proof.
  intros Hm HY Hs Hb Hp Hf Hu Sy.
  destruct (c2r_ok d Wr nb fft u Hb Hf Hu) as (f' & E' & L' & A').
  destruct (to_transverse_r_ok d Wr prj_r Y start nb f' HY Hs Hb Hp) as (Y' & EY & FY & P1 & P2 & Q1 & Q2); [rewrite L'; exact Hf|].
  exists f', Y'. split; [exact E'|]. split; [exact EY|]. split; [exact L'|]. split; [exact FY|]. split; [exact P1|]. split; [exact P2|]. split.
  - intros b Hbb g c Hg Hc. destruct (Q1 g b Hg Hbb) as (R0 & R1). rewrite A' in R0, R1 by assumption. cbv zeta in R0, R1.
    rewrite (back_ext d (mirrored d (u b)) (u b)) in R0, R1 by (intros r Hr; apply mirrored_symmetric; auto).
    destruct (Hm (kz d g) (back d (u b) g) (back_real (u b) g (Sy b Hbb))) as (M0 & M1). unfold lift. cbv zeta.
    assert (c = 0 \/ c = 1) as [-> | ->] by lia; cbn [Z.eqb]; [rewrite M0, R0|rewrite M1, R1]; reflexivity.
  - intros b Hbb Hn g c Hg Hc. unfold lift. rewrite Q2 by assumption. reflexivity.
Qed.
End D.
