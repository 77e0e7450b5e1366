(** Proofs: pixel centres, continuity, periodicity, half-stored and distributed fields. *)
From Coq Require Import List ZArith Reals Lra Lia Bool.
From Verif Require Import Base RC M_Tensor M_Evect M_Grid M_Interp S_Interp L_Evect L_Evect3 L_Interp.
Import ListNotations.
Local Open Scope R_scope.

Lemma tent_convex n r : (0 < n)%Z -> 0 <= r <= 1 -> convex n (fun i => tent n i (r * IZR n)).
Proof. intros. apply (two_point_convex _ (nearest n r)). apply nearest_ok; assumption. Qed.
Lemma ptent_convex n r : (0 < n)%Z -> 0 <= r < 1 -> convex n (fun i => ptent n i (r * IZR n)).
Proof. intros. apply (two_point_convex _ (near_periodic n r)). apply near_periodic_ok; assumption. Qed.

(** A weight concentrated on one index. *)
Definition unit_weight (n x : Z) (w : Z -> R) : Prop := forall i, (0 <= i < n)%Z -> w i = if (i =? x)%Z then 1 else 0.
Lemma unit_two n x w : (0 <= x < n)%Z -> unit_weight n x w -> two_point n (x, x, 0) w.
Proof. intros Hx H. repeat split; try lia; try lra. intros i Hi. rewrite (H i Hi). destruct (i =? x)%Z; lra. Qed.
Lemma weighted_at nx ny nz x y z wx wy wz F : (0 <= x < nx)%Z -> (0 <= y < ny)%Z -> (0 <= z < nz)%Z ->
  unit_weight nx x wx -> unit_weight ny y wy -> unit_weight nz z wz -> weighted wx wy wz nx ny nz F = F x y z.
Proof.
  intros Hx Hy Hz Wx Wy Wz.
  pose proof (trilinear_ok nx ny nz (fun x y z => Val (F x y z)) F _ _ _ _ _ _ (unit_two _ _ _ Hx Wx) (unit_two _ _ _ Hy Wy) (unit_two _ _ _ Hz Wz) (fun _ _ _ _ _ _ => eq_refl)) as T.
  cbn in T. injection T as T. rewrite <- T. ring.
Qed.
Lemma int_apart i x : i <> x -> IZR i - IZR x <= -1 \/ 1 <= IZR i - IZR x.
Proof.
  intros H. destruct (Z.lt_ge_cases i x).
  - left. rewrite <- minus_IZR. apply (IZR_le _ (-1)). lia.
  - right. rewrite <- minus_IZR. apply (IZR_le 1). lia.
Qed.
Lemma tent_centre n x : (0 <= x < n)%Z -> unit_weight n x (fun i => tent n i ((IZR x + / 2) / IZR n * IZR n)).
Proof.
  intros Hx i Hi. assert (Hn : 1 <= IZR n) by (apply (IZR_le 1); lia).
  assert (H0 : 0 <= IZR x) by (apply (IZR_le 0); lia).
  assert (H1 : IZR x <= IZR n - 1) by (rewrite <- minus_IZR; apply IZR_le; lia).
  replace ((IZR x + / 2) / IZR n * IZR n) with (IZR x + / 2) by (field; lra).
  unfold tent, clamp. rewrite (Rmax_left (IZR x + / 2)) by lra. rewrite Rmin_left by lra.
  destruct (Z.eqb_spec i x) as [->|G].
  - replace (IZR x + / 2 - IZR x - / 2) with 0 by lra. rewrite Rabs_R0, Rminus_0_r, Rmax_right by lra. reflexivity.
  - destruct (int_apart i x G); [rewrite Rabs_right by lra|rewrite Rabs_left1 by lra]; rewrite Rmax_left by lra; reflexivity.
Qed.
Lemma ptent_point n x : (0 <= x < n)%Z -> unit_weight n x (fun i => ptent n i (IZR x / IZR n * IZR n)).
Proof.
  intros Hx i Hi. assert (Hn : 1 <= IZR n) by (apply (IZR_le 1); lia).
  assert (H1 : IZR x <= IZR n - 1) by (rewrite <- minus_IZR; apply IZR_le; lia).
  assert (H0 : 0 <= IZR i) by (apply (IZR_le 0); lia).
  replace (IZR x / IZR n * IZR n) with (IZR x) by (field; lra). unfold ptent.
  rewrite (Rmax_left 0 (1 - Rabs (IZR x - IZR i - IZR n))) by (rewrite Rabs_left1 by lra; lra).
  destruct (Z.eqb_spec i x) as [->|G].
  - replace (IZR x - IZR x) with 0 by lra. rewrite Rabs_R0, Rminus_0_r, Rmax_right by lra. lra.
  - destruct (int_apart i x G); [rewrite Rabs_right by lra|rewrite Rabs_left1 by lra]; rewrite Rmax_left by lra; lra.
Qed.
Lemma centre_unit n x : (0 <= x < n)%Z -> 0 <= (IZR x + / 2) / IZR n <= 1.
Proof.
  intros Hx. assert (Hn : 1 <= IZR n) by (apply (IZR_le 1); lia). assert (H0 : 0 <= IZR x) by (apply (IZR_le 0); lia).
  assert (H1 : IZR x <= IZR n - 1) by (rewrite <- minus_IZR; apply IZR_le; lia).
  split; [apply Rmult_le_pos; [lra|left; apply Rinv_0_lt_compat; lra]|].
  apply (Rmult_le_reg_r (IZR n)); [lra|]. unfold Rdiv. rewrite Rmult_assoc, Rinv_l by lra. lra.
Qed.
Lemma point_frac n x : (0 <= x < n)%Z -> 0 <= IZR x / IZR n < 1.
Proof.
  intros Hx. assert (Hn : 1 <= IZR n) by (apply (IZR_le 1); lia). assert (H0 : 0 <= IZR x) by (apply (IZR_le 0); lia).
  assert (H1 : IZR x <= IZR n - 1) by (rewrite <- minus_IZR; apply IZR_le; lia).
  split; [apply Rmult_le_pos; [lra|left; apply Rinv_0_lt_compat; lra]|].
  apply (Rmult_lt_reg_r (IZR n)); [lra|]. unfold Rdiv. rewrite Rmult_assoc, Rinv_l by lra. lra.
Qed.

Lemma interp_centre nx ny nz stride d i j k : grid_data nx ny nz stride d -> (0 <= i < nx)%Z -> (0 <= j < ny)%Z -> (0 <= k < nz)%Z ->
  linear_interpolate ((IZR i + / 2) / IZR nx) ((IZR j + / 2) / IZR ny) ((IZR k + / 2) / IZR nz) d nx ny nz stride = Val (at3 ny nz stride d i j k).
Proof.
  intros G Hi Hj Hk. rewrite linear_interpolate_ok; [|exact G|repeat split; apply centre_unit; assumption].
  unfold tents. f_equal. apply weighted_at; auto using tent_centre.
Qed.

(** Continuity. *)
Lemma Rmax0_lip a b : Rabs (Rmax 0 a - Rmax 0 b) <= Rabs (a - b).
Proof. unfold Rmax, Rabs. repeat destruct Rle_dec; repeat destruct Rcase_abs; lra. Qed.
Lemma clamp_lip n s t : Rabs (clamp n s - clamp n t) <= Rabs (s - t).
Proof. unfold clamp, Rmin, Rmax, Rabs. repeat destruct Rle_dec; repeat destruct Rcase_abs; lra. Qed.
Lemma tent_lip n i s t : Rabs (tent n i s - tent n i t) <= Rabs (s - t).
Proof.
  unfold tent. eapply Rle_trans; [apply Rmax0_lip|]. eapply Rle_trans; [|apply (clamp_lip n)].
  generalize (clamp n s) (clamp n t). intros a b. unfold Rabs. repeat destruct Rcase_abs; lra.
Qed.
Lemma prod3_lip a b c a' b' c' : 0 <= a <= 1 -> 0 <= b <= 1 -> 0 <= c <= 1 -> 0 <= a' <= 1 -> 0 <= b' <= 1 -> 0 <= c' <= 1 ->
  Rabs (a * b * c - a' * b' * c') <= Rabs (a - a') + Rabs (b - b') + Rabs (c - c').
Proof.
  intros. replace (a * b * c - a' * b' * c') with ((a - a') * (b * c) + (b - b') * (a' * c) + (c - c') * (a' * b')) by ring.
  assert (Q : forall x y p, 0 <= x <= 1 -> 0 <= y <= 1 -> Rabs (p * (x * y)) <= Rabs p).
  { intros x y p Hx Hy. rewrite Rabs_mult, (Rabs_right (x * y)) by nra. pose proof (Rabs_pos p). assert (x * y <= 1) by nra. nra. }
  eapply Rle_trans; [apply Rabs_triang|]. apply Rplus_le_compat; [|apply Q; assumption].
  eapply Rle_trans; [apply Rabs_triang|]. apply Rplus_le_compat; apply Q; assumption.
Qed.
Lemma rsum_abs n f : Rabs (rsum n f) <= rsum n (fun i => Rabs (f i)).
Proof. induction n; cbn; [rewrite Rabs_R0; lra|]. eapply Rle_trans; [apply Rabs_triang|]. lra. Qed.
Lemma gsum_abs nx ny nz f : Rabs (gsum nx ny nz f) <= gsum nx ny nz (fun i j k => Rabs (f i j k)).
Proof.
  unfold gsum. eapply Rle_trans; [apply rsum_abs|]. apply rsum_le. intros i _. eapply Rle_trans; [apply rsum_abs|].
  apply rsum_le. intros j _. apply rsum_abs.
Qed.
Lemma gsum_sub nx ny nz f g : gsum nx ny nz (fun i j k => f i j k - g i j k) = gsum nx ny nz f - gsum nx ny nz g.
Proof.
  rewrite (gsum_ext nx ny nz (fun i j k => f i j k - g i j k) (fun i j k => f i j k + (-1) * g i j k)) by (intros; ring).
  rewrite gsum_add, gsum_scal. ring.
Qed.
Lemma tents_lip nx ny nz F x y z x' y' z' : (0 < nx)%Z -> (0 < ny)%Z -> (0 < nz)%Z -> unit_pt (x, y, z) -> unit_pt (x', y', z') ->
  Rabs (tents nx ny nz (x, y, z) F - tents nx ny nz (x', y', z') F) <=
  (IZR nx * Rabs (x - x') + IZR ny * Rabs (y - y') + IZR nz * Rabs (z - z')) * gsum nx ny nz (fun i j k => Rabs (F i j k)).
Proof.
  intros Nx Ny Nz (Hx & Hy & Hz) (Hx' & Hy' & Hz'). unfold tents, weighted.
  rewrite <- gsum_sub.
  eapply Rle_trans; [apply gsum_abs|]. rewrite <- gsum_scal. apply gsum_le. intros i j k Hi Hj Hk.
  set (a := tent nx i (x * IZR nx)). set (b := tent ny j (y * IZR ny)). set (c := tent nz k (z * IZR nz)).
  set (a' := tent nx i (x' * IZR nx)). set (b' := tent ny j (y' * IZR ny)). set (c' := tent nz k (z' * IZR nz)).
  replace (a * b * c * F i j k - a' * b' * c' * F i j k) with ((a * b * c - a' * b' * c') * F i j k) by ring.
  rewrite Rabs_mult. apply Rmult_le_compat_r; [apply Rabs_pos|].
  assert (S : forall n s t, (0 < n)%Z -> Rabs (s * IZR n - t * IZR n) = IZR n * Rabs (s - t)).
  { intros n s t Hn. rewrite <- Rmult_minus_distr_r, Rabs_mult, (Rabs_right (IZR n)); [ring|]. apply Rle_ge, (IZR_le 0). lia. }
  eapply Rle_trans; [apply prod3_lip|].
  - exact (proj1 (tent_convex nx x Nx Hx) i Hi).
  - exact (proj1 (tent_convex ny y Ny Hy) j Hj).
  - exact (proj1 (tent_convex nz z Nz Hz) k Hk).
  - exact (proj1 (tent_convex nx x' Nx Hx') i Hi).
  - exact (proj1 (tent_convex ny y' Ny Hy') j Hj).
  - exact (proj1 (tent_convex nz z' Nz Hz') k Hk).
  - rewrite <- !S by assumption. repeat apply Rplus_le_compat; apply tent_lip.
Qed.

Lemma nearest_mirror n r : -1 <= r <= 0 -> nearest n r = nearest n (- r).
Proof.
  intros H. unfold nearest. assert (E : mirror r = mirror (- r)); [|rewrite E; reflexivity].
  unfold mirror. destruct (Rltb_spec r 0), (Rltb_spec 1 r), (Rltb_spec (- r) 0), (Rltb_spec 1 (- r)); lra.
Qed.
Lemma nearest_abs n r : -1 <= r <= 1 -> nearest n r = nearest n (Rabs r).
Proof.
  intros H. unfold Rabs. destruct (Rcase_abs r); [apply nearest_mirror; lra|reflexivity].
Qed.

(** Fractional parts. *)
Lemma frac_unique x r r' : frac_of x r -> frac_of x r' -> r = r'.
Proof.
  intros [H [m E]] [H' [m' E']]. assert (IZR m - IZR m' = r' - r) as Q by lra.
  assert (m = m'); [|subst; lra]. rewrite <- minus_IZR in Q.
  assert (-1 < m - m' < 1)%Z; [|lia]. split; apply lt_IZR; lra.
Qed.
Lemma frac_shift x r a : frac_of x r -> frac_of (x + IZR a) r.
Proof. intros [H [m E]]. split; [exact H|]. exists (m + a)%Z. rewrite plus_IZR. lra. Qed.
Lemma wrap_ok r : frac_of r (wrap r).
Proof.
  unfold wrap. set (s := if Rleb 0 r then r else r + (1 + IZR (rtrunc (- r)))).
  assert (S : 0 <= s /\ exists m, r = s + IZR m).
  { unfold s. destruct (Rleb_spec 0 r); [split; [assumption|exists 0%Z; lra]|].
    destruct (rtrunc_nonneg (- r) ltac:(lra)) as [B _]. split; [lra|]. exists (- (1 + rtrunc (- r)))%Z. rewrite opp_IZR, plus_IZR. lra. }
  destruct S as [S [m E]]. clearbody s. destruct (Rltb_spec s 1); [split; [lra|exists m; exact E]|].
  destruct (rtrunc_nonneg s S) as [B _]. split; [lra|]. exists (m + rtrunc s)%Z. rewrite plus_IZR. lra.
Qed.
Lemma wrap_shift r a : wrap (r + IZR a) = wrap r.
Proof. apply (frac_unique (r + IZR a)); [apply wrap_ok|]. apply frac_shift, wrap_ok. Qed.

Lemma cell_frac_ok p s : s <> 0 -> exists r, cell_frac p s = Val r /\ frac_of (p / s + / 2) r.
Proof.
  intros Hs. unfold cell_frac. rewrite fdiv_nz by exact Hs. cbn [bind]. eexists. split; [reflexivity|].
  set (x := p / s + / 2). unfold modf_frac. destruct (Rle_lt_dec 0 x) as [H|H].
  - destruct (rtrunc_nonneg x H) as [B _]. destruct (Rltb_spec (x - IZR (rtrunc x)) 0); [lra|]. split; [lra|]. exists (rtrunc x). lra.
  - destruct (rtrunc_neg x H) as [B _]. destruct (Rltb_spec (x - IZR (rtrunc x)) 0).
    + split; [lra|]. exists (rtrunc x - 1)%Z. rewrite minus_IZR. lra.
    + split; [lra|]. exists (rtrunc x). lra.
Qed.

Lemma interp_point_ok nx ny nz size p : has_size size -> exists rx ry rz, cell_pt size p (rx, ry, rz) /\
  interp_point nx ny nz size p = Val (near_periodic nx rx, near_periodic ny ry, near_periodic nz rz).
Proof.
  destruct size as [[sx sy] sz], p as [[px py] pz]. intros (A & B & C).
  destruct (cell_frac_ok px sx A) as (rx & Ex & Fx), (cell_frac_ok py sy B) as (ry & Ey & Fy), (cell_frac_ok pz sz C) as (rz & Ez & Fz).
  exists rx, ry, rz. split; [repeat split; try apply Fx; try apply Fy; try apply Fz|]. unfold interp_point. rewrite Ex, Ey, Ez. reflexivity.
Qed.

Lemma cell_pt_unique size p r r' : cell_pt size p r -> cell_pt size p r' -> r = r'.
Proof.
  destruct size as [[sx sy] sz], p as [[px py] pz], r as [[a b] c], r' as [[a' b'] c']. intros (A & B & C) (A' & B' & C').
  rewrite (frac_unique _ _ _ A A'), (frac_unique _ _ _ B B'), (frac_unique _ _ _ C C'). reflexivity.
Qed.
Lemma cell_pt_move size p r a b c : has_size size -> cell_pt size p r -> cell_pt size (move p size a b c) r.
Proof.
  destruct size as [[sx sy] sz], p as [[px py] pz], r as [[x y] z]. intros (Sx & Sy & Sz) (A & B & C). cbn.
  repeat split; try apply A; try apply B; try apply C.
  - replace ((px + IZR a * sx) / sx + / 2) with (px / sx + / 2 + IZR a) by (field; exact Sx). exact (proj2 (frac_shift _ _ a A)).
  - replace ((py + IZR b * sy) / sy + / 2) with (py / sy + / 2 + IZR b) by (field; exact Sy). exact (proj2 (frac_shift _ _ b B)).
  - replace ((pz + IZR c * sz) / sz + / 2) with (pz / sz + / 2 + IZR c) by (field; exact Sz). exact (proj2 (frac_shift _ _ c C)).
Qed.

Lemma interp_val_ok D F nx ny nz size p : (0 < nx)%Z -> (0 < ny)%Z -> (0 < nz)%Z -> has_size size ->
  (forall x y z, (0 <= x < nx)%Z -> (0 <= y < ny)%Z -> (0 <= z < nz)%Z -> D x y z = Val (F x y z)) ->
  exists r, cell_pt size p r /\ interp_val D nx ny nz size p = Val (ptents nx ny nz r F).
Proof.
  intros Nx Ny Nz Hs HD. destruct (interp_point_ok nx ny nz size p Hs) as (rx & ry & rz & C & E).
  exists (rx, ry, rz). split; [exact C|]. unfold interp_val. rewrite E. cbn [bind].
  destruct size as [[sx sy] sz], p as [[px py] pz]. destruct C as ([Hx _] & [Hy _] & [Hz _]).
  apply trilinear_ok; auto using near_periodic_ok.
Qed.
Lemma interp_val_move D nx ny nz size p a b c : has_size size -> interp_val D nx ny nz size (move p size a b c) = interp_val D nx ny nz size p.
Proof.
  intros Hs. destruct (interp_point_ok nx ny nz size p Hs) as (rx & ry & rz & C & E).
  destruct (interp_point_ok nx ny nz size (move p size a b c) Hs) as (rx' & ry' & rz' & C' & E').
  pose proof (cell_pt_unique _ _ _ _ C' (cell_pt_move _ _ _ a b c Hs C)) as Q. injection Q as -> -> ->.
  unfold interp_val. rewrite E, E'. reflexivity.
Qed.

(** Half-stored fields. *)
Lemma half_lt n i : (0 <= i < n)%Z -> (n / 2 + 1 <= i)%Z -> (0 <= n - i < n / 2 + 1)%Z.
Proof. intros H G. pose proof (Z.div_mod n 2). pose proof (Z.mod_pos_bound n 2). lia. Qed.
Lemma half_le n : (0 < n)%Z -> (0 < n / 2 + 1)%Z.
Proof. intros H. pose proof (Z.div_pos n 2). lia. Qed.
Lemma inv_idx_in n i : (0 <= i < n)%Z -> (0 <= inv_idx n i < n)%Z.
Proof. unfold inv_idx. destruct (Z.eqb_spec i 0); lia. Qed.

Lemma get_val_half odd nx ny nz stride d F x y z : (0 < nx)%Z -> (0 < ny)%Z -> (0 < nz)%Z ->
  half_stored nx ny nz stride d F -> inv_field odd nx ny nz F -> (0 <= x < nx)%Z -> (0 <= y < ny)%Z -> (0 <= z < nz)%Z ->
  get_val true nx ny nz (last_size nx ny nz) d stride odd x y z = Val (F x y z).
Proof.
  intros Nx Ny Nz HS HI Hx Hy Hz. specialize (HI x y z Hx Hy Hz).
  pose proof (inv_idx_in nx x Hx) as Ix. pose proof (inv_idx_in ny y Hy) as Iy. pose proof (inv_idx_in nz z Hz) as Iz.
  unfold get_val, half_stored, half_sizes, last_size, half_index in *. cbv zeta. rewrite !Z.gtb_ltb in *.
  rewrite (Z.mul_comm 2), Z.quot_mul by lia.
  destruct (Z.ltb_spec 1 nz) as [Z1|Z1].
  - destruct HS as [G HF]. destruct (z >=? nz / 2 + 1)%Z eqn:E.
    + apply Z.geb_le in E. pose proof (half_lt nz z Hz E) as HL.
      assert (X : (if (x =? 0)%Z then x else (nx - x)%Z) = inv_idx nx x) by (unfold inv_idx; destruct (Z.eqb_spec x 0); auto).
      assert (Y : (if (y =? 0)%Z then y else (ny - y)%Z) = inv_idx ny y) by (unfold inv_idx; destruct (Z.eqb_spec y 0); auto).
      assert (Zz : (if (z =? 0)%Z then z else (nz - z)%Z) = inv_idx nz z) by (unfold inv_idx; destruct (Z.eqb_spec z 0); auto).
      rewrite X, Y, Zz. assert (Iz2 : (0 <= inv_idx nz z < nz / 2 + 1)%Z) by (unfold inv_idx; destruct (Z.eqb_spec z 0); lia).
      rewrite (rd_at3 nx) by assumption. cbn [bind]. rewrite HF by assumption. rewrite HI. destruct odd; cbn; f_equal; ring.
    + rewrite Z.geb_leb in E. apply Z.leb_gt in E. rewrite (rd_at3 nx) by (assumption || lia). cbn. rewrite HF by lia. reflexivity.
  - assert (z = 0%Z) by lia. subst z. cbn [Z.eqb].
    destruct (Z.ltb_spec 1 ny) as [Y1|Y1].
    + destruct HS as [G HF]. destruct (y >=? ny / 2 + 1)%Z eqn:E.
      * apply Z.geb_le in E. pose proof (half_lt ny y Hy E) as HL.
        assert (X : (if (x =? 0)%Z then x else (nx - x)%Z) = inv_idx nx x) by (unfold inv_idx; destruct (Z.eqb_spec x 0); auto).
        assert (Y : (if (y =? 0)%Z then y else (ny - y)%Z) = inv_idx ny y) by (unfold inv_idx; destruct (Z.eqb_spec y 0); auto).
        rewrite X, Y. assert (Iy2 : (0 <= inv_idx ny y < ny / 2 + 1)%Z) by (unfold inv_idx; destruct (Z.eqb_spec y 0); lia).
        rewrite (rd_at3 nx) by assumption. cbn [bind]. rewrite HF by assumption. change 0%Z with (inv_idx nz 0). rewrite HI. destruct odd; cbn; f_equal; ring.
      * rewrite Z.geb_leb in E. apply Z.leb_gt in E. rewrite (rd_at3 nx) by (assumption || lia). cbn. rewrite HF by lia. reflexivity.
    + assert (y = 0%Z) by lia. subst y. cbn [Z.eqb].
      destruct HS as [G HF]. destruct (x >=? nx / 2 + 1)%Z eqn:E.
      * apply Z.geb_le in E. pose proof (half_lt nx x Hx E) as HL.
        assert (X : (if (x =? 0)%Z then x else (nx - x)%Z) = inv_idx nx x) by (unfold inv_idx; destruct (Z.eqb_spec x 0); auto).
        rewrite X. assert (Ix2 : (0 <= inv_idx nx x < nx / 2 + 1)%Z) by (unfold inv_idx; destruct (Z.eqb_spec x 0); lia).
        rewrite (rd_at3 (nx / 2 + 1)) by assumption. cbn [bind]. rewrite HF by assumption.
        change (F (inv_idx nx x) 0%Z 0%Z) with (F (inv_idx nx x) (inv_idx ny 0) (inv_idx nz 0)). rewrite HI. destruct odd; cbn; f_equal; ring.
      * rewrite Z.geb_leb in E. apply Z.leb_gt in E. rewrite (rd_at3 (nx / 2 + 1)) by (assumption || lia). cbn. rewrite HF by lia. reflexivity.
Qed.

(** Distributed fields. *)
Lemma weighted_add wx wy wz nx ny nz F G : weighted wx wy wz nx ny nz F + weighted wx wy wz nx ny nz G = weighted wx wy wz nx ny nz (fun i j k => F i j k + G i j k).
Proof. unfold weighted. rewrite <- gsum_add. apply gsum_ext. intros. ring. Qed.
Lemma weighted_ext wx wy wz nx ny nz F G :
  (forall i j k, (0 <= i < nx)%Z -> (0 <= j < ny)%Z -> (0 <= k < nz)%Z -> F i j k = G i j k) -> weighted wx wy wz nx ny nz F = weighted wx wy wz nx ny nz G.
Proof. intros H. unfold weighted. apply gsum_ext. intros. rewrite H by assumption. reflexivity. Qed.

Lemma get_val_mpi_ok nx ny nz stride d F ly0 lny x y z :
  (0 < nx)%Z -> (0 < nz)%Z -> (lny = 0%Z \/ grid_data lny nx nz stride d) ->
  (forall x y z, (0 <= x < nx)%Z -> (0 <= y < lny)%Z -> (0 <= z < nz)%Z -> at3 nx nz stride d y x z = F x (ly0 + y)%Z z) ->
  (0 <= x < nx)%Z -> (0 <= y < ny)%Z -> (0 <= z < nz)%Z ->
  get_val_mpi lny ly0 nx nz d stride x y z = Val (if ((ly0 <=? y) && (y <? ly0 + lny))%Z%bool then F x y z else 0).
Proof.
  intros Nx Nz HG HF Hx Hy Hz. unfold get_val_mpi.
  destruct (Z.leb_spec 0 (y - ly0)), (Z.leb_spec ly0 y); try lia; cbn; [|reflexivity].
  destruct (Z.ltb_spec (y - ly0) lny), (Z.ltb_spec y (ly0 + lny)); try lia; [|reflexivity].
  destruct HG as [->|G]; [lia|]. rewrite (rd_at3 lny) by (assumption || lia). rewrite HF by (assumption || lia). replace (ly0 + (y - ly0))%Z with y by lia. reflexivity.
Qed.

Lemma slabs_sum nx ny nz stride F tx ty tz wx wy wz : (0 < nx)%Z -> (0 < ny)%Z -> (0 < nz)%Z ->
  two_point nx tx wx -> two_point ny ty wy -> two_point nz tz wz ->
  forall procs y0, (0 <= y0)%Z -> y_slabs nx nz stride y0 F procs ny ->
  exists vs, mapM (fun t => let '(ly0, lny, data) := t in trilinear (get_val_mpi lny ly0 nx nz data stride) tx ty tz) procs = Val vs /\
    fold_right Rplus 0 vs = weighted wx wy wz nx ny nz (fun i j k => if (y0 <=? j)%Z then F i j k else 0).
Proof.
  intros Nx Ny Nz Tx Ty Tz. induction procs as [|[[ly0 lny] d] t IH]; intros y0 H0 HS.
  - cbn in HS. subst y0. exists []. split; [reflexivity|]. cbn [fold_right].
    rewrite (weighted_ext _ _ _ _ _ _ _ (fun _ _ _ => 0 * 1)).
    + unfold weighted. rewrite (gsum_ext _ _ _ _ (fun i j k => 0 * (wx i * wy j * wz k))) by (intros; ring). rewrite gsum_scal. ring.
    + intros i j k _ Hj _. destruct (Z.leb_spec ny j); [lia|ring].
  - destruct HS as (-> & Hl & HG & HF & HS). destruct (IH (y0 + lny)%Z ltac:(lia) HS) as (vs & E & Q). cbn [mapM].
    rewrite (trilinear_ok nx ny nz _ (fun x y z => if ((y0 <=? y) && (y <? y0 + lny))%Z%bool then F x y z else 0) _ _ _ _ _ _ Tx Ty Tz).
    2:{ intros. apply (get_val_mpi_ok nx ny); assumption. }
    cbn [bind]. rewrite E. cbn [bind]. eexists. split; [reflexivity|]. cbn [fold_right]. rewrite Q, weighted_add. apply weighted_ext.
    intros i j k _ _ _. destruct (Z.leb_spec y0 j), (Z.ltb_spec j (y0 + lny)), (Z.leb_spec (y0 + lny) j); cbn; try lia; ring.
Qed.

Lemma mapM_ext {X Y} (f g : X -> outcome Y) l : (forall x, f x = g x) -> mapM f l = mapM g l.
Proof. intros H. induction l; cbn; [reflexivity|]. rewrite H, IHl. reflexivity. Qed.

Lemma interp_val_mpi_ok nx ny nz stride F procs size p : (0 < nx)%Z -> (0 < ny)%Z -> (0 < nz)%Z -> has_size size ->
  y_slabs nx nz stride 0 F procs ny ->
  exists r, cell_pt size p r /\ interp_val_mpi procs nx ny nz stride size p = Val (ptents nx ny nz r F).
Proof.
  intros Nx Ny Nz Hs HS. destruct (interp_point_ok nx ny nz size p Hs) as (rx & ry & rz & C & E).
  exists (rx, ry, rz). split; [exact C|]. unfold interp_val_mpi.
  rewrite (mapM_ext _ (fun t => let '(ly0, lny, data) := t in trilinear (get_val_mpi lny ly0 nx nz data stride) (near_periodic nx rx) (near_periodic ny ry) (near_periodic nz rz))).
  2:{ intros [[ly0 lny] data]. unfold interp_val. rewrite E. reflexivity. }
  destruct size as [[sx sy] sz], p as [[px py] pz]. destruct C as ([Hx _] & [Hy _] & [Hz _]).
  destruct (slabs_sum nx ny nz stride F _ _ _ _ _ _ Nx Ny Nz (near_periodic_ok nx rx Nx Hx) (near_periodic_ok ny ry Ny Hy) (near_periodic_ok nz rz Nz Hz) procs 0%Z ltac:(lia) HS) as (vs & Ev & Q).
  rewrite Ev. cbn [bind]. rewrite Q. f_equal. apply weighted_ext. intros i j k _ Hj _. destruct (Z.leb_spec 0 j); [reflexivity|lia].
Qed.
