(** Proofs about interpolation: one coordinate, three coordinates, arrays. *)
From Coq Require Import List ZArith Reals Lra Lia Bool.
From Verif Require Import Base RC M_Tensor M_Evect M_Grid M_Interp S_Interp L_Evect L_Evect3.
Import ListNotations.
Local Open Scope R_scope.

Ltac rcases := repeat match goal with
  | |- context [Rltb ?a ?b] => destruct (Rltb_spec a b)
  | |- context [Rleb ?a ?b] => destruct (Rleb_spec a b) end.

Lemma Int_part_bounds x : IZR (Int_part x) <= x < IZR (Int_part x) + 1.
Proof. pose proof (base_Int_part x). lra. Qed.
Lemma rtrunc_nonneg x : 0 <= x -> IZR (rtrunc x) <= x < IZR (rtrunc x) + 1 /\ (0 <= rtrunc x)%Z.
Proof.
  intros H. unfold rtrunc. destruct (Rleb_spec 0 x); [|lra]. pose proof (Int_part_bounds x) as B. split; [exact B|].
  assert (IZR (-1) < IZR (Int_part x)) as L by lra. apply lt_IZR in L. lia.
Qed.
Lemma rtrunc_neg x : x < 0 -> IZR (rtrunc x) - 1 < x <= IZR (rtrunc x) /\ (rtrunc x <= 0)%Z.
Proof.
  intros H. unfold rtrunc. destruct (Rleb_spec 0 x); [lra|]. pose proof (Int_part_bounds (- x)) as B. rewrite opp_IZR. split; [lra|].
  assert (IZR (-1) < IZR (Int_part (- x))) as L by lra. apply lt_IZR in L. lia.
Qed.

(** Two positions and a weight stand for the weight function w on 0..n-1. *)
Definition two_point (n : Z) (p : Z * Z * R) (w : Z -> R) : Prop :=
  let '(x, x2, d) := p in
  (0 <= x < n)%Z /\ (0 <= x2 < n)%Z /\ 0 <= d <= 1 /\
  forall i, (0 <= i < n)%Z -> w i = (if (i =? x)%Z then 1 - d else 0) + (if (i =? x2)%Z then d else 0).

Ltac izr := repeat match goal with
  | H : (_ <= _)%Z |- _ => apply IZR_le in H | H : (_ < _)%Z |- _ => apply Zlt_le_succ in H; unfold Z.succ in H; apply IZR_le in H end;
  repeat rewrite ?plus_IZR, ?minus_IZR in *.

Lemma tent_two n x t e i :
  (0 <= x < n)%Z -> (0 <= i < n)%Z -> e = t - IZR x - / 2 -> - / 2 <= e <= / 2 ->
  tent n i t = (if (i =? x)%Z then 1 - Rabs e else 0) +
    (let x2 := if Rleb 0 e then (x + 1)%Z else (x - 1)%Z in
     let x2 := if (x2 <? 0)%Z then (x2 + 1)%Z else if (x2 =? n)%Z then (x2 - 1)%Z else x2 in
     if (i =? x2)%Z then Rabs e else 0).
Proof.
  intros Hx Hi He Hb. unfold tent, clamp.
  assert (Hn : IZR n >= 1) by (apply Rle_ge; apply IZR_le; lia).
  assert (Hx0 : IZR 0 <= IZR x) by (apply IZR_le; lia).
  assert (Hxn : IZR (x + 1) <= IZR n) by (apply IZR_le; lia). rewrite plus_IZR in Hxn.
  cbv zeta.
  destruct (Rleb_spec 0 e) as [E|E].
  - rewrite (Rabs_right e) by lra. destruct (Z.ltb_spec (x + 1) 0); [lia|].
    destruct (Z.eqb_spec (x + 1) n) as [F|F].
    + replace (x + 1 - 1)%Z with x by lia. rewrite <- F, plus_IZR.
      rewrite (Rmax_left t) by lra. rewrite Rmin_right by lra.
      destruct (Z.eqb_spec i x) as [->|G].
      * replace (IZR x + 1 - / 2 - IZR x - / 2) with 0 by lra. rewrite Rabs_R0, Rminus_0_r, Rmax_right by lra. lra.
      * assert (IZR (i + 1) <= IZR x) by (apply IZR_le; lia). rewrite plus_IZR in *. rewrite Rabs_right by lra. rewrite Rmax_left by lra. lra.
    + assert (IZR (x + 2) <= IZR n) by (apply IZR_le; lia). rewrite plus_IZR in *.
      rewrite (Rmax_left t) by lra. rewrite Rmin_left by lra.
      destruct (Z.eqb_spec i x) as [->|G]; [destruct (Z.eqb_spec x (x + 1)); [lia|]; rewrite Rabs_right by lra; rewrite Rmax_right by lra; lra|].
      destruct (Z.eqb_spec i (x + 1)) as [->|G2].
      * rewrite plus_IZR. rewrite Rabs_left1 by lra. rewrite Rmax_right by lra. lra.
      * destruct (Z.lt_ge_cases i x).
        -- assert (IZR (i + 1) <= IZR x) by (apply IZR_le; lia). rewrite plus_IZR in *. rewrite Rabs_right by lra. rewrite Rmax_left by lra. lra.
        -- assert (IZR (x + 2) <= IZR i) by (apply IZR_le; lia). rewrite plus_IZR in *. rewrite Rabs_left1 by lra. rewrite Rmax_left by lra. lra.
  - rewrite (Rabs_left e) by lra. destruct (Z.ltb_spec (x - 1) 0) as [F|F].
    + assert (x = 0%Z) by lia. subst x. replace (0 - 1 + 1)%Z with 0%Z by lia.
      rewrite (Rmax_right t) by lra. rewrite Rmin_left by lra.
      destruct (Z.eqb_spec i 0) as [->|G].
      * replace (/ 2 - 0 - / 2) with 0 by lra. rewrite Rabs_R0, Rminus_0_r, Rmax_right by lra. lra.
      * assert (IZR 1 <= IZR i) by (apply IZR_le; lia). rewrite Rabs_left1 by lra. rewrite Rmax_left by lra. lra.
    + destruct (Z.eqb_spec (x - 1) n); [lia|].
      assert (IZR 1 <= IZR x) by (apply IZR_le; lia).
      rewrite (Rmax_left t) by lra. rewrite Rmin_left by lra.
      destruct (Z.eqb_spec i x) as [->|G]; [destruct (Z.eqb_spec x (x - 1)); [lia|]; rewrite Rabs_left1 by lra; rewrite Rmax_right by lra; lra|].
      destruct (Z.eqb_spec i (x - 1)) as [->|G2].
      * rewrite minus_IZR. rewrite Rabs_right by lra. rewrite Rmax_right by lra. lra.
      * destruct (Z.lt_ge_cases i x).
        -- assert (IZR (i + 2) <= IZR x) by (apply IZR_le; lia). rewrite plus_IZR in *. rewrite Rabs_right by lra. rewrite Rmax_left by lra. lra.
        -- assert (IZR (x + 1) <= IZR i) by (apply IZR_le; lia). rewrite plus_IZR in *. rewrite Rabs_left1 by lra. rewrite Rmax_left by lra. lra.
Qed.

Lemma nearest_ok n r : (0 < n)%Z -> 0 <= r <= 1 -> two_point n (nearest n r) (fun i => tent n i (r * IZR n)).
Proof.
  intros Hn Hr. unfold nearest, two_point, mirror. destruct (Rltb_spec r 0); [lra|]. destruct (Rltb_spec 1 r); [lra|].
  assert (Hn1 : 1 <= IZR n) by (apply (IZR_le 1); lia).
  assert (Ht : 0 <= r * IZR n <= IZR n) by (split; nra). set (t := r * IZR n) in *.
  destruct (rtrunc_nonneg t ltac:(lra)) as [B B0].
  set (x := if (rtrunc t =? n)%Z then (rtrunc t - 1)%Z else rtrunc t).
  assert (X : (0 <= x < n)%Z /\ IZR x <= t <= IZR x + 1).
  { unfold x. destruct (Z.eqb_spec (rtrunc t) n) as [E|E].
    - rewrite minus_IZR, E. rewrite E in *. split; [lia|lra].
    - split; [|lra]. assert (IZR (rtrunc t) < IZR (n + 1)) as L by (rewrite plus_IZR; lra). apply lt_IZR in L. lia. }
  destruct X as [X1 X2]. clearbody x.
  assert (He : - / 2 <= t - IZR x - / 2 <= / 2) by lra.
  split; [exact X1|]. split.
  { destruct (Rleb_spec 0 (t - IZR x - / 2)).
    - destruct (Z.ltb_spec (x + 1) 0); [lia|]. destruct (Z.eqb_spec (x + 1) n); lia.
    - destruct (Z.ltb_spec (x - 1) 0); [lia|]. destruct (Z.eqb_spec (x - 1) n); lia. }
  split; [split; [apply Rabs_pos|apply Rabs_le; lra]|].
  intros i Hi. exact (tent_two n x t _ i X1 Hi eq_refl He).
Qed.

Lemma near_periodic_ok n r : (0 < n)%Z -> 0 <= r < 1 -> two_point n (near_periodic n r) (fun i => ptent n i (r * IZR n)).
Proof.
  intros Hn Hr. unfold near_periodic, two_point.
  assert (Hn1 : 1 <= IZR n) by (apply (IZR_le 1); lia).
  assert (Ht : 0 <= r * IZR n < IZR n) by (split; nra). set (t := r * IZR n) in *. clearbody t.
  destruct (rtrunc_nonneg t ltac:(lra)) as [B B0]. set (x := rtrunc t) in *. clearbody x.
  assert (Hx : (x < n)%Z) by (apply lt_IZR; lra).
  destruct (Rleb_spec 0 (t - IZR x)); [|lra]. rewrite Rabs_right by lra.
  rewrite Z.rem_mod_nonneg by lia. replace (n + (x + 1))%Z with (x + 1 + 1 * n)%Z by lia. rewrite Z.mod_add by lia.
  split; [lia|]. split; [apply Z.mod_pos_bound; lia|]. split; [lra|]. intros i Hi. unfold ptent.
  assert (I0 : IZR 0 <= IZR i) by (apply IZR_le; lia).
  assert (In : IZR i <= IZR n - 1) by (rewrite <- minus_IZR; apply IZR_le; lia).
  assert (Hx1 : IZR x <= IZR n - 1) by (rewrite <- minus_IZR; apply IZR_le; lia).
  destruct (Z.eq_dec (x + 1) n) as [E|E].
  - rewrite E, Z_mod_same_full. assert (E2 : IZR x + 1 = IZR n) by (rewrite <- E, plus_IZR; lra).
    assert (F1 : Rmax 0 (1 - Rabs (t - IZR i)) = if (i =? x)%Z then 1 - (t - IZR x) else 0).
    { destruct (Z.eqb_spec i x) as [->|G]; [rewrite Rabs_right, Rmax_right by lra; lra|].
      assert (IZR (i + 1) <= IZR x) by (apply IZR_le; lia). rewrite plus_IZR in *. rewrite Rabs_right, Rmax_left by lra. lra. }
    assert (F2 : Rmax 0 (1 - Rabs (t - IZR i - IZR n)) = if (i =? 0)%Z then t - IZR x else 0).
    { destruct (Z.eqb_spec i 0) as [->|G]; [rewrite Rabs_left1, Rmax_right by lra; lra|].
      assert (IZR 1 <= IZR i) by (apply IZR_le; lia). rewrite Rabs_left1, Rmax_left by lra. lra. }
    rewrite F1, F2. reflexivity.
  - rewrite Z.mod_small by lia. assert (E2 : IZR (x + 2) <= IZR n) by (apply IZR_le; lia). rewrite plus_IZR in E2.
    assert (F2 : Rmax 0 (1 - Rabs (t - IZR i - IZR n)) = 0) by (rewrite Rabs_left1, Rmax_left by lra; lra).
    rewrite F2. destruct (Z.eqb_spec i x) as [->|G].
    + destruct (Z.eqb_spec x (x + 1)); [lia|]. rewrite Rabs_right, Rmax_right by lra. lra.
    + destruct (Z.eqb_spec i (x + 1)) as [->|G2].
      * rewrite plus_IZR. rewrite Rabs_left1, Rmax_right by lra. lra.
      * destruct (Z.lt_ge_cases i x).
        -- assert (IZR (i + 1) <= IZR x) by (apply IZR_le; lia). rewrite plus_IZR in *. rewrite Rabs_right, Rmax_left by lra. lra.
        -- assert (IZR (x + 2) <= IZR i) by (apply IZR_le; lia). rewrite plus_IZR in *. rewrite Rabs_left1, Rmax_left by lra. lra.
Qed.

Lemma two_point_sum n x x2 d w (f : Z -> R) : two_point n (x, x2, d) w ->
  rsum (Z.to_nat n) (fun i => w (Z.of_nat i) * f (Z.of_nat i)) = f x * (1 - d) + f x2 * d.
Proof.
  intros (Hx & Hx2 & Hd & Hw).
  rewrite (rsum_ext _ _ (fun i => (if (Z.of_nat i =? x)%Z then (1 - d) * f x else 0) + (if (Z.of_nat i =? x2)%Z then d * f x2 else 0))).
  2:{ intros i Hi. rewrite Hw by lia. destruct (Z.eqb_spec (Z.of_nat i) x) as [E|]; destruct (Z.eqb_spec (Z.of_nat i) x2) as [E'|]; rewrite <- ?E, <- ?E'; ring. }
  rewrite rsum_add.
  rewrite (rsum_single _ (Z.to_nat x)), (rsum_single _ (Z.to_nat x2)); try lia.
  - rewrite !Z2Nat.id by lia. rewrite !Z.eqb_refl. ring.
  - intros i Hi Hne. destruct (Z.eqb_spec (Z.of_nat i) x2); [lia|reflexivity].
  - intros i Hi Hne. destruct (Z.eqb_spec (Z.of_nat i) x); [lia|reflexivity].
Qed.

Lemma two_point_convex n p w : two_point n p w -> convex n w.
Proof.
  destruct p as [[x x2] d]. intros H. split.
  - destruct H as (Hx & Hx2 & Hd & Hw). intros i Hi. rewrite Hw by exact Hi. destruct (i =? x)%Z, (i =? x2)%Z; lra.
  - pose proof (two_point_sum n x x2 d w (fun _ => 1) H) as E.
    rewrite (rsum_ext _ _ (fun i => w (Z.of_nat i) * 1)) by (intros; ring). rewrite E. ring.
Qed.

Lemma weighted_nest wx wy wz nx ny nz F : weighted wx wy wz nx ny nz F =
  rsum (Z.to_nat nx) (fun i => wx (Z.of_nat i) * rsum (Z.to_nat ny) (fun j => wy (Z.of_nat j) * rsum (Z.to_nat nz) (fun k => wz (Z.of_nat k) * F (Z.of_nat i) (Z.of_nat j) (Z.of_nat k)))).
Proof.
  unfold weighted, gsum. apply rsum_ext. intros i _. rewrite <- rsum_scal. apply rsum_ext. intros j _.
  rewrite <- !rsum_scal. apply rsum_ext. intros k _. ring.
Qed.

(** Three coordinates. *)
Lemma trilinear_ok nx ny nz D F px py pz wx wy wz :
  two_point nx px wx -> two_point ny py wy -> two_point nz pz wz ->
  (forall x y z, (0 <= x < nx)%Z -> (0 <= y < ny)%Z -> (0 <= z < nz)%Z -> D x y z = Val (F x y z)) ->
  trilinear D px py pz = Val (weighted wx wy wz nx ny nz F).
Proof.
  destruct px as [[x x2] dx], py as [[y y2] dy], pz as [[z z2] dz]. intros Hx Hy Hz HD. unfold trilinear.
  rewrite weighted_nest.
  rewrite (two_point_sum nx x x2 dx wx (fun i => rsum (Z.to_nat ny) (fun j => wy (Z.of_nat j) * rsum (Z.to_nat nz) (fun k => wz (Z.of_nat k) * F i (Z.of_nat j) (Z.of_nat k)))) Hx).
  rewrite (two_point_sum ny y y2 dy wy (fun j => rsum (Z.to_nat nz) (fun k => wz (Z.of_nat k) * F x j (Z.of_nat k))) Hy).
  rewrite (two_point_sum ny y y2 dy wy (fun j => rsum (Z.to_nat nz) (fun k => wz (Z.of_nat k) * F x2 j (Z.of_nat k))) Hy).
  rewrite (two_point_sum nz z z2 dz wz (fun k => F x y k) Hz), (two_point_sum nz z z2 dz wz (fun k => F x y2 k) Hz),
    (two_point_sum nz z z2 dz wz (fun k => F x2 y k) Hz), (two_point_sum nz z z2 dz wz (fun k => F x2 y2 k) Hz).
  destruct Hx as (? & ? & _), Hy as (? & ? & _), Hz as (? & ? & _).
  rewrite !HD by assumption. cbn [bind]. f_equal. ring.
Qed.

(** Array reads. *)
Lemma idx3 nx ny nz x y z : (0 <= x < nx)%Z -> (0 <= y < ny)%Z -> (0 <= z < nz)%Z -> (0 <= (x * ny + y) * nz + z <= nx * ny * nz - 1)%Z.
Proof.
  intros Hx Hy Hz. pose proof (rowin nx ny ny x y Hx Hy ltac:(lia)) as A.
  pose proof (rowin (nx * ny) nz nz (x * ny + y) z A Hz ltac:(lia)). lia.
Qed.
Lemma rd_getr (d : list R) i : (0 <= i < Z.of_nat (length d))%Z -> rd d i = Val (getr d i).
Proof. intros H. unfold getr. destruct (rd_in d i H) as [a ->]. reflexivity. Qed.
Lemma rd_at3 nx ny nz stride d x y z : grid_data nx ny nz stride d -> (0 <= x < nx)%Z -> (0 <= y < ny)%Z -> (0 <= z < nz)%Z ->
  rd d (((x * ny + y) * nz + z) * stride) = Val (at3 ny nz stride d x y z).
Proof.
  intros (A & B & C & S & L) Hx Hy Hz. unfold at3. apply rd_getr. pose proof (idx3 nx ny nz x y z Hx Hy Hz) as I.
  assert ((((x * ny + y) * nz + z) * stride <= (nx * ny * nz - 1) * stride)%Z) by (apply Z.mul_le_mono_nonneg_r; lia).
  split; [apply Z.mul_nonneg_nonneg; lia|lia].
Qed.

Lemma linear_interpolate_ok nx ny nz stride d x y z : grid_data nx ny nz stride d -> unit_pt (x, y, z) ->
  linear_interpolate x y z d nx ny nz stride = Val (tents nx ny nz (x, y, z) (at3 ny nz stride d)).
Proof.
  intros G (Hx & Hy & Hz). unfold linear_interpolate, tents. pose proof G as (A & B & C & _).
  apply trilinear_ok; auto using nearest_ok. intros. apply (rd_at3 nx); assumption.
Qed.

(** Sums over the grid. *)
Lemma gsum_ext nx ny nz f g : (forall i j k, (0 <= i < nx)%Z -> (0 <= j < ny)%Z -> (0 <= k < nz)%Z -> f i j k = g i j k) -> gsum nx ny nz f = gsum nx ny nz g.
Proof. intros H. unfold gsum. apply rsum_ext; intros i Hi. apply rsum_ext; intros j Hj. apply rsum_ext; intros k Hk. apply H; lia. Qed.
Lemma gsum_le nx ny nz f g : (forall i j k, (0 <= i < nx)%Z -> (0 <= j < ny)%Z -> (0 <= k < nz)%Z -> f i j k <= g i j k) -> gsum nx ny nz f <= gsum nx ny nz g.
Proof. intros H. unfold gsum. apply rsum_le; intros i Hi. apply rsum_le; intros j Hj. apply rsum_le; intros k Hk. apply H; lia. Qed.
Lemma gsum_add nx ny nz f g : gsum nx ny nz (fun i j k => f i j k + g i j k) = gsum nx ny nz f + gsum nx ny nz g.
Proof.
  unfold gsum. rewrite <- rsum_add. apply rsum_ext; intros i _. rewrite <- rsum_add. apply rsum_ext; intros j _. rewrite <- rsum_add. reflexivity.
Qed.
Lemma gsum_scal nx ny nz c f : gsum nx ny nz (fun i j k => c * f i j k) = c * gsum nx ny nz f.
Proof.
  unfold gsum. rewrite <- rsum_scal. apply rsum_ext; intros i _. rewrite <- rsum_scal. apply rsum_ext; intros j _. rewrite <- rsum_scal. reflexivity.
Qed.
Lemma weighted_1 wx wy wz nx ny nz : convex nx wx -> convex ny wy -> convex nz wz -> weighted wx wy wz nx ny nz (fun _ _ _ => 1) = 1.
Proof.
  intros [_ X] [_ Y] [_ Z]. rewrite weighted_nest.
  rewrite (rsum_ext _ _ (fun i => wx (Z.of_nat i))); [exact X|]. intros i _.
  rewrite (rsum_ext _ _ (fun i => wy (Z.of_nat i))); [rewrite Y; ring|]. intros j _.
  rewrite (rsum_ext _ _ (fun i => wz (Z.of_nat i))); [rewrite Z; ring|]. intros k _. ring.
Qed.
Lemma weighted_lower wx wy wz nx ny nz F lo : convex nx wx -> convex ny wy -> convex nz wz ->
  (forall i j k, (0 <= i < nx)%Z -> (0 <= j < ny)%Z -> (0 <= k < nz)%Z -> lo <= F i j k) ->
  lo <= weighted wx wy wz nx ny nz F.
Proof.
  intros X Y Z H. pose proof (weighted_1 wx wy wz nx ny nz X Y Z) as W. unfold weighted in *.
  assert (Q : forall i j k, (0 <= i < nx)%Z -> (0 <= j < ny)%Z -> (0 <= k < nz)%Z -> 0 <= wx i * wy j * wz k).
  { intros i j k Hi Hj Hk. destruct X as [X _], Y as [Y _], Z as [Z _]. specialize (X i Hi). specialize (Y j Hj). specialize (Z k Hk).
    apply Rmult_le_pos; [apply Rmult_le_pos|]; lra. }
  replace lo with (lo * gsum nx ny nz (fun i j k => wx i * wy j * wz k * 1)) at 1 by (rewrite W; ring).
  rewrite <- gsum_scal. apply gsum_le. intros i j k Hi Hj Hk. specialize (Q i j k Hi Hj Hk). specialize (H i j k Hi Hj Hk).
  rewrite Rmult_1_r, (Rmult_comm lo). apply Rmult_le_compat_l; lra.
Qed.
Lemma weighted_bounds wx wy wz nx ny nz F lo hi : convex nx wx -> convex ny wy -> convex nz wz ->
  (forall i j k, (0 <= i < nx)%Z -> (0 <= j < ny)%Z -> (0 <= k < nz)%Z -> lo <= F i j k <= hi) ->
  lo <= weighted wx wy wz nx ny nz F <= hi.
Proof.
  intros X Y Z H. pose proof (weighted_1 wx wy wz nx ny nz X Y Z) as W. unfold weighted in *.
  assert (Q : forall i j k, (0 <= i < nx)%Z -> (0 <= j < ny)%Z -> (0 <= k < nz)%Z -> 0 <= wx i * wy j * wz k).
  { intros i j k Hi Hj Hk. destruct X as [X _], Y as [Y _], Z as [Z _]. specialize (X i Hi). specialize (Y j Hj). specialize (Z k Hk).
    apply Rmult_le_pos; [apply Rmult_le_pos|]; lra. }
  split.
  - replace lo with (lo * gsum nx ny nz (fun i j k => wx i * wy j * wz k * 1)) at 1 by (rewrite W; ring).
    rewrite <- gsum_scal. apply gsum_le. intros i j k Hi Hj Hk. specialize (Q i j k Hi Hj Hk). specialize (H i j k Hi Hj Hk).
    rewrite Rmult_1_r, (Rmult_comm lo). apply Rmult_le_compat_l; lra.
  - replace hi with (hi * gsum nx ny nz (fun i j k => wx i * wy j * wz k * 1)) at 1 by (rewrite W; ring).
    rewrite <- gsum_scal. apply gsum_le. intros i j k Hi Hj Hk. specialize (Q i j k Hi Hj Hk). specialize (H i j k Hi Hj Hk).
    rewrite Rmult_1_r, (Rmult_comm hi). apply Rmult_le_compat_l; lra.
Qed.
