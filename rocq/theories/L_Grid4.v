(** Reported parities. *)
From Coq Require Import List ZArith Reals Lia Lra Bool.
From Verif Require Import Base RC Loops M_Tensor M_Evect S_Evect L_Evect L_Evect2 L_Evect3 M_Grid S_Grid L_Grid L_Grid2 L_Grid3.
Import ListNotations.
Local Open Scope Z_scope.

Lemma rsum_app n m f : rsum (n + m) f = (rsum n f + rsum m (fun i => f (n + i)%nat))%R.
Proof. induction m as [|m IH]; [rewrite Nat.add_0_r; cbn; lra|]. rewrite Nat.add_succ_r. cbn [rsum]. rewrite IH. lra. Qed.
Lemma rsum_flat n m f : rsum (n * m) f = rsum n (fun i => rsum m (fun j => f (i * m + j)%nat)).
Proof. induction n as [|n IH]; [reflexivity|]. replace (S n * m)%nat with (n * m + m)%nat by lia. rewrite rsum_app, IH. reflexivity. Qed.
Lemma rsum_rev n f : rsum n f = rsum n (fun i => f (n - 1 - i)%nat).
Proof.
  induction n as [|n IH]; [reflexivity|]. pose proof (rsum_app 1 n (fun i => f (S n - 1 - i)%nat)) as E. change (1 + n)%nat with (S n) in E. rewrite E. cbn [rsum].
  replace (S n - 1 - 0)%nat with n by lia. rewrite IH.
  rewrite (rsum_ext n (fun i => f (S n - 1 - (1 + i))%nat) (fun i => f (n - 1 - i)%nat)); [lra|]. intros. f_equal. lia.
Qed.

(** Half of a symmetric sum, with weights. *)
Lemma half_sum n (g : Z -> R) : 0 < n -> (forall j, 0 <= j < n -> g (opp n j) = g j) ->
  rsum (Z.to_nat (Z.quot n 2 + 1)) (fun j => (if Z.of_nat j =? mir n (Z.of_nat j) then 1 else 2) * g (Z.of_nat j))%R = rsum (Z.to_nat n) (fun j => g (Z.of_nat j)).
Proof.
  intros Hn Hg. rewrite Z.quot_div_nonneg by lia. pose proof (Z.div_mod n 2 ltac:(lia)) as D. pose proof (Z.mod_pos_bound n 2 ltac:(lia)) as B.
  set (h := Z.to_nat (n / 2)). assert (Hh : Z.of_nat h = n / 2) by (unfold h; apply Z2Nat.id; apply Z.div_pos; lia).
  replace (Z.to_nat (n / 2 + 1)) with (1 + h)%nat by lia. replace (Z.to_nat n) with (1 + h + (Z.to_nat n - 1 - h))%nat by lia.
  rewrite (rsum_app (1 + h)). set (k := (Z.to_nat n - 1 - h)%nat).
  assert (E2 : rsum k (fun i => g (Z.of_nat (1 + h + i))) = rsum k (fun i => g (Z.of_nat (1 + i)))).
  { rewrite rsum_rev. apply rsum_ext. intros i Hi. rewrite <- (Hg (Z.of_nat (1 + i))) by lia. rewrite opp_mir by lia. unfold mir. rewrite Z.gtb_ltb.
    destruct (Z.ltb_spec 0 (Z.of_nat (1 + i))); [|lia]. f_equal. lia. }
  rewrite E2. rewrite !rsum_app. cbn [rsum]. change (Z.of_nat 0) with 0. change (mir n 0) with 0. cbn [Z.eqb].
  assert (Hk : (k = h /\ n = 2 * Z.of_nat h + 1) \/ (h = (k + 1)%nat /\ n = 2 * Z.of_nat h)) by lia.
  assert (W : forall i, (i < k)%nat -> ((if Z.of_nat (1 + i) =? mir n (Z.of_nat (1 + i)) then 1 else 2) * g (Z.of_nat (1 + i)) = 2 * g (Z.of_nat (1 + i)))%R).
  { intros i Hi. unfold mir. rewrite Z.gtb_ltb. destruct (Z.ltb_spec 0 (Z.of_nat (1 + i))); [|lia]. destruct (Z.eqb_spec (Z.of_nat (1 + i)) (n - Z.of_nat (1 + i))); [lia|]. lra. }
  destruct Hk as [(Ek & _)|(Ek & Hn2)].
  - rewrite <- Ek. rewrite (rsum_ext k _ (fun i => 2 * g (Z.of_nat (1 + i)))%R) by exact W. rewrite rsum_scal. lra.
  - rewrite Ek. rewrite !rsum_app. cbn [rsum]. rewrite (rsum_ext k _ (fun i => 2 * g (Z.of_nat (1 + i)))%R) by exact W. rewrite rsum_scal.
    replace (k + 0)%nat with k by lia. unfold mir. rewrite Z.gtb_ltb. destruct (Z.ltb_spec 0 (Z.of_nat (1 + k))); [|lia].
    destruct (Z.eqb_spec (Z.of_nat (1 + k)) (n - Z.of_nat (1 + k))); [|lia]. lra.
Qed.

Lemma forZ_sum2 n (f : Z -> R * R -> outcome (R * R)) (g h : Z -> R) acc : 
  (forall j acc, 0 <= j < n -> f j acc = Val (fst acc + g j, snd acc + h j)%R) ->
  forZ 0 n f acc = Val (fst acc + rsum (Z.to_nat n) (fun j => g (Z.of_nat j)), snd acc + rsum (Z.to_nat n) (fun j => h (Z.of_nat j)))%R.
Proof.
  intros H. unfold forZ. rewrite Z.sub_0_r. remember (Z.to_nat n) as m. assert (Hm : Z.of_nat m <= n \/ m = O) by lia. clear Heqm.
  assert (G : forall m k acc, (k + m <= Z.to_nat n)%nat \/ m = O -> for_ m (Z.of_nat k) f acc =
     Val (fst acc + rsum m (fun j => g (Z.of_nat (k + j))), snd acc + rsum m (fun j => h (Z.of_nat (k + j))))%R).
  { clear m Hm acc. induction m as [|m IH]; intros k acc Hk.
    - cbn. destruct acc. cbn. f_equal. f_equal; lra.
    - cbn [for_]. rewrite H by lia. cbn [bind]. replace (Z.of_nat k + 1) with (Z.of_nat (S k)) by lia. rewrite IH by lia. cbn [fst snd].
      pose proof (rsum_app 1 m (fun j => g (Z.of_nat (k + j)))) as E1. pose proof (rsum_app 1 m (fun j => h (Z.of_nat (k + j)))) as E2.
      change (1 + m)%nat with (S m) in E1, E2. rewrite E1, E2. cbn [rsum]. rewrite Nat.add_0_r.
      rewrite (rsum_ext m (fun j => g (Z.of_nat (S k + j))) (fun i => g (Z.of_nat (k + (1 + i))))) by (intros; f_equal; lia).
      rewrite (rsum_ext m (fun j => h (Z.of_nat (S k + j))) (fun i => h (Z.of_nat (k + (1 + i))))) by (intros; f_equal; lia).
      f_equal. f_equal; lra. }
  change 0 with (Z.of_nat 0). rewrite G by lia. reflexivity.
Qed.

(** One pair. *)
Definition rd2 (a c : C) : R := (re a * re c + im a * im c)%R.
Lemma pair_terms_ok N p s ij ij2 b X acc : N * 2 * p <= Z.of_nat (length X) -> 0 <= ij < N -> 0 <= ij2 < N -> 0 <= b < p ->
  pair_terms p s ij ij2 b X acc =
  let u q := gets X ((q * 2 + 0) * p + b) in let v q := gets X ((q * 2 + 1) * p + b) in
  let w := (if ij =? ij2 then 1 else 2)%R in
  Val (fst acc + w * (s * (rd2 (u ij) (u ij2) - rd2 (v ij) (v ij2))), snd acc + w * (rd2 (u ij) (u ij) + rd2 (v ij) (v ij)))%R.
Proof.
  intros L H1 H2 Hb. unfold pair_terms.
  assert (R : forall q c, 0 <= q < N -> 0 <= c < 2 -> rd X ((q * 2 + c) * p + b) = Val (gets X ((q * 2 + c) * p + b))).
  { intros q c Hq Hc. apply gets_in. pose proof (rowin (N * 2) p p (q * 2 + c) b). lia. }
  replace (ij * 2 * p) with ((ij * 2 + 0) * p) by lia. replace (ij2 * 2 * p) with ((ij2 * 2 + 0) * p) by lia.
  rewrite !R by lia. cbn [bind]. reflexivity.
Qed.

Lemma rd2_sym a c : rd2 a c = rd2 c a. Proof. unfold rd2. lra. Qed.

Lemma zsums_ok nx lnx ny nz p X b : field lnx ny nz p X -> sizes nx lnx ny nz -> 0 <= b < p ->
  exists n, zparity_sums nx lnx ny nz p b X = Val (zexpect lnx ny nz p X b, n) /\ (zbalanced lnx ny nz p X b -> n = norm2 lnx ny nz p X b).
Proof.
  intros (Hx & Hy & Hz & Hp & Hl) Hs Hb. unfold zparity_sums.
  assert (E1 : (if nz >? 1 then other_dims nx lnx ny nz else other_dims nx lnx ny nz * last_dim nx ny nz) = lnx * ny).
  { rewrite Z.gtb_ltb. destruct (Z.ltb_spec 1 nz); [apply dims3; auto|]. assert (nz = 1) by lia. subst. apply dims2; auto. }
  assert (E2 : (if nz >? 1 then last_dim nx ny nz else 1) = nz).
  { rewrite Z.gtb_ltb. destruct (Z.ltb_spec 1 nz); [apply (dims3 nx lnx ny nz); auto|lia]. }
  rewrite E1, E2. clear E1 E2.
  set (A := fun q z c => gets X (((q * nz + z) * 2 + c) * p + b)).
  set (gz := fun q j => (rd2 (A q j 0%Z) (A q (opp nz j) 0%Z) - rd2 (A q j 1%Z) (A q (opp nz j) 1%Z))%R).
  set (gn := fun q j => (rd2 (A q j 0%Z) (A q j 0%Z) + rd2 (A q j 1%Z) (A q j 1%Z))%R).
  set (w := fun j => (if j =? mir nz j then 1 else 2)%R).
  erewrite (forZ_sum2 (lnx * ny) _ (fun q => rsum (Z.to_nat (Z.quot nz 2 + 1)) (fun j => (w (Z.of_nat j) * gz q (Z.of_nat j))%R))
     (fun q => rsum (Z.to_nat (Z.quot nz 2 + 1)) (fun j => (w (Z.of_nat j) * gn q (Z.of_nat j))%R))).
  2: { intros q acc Hq. erewrite (forZ_sum2 (Z.quot nz 2 + 1) _ (fun j => w j * gz q j)%R (fun j => w j * gn q j)%R); [reflexivity|].
       intros j acc' Hj. rewrite half in Hj by lia. assert (Hj' : 0 <= j < nz) by lia. assert (Hm : 0 <= mir nz j < nz) by (rewrite <- opp_mir by lia; apply opp_range; lia).
       rewrite (pair_terms_ok (lnx * ny * nz)); [|exact Hl|apply (rowin (lnx * ny) nz nz); lia|apply (rowin (lnx * ny) nz nz); lia|exact Hb].
       cbv zeta. unfold w, gz, gn, A. rewrite opp_mir by lia.
       replace (q * nz + j =? q * nz + mir nz j) with (j =? mir nz j) by (destruct (Z.eqb_spec j (mir nz j)), (Z.eqb_spec (q * nz + j) (q * nz + mir nz j)); auto; lia).
       f_equal. f_equal. lra. }
  cbn [fst snd]. rewrite !Rplus_0_l. eexists. split; [f_equal; f_equal|].
  - unfold zexpect, grid_sum. rewrite Z2Nat.inj_mul by lia. rewrite rsum_flat. apply rsum_ext. intros x Hx'. apply rsum_ext. intros y Hy'.
    unfold w. rewrite half_sum; [|lia|].
    + apply rsum_ext. intros z Hz'. cbn [rsum]. unfold gz, A, zflip, amp. rewrite Nat2Z.inj_add, Nat2Z.inj_mul, Z2Nat.id by lia. cbn [Z.eqb Z.of_nat Pos.of_succ_nat]. unfold rd2. csimp. lra.
    + intros j Hj. unfold gz. rewrite opp_opp by lia. unfold rd2. lra.
  - intros Hbal. unfold norm2, grid_sum. rewrite Z2Nat.inj_mul by lia. rewrite rsum_flat. apply rsum_ext. intros x Hx'. apply rsum_ext. intros y Hy'.
    unfold w. rewrite half_sum; [|lia|].
    + apply rsum_ext. intros z Hz'. cbn [rsum]. unfold gn, A, amp. rewrite Nat2Z.inj_add, Nat2Z.inj_mul, Z2Nat.id by lia. cbn [Z.of_nat Pos.of_succ_nat]. unfold rd2. csimp. lra.
    + intros j Hj. specialize (Hbal (Z.of_nat x) (Z.of_nat y) j ltac:(lia) ltac:(lia) Hj). unfold gn, A, amp in *.
      rewrite Nat2Z.inj_add, Nat2Z.inj_mul, Z2Nat.id by lia. exact Hbal.
Qed.

Lemma ysums_ok lnx ny nz p X b : field lnx ny nz p X -> 0 <= b < p ->
  exists n, yparity_sums lnx ny nz p b X = Val (yexpect lnx ny nz p X b, n) /\ (ybalanced lnx ny nz p X b -> n = norm2 lnx ny nz p X b).
Proof.
  intros (Hx & Hy & Hz & Hp & Hl) Hb. unfold yparity_sums.
  set (A := fun x y z c => amp ny nz p X x y z c b).
  set (gz := fun x j z => (rd2 (A x j z 1%Z) (A x (opp ny j) z 1%Z) - rd2 (A x j z 0%Z) (A x (opp ny j) z 0%Z))%R).
  set (gn := fun x j z => (rd2 (A x j z 0%Z) (A x j z 0%Z) + rd2 (A x j z 1%Z) (A x j z 1%Z))%R).
  set (w := fun j => (if j =? mir ny j then 1 else 2)%R).
  erewrite (forZ_sum2 lnx _ (fun x => rsum (Z.to_nat (Z.quot ny 2 + 1)) (fun j => (w (Z.of_nat j) * rsum (Z.to_nat nz) (fun z => gz x (Z.of_nat j) (Z.of_nat z)))%R))
     (fun x => rsum (Z.to_nat (Z.quot ny 2 + 1)) (fun j => (w (Z.of_nat j) * rsum (Z.to_nat nz) (fun z => gn x (Z.of_nat j) (Z.of_nat z)))%R))).
  2: { intros x acc Hx'. erewrite (forZ_sum2 (Z.quot ny 2 + 1) _ (fun j => w j * rsum (Z.to_nat nz) (fun z => gz x j (Z.of_nat z)))%R (fun j => w j * rsum (Z.to_nat nz) (fun z => gn x j (Z.of_nat z)))%R); [reflexivity|].
       intros j acc' Hj. rewrite half in Hj by lia. assert (Hj' : 0 <= j < ny) by lia. assert (Hm : 0 <= mir ny j < ny) by (rewrite <- opp_mir by lia; apply opp_range; lia).
       erewrite (forZ_sum2 nz _ (fun z => w j * gz x j z)%R (fun z => w j * gn x j z)%R); [rewrite !rsum_scal; reflexivity|].
       intros z acc'' Hz'. rewrite (pair_terms_ok (lnx * ny * nz)); [|exact Hl|apply pos_in; lia|apply pos_in; lia|exact Hb].
       cbv zeta. unfold w, gz, gn, A, amp. rewrite opp_mir by lia.
       assert (Ew : ((x * ny + j) * nz + z =? (x * ny + mir ny j) * nz + z) = (j =? mir ny j)).
       { destruct (Z.eqb_spec j (mir ny j)) as [Ej|Nj]; [rewrite <- Ej; apply Z.eqb_refl|]. apply Z.eqb_neq. intros E. apply rowinj in E; lia. }
       rewrite Ew.
       f_equal. f_equal. lra. }
  cbn [fst snd]. rewrite !Rplus_0_l. eexists. split; [f_equal; f_equal|].
  - unfold yexpect, grid_sum. apply rsum_ext. intros x Hx'. unfold w. rewrite (half_sum ny (fun j => rsum (Z.to_nat nz) (fun z => gz (Z.of_nat x) j (Z.of_nat z)))); [|lia|].
    + apply rsum_ext. intros y Hy'. apply rsum_ext. intros z Hz'. cbn [rsum]. unfold gz, A, yflip. cbn [Z.eqb Z.of_nat Pos.of_succ_nat]. unfold rd2. csimp. lra.
    + intros j Hj. apply rsum_ext. intros z _. unfold gz. rewrite opp_opp by lia. unfold rd2. lra.
  - intros Hbal. unfold norm2, grid_sum. apply rsum_ext. intros x Hx'. unfold w. rewrite (half_sum ny (fun j => rsum (Z.to_nat nz) (fun z => gn (Z.of_nat x) j (Z.of_nat z)))); [|lia|].
    + apply rsum_ext. intros y Hy'. apply rsum_ext. intros z Hz'. cbn [rsum]. unfold gn, A. cbn [Z.of_nat Pos.of_succ_nat]. unfold rd2. csimp. lra.
    + intros j Hj. apply rsum_ext. intros z Hz'. exact (Hbal (Z.of_nat x) j (Z.of_nat z) ltac:(lia) ltac:(lia) ltac:(lia)).
Qed.

(** Symmetric fields are balanced, with expectation the sign times the norm. *)
Lemma grid_sum_ext lnx ny nz f g : 0 <= lnx -> 0 < ny -> 0 < nz ->
  (forall x y z c, 0 <= x < lnx -> 0 <= y < ny -> 0 <= z < nz -> 0 <= c < 2 -> f x y z c = g x y z c) -> grid_sum lnx ny nz f = grid_sum lnx ny nz g.
Proof. intros Hx Hy Hz H. unfold grid_sum. apply rsum_ext; intros; apply rsum_ext; intros; apply rsum_ext; intros; apply rsum_ext; intros. apply H; lia. Qed.
Lemma grid_sum_scal lnx ny nz k f : grid_sum lnx ny nz (fun x y z c => (k * f x y z c)%R) = (k * grid_sum lnx ny nz f)%R.
Proof. unfold grid_sum. rewrite <- rsum_scal. apply rsum_ext; intros. rewrite <- rsum_scal. apply rsum_ext; intros. rewrite <- rsum_scal. apply rsum_ext; intros. apply rsum_scal. Qed.
Lemma grid_sum_add lnx ny nz f g : grid_sum lnx ny nz (fun x y z c => (f x y z c + g x y z c)%R) = (grid_sum lnx ny nz f + grid_sum lnx ny nz g)%R.
Proof. unfold grid_sum. rewrite <- rsum_add. apply rsum_ext; intros. rewrite <- rsum_add. apply rsum_ext; intros. rewrite <- rsum_add. apply rsum_ext; intros. apply rsum_add. Qed.
Lemma grid_sum_le lnx ny nz f g : 0 <= lnx -> 0 < ny -> 0 < nz ->
  (forall x y z c, 0 <= x < lnx -> 0 <= y < ny -> 0 <= z < nz -> 0 <= c < 2 -> (f x y z c <= g x y z c)%R) -> (grid_sum lnx ny nz f <= grid_sum lnx ny nz g)%R.
Proof. intros Hx Hy Hz H. unfold grid_sum. apply rsum_le; intros; apply rsum_le; intros; apply rsum_le; intros; apply rsum_le; intros. apply H; lia. Qed.
Lemma rsum_opp_idx n (f : Z -> R) : 0 < n -> rsum (Z.to_nat n) (fun i => f (opp n (Z.of_nat i))) = rsum (Z.to_nat n) (fun i => f (Z.of_nat i)).
Proof.
  intros Hn. pose proof (csum_opp_idx n (fun i => RtoC (f i)) Hn) as E. apply (f_equal re) in E. rewrite !csum_re in E. exact E.
Qed.

Lemma zsym_bal s lnx ny nz p X b : s = 1 \/ s = -1 -> 0 <= b < p -> zsymmetric s lnx ny nz p X -> zbalanced lnx ny nz p X b.
Proof.
  intros Hs Hb H x y z Hx Hy Hz. rewrite !(zsym_flip lnx ny nz p s) by (auto; repeat split; lia). cbn [Z.eqb].
  generalize (amp ny nz p X x y z 0 b) (amp ny nz p X x y z 1 b). intros u v. destruct Hs as [-> | ->]; clear; csimp; ring.
Qed.
Lemma ysym_bal s lnx ny nz p X b : s = 1 \/ s = -1 -> 0 <= b < p -> ysymmetric s lnx ny nz p X -> ybalanced lnx ny nz p X b.
Proof.
  intros Hs Hb H x y z Hx Hy Hz. rewrite !(ysym_flip lnx ny nz p s) by (auto; repeat split; lia). cbn [Z.eqb].
  generalize (amp ny nz p X x y z 0 b) (amp ny nz p X x y z 1 b). intros u v. destruct Hs as [-> | ->]; cbn [Z.opp]; clear; csimp; ring.
Qed.
Lemma zsym_exp s lnx ny nz p X b : 0 <= lnx -> 0 < ny -> 0 < nz -> 0 <= b < p -> zsymmetric s lnx ny nz p X -> zexpect lnx ny nz p X b = (IZR s * norm2 lnx ny nz p X b)%R.
Proof.
  intros Hx Hy Hz Hb H. unfold zexpect, norm2. rewrite <- grid_sum_scal. apply grid_sum_ext; auto. intros x y z c I1 I2 I3 I4. rewrite H by (repeat split; lia).
  generalize (amp ny nz p X x y z c b). intros u. clear. csimp. ring.
Qed.
Lemma ysym_exp s lnx ny nz p X b : 0 <= lnx -> 0 < ny -> 0 < nz -> 0 <= b < p -> ysymmetric s lnx ny nz p X -> yexpect lnx ny nz p X b = (IZR s * norm2 lnx ny nz p X b)%R.
Proof.
  intros Hx Hy Hz Hb H. unfold yexpect, norm2. rewrite <- grid_sum_scal. apply grid_sum_ext; auto. intros x y z c I1 I2 I3 I4. rewrite H by (repeat split; lia).
  generalize (amp ny nz p X x y z c b). intros u. clear. csimp. ring.
Qed.

(** The flip expectation never exceeds the norm. *)
Lemma am_gm (u v : C) : (- (normsqr u + normsqr v) <= 2 * re (Cconj u * v)%C <= normsqr u + normsqr v)%R.
Proof.
  destruct u as (a, b), v as (c, d). csimp. pose proof (Rle_0_sqr (a - c)). pose proof (Rle_0_sqr (b - d)). pose proof (Rle_0_sqr (a + c)). pose proof (Rle_0_sqr (b + d)). unfold Rsqr in *. lra.
Qed.
Lemma zexp_bound lnx ny nz p X b : 0 <= lnx -> 0 < ny -> 0 < nz -> (Rabs (zexpect lnx ny nz p X b) <= norm2 lnx ny nz p X b)%R.
Proof.
  intros Hx Hy Hz.
  assert (Hn : grid_sum lnx ny nz (fun x y z c => normsqr (zflip ny nz p X x y z c b)) = norm2 lnx ny nz p X b).
  { unfold norm2, grid_sum. apply rsum_ext; intros x Hx'. apply rsum_ext; intros y Hy'.
    rewrite <- (rsum_opp_idx nz (fun z => rsum 2 (fun c => normsqr (amp ny nz p X (Z.of_nat x) (Z.of_nat y) z (Z.of_nat c) b)))) by lia.
    apply rsum_ext; intros z Hz'. apply rsum_ext; intros c Hc. unfold zflip. destruct (Z.of_nat c =? 0); clear; csimp; ring. }
  assert (B : (2 * zexpect lnx ny nz p X b <= norm2 lnx ny nz p X b + norm2 lnx ny nz p X b /\ - 1 * (norm2 lnx ny nz p X b + norm2 lnx ny nz p X b) <= 2 * zexpect lnx ny nz p X b)%R).
  { rewrite <- Hn at 2 4. unfold zexpect, norm2. rewrite <- grid_sum_add, <- !grid_sum_scal. split; apply grid_sum_le; auto; intros x y z c _ _ _ _;
    pose proof (am_gm (amp ny nz p X x y z c b) (zflip ny nz p X x y z c b)); lra. }
  apply Rabs_le. lra.
Qed.
Lemma yexp_bound lnx ny nz p X b : 0 <= lnx -> 0 < ny -> 0 < nz -> (Rabs (yexpect lnx ny nz p X b) <= norm2 lnx ny nz p X b)%R.
Proof.
  intros Hx Hy Hz.
  assert (Hn : grid_sum lnx ny nz (fun x y z c => normsqr (yflip ny nz p X x y z c b)) = norm2 lnx ny nz p X b).
  { unfold norm2, grid_sum. apply rsum_ext; intros x Hx'.
    rewrite <- (rsum_opp_idx ny (fun y => rsum (Z.to_nat nz) (fun z => rsum 2 (fun c => normsqr (amp ny nz p X (Z.of_nat x) y (Z.of_nat z) (Z.of_nat c) b))))) by lia.
    apply rsum_ext; intros y Hy'. apply rsum_ext; intros z Hz'. apply rsum_ext; intros c Hc. unfold yflip. destruct (Z.of_nat c =? 0); clear; csimp; ring. }
  assert (B : (2 * yexpect lnx ny nz p X b <= norm2 lnx ny nz p X b + norm2 lnx ny nz p X b /\ - 1 * (norm2 lnx ny nz p X b + norm2 lnx ny nz p X b) <= 2 * yexpect lnx ny nz p X b)%R).
  { rewrite <- Hn at 2 4. unfold yexpect, norm2. rewrite <- grid_sum_add, <- !grid_sum_scal. split; apply grid_sum_le; auto; intros x y z c _ _ _ _;
    pose proof (am_gm (amp ny nz p X x y z c b) (yflip ny nz p X x y z c b)); lra. }
  apply Rabs_le. lra.
Qed.

(** All processes. *)
Lemma total_map (sel : R * R -> R) (F : Z -> list C -> R) (g : Z * list C -> R * R) shares : (forall t, sel (g t) = F (fst t) (snd t)) ->
  fold_right (fun s acc => sel s + acc)%R 0%R (map g shares) = total F shares.
Proof. intros H. induction shares as [|t l IH]; [reflexivity|]. cbn [map fold_right]. rewrite IH, H. reflexivity. Qed.
Lemma reported_gen (sums : Z * list C -> outcome (R * R)) (E N : Z -> list C -> R) shares :
  (forall t, In t shares -> sums t = Val (E (fst t) (snd t), N (fst t) (snd t))) -> total N shares <> 0%R ->
  (let! l := mapM sums shares in parity_value l) = Val (total E shares / total N shares)%R.
Proof.
  intros H Hn. assert (M : mapM sums shares = Val (map (fun t => (E (fst t) (snd t), N (fst t) (snd t))) shares)).
  { clear Hn. induction shares as [|t l IH]; [reflexivity|]. cbn [mapM map]. rewrite H by (left; reflexivity). cbn [bind]. rewrite IH by (intros; apply H; right; assumption). reflexivity. }
  rewrite M. cbn [bind]. unfold parity_value. rewrite (total_map fst E), (total_map snd N) by reflexivity. apply fdiv_nz. exact Hn.
Qed.
Lemma total_scal k E N shares : (forall t, In t shares -> E (fst t) (snd t) = (k * N (fst t) (snd t))%R) -> total E shares = (k * total N shares)%R.
Proof.
  intros H. induction shares as [|t l IH]; [unfold total; cbn; ring|]. change (E (fst t) (snd t) + total E l = k * (N (fst t) (snd t) + total N l))%R. rewrite H by (left; reflexivity). rewrite IH by (intros; apply H; right; assumption). ring.
Qed.
Lemma total_bound E N shares : (forall t, In t shares -> (Rabs (E (fst t) (snd t)) <= N (fst t) (snd t))%R) -> (Rabs (total E shares) <= total N shares)%R.
Proof.
  intros H. induction shares as [|t l IH]; [unfold total; cbn; rewrite Rabs_R0; lra|]. change (Rabs (E (fst t) (snd t) + total E l) <= N (fst t) (snd t) + total N l)%R. eapply Rle_trans; [apply Rabs_triang|].
  apply Rplus_le_compat; [apply H; left; reflexivity|apply IH; intros; apply H; right; assumption].
Qed.

Section Reported.
Variables nx ny nz p b : Z.
Hypothesis Hb : 0 <= b < p.
Variable shares : list (Z * list C).
Hypothesis HF : forall t, In t shares -> field (fst t) ny nz p (snd t) /\ sizes nx (fst t) ny nz.
Notation N := (fun lnx X => norm2 lnx ny nz p X b).
Hypothesis Hn : total N shares <> 0%R.

Lemma reported_z_bal : (forall t, In t shares -> zbalanced (fst t) ny nz p (snd t) b) ->
  (let! l := mapM (fun t => zparity_sums nx (fst t) ny nz p b (snd t)) shares in parity_value l) =
  Val (total (fun lnx X => zexpect lnx ny nz p X b) shares / total N shares)%R.
Proof.
  intros Hbal. apply reported_gen; [|exact Hn]. intros t Ht. destruct (HF t Ht) as (F & S). destruct (zsums_ok nx _ _ _ _ _ b F S Hb) as (n & -> & En).
  rewrite En by auto. reflexivity.
Qed.
Lemma reported_y_bal : (forall t, In t shares -> ybalanced (fst t) ny nz p (snd t) b) ->
  (let! l := mapM (fun t => yparity_sums (fst t) ny nz p b (snd t)) shares in parity_value l) =
  Val (total (fun lnx X => yexpect lnx ny nz p X b) shares / total N shares)%R.
Proof.
  intros Hbal. apply reported_gen; [|exact Hn]. intros t Ht. destruct (HF t Ht) as (F & S). destruct (ysums_ok _ _ _ _ _ b F Hb) as (n & -> & En).
  rewrite En by auto. reflexivity.
Qed.
Lemma reported_z_sym s : s = 1 \/ s = -1 -> (forall t, In t shares -> zsymmetric s (fst t) ny nz p (snd t)) ->
  (let! l := mapM (fun t => zparity_sums nx (fst t) ny nz p b (snd t)) shares in parity_value l) = Val (IZR s).
Proof.
  intros Hs H. rewrite reported_z_bal by (intros t Ht; apply (zsym_bal s); auto).
  rewrite (total_scal (IZR s) _ N); [f_equal; field; exact Hn|]. intros t Ht. destruct (HF t Ht) as ((F1 & F2 & F3 & F4 & F5) & S). apply zsym_exp; auto.
Qed.
Lemma reported_y_sym s : s = 1 \/ s = -1 -> (forall t, In t shares -> ysymmetric s (fst t) ny nz p (snd t)) ->
  (let! l := mapM (fun t => yparity_sums (fst t) ny nz p b (snd t)) shares in parity_value l) = Val (IZR s).
Proof.
  intros Hs H. rewrite reported_y_bal by (intros t Ht; apply (ysym_bal s); auto).
  rewrite (total_scal (IZR s) _ N); [f_equal; field; exact Hn|]. intros t Ht. destruct (HF t Ht) as ((F1 & F2 & F3 & F4 & F5) & S). apply ysym_exp; auto.
Qed.
Lemma ratio_bound E : (forall t, In t shares -> (Rabs (E (fst t) (snd t)) <= N (fst t) (snd t))%R) -> (-1 <= total E shares / total N shares <= 1)%R.
Proof.
  intros H. pose proof (total_bound E N shares H) as B. pose proof (Rabs_pos (total E shares)) as P.
  assert (0 < total N shares)%R by (destruct (Req_dec (total N shares) 0); [contradiction|lra]).
  assert (A : (Rabs (total E shares / total N shares) <= 1)%R).
  { unfold Rdiv. rewrite Rabs_mult, (Rabs_pos_eq (/ total N shares)) by (left; apply Rinv_0_lt_compat; assumption).
    apply (Rmult_le_reg_r (total N shares)); [assumption|]. rewrite Rmult_assoc, Rinv_l by lra. lra. }
  revert A. generalize (total E shares / total N shares)%R. intros r A. unfold Rabs in A. destruct (Rcase_abs r); lra.
Qed.
End Reported.
