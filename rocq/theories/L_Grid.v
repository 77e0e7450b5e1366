(** Mirror constraints: the loops replace every amplitude by the mean of itself and its
    signed mirror image. *)
From Coq Require Import List ZArith Reals Lia Lra Bool.
From Verif Require Import Base RC Loops M_Tensor M_Evect S_Evect L_Evect L_Evect3 M_Grid S_Grid.
Import ListNotations.
Local Open Scope Z_scope.

Lemma dm_div n i j : 0 <= j < n -> (i * n + j) / n = i.
Proof. intros. rewrite Z.div_add_l by lia. rewrite Z.div_small by lia. lia. Qed.
Lemma dm_mod n i j : 0 <= j < n -> (i * n + j) mod n = j.
Proof. intros. rewrite Z.add_comm, Z.mod_add by lia. apply Z.mod_small. lia. Qed.

Lemma list_ext {A} (l l' : list A) : length l = length l' -> (forall x, 0 <= x < Z.of_nat (length l) -> rd l x = rd l' x) -> l = l'.
Proof.
  revert l'; induction l as [|a l IH]; intros [|b l'] L H; try discriminate; [reflexivity|].
  assert (a = b). { specialize (H 0). cbn [length] in H. specialize (H ltac:(lia)). cbn in H. congruence. }
  subst. f_equal. apply IH; [cbn in L; lia|]. intros x Hx. specialize (H (x + 1)). cbn [length] in H. specialize (H ltac:(lia)).
  unfold rd in *. destruct (Z.ltb_spec (x + 1) 0), (Z.ltb_spec x 0); try lia.
  replace (Z.to_nat (x + 1)) with (S (Z.to_nat x)) in H by lia. exact H.
Qed.

(** Mirror pairs. *)
Section Pairs.
Context {T : Type} (pos pos2 bnd : T -> Z) (tau : Z -> Z) (N p : Z) (s : R).
Hypothesis Htau : forall x, 0 <= x < N -> 0 <= tau x < N /\ tau (tau x) = x.
Definition sg (c : Z) : R := if c =? 0 then s else (- s)%R.
Definition newv (d0 : list C) (x : Z) : C :=
  let b := x mod p in let c := (x / p) mod 2 in let q := x / p / 2 in
  (Cscal (/ 2) (gets d0 x + Cscal (sg c) (gets d0 ((tau q * 2 + c) * p + b))))%C.

Lemma pairs_ok (L : list T) (d0 : list C) : N * 2 * p <= Z.of_nat (length d0) -> NoDup L ->
  (forall t, In t L -> 0 <= pos t < N /\ 0 <= bnd t < p /\ pos2 t = tau (pos t)) ->
  (forall t t', In t L -> In t' L -> bnd t = bnd t' -> pos t = pos t' \/ pos t = tau (pos t') -> t = t') ->
  (forall q b, 0 <= q < N -> 0 <= b < p -> exists t, In t L /\ bnd t = b /\ (pos t = q \/ tau (pos t) = q)) ->
  exists d, foldM (fun t X => mirror_pair p s (pos t) (pos2 t) (bnd t) X) L d0 = Val d /\ length d = length d0 /\
    (forall q c b, 0 <= q < N -> 0 <= c < 2 -> 0 <= b < p ->
       gets d ((q * 2 + c) * p + b) = (Cscal (/ 2) (gets d0 ((q * 2 + c) * p + b) + Cscal (sg c) (gets d0 ((tau q * 2 + c) * p + b))))%C) /\
    (forall x, N * 2 * p <= x -> rd d x = rd d0 x).
Proof.
  intros Hlen Nd Hin Huniq Hcov.
  assert (Ix : forall q c b, 0 <= c < 2 -> 0 <= b < p -> ((q * 2 + c) * p + b) mod p = b /\ ((q * 2 + c) * p + b) / p = q * 2 + c).
  { intros. split; [apply dm_mod; lia|apply dm_div; lia]. }
  assert (Ir : forall q c b, 0 <= q < N -> 0 <= c < 2 -> 0 <= b < p -> 0 <= (q * 2 + c) * p + b < N * 2 * p) by (intros; nia).
  assert (Nv : forall q c b, 0 <= c < 2 -> 0 <= b < p -> newv d0 ((q * 2 + c) * p + b) =
     (Cscal (/ 2) (gets d0 ((q * 2 + c) * p + b) + Cscal (sg c) (gets d0 ((tau q * 2 + c) * p + b))))%C).
  { intros q c b Hc Hb. unfold newv. destruct (Ix q c b Hc Hb) as (E1 & E2). cbv zeta. rewrite E1, E2, dm_div, dm_mod by lia. reflexivity. }
  set (own := fun t x => 0 <= x < N * 2 * p /\ x mod p = bnd t /\ (x / p / 2 = pos t \/ x / p / 2 = pos2 t)).
  destruct (owner_ok (fun t X => mirror_pair p s (pos t) (pos2 t) (bnd t) X) own (newv d0) d0 L Nd) as (d & E & Ld & Q).
  - intros t t' x Ht Ht' Hx (_ & B & O) (_ & B' & O'). destruct (Hin t Ht) as (P1 & P2 & P3), (Hin t' Ht') as (P1' & P2' & P3').
    apply Huniq; auto; [congruence|]. rewrite P3 in O. rewrite P3' in O'.
    destruct (Htau (pos t) P1) as (T1 & T2), (Htau (pos t') P1') as (T1' & T2').
    destruct O as [O|O], O' as [O'|O']; rewrite O in O'.
    + left; auto.
    + right; auto.
    + right. rewrite <- O', T2. reflexivity.
    + left. rewrite <- T2, O', T2'. reflexivity.
  - intros t d Ht Ld Hd. destruct (Hin t Ht) as (P1 & P2 & P3). destruct (Htau (pos t) P1) as (T1 & T2).
    assert (Ow : forall c, 0 <= c < 2 -> own t ((pos t * 2 + c) * p + bnd t) /\ own t ((pos2 t * 2 + c) * p + bnd t)).
    { intros c Hc. unfold own. rewrite P3. destruct (Ix (pos t) c (bnd t) Hc P2) as (E1 & E2), (Ix (tau (pos t)) c (bnd t) Hc P2) as (E3 & E4).
      rewrite E1, E2, E3, E4, !dm_div by lia. split; (split; [apply Ir; lia|]); auto. }
    assert (Rd : forall q c, 0 <= c < 2 -> q = pos t \/ q = pos2 t -> rd d ((q * 2 + c) * p + bnd t) = Val (gets d0 ((q * 2 + c) * p + bnd t))).
    { intros q c Hc Hq. assert (0 <= q < N) by (destruct Hq; subst; [exact P1|rewrite P3; exact T1]).
      pose proof (Ir q c (bnd t)). rewrite Hd; [apply gets_in; lia|lia|]. destruct (Ow c Hc), Hq; subst; auto. }
    assert (R0 : forall q, q = pos t \/ q = pos2 t -> rd d (q * 2 * p + bnd t) = Val (gets d0 (q * 2 * p + bnd t))).
    { intros q Hq. specialize (Rd q 0 ltac:(lia) Hq). replace ((q * 2 + 0) * p) with (q * 2 * p) in Rd by lia. exact Rd. }
    unfold mirror_pair. rewrite (R0 (pos t)), (Rd (pos t) 1), (R0 (pos2 t)), (Rd (pos2 t) 1) by (auto; lia). cbn [bind].
    set (u := gets d0 (pos t * 2 * p + bnd t)). set (v := gets d0 ((pos t * 2 + 1) * p + bnd t)).
    set (u2 := gets d0 (pos2 t * 2 * p + bnd t)). set (v2 := gets d0 ((pos2 t * 2 + 1) * p + bnd t)).
    pose proof (Ir (pos t) 0 (bnd t) P1 ltac:(lia) P2) as I1. pose proof (Ir (pos t) 1 (bnd t) P1 ltac:(lia) P2) as I2.
    pose proof (Ir (tau (pos t)) 0 (bnd t) T1 ltac:(lia) P2) as I3. pose proof (Ir (tau (pos t)) 1 (bnd t) T1 ltac:(lia) P2) as I4.
    rewrite <- P3 in I3, I4. replace ((pos t * 2 + 0) * p) with (pos t * 2 * p) in I1 by lia. replace ((pos2 t * 2 + 0) * p) with (pos2 t * 2 * p) in I3 by lia.
    set (i1 := pos t * 2 * p + bnd t) in *. set (i2 := (pos t * 2 + 1) * p + bnd t) in *. set (i3 := pos2 t * 2 * p + bnd t) in *. set (i4 := (pos2 t * 2 + 1) * p + bnd t) in *.
    assert (W : forall (l : list C) i v, length l = length d0 -> 0 <= i < N * 2 * p -> exists l', wr l i v = Val l' /\ length l' = length d0).
    { intros l i w Hl Hi. eexists. split; [apply wr_in; lia|]. rewrite upd_length. exact Hl. }
    destruct (W d i1 (Cscal (/ 2) (u + Cscal s u2))%C Ld I1) as (d1 & W1 & L1). rewrite W1. cbn [bind].
    destruct (W d1 i2 (Cscal (/ 2) (v - Cscal s v2))%C L1 I2) as (d2 & W2 & L2). rewrite W2. cbn [bind].
    destruct (W d2 i3 (Cscal (/ 2) (u2 + Cscal s u))%C L2 I3) as (d3 & W3 & L3). rewrite W3. cbn [bind].
    destruct (W d3 i4 (Cscal (/ 2) (v2 - Cscal s v))%C L3 I4) as (d4 & W4 & L4). rewrite W4.
    exists d4. split; [reflexivity|]. split; [exact L4|]. intros x Hx.
    rewrite (rd_wr _ _ _ _ _ W4), (rd_wr _ _ _ _ _ W3), (rd_wr _ _ _ _ _ W2), (rd_wr _ _ _ _ _ W1).
    assert (N1 : newv d0 i1 = (Cscal (/ 2) (u + Cscal s u2))%C).
    { replace i1 with ((pos t * 2 + 0) * p + bnd t) by (unfold i1; lia). rewrite Nv by lia. unfold sg. cbn [Z.eqb]. unfold u, u2, i1, i3. rewrite P3.
      replace ((pos t * 2 + 0) * p) with (pos t * 2 * p) by lia. replace ((tau (pos t) * 2 + 0) * p) with (tau (pos t) * 2 * p) by lia. reflexivity. }
    assert (N2 : newv d0 i2 = (Cscal (/ 2) (v - Cscal s v2))%C).
    { unfold i2. rewrite Nv by lia. unfold sg. cbn [Z.eqb]. unfold v, v2, i2, i4. rewrite P3. cring. }
    assert (N3 : newv d0 i3 = (Cscal (/ 2) (u2 + Cscal s u))%C).
    { replace i3 with ((pos2 t * 2 + 0) * p + bnd t) by (unfold i3; lia). rewrite Nv by lia. unfold sg. cbn [Z.eqb]. unfold u, u2, i1, i3. rewrite P3, T2.
      replace ((pos t * 2 + 0) * p) with (pos t * 2 * p) by lia. replace ((tau (pos t) * 2 + 0) * p) with (tau (pos t) * 2 * p) by lia. reflexivity. }
    assert (N4 : newv d0 i4 = (Cscal (/ 2) (v2 - Cscal s v))%C).
    { unfold i4. rewrite Nv by lia. unfold sg. cbn [Z.eqb]. unfold v, v2, i2, i4. rewrite P3, T2. cring. }
    split.
    + intros (Hr & B & O).
      assert (x = i1 \/ x = i2 \/ x = i3 \/ x = i4).
      { assert (Dx : x = p * (x / p) + x mod p) by (apply Z.div_mod; lia). pose proof (Z.div_mod (x / p) 2 ltac:(lia)) as Dq.
        pose proof (Z.mod_pos_bound (x / p) 2 ltac:(lia)).
        assert (C01 : (x / p) mod 2 = 0 \/ (x / p) mod 2 = 1) by lia. unfold i1, i2, i3, i4.
        rewrite B in Dx. destruct C01 as [C0'|C1'], O as [O|O]; rewrite O in Dq; [rewrite C0' in Dq|rewrite C0' in Dq|rewrite C1' in Dq|rewrite C1' in Dq]; rewrite Dq in Dx.
        - left. lia. - right; right; left; lia. - right; left; lia. - right; right; right; lia. }
      destruct (Z.eqb_spec x i4) as [->|X4]; [rewrite N4; reflexivity|].
      destruct (Z.eqb_spec x i3) as [->|X3]; [rewrite N3; reflexivity|].
      destruct (Z.eqb_spec x i2) as [->|X2]; [rewrite N2; reflexivity|].
      destruct (Z.eqb_spec x i1) as [->|X1]; [rewrite N1; reflexivity|]. lia.
    + intros Hno. destruct (Ow 0 ltac:(lia)) as (O1 & O3), (Ow 1 ltac:(lia)) as (O2 & O4).
      replace ((pos t * 2 + 0) * p) with (pos t * 2 * p) in O1 by lia. replace ((pos2 t * 2 + 0) * p) with (pos2 t * 2 * p) in O3 by lia.
      fold i1 in O1. fold i2 in O2. fold i3 in O3. fold i4 in O4.
      destruct (Z.eqb_spec x i4) as [->|X4]; [contradiction|].
      destruct (Z.eqb_spec x i3) as [->|X3]; [contradiction|].
      destruct (Z.eqb_spec x i2) as [->|X2]; [contradiction|].
      destruct (Z.eqb_spec x i1) as [->|X1]; [contradiction|]. reflexivity.
  - exists d. split; [exact E|]. split; [exact Ld|]. split.
    + intros q c b Hq Hc Hb. rewrite <- Nv by auto. unfold gets at 1. pose proof (Ir q c b Hq Hc Hb).
      destruct (Q ((q * 2 + c) * p + b) ltac:(lia)) as (Q1 & _). destruct (Hcov q b Hq Hb) as (t & Ht & Bt & Pt).
      rewrite (Q1 t Ht); [reflexivity|]. destruct (Hin t Ht) as (P1 & P2 & P3). unfold own. destruct (Ix q c b Hc Hb) as (E1 & E2).
      rewrite E1, E2, dm_div by lia. rewrite P3. split; [lia|]. split; [auto|]. destruct Pt; auto.
    + intros x Hx. destruct (Z_lt_dec x (Z.of_nat (length d0))).
      * destruct (Z_le_dec 0 x).
        { destruct (Q x ltac:(lia)) as (_ & Q2). apply Q2. intros t Ht (Ho & _). lia. }
        { unfold rd. destruct (Z.ltb_spec x 0); [reflexivity|lia]. }
      * unfold rd. destruct (Z.ltb_spec x 0); [reflexivity|]. 
        rewrite (proj2 (nth_error_None d (Z.to_nat x))), (proj2 (nth_error_None d0 (Z.to_nat x))) by lia. reflexivity.
Qed.
End Pairs.

Lemma half n j : 0 <= n -> (j < Z.quot n 2 + 1 <-> 2 * j <= n).
Proof. intros. rewrite Z.quot_div_nonneg by lia. pose proof (Z.div_mod n 2 ltac:(lia)). pose proof (Z.mod_pos_bound n 2 ltac:(lia)). lia. Qed.

Lemma opp_mir n j : 0 <= j < n -> opp n j = mir n j.
Proof.
  intros H. unfold opp, mir. rewrite Z.gtb_ltb. destruct (Z.ltb_spec 0 j).
  - symmetry. apply (Z.mod_unique _ _ (-1)); lia.
  - replace j with 0 by lia. apply Z.mod_0_l. lia.
Qed.
Lemma opp_range n j : 0 < n -> 0 <= opp n j < n.
Proof. intros. apply Z.mod_pos_bound. lia. Qed.
Lemma opp_opp n j : 0 <= j < n -> opp n (opp n j) = j.
Proof.
  intros H. pose proof (opp_range n j ltac:(lia)) as R. rewrite (opp_mir n (opp n j)) by exact R. rewrite opp_mir in * by exact H.
  unfold mir in *. rewrite !Z.gtb_ltb in *. destruct (Z.ltb_spec 0 j); [destruct (Z.ltb_spec 0 (n - j)); lia|]. destruct (Z.ltb_spec 0 0); lia.
Qed.
(** Representatives: the first half. *)
Lemma reps_uniq n j j' : 0 <= j -> 0 <= j' -> 2 * j <= n -> 2 * j' <= n -> 0 < n -> j = j' \/ j = opp n j' -> j = j'.
Proof.
  intros H1 H2 H3 H4 Hn [E|E]; [exact E|]. rewrite opp_mir in E by lia. unfold mir in E. rewrite Z.gtb_ltb in E. destruct (Z.ltb_spec 0 j'); lia.
Qed.
Lemma reps_cover n q : 0 <= q < n -> exists j, 0 <= j /\ 2 * j <= n /\ (j = q \/ opp n j = q).
Proof.
  intros H. destruct (Z_le_dec (2 * q) n).
  - exists q. auto with zarith.
  - exists (n - q). rewrite opp_mir by lia. unfold mir. rewrite Z.gtb_ltb. destruct (Z.ltb_spec 0 (n - q)); lia.
Qed.

Lemma flat2 {S} (f : Z -> Z -> S -> outcome S) n m s :
  forZ 0 n (fun i s => forZ 0 m (fun j s => f i j s) s) s =
  foldM (fun t s => f (fst t) (snd t) s) (prod_list (zran 0 n) (fun _ => zran 0 m)) s.
Proof.
  rewrite forZ_foldM. rewrite (foldM_ext _ (fun i s => foldM (f i) (zran 0 m) s)); [|intros; rewrite forZ_foldM; reflexivity].
  apply (foldM_nest f (fun _ => zran 0 m)).
Qed.
Lemma flat3 {S} (f : Z -> Z -> Z -> S -> outcome S) n m k s :
  forZ 0 n (fun i s => forZ 0 m (fun j s => forZ 0 k (fun l s => f i j l s) s) s) s =
  foldM (fun t s => f (fst (fst t)) (snd (fst t)) (snd t) s) (prod_list (prod_list (zran 0 n) (fun _ => zran 0 m)) (fun _ => zran 0 k)) s.
Proof.
  rewrite (flat2 (fun i j s => forZ 0 k (fun l s => f i j l s) s)).
  rewrite (foldM_ext _ (fun t s => foldM (f (fst t) (snd t)) (zran 0 k) s)); [|intros; rewrite forZ_foldM; reflexivity].
  apply (foldM_nest (fun t l s => f (fst t) (snd t) l s) (fun _ => zran 0 k)).
Qed.
Lemma flat4 {S} (f : Z -> Z -> Z -> Z -> S -> outcome S) n m k q s :
  forZ 0 n (fun i s => forZ 0 m (fun j s => forZ 0 k (fun l s => forZ 0 q (fun r s => f i j l r s) s) s) s) s =
  foldM (fun t s => f (fst (fst (fst t))) (snd (fst (fst t))) (snd (fst t)) (snd t) s)
    (prod_list (prod_list (prod_list (zran 0 n) (fun _ => zran 0 m)) (fun _ => zran 0 k)) (fun _ => zran 0 q)) s.
Proof.
  rewrite (flat3 (fun i j l s => forZ 0 q (fun r s => f i j l r s) s)).
  rewrite (foldM_ext _ (fun t s => foldM (f (fst (fst t)) (snd (fst t)) (snd t)) (zran 0 q) s)); [|intros; rewrite forZ_foldM; reflexivity].
  apply (foldM_nest (fun t l s => f (fst (fst t)) (snd (fst t)) (snd t) l s) (fun _ => zran 0 q)).
Qed.

(** Sizes. *)
Lemma dims3 nx lnx ny nz : 0 <= lnx -> 0 < ny -> 1 < nz -> last_dim nx ny nz = nz /\ other_dims nx lnx ny nz = lnx * ny.
Proof.
  intros H1 H2 H3. unfold other_dims, last_dim, fft_rank, local_N. destruct (Z.eqb_spec nz 1); [lia|]. cbn [Z.eqb Pos.eqb].
  split; [reflexivity|]. apply Z.quot_mul. lia.
Qed.
Lemma dims2 nx lnx ny : sizes nx lnx ny 1 -> 0 <= lnx -> 0 < ny -> other_dims nx lnx ny 1 * last_dim nx ny 1 = lnx * ny.
Proof.
  intros H0 H1 H2. unfold other_dims, last_dim, fft_rank, local_N. cbn [Z.eqb Pos.eqb]. destruct (Z.eqb_spec ny 1) as [->|]; cbn [Z.eqb Pos.eqb].
  - rewrite (H0 eq_refl eq_refl). rewrite !Z.mul_1_r. destruct (Z.eq_dec nx 0) as [->|]; [reflexivity|]. rewrite Z.quot_same by auto. lia.
  - rewrite Z.mul_1_r, Z.quot_mul by lia. reflexivity.
Qed.

Definition ztau (nz q : Z) : Z := (q / nz) * nz + opp nz (q mod nz).
Definition ytau (ny nz q : Z) : Z := ((q / nz / ny) * ny + opp ny ((q / nz) mod ny)) * nz + q mod nz.
Lemma ztau_ok M nz q : 0 < nz -> 0 <= q < M * nz -> 0 <= ztau nz q < M * nz /\ ztau nz (ztau nz q) = q.
Proof.
  intros H Hq. unfold ztau. pose proof (Z.mod_pos_bound q nz H). pose proof (opp_range nz (q mod nz) H).
  assert (0 <= q / nz < M) by (split; [apply Z.div_pos; lia|apply Z.div_lt_upper_bound; lia]).
  split; [pose proof (rowin M nz nz (q / nz) (opp nz (q mod nz))); lia|]. rewrite dm_div, dm_mod, opp_opp by lia. rewrite (Z.div_mod q nz) at 3 by lia. lia.
Qed.
Lemma ytau_ok M ny nz q : 0 < ny -> 0 < nz -> 0 <= q < M * ny * nz -> 0 <= ytau ny nz q < M * ny * nz /\ ytau ny nz (ytau ny nz q) = q.
Proof.
  intros Hy Hz Hq. unfold ytau. pose proof (Z.mod_pos_bound q nz Hz). pose proof (Z.mod_pos_bound (q / nz) ny Hy).
  assert (Q1 : 0 <= q / nz < M * ny) by (split; [apply Z.div_pos; lia|apply Z.div_lt_upper_bound; lia]).
  destruct (ztau_ok M ny (q / nz) Hy Q1) as (A & B). unfold ztau in A, B.
  split; [pose proof (rowin (M * ny) nz nz (q / nz / ny * ny + opp ny ((q / nz) mod ny)) (q mod nz)); lia|]. rewrite (dm_div nz _ (q mod nz)), (dm_mod nz _ (q mod nz)) by lia. rewrite B. rewrite (Z.div_mod q nz) at 3 by lia. lia.
Qed.

Lemma pos_in lnx ny nz x y z : 0 <= x < lnx -> 0 <= y < ny -> 0 <= z < nz -> 0 <= (x * ny + y) * nz + z < lnx * ny * nz.
Proof. intros H1 H2 H3. apply (rowin (lnx * ny) nz nz); [apply (rowin lnx ny ny)| |]; lia. Qed.

(** The result of a mirror constraint with sign s on the m component. *)
Definition projected (lnx ny nz p : Z) (s : R) (mx : Z -> Z -> Z) (my : Z -> Z -> Z) (X X' : list C) : Prop :=
  length X' = length X /\
  (forall x y z c b, inside lnx ny nz p x y z c b ->
     amp ny nz p X' x y z c b = Cscal (/ 2) (amp ny nz p X x y z c b + Cscal (if c =? 0 then s else (- s)%R) (amp ny nz p X x (mx y z) (my y z) c b))%C) /\
  (forall i, lnx * ny * nz * 2 * p <= i -> rd X' i = rd X i).

Lemma has_bit parity a : 0 <= a -> has parity (2 ^ a) = Z.testbit parity a.
Proof.
  intros Ha. unfold has. destruct (Z.testbit parity a) eqn:E.
  - destruct (Z.eqb_spec (Z.land parity (2 ^ a)) 0) as [X|]; [|reflexivity].
    assert (Y : Z.testbit (Z.land parity (2 ^ a)) a = true) by (rewrite Z.land_spec, Z.pow2_bits_true, E by auto; reflexivity). rewrite X, Z.bits_0 in Y. discriminate.
  - destruct (Z.eqb_spec (Z.land parity (2 ^ a)) 0) as [|X]; [reflexivity|]. exfalso. apply X. apply Z.bits_inj'. intros n Hn.
    rewrite Z.land_spec, Z.pow2_bits_eqb, Z.bits_0 by auto. destruct (Z.eqb_spec a n) as [->|]; [rewrite E|]; [reflexivity|apply andb_false_r].
Qed.
Lemma zsign_spec parity : zsign parity = wanted parity 0 1.
Proof. unfold zsign, wanted. change EVEN_Z with (2 ^ 0). change ODD_Z with (2 ^ 1). rewrite !has_bit by lia. reflexivity. Qed.
Lemma ysign_spec parity : ysign parity = wanted parity 2 3.
Proof. unfold ysign, wanted. change EVEN_Y with (2 ^ 2). change ODD_Y with (2 ^ 3). rewrite !has_bit by lia. reflexivity. Qed.

Lemma zproj_ok nx lnx ny nz parity p X : field lnx ny nz p X -> sizes nx lnx ny nz -> wanted parity 0 1 <> 0 ->
  exists X', zparity_constraint nx lnx ny nz parity p X = Val X' /\
    projected lnx ny nz p (IZR (wanted parity 0 1)) (fun y z => y) (fun y z => opp nz z) X X'.
Proof.
  intros (Hx & Hy & Hz & Hp & Hl) Hs Hw. unfold zparity_constraint. rewrite zsign_spec. set (s := wanted parity 0 1) in *.
  destruct (Z.eqb_spec s 0); [contradiction|]. rewrite Z.gtb_ltb. destruct (Z.ltb_spec 1 nz).
  - destruct (dims3 nx lnx ny nz Hx Hy H) as (-> & ->).
    rewrite (flat3 (fun i j b X => mirror_pair p (IZR s) (i * nz + j) (i * nz + mir nz j) b X)).
    destruct (pairs_ok (fun t : Z * Z * Z => fst (fst t) * nz + snd (fst t)) (fun t => fst (fst t) * nz + mir nz (snd (fst t))) snd (ztau nz) (lnx * ny * nz) p (IZR s))
      with (L := prod_list (prod_list (zran 0 (lnx * ny)) (fun _ => zran 0 (Z.quot nz 2 + 1))) (fun _ => zran 0 p)) (d0 := X) as (d & E & Ld & Q & R).
    + intros x Hx'. apply ztau_ok; lia.
    + exact Hl.
    + repeat (apply prod_list_nodup; intros); apply zran_nodup.
    + intros ((i, j), b) Ht. cbn [fst snd]. rewrite !prod_list_in, !zran_in in Ht. destruct Ht as ((Hi & Hj) & Hb). rewrite half in Hj by lia.
      split; [nia|]. split; [lia|]. unfold ztau. rewrite dm_div, dm_mod, opp_mir by lia. reflexivity.
    + intros ((i, j), b) ((i', j'), b') Ht Ht'. cbn [fst snd]. rewrite !prod_list_in, !zran_in in Ht, Ht'.
      destruct Ht as ((Hi & Hj) & Hb), Ht' as ((Hi' & Hj') & Hb'). rewrite half in Hj, Hj' by lia. unfold ztau. rewrite dm_div, dm_mod by lia.
      intros <- Eq. assert (E2 : i = i' /\ (j = j' \/ j = opp nz j')).
      { pose proof (opp_range nz j' ltac:(lia)). destruct Eq as [Eq|Eq]; apply rowinj in Eq; try lia; destruct Eq; auto. }
      destruct E2 as (-> & E2). rewrite (reps_uniq nz j j') by (auto; lia). reflexivity.
    + intros q b Hq Hb. destruct (reps_cover nz (q mod nz)) as (j & J1 & J2 & J3); [apply Z.mod_pos_bound; lia|].
      assert (0 <= q / nz < lnx * ny) by (split; [apply Z.div_pos; lia|apply Z.div_lt_upper_bound; lia]).
      exists ((q / nz, j), b). rewrite !prod_list_in, !zran_in, half by lia. cbn [fst snd]. split; [lia|]. split; [reflexivity|].
      unfold ztau. rewrite dm_div, dm_mod by lia. rewrite (Z.div_mod q nz) at 2 4 by lia. destruct J3 as [->| ->]; [left|right]; lia.
    + exists d. split; [exact E|]. split; [exact Ld|]. split; [|exact R].
      intros x y z c b (I1 & I2 & I3 & I4 & I5). unfold amp. pose proof (pos_in lnx ny nz x y z I1 I2 I3). rewrite Q by auto. unfold sg, ztau. rewrite dm_div, dm_mod by lia. reflexivity.
  - assert (nz = 1) by lia. subst nz. rewrite (dims2 nx lnx ny Hs Hx Hy).
    assert (Sgn : s = 1 \/ s = -1). { unfold s, wanted in *. destruct (Z.testbit parity 0); auto. destruct (Z.testbit parity 1); auto. congruence. }
    set (c1 := if s =? 1 then 1 else 0).
    destruct (write2_ok (fun i b => (i * 2 + c1) * p + b) (fun _ _ _ => Val C0) (fun _ _ => C0) (lnx * ny) p ltac:(lia) ltac:(lia) X) as (d & E & L & Q & R).
    + intros i b Hi Hb. unfold c1. destruct (s =? 1); nia.
    + intros i b i' b' Hi Hb Hi' Hb' Eq. destruct (rowinj p _ _ _ _ Hb Hb' Eq). lia.
    + reflexivity.
    + exists d. split.
      { rewrite <- E. rewrite (forZ_foldM 0 (lnx * ny)), (forZ_foldM 0 (lnx * ny)). apply foldM_ext. intros i d' _. rewrite !forZ_foldM. apply foldM_ext. intros b d'' _.
        unfold c1. cbn [bind]. destruct (s =? 1); [reflexivity|]. replace (i * 2 + 0) with (i * 2) by lia. reflexivity. }
      split; [exact L|]. split.
      * intros x y z c b (I1 & I2 & I3 & I4 & I5). replace (opp 1 z) with z by (unfold opp; rewrite Z.mod_1_r; lia). unfold amp. replace z with 0 by lia.
        assert (Hpos : 0 <= x * ny + y < lnx * ny) by nia. set (q := x * ny + y) in *. replace (q * 1 + 0) with q by lia.
        destruct (Z.eq_dec c c1) as [->|Hc].
        -- unfold gets at 1. rewrite Q by auto. unfold c1. destruct Sgn as [-> | ->]; cbn [Z.eqb Pos.eqb]; cring.
        -- unfold gets at 1. rewrite R.
           ++ fold (gets X ((q * 2 + c) * p + b)). unfold c1 in Hc. destruct Sgn as [E1|E1]; rewrite E1 in *; cbn [Z.eqb Pos.eqb] in Hc.
              ** replace c with 0 by lia. cbn [Z.eqb]. apply C_eq; csimp; lra.
              ** replace c with 1 by lia. cbn [Z.eqb]. apply C_eq; csimp; lra.
           ++ intros i j Hi Hj Eq. destruct (rowinj p (i * 2 + c1) j (q * 2 + c) b Hj I5 Eq). assert (0 <= c1 < 2) by (unfold c1; destruct (s =? 1); lia). lia.
      * intros i Hi. apply R. intros i1 j1 Hi1 Hj1 Eq. assert (0 <= c1 < 2) by (unfold c1; destruct (s =? 1); lia). nia.
Qed.

Lemma yproj_ok lnx ny nz parity p X : field lnx ny nz p X -> wanted parity 2 3 <> 0 ->
  exists X', yparity_constraint lnx ny nz parity p X = Val X' /\
    projected lnx ny nz p (IZR (- wanted parity 2 3)) (fun y z => opp ny y) (fun y z => z) X X'.
Proof.
  intros (Hx & Hy & Hz & Hp & Hl) Hw. unfold yparity_constraint. rewrite ysign_spec. set (s := wanted parity 2 3) in *.
  destruct (Z.eqb_spec s 0); [contradiction|].
  rewrite (flat4 (fun i j k b X => mirror_pair p (IZR (- s)) ((i * ny + j) * nz + k) ((i * ny + mir ny j) * nz + k) b X)).
  assert (Yt : forall i j k, 0 <= j < ny -> 0 <= k < nz -> ytau ny nz ((i * ny + j) * nz + k) = (i * ny + opp ny j) * nz + k).
  { intros. unfold ytau. rewrite (dm_div nz _ k), (dm_mod nz _ k), (dm_div ny _ j), (dm_mod ny _ j) by lia. reflexivity. }
  destruct (pairs_ok (fun t : Z * Z * Z * Z => (fst (fst (fst t)) * ny + snd (fst (fst t))) * nz + snd (fst t))
      (fun t => (fst (fst (fst t)) * ny + mir ny (snd (fst (fst t)))) * nz + snd (fst t)) snd (ytau ny nz) (lnx * ny * nz) p (IZR (- s)))
    with (L := prod_list (prod_list (prod_list (zran 0 lnx) (fun _ => zran 0 (Z.quot ny 2 + 1))) (fun _ => zran 0 nz)) (fun _ => zran 0 p)) (d0 := X) as (d & E & Ld & Q & R).
  + intros x Hx'. apply ytau_ok; lia.
  + exact Hl.
  + repeat (apply prod_list_nodup; intros); apply zran_nodup.
  + intros (((i, j), k), b) Ht. cbn [fst snd]. rewrite !prod_list_in, !zran_in in Ht. destruct Ht as (((Hi & Hj) & Hk) & Hb). rewrite half in Hj by lia.
    split; [apply pos_in; lia|]. split; [lia|]. rewrite Yt by lia. rewrite opp_mir by lia. reflexivity.
  + intros (((i, j), k), b) (((i', j'), k'), b') Ht Ht'. cbn [fst snd]. rewrite !prod_list_in, !zran_in in Ht, Ht'.
    destruct Ht as (((Hi & Hj) & Hk) & Hb), Ht' as (((Hi' & Hj') & Hk') & Hb'). rewrite half in Hj, Hj' by lia. rewrite Yt by lia.
    intros <- Eq. assert (E2 : i = i' /\ k = k' /\ (j = j' \/ j = opp ny j')).
    { pose proof (opp_range ny j' ltac:(lia)). destruct Eq as [Eq|Eq]; apply rowinj in Eq; try lia; destruct Eq as (Eq & ->); apply rowinj in Eq; try lia; destruct Eq; auto. }
    destruct E2 as (-> & -> & E2). rewrite (reps_uniq ny j j') by (auto; lia). reflexivity.
  + intros q b Hq Hb. pose proof (Z.mod_pos_bound q nz ltac:(lia)).
    destruct (reps_cover ny ((q / nz) mod ny)) as (j & J1 & J2 & J3); [apply Z.mod_pos_bound; lia|].
    assert (H1 : 0 <= q / nz < lnx * ny) by (split; [apply Z.div_pos; lia|apply Z.div_lt_upper_bound; lia]).
    assert (H2 : 0 <= q / nz / ny < lnx) by (split; [apply Z.div_pos; lia|apply Z.div_lt_upper_bound; lia]).
    exists (((q / nz / ny, j), q mod nz), b). rewrite !prod_list_in, !zran_in, half by lia. cbn [fst snd]. split; [lia|]. split; [reflexivity|].
    rewrite Yt by lia. pose proof (Z.div_mod q nz ltac:(lia)) as D1. pose proof (Z.div_mod (q / nz) ny ltac:(lia)) as D2.
    destruct J3 as [->| ->]; [left|right]; replace (q / nz / ny * ny + (q / nz) mod ny) with (q / nz) by lia; lia.
  + exists d. split; [exact E|]. split; [exact Ld|]. split; [|exact R].
    intros x y z c b (I1 & I2 & I3 & I4 & I5). unfold amp. pose proof (pos_in lnx ny nz x y z I1 I2 I3). rewrite Q by auto. unfold sg. rewrite Yt by lia. reflexivity.
Qed.
