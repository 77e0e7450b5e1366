(** Plane-wave table, dominant and prescribed plane waves, parity bits, constant bands. *)
From Coq Require Import List ZArith Reals Lia Lra Bool FinFun.
From Verif Require Import Base RC Loops M_Tensor M_Evect S_Evect L_Evect L_Evect2 L_Evect3 M_Grid S_Grid L_Grid L_Grid2 L_Grid5.
Import ListNotations.
Local Open Scope Z_scope.

(** ** The table *)

Definition pw_at (nx ny nz s i : Z) : Z * Z * Z := (kidx nx (s + i / nz / ny), kidx ny ((i / nz) mod ny), kidx nz (i mod nz)).
Lemma planewaves_eq nx ny nz s l : 0 <= l -> 0 < ny -> 0 < nz -> planewaves nx ny nz s l = map (pw_at nx ny nz s) (zrange (l * ny * nz)).
Proof.
  intros Hl Hy Hz. unfold planewaves. rewrite flat_map_map.
  transitivity (flat_map (fun x => flat_map (fun y => (fun q => map (fun z => pw_at nx ny nz s (q * nz + z)) (zrange nz)) (x * ny + y)) (zrange ny)) (zrange l)).
  - apply flat_ext. intros x Hx. apply flat_ext. intros y Hy'. apply map_ext_in. intros z Hz'. rewrite zrange_in in *. unfold pw_at.
    rewrite (dm_div nz), (dm_mod nz), (dm_div ny), (dm_mod ny) by lia. reflexivity.
  - rewrite (zrange_mul (fun q => map (fun z => pw_at nx ny nz s (q * nz + z)) (zrange nz))) by lia.
    rewrite map_as_flat, <- (zrange_mul (fun i => [pw_at nx ny nz s i]) (l * ny) nz) by nia. apply flat_ext. intros q _. apply map_as_flat.
Qed.
Lemma rd_map_zrange {B} (f : Z -> B) n i : 0 <= i < n -> rd (map f (zrange n)) i = Val (f i).
Proof.
  intros Hi. unfold rd, zrange. destruct (Z.ltb_spec i 0); [lia|]. rewrite map_map. rewrite nth_error_map, nth_error_nth' with (d := O) by (rewrite seq_length; lia).
  cbn [option_map]. rewrite seq_nth by lia. rewrite Nat.add_0_l, Z2Nat.id by lia. reflexivity.
Qed.
Lemma planewaves_rd nx ny nz s l x y z : 0 <= x < l -> 0 <= y < ny -> 0 <= z < nz ->
  rd (planewaves nx ny nz s l) ((x * ny + y) * nz + z) = Val (kidx nx (s + x), kidx ny y, kidx nz z).
Proof.
  intros Hx Hy Hz. rewrite planewaves_eq by lia. rewrite rd_map_zrange by (apply pos_in; lia). unfold pw_at.
  rewrite (dm_div nz), (dm_mod nz), (dm_div ny), (dm_mod ny) by lia. reflexivity.
Qed.
Lemma planewaves_len nx ny nz s l : 0 <= l -> 0 < ny -> 0 < nz -> Z.of_nat (length (planewaves nx ny nz s l)) = l * ny * nz.
Proof. intros. rewrite planewaves_eq by lia. rewrite map_length, zrange_len. rewrite Z2Nat.id; nia. Qed.
Lemma planewaves_split nx ny nz s l l' : 0 <= l -> 0 <= l' -> planewaves nx ny nz s (l + l') = planewaves nx ny nz s l ++ planewaves nx ny nz (s + l) l'.
Proof.
  intros Hl Hl'. unfold planewaves. rewrite zrange_add by lia. rewrite map_app, flat_map_app. f_equal. rewrite !map_map. rewrite !flat_map_map.
  apply flat_ext. intros x _. replace (s + (l + x)) with (s + l + x) by lia. reflexivity.
Qed.
Lemma planewaves_bij nx ny nz : 0 < nx -> 0 < ny -> 0 < nz ->
  NoDup (planewaves nx ny nz 0 nx) /\ forall a b c, In (a, b, c) (planewaves nx ny nz 0 nx) <-> freq nx a /\ freq ny b /\ freq nz c.
Proof.
  intros Hx Hy Hz. split.
  - rewrite planewaves_eq by lia. 
    assert (Inj : forall i j, 0 <= i < nx * ny * nz -> 0 <= j < nx * ny * nz -> pw_at nx ny nz 0 i = pw_at nx ny nz 0 j -> i = j).
    { intros i j Hi Hj E. unfold pw_at in E. injection E as E1 E2 E3.
      pose proof (Z.div_mod i nz ltac:(lia)). pose proof (Z.mod_pos_bound i nz ltac:(lia)). pose proof (Z.div_mod (i / nz) ny ltac:(lia)). pose proof (Z.mod_pos_bound (i / nz) ny ltac:(lia)).
      pose proof (Z.div_mod j nz ltac:(lia)). pose proof (Z.mod_pos_bound j nz ltac:(lia)). pose proof (Z.div_mod (j / nz) ny ltac:(lia)). pose proof (Z.mod_pos_bound (j / nz) ny ltac:(lia)).
      assert (0 <= i / nz < nx * ny) by (split; [apply Z.div_pos; lia|apply Z.div_lt_upper_bound; lia]).
      assert (0 <= j / nz < nx * ny) by (split; [apply Z.div_pos; lia|apply Z.div_lt_upper_bound; lia]).
      assert (0 <= i / nz / ny < nx) by (split; [apply Z.div_pos; lia|apply Z.div_lt_upper_bound; lia]).
      assert (0 <= j / nz / ny < nx) by (split; [apply Z.div_pos; lia|apply Z.div_lt_upper_bound; lia]).
      apply kidx_inj in E1; [|lia|lia]. apply kidx_inj in E2; [|lia|lia]. apply kidx_inj in E3; [|lia|lia].
      assert (QQ : i / nz = j / nz) by (assert (Q : i / nz / ny = j / nz / ny) by lia; rewrite Q in *; lia). rewrite QQ in *. lia. }
    assert (G : forall l : list Z, NoDup l -> (forall i, In i l -> 0 <= i < nx * ny * nz) -> NoDup (map (pw_at nx ny nz 0) l)).
    { induction 1 as [|i l Hi Nd IH]; intros Hr; cbn; constructor.
      - intros Hin. apply in_map_iff in Hin as (j & E & Hj). assert (j = i) by (apply Inj; auto; apply Hr; [right; exact Hj|left; reflexivity]). subst. contradiction.
      - apply IH. intros; apply Hr; right; assumption. }
    apply G; [apply zrange_nodup|]. intros i Hi. apply zrange_in. exact Hi.
  - intros a b c. unfold planewaves. rewrite flat_map_map, in_flat_map. split.
    + intros (x & Hx' & Hin). apply in_flat_map in Hin as (y & Hy' & Hin). apply in_map_iff in Hin as (z & E & Hz'). rewrite zrange_in in *. injection E as <- <- <-.
      repeat split; apply kidx_freq; lia.
    + intros (Ha & Hb & Hc). destruct (kidx_onto nx a Hx Ha) as (x & Hx' & Ex). destruct (kidx_onto ny b Hy Hb) as (y & Hy' & Ey). destruct (kidx_onto nz c Hz Hc) as (z & Hz' & Ez).
      exists x. rewrite zrange_in. split; [exact Hx'|]. apply in_flat_map. exists y. rewrite zrange_in. split; [exact Hy'|]. apply in_map_iff. exists z. rewrite zrange_in.
      cbn [Z.add]. rewrite Ex, Ey, Ez. auto.
Qed.

Lemma mapM_rd {X Y} (f : X -> outcome Y) l r : mapM f l = Val r -> length r = length l /\ forall i a, rd l i = Val a -> exists b, f a = Val b /\ rd r i = Val b.
Proof.
  revert r. induction l as [|x l IH]; intros r E; cbn [mapM] in E.
  - injection E as <-. split; [reflexivity|]. intros i a H. unfold rd in H. destruct (i <? 0); [discriminate|]. destruct (Z.to_nat i); discriminate.
  - apply bind_val in E as (b & Eb & E). apply bind_val in E as (r' & Er & E). injection E as <-. destruct (IH r' Er) as (L & H). split; [cbn; congruence|].
    intros i a Hi. unfold rd in *. destruct (Z.ltb_spec i 0); [discriminate|]. destruct (Z.to_nat i) as [|n] eqn:En; cbn [nth_error] in *.
    + injection Hi as <-. exists b. auto.
    + specialize (H (Z.of_nat n) a). destruct (Z.ltb_spec (Z.of_nat n) 0); [lia|]. rewrite Nat2Z.id in H. apply H. exact Hi.
Qed.

Lemma table_ok nx ny nz s l k G1 G2 G3 : 0 <= l -> 0 < ny -> 0 < nz ->
  exists t, k_plus_G nx ny nz s l k G1 G2 G3 = Val t /\ Z.of_nat (length t) = l * ny * nz /\
    forall x y z, 0 <= x < l -> 0 <= y < ny -> 0 <= z < nz ->
      exists e, rd t ((x * ny + y) * nz + z) = Val e /\ transverse (kpG k G1 G2 G3 (kidx nx (s + x)) (kidx ny y) (kidx nz z)) = Val e.
Proof.
  intros Hl Hy Hz. unfold k_plus_G.
  destruct (mapM_ok (fun t => let '(kx, ky, kz) := t in transverse (kpG k G1 G2 G3 kx ky kz)) (fun _ _ => True) (planewaves nx ny nz s l)) as (r & E & _).
  { intros ((a, b), c) _. destruct (transverse_ok (kpG k G1 G2 G3 a b c)) as (e & Ee & _). exists e. auto. }
  exists r. split; [exact E|]. destruct (mapM_rd _ _ _ E) as (L & H). split; [rewrite L; apply planewaves_len; auto|].
  intros x y z Hx Hy' Hz'. destruct (H _ _ (planewaves_rd nx ny nz s l x y z Hx Hy' Hz')) as (e & E1 & E2). exists e. auto.
Qed.

(** ** Dominant plane wave *)

Definition inten (p band : Z) (data : list C) (i : Z) : R := (normsqr (gets data ((i * 2 + 0) * p + band - 1)) + normsqr (gets data ((i * 2 + 1) * p + band - 1)))%R.
Lemma dominant_index_ok N p band data : 0 <= N -> N * 2 * p <= Z.of_nat (length data) -> 1 <= band <= p ->
  exists m i, dominant_index N p band data = Val (m, i) /\ (forall j, 0 <= j < N -> (inten p band data j <= m)%R) /\
    ((0 <= i < N /\ (0 < m)%R /\ inten p band data i = m /\ forall j, 0 <= j < i -> (inten p band data j < m)%R) \/ (i = 0 /\ m = 0%R)).
Proof.
  intros HN HL Hb. unfold dominant_index.
  destruct (forZ_inv (fun n s => (forall j, 0 <= j < n -> (inten p band data j <= fst s)%R) /\
    ((0 <= snd s < n /\ (0 < fst s)%R /\ inten p band data (snd s) = fst s /\ forall j, 0 <= j < snd s -> (inten p band data j < fst s)%R) \/ (snd s = 0 /\ fst s = 0%R)))
    (fun i s => let! u := rd data ((i * 2 + 0) * p + band - 1) in let! v := rd data ((i * 2 + 1) * p + band - 1) in
       Val (if Rltb (fst s) (normsqr u + normsqr v) then ((normsqr u + normsqr v)%R, i) else s)) 0 N (0%R, 0) HN) as ((m & i) & E & H1 & H2).
  - split; [intros; lia|]. right. auto.
  - intros i s Hi (A & B). pose proof (rowin (N * 2) p p (i * 2 + 0) (band - 1)). pose proof (rowin (N * 2) p p (i * 2 + 1) (band - 1)).
    rewrite (gets_in data ((i * 2 + 0) * p + band - 1)), (gets_in data ((i * 2 + 1) * p + band - 1)) by lia. cbn [bind]. eexists. split; [reflexivity|].
    fold (inten p band data i).
    assert (B0 : (0 <= fst s)%R) by (destruct B as [(_ & B & _)|(_ & ->)]; lra).
    destruct (Rltb_spec (fst s) (inten p band data i)) as [Hlt|Hge]; cbn [fst snd].
    + split.
      * intros j Hj. destruct (Z.eq_dec j i) as [->|]; [lra|]. specialize (A j ltac:(lia)). lra.
      * left. split; [lia|]. split; [lra|]. split; [reflexivity|]. intros j Hj. specialize (A j ltac:(lia)). lra.
    + split.
      * intros j Hj. destruct (Z.eq_dec j i) as [->|]; [lra|]. apply A. lia.
      * destruct B as [(B1 & B2 & B3 & B4)|B]; [left; split; [lia|]; auto|right; exact B].
  - exists m, i. split; [exact E|]. split; [exact H1|]. exact H2.
Qed.

(** ** Prescribed plane wave *)

Lemma cross_unit (k a : vec) (l : R) : rdot k k = 1%R -> l = sqrt (rdot (vcross k a) (vcross k a)) -> (0 < l)%R ->
  let P := let '(x, y, z) := vcross k a in ((x / l)%R, (y / l)%R, (z / l)%R) in
  rdot P P = 1%R /\ rdot P k = 0%R /\ rdot (vcross k P) (vcross k P) = 1%R /\ rdot (vcross k P) k = 0%R /\ rdot (vcross k P) P = 0%R.
Proof.
  destruct k as ((k0, k1), k2), a as ((a0, a1), a2). cbn [vcross rdot]. intros Hk Hl Hp. cbv zeta.
  set (x := (k1 * a2 - k2 * a1)%R) in *. set (y := (k2 * a0 - k0 * a2)%R) in *. set (z := (k0 * a1 - k1 * a0)%R) in *.
  assert (Hll : (l * l = x * x + y * y + z * z)%R).
  { rewrite Hl. apply sqrt_sqrt. pose proof (Rle_0_sqr x); pose proof (Rle_0_sqr y); pose proof (Rle_0_sqr z). unfold Rsqr in *. lra. }
  assert (Hxk : (x * k0 + y * k1 + z * k2 = 0)%R) by (unfold x, y, z; ring). clearbody x y z. clear Hl a0 a1 a2.
  unfold Rdiv. set (i := (/ l)%R). assert (Hi : (i * l = 1)%R) by (unfold i; field; lra). clearbody i.
  assert (E1 : (x * i * (x * i) + y * i * (y * i) + z * i * (z * i) = 1)%R).
  { transitivity (i * i * (x * x + y * y + z * z))%R; [ring|]. rewrite <- Hll. transitivity ((i * l) * (i * l))%R; [ring|]. rewrite Hi. ring. }
  assert (E2 : (x * i * k0 + y * i * k1 + z * i * k2 = 0)%R) by (transitivity (i * (x * k0 + y * k1 + z * k2))%R; [ring|]; rewrite Hxk; ring).
  set (a := (x * i)%R) in *. set (b := (y * i)%R) in *. set (c := (z * i)%R) in *. clearbody a b c. clear -Hk E1 E2.
  repeat split; auto; try ring.
  transitivity ((k0 * k0 + k1 * k1 + k2 * k2) * (a * a + b * b + c * c) - (a * k0 + b * k1 + c * k2) * (a * k0 + b * k1 + c * k2))%R; [ring|]. rewrite Hk, E1, E2. ring.
Qed.

Lemma frame_expand (m n w : vec) : rdot m m = 1%R -> rdot n n = 1%R -> rdot m n = 0%R -> rdot w (vcross m n) = 0%R ->
  w = vadd3 (rsc (rdot w m) m) (rsc (rdot w n) n).
Proof.
  destruct m as ((m0, m1), m2), n as ((n0, n1), n2), w as ((w0, w1), w2). cbn [rdot vcross vadd3 rsc]. intros Hm Hn Hmn Hw.
  set (k0 := (m1 * n2 - m2 * n1)%R) in *. set (k1 := (m2 * n0 - m0 * n2)%R) in *. set (k2 := (m0 * n1 - m1 * n0)%R) in *.
  assert (Hk : (k0 * k0 + k1 * k1 + k2 * k2 = 1)%R).
  { unfold k0, k1, k2. transitivity ((m0 * m0 + m1 * m1 + m2 * m2) * (n0 * n0 + n1 * n1 + n2 * n2) - (m0 * n0 + m1 * n1 + m2 * n2) * (m0 * n0 + m1 * n1 + m2 * n2))%R; [ring|]. rewrite Hm, Hn, Hmn. ring. }
  set (a := (w0 * m0 + w1 * m1 + w2 * m2)%R). set (b := (w0 * n0 + w1 * n1 + w2 * n2)%R).
  set (d0 := (w0 - (a * m0 + b * n0))%R). set (d1 := (w1 - (a * m1 + b * n1))%R). set (d2 := (w2 - (a * m2 + b * n2))%R).
  assert (Dm : (d0 * m0 + d1 * m1 + d2 * m2 = 0)%R).
  { transitivity (a - a * (m0 * m0 + m1 * m1 + m2 * m2) - b * (m0 * n0 + m1 * n1 + m2 * n2))%R; [unfold d0, d1, d2, a, b; ring|]. rewrite Hm, Hmn. ring. }
  assert (Dn : (d0 * n0 + d1 * n1 + d2 * n2 = 0)%R).
  { transitivity (b - a * (m0 * n0 + m1 * n1 + m2 * n2) - b * (n0 * n0 + n1 * n1 + n2 * n2))%R; [unfold d0, d1, d2, a, b; ring|]. rewrite Hn, Hmn. ring. }
  assert (Dk : (d0 * k0 + d1 * k1 + d2 * k2 = 0)%R).
  { transitivity (w0 * k0 + w1 * k1 + w2 * k2 - a * (m0 * k0 + m1 * k1 + m2 * k2) - b * (n0 * k0 + n1 * k1 + n2 * k2))%R; [unfold d0, d1, d2; ring|]. rewrite Hw. unfold k0, k1, k2. ring. }
  assert (D : forall c0 c1 c2 : R, (c0 = d0 * m0 + d1 * m1 + d2 * m2 -> c1 = d0 * n0 + d1 * n1 + d2 * n2 -> c2 = d0 * k0 + d1 * k1 + d2 * k2 ->
     d0 * (k0 * k0 + k1 * k1 + k2 * k2) = c0 * (n1 * k2 - n2 * k1) + c1 * (k1 * m2 - k2 * m1) + c2 * k0 /\
     d1 * (k0 * k0 + k1 * k1 + k2 * k2) = c0 * (n2 * k0 - n0 * k2) + c1 * (k2 * m0 - k0 * m2) + c2 * k1 /\
     d2 * (k0 * k0 + k1 * k1 + k2 * k2) = c0 * (n0 * k1 - n1 * k0) + c1 * (k0 * m1 - k1 * m0) + c2 * k2)%R).
  { intros c0 c1 c2 -> -> ->. clearbody d0 d1 d2. unfold k0, k1, k2. repeat split; ring. }
  destruct (D 0%R 0%R 0%R) as (E0 & E1 & E2); auto. rewrite Hk in E0, E1, E2. rewrite Rmult_1_r in E0, E1, E2.
  unfold d0, d1, d2 in E0, E1, E2. f_equal; [f_equal|]; lra.
Qed.

Lemma amp_ok (e : kdata) (sa pa : C) (axis : vec) : rdot (km e) (km e) = 1%R -> rdot (kn e) (kn e) = 1%R -> rdot (km e) (kn e) = 0%R ->
  rcross (rcross (km e) (kn e)) axis <> (0, 0, 0)%R ->
  exists u v S P, planewave_amp e sa pa axis = Val (u, v) /\
    rdot P P = 1%R /\ rdot P (rcross (km e) (kn e)) = 0%R /\ rdot P axis = 0%R /\ (0 < rdot P (rcross (rcross (km e) (kn e)) axis))%R /\ S = rcross (rcross (km e) (kn e)) P /\
    (cmix (fun v => fst (fst v)) (km e) (kn e) u v = cmix (fun v => fst (fst v)) S P sa pa /\
     cmix (fun v => snd (fst v)) (km e) (kn e) u v = cmix (fun v => snd (fst v)) S P sa pa /\
     cmix (fun v => snd v) (km e) (kn e) u v = cmix (fun v => snd v) S P sa pa) /\
    (normsqr u + normsqr v = normsqr sa + normsqr pa)%R.
Proof.
  destruct e as [kg m n]. cbn [km kn kmag]. intros Hm Hn Hmn Hx.
  change rcross with vcross in *.
  set (k := vcross m n) in *.
  assert (Hk : rdot k k = 1%R).
  { unfold k. destruct m as ((m0, m1), m2), n as ((n0, n1), n2). cbn [rdot vcross] in *.
    transitivity ((m0 * m0 + m1 * m1 + m2 * m2) * (n0 * n0 + n1 * n1 + n2 * n2) - (m0 * n0 + m1 * n1 + m2 * n2) * (m0 * n0 + m1 * n1 + m2 * n2))%R; [ring|]. rewrite Hm, Hn, Hmn. ring. }
  set (l := sqrt (rdot (vcross k axis) (vcross k axis))).
  assert (Hll : (l * l = rdot (vcross k axis) (vcross k axis) /\ 0 < l)%R).
  { unfold l. destruct (vcross k axis) as ((x, y), z) eqn:Ec. cbn [rdot]. pose proof (Rle_0_sqr x); pose proof (Rle_0_sqr y); pose proof (Rle_0_sqr z). unfold Rsqr in *.
    split; [apply sqrt_sqrt; lra|]. apply sqrt_lt_R0. destruct (Req_dec x 0), (Req_dec y 0), (Req_dec z 0); subst; try nra. exfalso. apply Hx. reflexivity. }
  destruct Hll as (Hll & Hl).
  pose proof (cross_unit k axis l Hk eq_refl Hl) as CU. cbv zeta in CU.
  set (P := let '(x, y, z) := vcross k axis in ((x / l)%R, (y / l)%R, (z / l)%R)) in *.
  destruct CU as (P1 & Pk & S1 & Sk & SP). set (S := vcross k P) in *.
  assert (PA : rdot P axis = 0%R).
  { unfold P. clear. destruct k as ((k0, k1), k2), axis as ((a0, a1), a2). cbn [vcross rdot]. unfold Rdiv. ring. }
  assert (Pc : (0 < rdot P (vcross k axis))%R).
  { assert (Q : rdot P (vcross k axis) = l). { unfold P. destruct (vcross k axis) as ((x, y), z). cbn [rdot] in *. transitivity ((x * x + y * y + z * z) / l)%R; [field; lra|]. rewrite <- Hll. field. lra. } rewrite Q. exact Hl. }
  assert (EV : planewave_amp {| kmag := kg; km := m; kn := n |} sa pa axis = Val ((Cscal (rdot S m) sa + Cscal (rdot P m) pa)%C, (Cscal (rdot S n) sa + Cscal (rdot P n) pa)%C)).
  { unfold planewave_amp. cbn [km kn]. fold k. destruct (vcross k axis) as ((x, y), z) eqn:Ec. cbn [rdot] in l. fold l.
    destruct (Rltb_spec 0 l) as [_|]; [|lra]. cbn [check bind]. change ((x / l)%R, (y / l)%R, (z / l)%R) with P. destruct P as ((p0, p1), p2) eqn:EP.
    assert (EP' : ((x / l)%R, (y / l)%R, (z / l)%R) = (p0, p1, p2)) by (rewrite <- EP; reflexivity). injection EP' as -> -> ->. fold S. destruct S as ((s0, s1), s2).
    destruct m as ((m0, m1), m2), n as ((n0, n1), n2). cbn [rdot]. clear. f_equal. f_equal; apply C_eq; csimp; ring. }
  exists (Cscal (rdot S m) sa + Cscal (rdot P m) pa)%C, (Cscal (rdot S n) sa + Cscal (rdot P n) pa)%C, S, P.
  split; [exact EV|]. split; [exact P1|]. split; [exact Pk|]. split; [exact PA|]. split; [exact Pc|]. split; [reflexivity|].
  pose proof (frame_expand m n S Hm Hn Hmn Sk) as XS. pose proof (frame_expand m n P Hm Hn Hmn Pk) as XP.
  clear EV PA Pc Hll Hl Hx Hk Pk Sk. clearbody S P k. clear k l.
  destruct S as ((s0, s1), s2), P as ((p0, p1), p2), m as ((m0, m1), m2), n as ((n0, n1), n2). cbn [rdot vadd3 rsc fst snd] in *.
  injection XS as A0 A1 A2. injection XP as B0 B1 B2.
  set (a := (s0 * m0 + s1 * m1 + s2 * m2)%R) in *. set (b := (s0 * n0 + s1 * n1 + s2 * n2)%R) in *.
  set (c := (p0 * m0 + p1 * m1 + p2 * m2)%R) in *. set (d := (p0 * n0 + p1 * n1 + p2 * n2)%R) in *.
  split.
  { assert (Q0 : (s0 = a * m0 + b * n0)%R) by exact A0. assert (Q1 : (s1 = a * m1 + b * n1)%R) by exact A1. assert (Q2 : (s2 = a * m2 + b * n2)%R) by exact A2.
    assert (R0 : (p0 = c * m0 + d * n0)%R) by exact B0. assert (R1 : (p1 = c * m1 + d * n1)%R) by exact B1. assert (R2 : (p2 = c * m2 + d * n2)%R) by exact B2.
    clearbody a b c d. clear A0 A1 A2 B0 B1 B2 S1 SP P1 Hm Hn Hmn. subst. unfold cmix. cbn [fst snd]. repeat split; apply C_eq; csimp; ring. }
  assert (N1 : (a * a + b * b = 1)%R).
  { transitivity (s0 * (a * m0 + b * n0) + s1 * (a * m1 + b * n1) + s2 * (a * m2 + b * n2))%R; [unfold a, b; ring|]. rewrite <- A0, <- A1, <- A2. exact S1. }
  assert (N2 : (c * c + d * d = 1)%R).
  { transitivity (p0 * (c * m0 + d * n0) + p1 * (c * m1 + d * n1) + p2 * (c * m2 + d * n2))%R; [unfold c, d; ring|]. rewrite <- B0, <- B1, <- B2. exact P1. }
  assert (N3 : (a * c + b * d = 0)%R).
  { transitivity (s0 * (c * m0 + d * n0) + s1 * (c * m1 + d * n1) + s2 * (c * m2 + d * n2))%R; [unfold a, b; ring|]. rewrite <- B0, <- B1, <- B2. exact SP. }
  clearbody a b c d. clear - N1 N2 N3. destruct sa as (u1, u2), pa as (v1, v2). csimp.
  transitivity ((a * a + b * b) * (u1 * u1 + u2 * u2) + (c * c + d * d) * (v1 * v1 + v2 * v2) + 2 * (a * c + b * d) * (u1 * v1 + u2 * v2))%R; [ring|]. rewrite N1, N2, N3. ring.
Qed.

Lemma amp_parallel (e : kdata) sa pa axis : rcross (rcross (km e) (kn e)) axis = (0, 0, 0)%R -> planewave_amp e sa pa axis = Abort.
Proof.
  change rcross with vcross. intros E. unfold planewave_amp. rewrite E.
  replace (0 * 0 + 0 * 0 + 0 * 0)%R with 0%R by ring. rewrite sqrt_0. destruct (Rltb_spec 0 0) as [|_]; [lra|]. reflexivity.
Qed.

(** Zeroing a band. *)
Lemma zero_band_ok N p band data : 0 <= N -> N * 2 * p <= Z.of_nat (length data) -> 1 <= band <= p ->
  exists d, forZ 0 N (fun i d => let! d := wr d ((i * 2 + 0) * p + band - 1) C0 in wr d ((i * 2 + 1) * p + band - 1) C0) data = Val d /\ length d = length data /\
    (forall r b, 0 <= r < N * 2 -> 0 <= b < p -> rd d (r * p + b) = if b =? band - 1 then Val C0 else rd data (r * p + b)) /\
    (forall x, N * 2 * p <= x -> rd d x = rd data x).
Proof.
  intros HN HL Hb.
  destruct (forZ_inv (fun n d => length d = length data /\
    (forall r b, 0 <= r < N * 2 -> 0 <= b < p -> rd d (r * p + b) = if (b =? band - 1) && (r <? n * 2) then Val C0 else rd data (r * p + b)) /\
    (forall x, N * 2 * p <= x -> rd d x = rd data x))
    (fun i d => let! d := wr d ((i * 2 + 0) * p + band - 1) C0 in wr d ((i * 2 + 1) * p + band - 1) C0) 0 N data HN) as (d & E & L & H1 & H2).
  - split; [reflexivity|]. split; [|auto]. intros r b Hr Hbb. destruct (Z.ltb_spec r (0 * 2)); [lia|]. rewrite andb_false_r. reflexivity.
  - intros i d Hi (L & H1 & H2). pose proof (rowin (N * 2) p p (i * 2 + 0) (band - 1)). pose proof (rowin (N * 2) p p (i * 2 + 1) (band - 1)).
    destruct (wr d ((i * 2 + 0) * p + band - 1) C0) as [d1| | |] eqn:E1; try (rewrite wr_in in E1 by lia; discriminate). cbn [bind].
    pose proof (wr_length _ _ _ _ E1) as L1.
    destruct (wr d1 ((i * 2 + 1) * p + band - 1) C0) as [d2| | |] eqn:E2; try (rewrite wr_in in E2 by lia; discriminate).
    pose proof (wr_length _ _ _ _ E2) as L2. exists d2. split; [reflexivity|]. split; [congruence|]. split.
    + intros r b Hr Hbb. rewrite (rd_wr _ _ _ _ _ E2), (rd_wr _ _ _ _ _ E1), H1 by auto.
      destruct (Z.eqb_spec (r * p + b) ((i * 2 + 1) * p + band - 1)) as [Q|Q].
      { assert (Q' : r * p + b = (i * 2 + 1) * p + (band - 1)) by lia. apply rowinj in Q' as (-> & ->); [|lia|lia]. rewrite Z.eqb_refl. destruct (Z.ltb_spec (i * 2 + 1) ((i + 1) * 2)); [reflexivity|lia]. }
      destruct (Z.eqb_spec (r * p + b) ((i * 2 + 0) * p + band - 1)) as [Q'|Q'].
      { assert (Q'' : r * p + b = (i * 2 + 0) * p + (band - 1)) by lia. apply rowinj in Q'' as (-> & ->); [|lia|lia]. rewrite Z.eqb_refl. destruct (Z.ltb_spec (i * 2 + 0) ((i + 1) * 2)); [reflexivity|lia]. }
      destruct (Z.eqb_spec b (band - 1)) as [->|]; [|reflexivity]. cbn [andb].
      destruct (Z.ltb_spec r (i * 2)), (Z.ltb_spec r ((i + 1) * 2)); try reflexivity; [lia|].
      assert (r = i * 2 + 0 \/ r = i * 2 + 1) as [->| ->] by lia; lia.
    + intros x Hx. rewrite (rd_wr _ _ _ _ _ E2), (rd_wr _ _ _ _ _ E1), H2 by auto.
      destruct (Z.eqb_spec x ((i * 2 + 1) * p + band - 1)); [lia|]. destruct (Z.eqb_spec x ((i * 2 + 0) * p + band - 1)); [lia|]. reflexivity.
  - exists d. split; [exact E|]. split; [exact L|]. split; [|exact H2]. intros r b Hr Hbb. rewrite H1 by auto. destruct (Z.ltb_spec r (N * 2)); [|lia]. rewrite andb_true_r. reflexivity.
Qed.

Lemma set_planewave_ok nx ny nz s l table p band data g0 g1 g2 sa pa axis x y z e :
  field l ny nz p data -> 1 <= band <= p -> 0 <= s -> s + l <= nx ->
  order_pos nx g0 = Val x -> order_pos ny g1 = Val y -> order_pos nz g2 = Val z ->
  (s <= x < s + l -> rd table (((x - s) * ny + y) * nz + z) = Val e) ->
  0 <= y < ny -> 0 <= z < nz ->
  forall u v, (s <= x < s + l -> planewave_amp e sa pa axis = Val (u, v)) ->
  exists d, set_planewave nx ny nz s l table p band data (g0, g1, g2) sa pa axis = Val d /\ length d = length data /\
    forall x' y' z' c b, inside l ny nz p x' y' z' c b ->
      amp ny nz p d x' y' z' c b = if b =? band - 1 then (if (s + x' =? x) && (y' =? y) && (z' =? z) then (if c =? 0 then u else v) else C0) else amp ny nz p data x' y' z' c b.
Proof.
  intros (Hl & Hy & Hz & Hp & HL) Hb Hs Hsl Ex Ey Ez He Hy' Hz' u v Ha. unfold set_planewave. rewrite Ex, Ey, Ez. cbn [bind].
  assert (0 <= l * ny * nz) by (apply Z.mul_nonneg_nonneg; [apply Z.mul_nonneg_nonneg|]; lia).
  unfold local_N. destruct (zero_band_ok (l * ny * nz) p band data ltac:(assumption) HL Hb) as (d & -> & Ld & H1 & _). cbn [bind].
  assert (A0 : forall x' y' z' c b, inside l ny nz p x' y' z' c b -> amp ny nz p d x' y' z' c b = if b =? band - 1 then C0 else amp ny nz p data x' y' z' c b).
  { intros x' y' z' c b (Q1 & Q2 & Q3 & Q4 & Q5). pose proof (pos_in l ny nz x' y' z' Q1 Q2 Q3). unfold amp, gets. rewrite H1 by lia. destruct (b =? band - 1); reflexivity. }
  rewrite Z.geb_leb. destruct (Z.leb_spec s x), (Z.ltb_spec x (s + l)); cbn [andb].
  2,3,4: exists d; split; [reflexivity|]; split; [exact Ld|]; intros x' y' z' c b Q; rewrite A0 by exact Q; destruct Q as (Q1 & _); destruct (Z.eqb_spec (s + x') x); [lia|]; reflexivity.
  rewrite He by lia. cbn [bind]. rewrite Ha by lia. cbn [bind fst snd].
  set (i := ((x - s) * ny + y) * nz + z). assert (Hi : 0 <= i < l * ny * nz) by (apply pos_in; lia).
  pose proof (rowin (l * ny * nz * 2) p p (i * 2 + 0) (band - 1)). pose proof (rowin (l * ny * nz * 2) p p (i * 2 + 1) (band - 1)).
  destruct (wr d ((i * 2 + 0) * p + band - 1) u) as [d1| | |] eqn:E1; try (rewrite wr_in in E1 by lia; discriminate). cbn [bind].
  pose proof (wr_length _ _ _ _ E1) as L1.
  destruct (wr d1 ((i * 2 + 1) * p + band - 1) v) as [d2| | |] eqn:E2; try (rewrite wr_in in E2 by lia; discriminate).
  pose proof (wr_length _ _ _ _ E2) as L2. exists d2. split; [reflexivity|]. split; [congruence|].
  intros x' y' z' c b Q. pose proof (A0 x' y' z' c b Q) as A. destruct Q as (Q1 & Q2 & Q3 & Q4 & Q5).
  unfold amp, gets in *. rewrite (rd_wr _ _ _ _ _ E2), (rd_wr _ _ _ _ _ E1).
  set (j := (x' * ny + y') * nz + z') in *.
  destruct (Z.eqb_spec b (band - 1)) as [->|Nb].
  - destruct (Z.eqb_spec (s + x') x) as [Ex'|Ex'], (Z.eqb_spec y' y) as [Ey'|Ey'], (Z.eqb_spec z' z) as [Ez'|Ez']; cbn [andb].
    1: { assert (Eji : j = i) by (unfold i, j; replace (x - s) with x' by lia; rewrite Ey', Ez'; reflexivity). rewrite Eji. replace (i * 2 + c) with (if c =? 0 then i * 2 + 0 else i * 2 + 1) by (destruct (Z.eqb_spec c 0); lia).
         destruct (Z.eqb_spec c 0).
         - destruct (Z.eqb_spec ((i * 2 + 0) * p + (band - 1)) ((i * 2 + 1) * p + band - 1)); [lia|]. destruct (Z.eqb_spec ((i * 2 + 0) * p + (band - 1)) ((i * 2 + 0) * p + band - 1)); [reflexivity|lia].
         - destruct (Z.eqb_spec ((i * 2 + 1) * p + (band - 1)) ((i * 2 + 1) * p + band - 1)); [reflexivity|lia]. }
    all: assert (j <> i) by (unfold i, j; intros Q; apply rowinj in Q as (Q & ?); [|lia|lia]; apply rowinj in Q as (? & ?); lia).
    all: destruct (Z.eqb_spec ((j * 2 + c) * p + (band - 1)) ((i * 2 + 1) * p + band - 1)) as [Q|_];
      [exfalso; assert (Q' : (j * 2 + c) * p + (band - 1) = (i * 2 + 1) * p + (band - 1)) by lia; apply rowinj in Q' as (Q' & _); lia|];
      destruct (Z.eqb_spec ((j * 2 + c) * p + (band - 1)) ((i * 2 + 0) * p + band - 1)) as [Q|_];
      [exfalso; assert (Q' : (j * 2 + c) * p + (band - 1) = (i * 2 + 0) * p + (band - 1)) by lia; apply rowinj in Q' as (Q' & _); lia|]; exact A.
  - destruct (Z.eqb_spec ((j * 2 + c) * p + b) ((i * 2 + 1) * p + band - 1)) as [Q|_];
      [exfalso; assert (Q' : (j * 2 + c) * p + b = (i * 2 + 1) * p + (band - 1)) by lia; apply rowinj in Q' as (_ & Q'); lia|];
      destruct (Z.eqb_spec ((j * 2 + c) * p + b) ((i * 2 + 0) * p + band - 1)) as [Q|_];
      [exfalso; assert (Q' : (j * 2 + c) * p + b = (i * 2 + 0) * p + (band - 1)) by lia; apply rowinj in Q' as (_ & Q'); lia|]; exact A.
Qed.

(** ** Parity bits *)

Lemma testbit_land_lnot_or p a b j : 0 <= a -> 0 <= b -> 0 <= j ->
  Z.testbit (Z.land p (Z.lnot (Z.lor (2 ^ a) (2 ^ b)))) j = Z.testbit p j && negb ((j =? a) || (j =? b)).
Proof.
  intros Ha Hb Hj. rewrite Z.land_spec, Z.lnot_spec, Z.lor_spec, !Z.pow2_bits_eqb by auto. rewrite (Z.eqb_sym a j), (Z.eqb_sym b j). reflexivity.
Qed.
Definition zcut (kz : R) (parity : Z) : bool := (Z.testbit parity 0 && Z.testbit parity 1) || negb (Reqb kz 0).
Definition ycut (ky : R) (parity : Z) : bool := (Z.testbit parity 2 && Z.testbit parity 3) || negb (Reqb ky 0).
Lemma sdp_bits ky kz parity j : 0 <= j -> Z.testbit (set_data_parity ky kz parity) j =
  Z.testbit parity j && negb (((j =? 0) || (j =? 1)) && zcut kz parity) && negb (((j =? 2) || (j =? 3)) && ycut ky parity).
Proof.
  intros Hj. unfold set_data_parity, zcut, ycut. change EVEN_Z with (2 ^ 0). change ODD_Z with (2 ^ 1). change EVEN_Y with (2 ^ 2). change ODD_Y with (2 ^ 3).
  rewrite !has_bit by lia.
  destruct (Z.testbit parity 0 && Z.testbit parity 1) eqn:E1; destruct (Reqb kz 0) eqn:E2; cbn [negb]; rewrite ?testbit_land_lnot_or by lia; cbn [Z.eqb Pos.eqb orb negb];
    rewrite ?andb_true_r;
    (destruct (Z.testbit parity 2 && Z.testbit parity 3) eqn:E3; destruct (Reqb ky 0) eqn:E4; cbn [negb]; rewrite ?testbit_land_lnot_or by lia;
     destruct (Z.testbit parity j); destruct (Z.eqb_spec j 0), (Z.eqb_spec j 1), (Z.eqb_spec j 2), (Z.eqb_spec j 3); try lia; reflexivity).
Qed.
Lemma sdp_idem ky kz parity : set_data_parity ky kz (set_data_parity ky kz parity) = set_data_parity ky kz parity.
Proof.
  apply Z.bits_inj'. intros j Hj. rewrite sdp_bits by auto. rewrite sdp_bits by auto. unfold zcut, ycut. rewrite !sdp_bits by lia. unfold zcut, ycut.
  destruct (Z.testbit parity 0), (Z.testbit parity 1), (Z.testbit parity 2), (Z.testbit parity 3), (Reqb kz 0), (Reqb ky 0); cbn;
  destruct (Z.testbit parity j), (j =? 0), (j =? 1), (j =? 2), (j =? 3); reflexivity.
Qed.

(** ** Constant states *)

(** Where a reduced parity leaves the two constant components. *)
Lemma flip00 ny nz p X x b : 0 < ny -> 0 < nz ->
  zflip ny nz p X x 0 0 0 b = amp ny nz p X x 0 0 0 b /\ zflip ny nz p X x 0 0 1 b = Cscal (-1) (amp ny nz p X x 0 0 1 b) /\
  yflip ny nz p X x 0 0 0 b = Cscal (-1) (amp ny nz p X x 0 0 0 b) /\ yflip ny nz p X x 0 0 1 b = amp ny nz p X x 0 0 1 b.
Proof.
  intros. unfold zflip, yflip, opp. cbn [Z.opp Z.eqb]. rewrite !Zmod_0_l.
  repeat split; apply C_eq; csimp; ring.
Qed.

Lemma zeroC (u : C) : u = Cscal (-1) u -> u = C0.
Proof. destruct u as (a, b). intros E. injection E. intros A B. apply C_eq; csimp; lra. Qed.
Lemma zeroC' (u : C) : Cscal (-1) u = Cscal (IZR 1) u -> u = C0.
Proof. destruct u as (a, b). intros E. injection E. intros A B. apply C_eq; csimp; lra. Qed.


(** A field with only constant components obeys the constraints iff its m (n) component vanishes unless allowed. *)
Lemma const_sym lnx ny nz p X parity : 0 < lnx -> 0 < ny -> 0 < nz -> const_only lnx ny nz p X ->
  (Z.testbit parity 0 && Z.testbit parity 1 = false) -> (Z.testbit parity 2 && Z.testbit parity 3 = false) ->
  ((wanted parity 0 1 <> 0 -> zsymmetric (wanted parity 0 1) lnx ny nz p X) /\ (wanted parity 2 3 <> 0 -> ysymmetric (wanted parity 2 3) lnx ny nz p X)) <->
  (forall b, 0 <= b < p -> (m_allowed parity = false -> amp ny nz p X 0 0 0 0 b = C0) /\ (n_allowed parity = false -> amp ny nz p X 0 0 0 1 b = C0)).
Proof.
  intros Hx Hy Hz CO R1 R2. unfold m_allowed, n_allowed, wanted. 
  assert (Op : forall n j, 0 < n -> 0 <= j < n -> opp n j = 0 -> j = 0).
  { intros n j Hn Hj E. rewrite <- (opp_opp n j) by lia. rewrite E. unfold opp. apply Zmod_0_l. }
  assert (SymZ : forall s, (forall b, 0 <= b < p -> zflip ny nz p X 0 0 0 0 b = Cscal (IZR s) (amp ny nz p X 0 0 0 0 b) /\ zflip ny nz p X 0 0 0 1 b = Cscal (IZR s) (amp ny nz p X 0 0 0 1 b)) -> zsymmetric s lnx ny nz p X).
  { intros s H x y z c b (Q1 & Q2 & Q3 & Q4 & Q5). destruct (Z.eq_dec x 0) as [->|Nx]; [destruct (Z.eq_dec y 0) as [->|Ny]; [destruct (Z.eq_dec z 0) as [->|Nz]|]|].
    { destruct (H b Q5) as (A & B). assert (c = 0 \/ c = 1) as [->| ->] by lia; assumption. }
    all: pose proof (opp_range nz z ltac:(lia)); unfold zflip; rewrite (CO _ _ (opp nz z)), (CO _ _ z); try (unfold inside; lia); try (intros Q; pose proof (f_equal (fun t => fst (fst t)) Q); pose proof (f_equal (fun t => snd (fst t)) Q); pose proof (f_equal snd Q); cbn [fst snd] in *; try lia; apply Nz; apply (Op nz); auto);
      destruct (c =? 0); clear; apply C_eq; csimp; ring. }
  assert (SymY : forall s, (forall b, 0 <= b < p -> yflip ny nz p X 0 0 0 0 b = Cscal (IZR s) (amp ny nz p X 0 0 0 0 b) /\ yflip ny nz p X 0 0 0 1 b = Cscal (IZR s) (amp ny nz p X 0 0 0 1 b)) -> ysymmetric s lnx ny nz p X).
  { intros s H x y z c b (Q1 & Q2 & Q3 & Q4 & Q5). destruct (Z.eq_dec x 0) as [->|Nx]; [destruct (Z.eq_dec z 0) as [->|Nz]; [destruct (Z.eq_dec y 0) as [->|Ny]|]|].
    { destruct (H b Q5) as (A & B). assert (c = 0 \/ c = 1) as [->| ->] by lia; assumption. }
    all: pose proof (opp_range ny y ltac:(lia)); unfold yflip; rewrite (CO _ (opp ny y)), (CO _ y); try (unfold inside; lia); try (intros Q; pose proof (f_equal (fun t => fst (fst t)) Q); pose proof (f_equal (fun t => snd (fst t)) Q); pose proof (f_equal snd Q); cbn [fst snd] in *; try lia; apply Ny; apply (Op ny); auto);
      destruct (c =? 0); clear; apply C_eq; csimp; ring. }
  assert (I0 : forall b c, 0 <= b < p -> 0 <= c < 2 -> inside lnx ny nz p 0 0 0 c b) by (intros; unfold inside; lia).
  split.
  - intros (A & B) b Hb. destruct (flip00 ny nz p X 0 b Hy Hz) as (F1 & F2 & F3 & F4).
    destruct (Z.testbit parity 0), (Z.testbit parity 1), (Z.testbit parity 2), (Z.testbit parity 3); cbn [andb negb] in *; try discriminate; split; intros Q; try discriminate.
    all: first
      [ pose proof (A ltac:(discriminate) 0 0 0 0 b (I0 b 0 Hb ltac:(lia))) as E; rewrite F1 in E; apply zeroC; rewrite E at 1; clear; apply C_eq; csimp; ring
      | pose proof (A ltac:(discriminate) 0 0 0 1 b (I0 b 1 Hb ltac:(lia))) as E; rewrite F2 in E; apply zeroC'; rewrite E; clear; apply C_eq; csimp; ring
      | pose proof (B ltac:(discriminate) 0 0 0 0 b (I0 b 0 Hb ltac:(lia))) as E; rewrite F3 in E; apply zeroC'; rewrite E; clear; apply C_eq; csimp; ring
      | pose proof (B ltac:(discriminate) 0 0 0 1 b (I0 b 1 Hb ltac:(lia))) as E; rewrite F4 in E; apply zeroC; rewrite E at 1; clear; apply C_eq; csimp; ring
      | idtac ].
  - intros H. split; intros W; [apply SymZ|apply SymY]; intros b Hb; destruct (flip00 ny nz p X 0 b Hy Hz) as (F1 & F2 & F3 & F4); destruct (H b Hb) as (A & B); rewrite ?F1, ?F2, ?F3, ?F4;
    destruct (Z.testbit parity 0), (Z.testbit parity 1), (Z.testbit parity 2), (Z.testbit parity 3); cbn [andb negb] in *; try discriminate; try (exfalso; apply W; reflexivity);
    try (specialize (A eq_refl); rewrite A); try (specialize (B eq_refl); rewrite B); split; clear; apply C_eq; csimp; ring.
Qed.

(** The constraints act band by band. *)
Lemma pc_band nx lnx ny nz parity p X b : field lnx ny nz p X -> sizes nx lnx ny nz -> 0 <= b < p ->
  (wanted parity 0 1 <> 0 -> forall x y z c, inside lnx ny nz p x y z c b -> zflip ny nz p X x y z c b = Cscal (IZR (wanted parity 0 1)) (amp ny nz p X x y z c b)) ->
  (wanted parity 2 3 <> 0 -> forall x y z c, inside lnx ny nz p x y z c b -> yflip ny nz p X x y z c b = Cscal (IZR (wanted parity 2 3)) (amp ny nz p X x y z c b)) ->
  exists X', parity_constraint nx lnx ny nz parity p X = Val X' /\ length X' = length X /\
    forall x y z c, inside lnx ny nz p x y z c b -> amp ny nz p X' x y z c b = amp ny nz p X x y z c b.
Proof.
  intros F S Hb Sz Sy. destruct (pc_ok nx lnx ny nz parity p X F S) as (X1 & X' & E & Hz & Hy & L1 & L2). exists X'. split; [exact E|]. split; [exact L2|].
  assert (A1 : forall x y z c, inside lnx ny nz p x y z c b -> amp ny nz p X1 x y z c b = amp ny nz p X x y z c b).
  { intros x y z c Q. destruct Hz as [(_ & ->)|(W & (_ & P & _))]; [reflexivity|]. rewrite P by exact Q. pose proof (Sz W x y z c Q) as Z1. unfold zflip in Z1. pose proof (wanted_pm _ _ _ W) as Hs.
    revert Z1 Hs. generalize (amp ny nz p X x y (opp nz z) c b), (amp ny nz p X x y z c b), (wanted parity 0 1). clear. intros u v s Z1 Hs.
    destruct u, v, (c =? 0), Hs as [->| ->]; cbn [Z.opp]; injection Z1; intros; apply C_eq; csimp; lra. }
  intros x y z c Q. rewrite <- A1 by exact Q. destruct Hy as [(_ & ->)|(W & (_ & P & _))]; [reflexivity|]. rewrite P by exact Q.
  pose proof (Sy W x y z c Q) as Z1. unfold yflip in Z1. pose proof (wanted_pm _ _ _ W) as Hs.
  assert (Q' : inside lnx ny nz p x (opp ny y) z c b) by (destruct Q as (Q1 & Q2 & Q3 & Q4 & Q5); pose proof (opp_range ny y ltac:(lia)); unfold inside; lia).
  rewrite <- (A1 _ _ _ _ Q), <- (A1 _ _ _ _ Q') in Z1.
  revert Z1 Hs. generalize (amp ny nz p X1 x (opp ny y) z c b), (amp ny nz p X1 x y z c b), (wanted parity 2 3). clear. intros u v s Z1 Hs.
  destruct u, v, (c =? 0), Hs as [->| ->]; cbn [Z.opp]; injection Z1; intros; apply C_eq; csimp; lra.
Qed.

Lemma zero_k_ok {A} (zero : A) X Nstart : wf X -> (Nstart <= 0 -> 2 <= en X) ->
  exists X', zero_k_constraint zero X Nstart = Val X' /\ wf X' /\ en X' = en X /\ ep X' = ep X /\ ealloc X' = ealloc X /\
    forall i j, 0 <= i < en X -> 0 <= j < ep X -> ent X' i j = if (Nstart <=? 0) && (i <? 2) then Val zero else ent X i j.
Proof.
  intros W Hn2. pose proof W as (Hn & Hp & Hl). unfold zero_k_constraint. rewrite Z.gtb_ltb. destruct (Z.ltb_spec 0 Nstart).
  { exists X. repeat (split; [auto; reflexivity|]). intros i j Hi Hj. destruct (Z.leb_spec Nstart 0); [lia|]. reflexivity. }
  specialize (Hn2 ltac:(lia)). set (p := ep X) in *.
  assert (HL : 2 * p <= Z.of_nat (length (edata X))) by (rewrite Hl; nia).
  destruct (forZ_inv (fun n d => length d = length (edata X) /\ forall x, rd d x = if ((0 <=? x) && (x <? n)) || ((p <=? x) && (x <? p + n)) then Val zero else rd (edata X) x)
    (fun j d => let! d := wr d j zero in wr d (p + j) zero) 0 p (edata X) ltac:(lia)) as (d & E & L & H1).
  - split; [reflexivity|]. intros x. destruct (Z.leb_spec 0 x), (Z.ltb_spec x 0), (Z.leb_spec p x), (Z.ltb_spec x (p + 0)); try lia; reflexivity.
  - intros j d Hj (L & H1). destruct (wr d j zero) as [d1| | |] eqn:E1; try (rewrite wr_in in E1 by lia; discriminate). cbn [bind].
    pose proof (wr_length _ _ _ _ E1) as L1. destruct (wr d1 (p + j) zero) as [d2| | |] eqn:E2; try (rewrite wr_in in E2 by lia; discriminate).
    pose proof (wr_length _ _ _ _ E2) as L2. exists d2. split; [reflexivity|]. split; [congruence|]. intros x. rewrite (rd_wr _ _ _ _ _ E2), (rd_wr _ _ _ _ _ E1), H1.
    destruct (Z.eqb_spec x (p + j)), (Z.eqb_spec x j), (Z.leb_spec 0 x), (Z.ltb_spec x j), (Z.leb_spec p x), (Z.ltb_spec x (p + j)), (Z.ltb_spec x (j + 1)), (Z.ltb_spec x (p + (j + 1))); try lia; reflexivity.
  - rewrite E. cbn [bind]. exists (set_data X d). split; [reflexivity|]. split; [split; [exact Hn|]; split; [exact Hp|]; cbn; rewrite L; exact Hl|]. repeat (split; [reflexivity|]).
    intros i j Hi Hj. unfold ent. cbn [set_data edata ep]. fold p. rewrite H1. destruct (Z.leb_spec Nstart 0); [|lia]. cbn [andb].
    pose proof (rowin (en X) p p i j ltac:(lia) ltac:(lia) ltac:(lia)).
    destruct (Z.ltb_spec i 2).
    + assert (i = 0 \/ i = 1) as [->| ->] by lia; destruct (Z.leb_spec 0 (0 * p + j)), (Z.ltb_spec (0 * p + j) p), (Z.leb_spec 0 (1 * p + j)), (Z.ltb_spec (1 * p + j) p), (Z.leb_spec p (1 * p + j)), (Z.ltb_spec (1 * p + j) (p + p)); try lia; reflexivity.
    + assert (2 * p <= i * p) by (apply Z.mul_le_mono_nonneg_r; lia).
      destruct (Z.leb_spec 0 (i * p + j)), (Z.ltb_spec (i * p + j) p), (Z.leb_spec p (i * p + j)), (Z.ltb_spec (i * p + j) (p + p)); try lia; reflexivity.
Qed.

(** What set_const_bands writes, as fields. *)
Lemma const_bands_field X parity lnx ny nz : wf X -> en X = lnx * ny * nz * 2 -> 0 < lnx -> 0 < ny -> 0 < nz ->
  exists X', set_const_bands C0 C1 X parity 0 = Val X' /\ wf X' /\ en X' = en X /\ ep X' = ep X /\ field lnx ny nz (ep X) (edata X') /\
    (forall j, 0 <= j < const_count parity (ep X) ->
      (forall x y z c, inside lnx ny nz (ep X) x y z c j ->
        amp ny nz (ep X) (edata X') x y z c j = unit_at ((x =? 0) && (y =? 0) && (z =? 0) && (c =? const_row parity j))) /\
      (const_row parity j = 0 /\ m_allowed parity = true \/ const_row parity j = 1 /\ n_allowed parity = true)).
Proof.
  intros W En Hx Hy Hz. pose proof W as (Hn & Hp & Hl).
  assert (0 < lnx * ny * nz) by (apply Z.mul_pos_pos; [apply Z.mul_pos_pos|]; lia).
  destruct (set_const_ok C0 C1 X parity 0 W ltac:(lia)) as (X' & E & W' & E1 & E2 & E3 & H1 & _). exists X'. split; [exact E|]. split; [exact W'|]. split; [exact E1|]. split; [exact E2|].
  split. { destruct W' as (A & B & D). unfold field. rewrite D, E1, En, E2 in *. repeat split; try lia; try nia. }
  intros j Hj. assert (Hjp : 0 <= j < ep X) by (pose proof (const_count_range parity (ep X)); lia). split.
  - intros x y z c (Q1 & Q2 & Q3 & Q4 & Q5). pose proof (pos_in lnx ny nz x y z Q1 Q2 Q3) as PI.
    specialize (H1 (((x * ny + y) * nz + z) * 2 + c) j ltac:(lia) Hj). unfold ent in H1. rewrite E2 in H1. unfold amp, gets. rewrite H1. cbn [Z.leb Z.compare andb].
    assert (CR : 0 <= const_row parity j < 2). { unfold const_row, const_count in *. destruct (m_allowed parity), (n_allowed parity); cbn in *; lia. }
    destruct (Z.eqb_spec (((x * ny + y) * nz + z) * 2 + c) (const_row parity j)) as [Q|Q].
    + assert ((x * ny + y) * nz + z = 0 /\ c = const_row parity j) as (P0 & ->) by lia.
      assert (z = 0 /\ x * ny + y = 0) as (-> & P1) by (assert (P' : (x * ny + y) * nz + z = 0 * nz + 0) by lia; apply rowinj in P' as (? & ?); lia).
      assert (y = 0 /\ x = 0) as (-> & ->) by (assert (P' : x * ny + y = 0 * ny + 0) by lia; apply rowinj in P' as (? & ?); lia).
      rewrite !Z.eqb_refl. reflexivity.
    + destruct (Z.eqb_spec x 0) as [->|], (Z.eqb_spec y 0) as [->|], (Z.eqb_spec z 0) as [->|], (Z.eqb_spec c (const_row parity j)) as [->|]; cbn [andb]; try reflexivity. lia.
  - unfold const_row, const_count in *. destruct (m_allowed parity), (n_allowed parity); cbn in *; lia.
Qed.
Lemma const_bands_orth X parity lnx ny nz X' : wf X -> en X = lnx * ny * nz * 2 -> 0 < lnx -> 0 < ny -> 0 < nz -> set_const_bands C0 C1 X parity 0 = Val X' ->
  forall j j', 0 <= j < const_count parity (ep X) -> 0 <= j' < const_count parity (ep X) -> inner lnx ny nz (ep X) (edata X') (edata X') j j' = if j =? j' then C1 else C0.
Proof.
  intros W En Hx Hy Hz E j j' Hj Hj'. assert (0 < lnx * ny * nz) by (apply Z.mul_pos_pos; [apply Z.mul_pos_pos|]; lia).
  destruct (set_const_ok C0 C1 X parity 0 W ltac:(lia)) as (X2 & E' & W' & E1 & E2 & E3 & H1 & _). rewrite E in E'. injection E' as <-.
  assert (G : forall i k, 0 <= i < en X -> 0 <= k < const_count parity (ep X) -> gets (edata X') (i * ep X + k) = if i =? const_row parity k then C1 else C0).
  { intros i k Hi Hk. specialize (H1 i k Hi Hk). unfold ent in H1. rewrite E2 in H1. unfold gets. rewrite H1. cbn [Z.leb Z.compare andb]. destruct (i =? const_row parity k); reflexivity. }
  unfold inner.
  assert (CR : 0 <= const_row parity j < 2) by (unfold const_row, const_count in *; destruct (m_allowed parity), (n_allowed parity); cbn in *; lia).
  assert (CI : j <> j' -> const_row parity j <> const_row parity j') by (unfold const_row, const_count in *; destruct (m_allowed parity), (n_allowed parity); cbn in *; lia).
  rewrite (csum_ext _ _ (fun r => if Nat.eqb r (Z.to_nat (const_row parity j)) then (if j =? j' then C1 else C0) else C0)).
  - rewrite (csum_single _ (Z.to_nat (const_row parity j))); [rewrite Nat.eqb_refl; reflexivity|lia|]. intros i _ Hi. destruct (Nat.eqb_spec i (Z.to_nat (const_row parity j))); [contradiction|reflexivity].
  - intros r Hr. rewrite !G by lia. destruct (Nat.eqb_spec r (Z.to_nat (const_row parity j))) as [->|Nr].
    + rewrite Z2Nat.id, Z.eqb_refl by lia. destruct (Z.eqb_spec j j') as [->|Nj]; [rewrite Z.eqb_refl|destruct (Z.eqb_spec (const_row parity j) (const_row parity j')); [exfalso; apply CI; auto|]]; clear; apply C_eq; csimp; ring.
    + destruct (Z.eqb_spec (Z.of_nat r) (const_row parity j)); [lia|]. destruct (Z.of_nat r =? const_row parity j'); clear; apply C_eq; csimp; ring.
Qed.

(** ** Dominant plane wave, with the table *)

Lemma entry_vec q e : transverse q = Val e -> vscale (kmag e) (vcross (km e) (kn e)) = q /\ rdot (km e) (km e) = 1%R /\ rdot (kn e) (kn e) = 1%R /\ rdot (km e) (kn e) = 0%R.
Proof.
  intros E. destruct (transverse_ok q) as (e' & E' & Z0 & NZ). rewrite E in E'. injection E' as <-.
  assert (D : q = (0, 0, 0)%R \/ q <> (0, 0, 0)%R).
  { destruct q as ((a, b), c). destruct (Req_dec a 0), (Req_dec b 0), (Req_dec c 0); subst; [left; reflexivity|right; congruence ..]. }
  destruct D as [D|D].
  - destruct (Z0 D) as (-> & -> & ->). rewrite D. cbn [vcross vscale rdot]. repeat split; try (f_equal; [f_equal|]); ring.
  - destruct (NZ D) as (A & B & G & _ & _ & H & _). split; [|auto]. rewrite <- H. destruct (km e) as ((?, ?), ?), (kn e) as ((?, ?), ?). cbn [vcross rcross vscale rsc]. f_equal; [f_equal|]; ring.
Qed.
Lemma split_pos ny nz l i : 0 < ny -> 0 < nz -> 0 <= i < l * ny * nz -> exists x y z, 0 <= x < l /\ 0 <= y < ny /\ 0 <= z < nz /\ i = (x * ny + y) * nz + z.
Proof.
  intros Hy Hz Hi. exists (i / nz / ny), ((i / nz) mod ny), (i mod nz).
  pose proof (Z.div_mod i nz ltac:(lia)). pose proof (Z.mod_pos_bound i nz ltac:(lia)). pose proof (Z.div_mod (i / nz) ny ltac:(lia)). pose proof (Z.mod_pos_bound (i / nz) ny ltac:(lia)).
  assert (0 <= i / nz < l * ny) by (split; [apply Z.div_pos; lia|apply Z.div_lt_upper_bound; lia]).
  assert (0 <= i / nz / ny < l) by (split; [apply Z.div_pos; lia|apply Z.div_lt_upper_bound; lia]).
  repeat split; try lia.
Qed.
Lemma dominant_ok nx ny nz s l k G1 G2 G3 t p band data : 0 < l -> field l ny nz p data -> 1 <= band <= p -> k_plus_G nx ny nz s l k G1 G2 G3 = Val t ->
  exists m x y z, dominant_planewave (local_N l ny nz) p band data t = Val (m, kpG k G1 G2 G3 (kidx nx (s + x)) (kidx ny y) (kidx nz z)) /\
    0 <= x < l /\ 0 <= y < ny /\ 0 <= z < nz /\
    m = intensity ny nz p data x y z (band - 1) /\
    forall x' y' z', 0 <= x' < l -> 0 <= y' < ny -> 0 <= z' < nz -> (intensity ny nz p data x' y' z' (band - 1) <= m)%R.
Proof.
  intros Hl0 (Hl & Hy & Hz & Hp & HL) Hb Et. destruct (table_ok nx ny nz s l k G1 G2 G3 Hl Hy Hz) as (t' & E & Lt & Ht). rewrite Et in E. injection E as <-.
  unfold dominant_planewave. assert (((1 <=? band) && (band <=? p)) = true) as -> by lia. cbn [check bind]. unfold local_N.
  assert (HN : 0 < l * ny * nz) by (apply Z.mul_pos_pos; [apply Z.mul_pos_pos|]; lia).
  destruct (dominant_index_ok (l * ny * nz) p band data ltac:(lia) HL Hb) as (m & i & -> & H1 & H2). cbn [bind fst snd].
  assert (IE : forall x y z, intensity ny nz p data x y z (band - 1) = inten p band data ((x * ny + y) * nz + z)).
  { intros. unfold intensity, inten, amp. replace ((((x * ny + y) * nz + z) * 2 + 0) * p + (band - 1)) with ((((x * ny + y) * nz + z) * 2 + 0) * p + band - 1) by lia.
    replace ((((x * ny + y) * nz + z) * 2 + 1) * p + (band - 1)) with ((((x * ny + y) * nz + z) * 2 + 1) * p + band - 1) by lia. reflexivity. }
  assert (Hi : 0 <= i < l * ny * nz) by (destruct H2 as [(? & _)|(? & _)]; lia).
  destruct (split_pos ny nz l i Hy Hz Hi) as (x & y & z & Hx & Hy' & Hz' & ->). destruct (Ht x y z Hx Hy' Hz') as (e & -> & Ee). cbn [bind].
  destruct (entry_vec _ _ Ee) as (-> & _). exists m, x, y, z. split; [reflexivity|]. repeat (split; [assumption|]). split.
  - rewrite IE. destruct H2 as [(_ & _ & -> & _)|(I0 & M0)]; [reflexivity|].
    assert (N0 : (0 <= inten p band data ((x * ny + y) * nz + z))%R).
    { unfold inten, normsqr. pose proof (Rle_0_sqr). unfold Rsqr in *. repeat apply Rplus_le_le_0_compat; auto. }
    specialize (H1 _ Hi). lra.
  - intros x' y' z' Q1 Q2 Q3. rewrite IE. apply H1. apply pos_in; auto.
Qed.

Lemma maxloc_ok l : l <> [] -> In (maxloc l) l /\ forall c, In c l -> (fst c <= fst (maxloc l))%R.
Proof.
  destruct l as [|a t]; [contradiction|]. intros _. cbn [maxloc].
  assert (G : forall (t : list (R * Z)) a, let m := fold_left (fun best c => if Rltb (fst best) (fst c) then c else if Reqb (fst best) (fst c) && (snd c <? snd best) then c else best) t a in
    In m (a :: t) /\ forall c, In c (a :: t) -> (fst c <= fst m)%R).
  { clear. induction t as [|c t IH]; intros a m; cbn [fold_left] in m.
    - split; [left; reflexivity|]. intros c [->|[]]. apply Rle_refl.
    - set (b := if Rltb (fst a) (fst c) then c else if Reqb (fst a) (fst c) && (snd c <? snd a) then c else a) in m.
      assert (Hb : (b = a \/ b = c) /\ (fst a <= fst b)%R /\ (fst c <= fst b)%R).
      { unfold b. destruct (Rltb_spec (fst a) (fst c)); [split; [auto|lra]|]. destruct (Reqb_spec (fst a) (fst c)); cbn [andb]; [destruct (snd c <? snd a)|]; split; auto; lra. }
      destruct (IH b) as (I1 & I2). fold m in I1, I2. destruct Hb as (B1 & B2 & B3). split.
      + destruct I1 as [I1|I1]; [rewrite <- I1; destruct B1 as [->| ->]; [left|right; left]; reflexivity|right; right; exact I1].
      + pose proof (I2 b (or_introl eq_refl)). intros d [<-|[<-|Hd]]; [lra|lra|]. apply I2. right. exact Hd. }
  apply G.
Qed.
Definition dres : R * vec := (0, (0, 0, 0))%R.
Lemma dominant_mpi_ok (res : list (R * vec)) : res <> [] ->
  exists m v, dominant_mpi (zrange (Z.of_nat (length res))) res = Val v /\ In (m, v) res /\ forall r, In r res -> (fst r <= m)%R.
Proof.
  intros Hn. unfold dominant_mpi. set (L := combine (map fst res) (zrange (Z.of_nat (length res)))).
  assert (LL : length L = length res) by (unfold L; rewrite combine_length, map_length, zrange_len; lia).
  assert (NE : L <> []) by (intros Q; apply Hn; destruct res; [reflexivity|rewrite Q in LL; discriminate]).
  assert (LE : forall c, In c L -> exists i v, c = (fst (nth i res dres), Z.of_nat i) /\ (i < length res)%nat /\ nth_error res i = Some (fst c, v)).
  { intros c Hc. destruct (In_nth_error _ _ Hc) as (i & Ei). assert (Hi : (i < length L)%nat) by (apply nth_error_Some; congruence).
    exists i. destruct (nth_error res i) as [(a, v)|] eqn:Er; [|apply nth_error_None in Er; lia]. exists v.
    assert (c = (a, Z.of_nat i)).
    { rewrite (nth_error_nth' L (0%R, 0)) in Ei by exact Hi. injection Ei as <-. unfold L. rewrite combine_nth by (rewrite map_length, zrange_len; lia). f_equal.
      - rewrite (nth_indep _ 0%R (fst dres)) by (rewrite map_length; lia). rewrite map_nth. rewrite (nth_error_nth _ _ dres Er). reflexivity.
      - unfold zrange. rewrite (nth_indep _ 0 (Z.of_nat 0)) by (rewrite map_length, seq_length; lia). rewrite map_nth, seq_nth by lia. reflexivity. }
    subst c. rewrite (nth_error_nth _ _ dres Er). cbn [fst]. split; [reflexivity|]. split; [lia|reflexivity]. }
  destruct (maxloc_ok L NE) as (I & M). destruct (LE _ I) as (i & v & Ec & Hi & En). rewrite Ec in *. cbn [fst snd] in *.
  assert (((0 <=? Z.of_nat i) && (Z.of_nat i <? Z.of_nat (length res))) = true) as -> by lia. cbn [check bind].
  unfold rd. destruct (Z.ltb_spec (Z.of_nat i) 0); [lia|]. rewrite Nat2Z.id, En. cbn [bind snd].
  exists (fst (nth i res dres)), v. split; [reflexivity|]. split; [apply nth_error_In in En; exact En|].
  intros r Hr. destruct (In_nth_error _ _ Hr) as (j & Ej). assert (Hj : (j < length res)%nat) by (apply nth_error_Some; congruence).
  assert (Hc : In (nth j L (0%R, 0)) L) by (apply nth_In; lia). destruct (LE _ Hc) as (j' & v' & E' & _ & En').
  specialize (M _ Hc).
  assert (fst (nth j L (0%R, 0)) = fst r).
  { unfold L. rewrite combine_nth by (rewrite map_length, zrange_len; lia). cbn [fst]. rewrite (nth_indep _ 0%R (fst dres)) by (rewrite map_length; lia). rewrite map_nth. rewrite (nth_error_nth _ _ dres Ej). reflexivity. }
  lra.
Qed.

(** ** Mirrored frequencies *)
Lemma mirror_even n x : 0 <= x < n -> n mod 2 = 0 -> x <> n / 2 -> kidx n (opp n x) = - kidx n x.
Proof.
  intros Hx He Hn. unfold kidx, opp. rewrite Z.quot_div_nonneg by lia. pose proof (Z.div_mod n 2 ltac:(lia)). rewrite !Z.geb_leb.
  destruct (Z.eq_dec x 0) as [->|].
  - cbn [Z.opp]. rewrite Zmod_0_l. destruct (Z.leb_spec (Z.max 1 (n / 2)) 0); lia.
  - rewrite Z_mod_nz_opp_full by (rewrite Z.mod_small; lia). rewrite Z.mod_small by lia. destruct (Z.leb_spec (Z.max 1 (n / 2)) (n - x)), (Z.leb_spec (Z.max 1 (n / 2)) x); lia.
Qed.
Lemma mirror_odd n : 3 <= n -> n mod 2 = 1 -> kidx n (opp n (n / 2)) <> - kidx n (n / 2).
Proof.
  intros Hn Ho. unfold kidx, opp. rewrite Z.quot_div_nonneg by lia. pose proof (Z.div_mod n 2 ltac:(lia)). rewrite !Z.geb_leb.
  rewrite Z_mod_nz_opp_full by (rewrite Z.mod_small; lia). rewrite Z.mod_small by lia. destruct (Z.leb_spec (Z.max 1 (n / 2)) (n - n / 2)), (Z.leb_spec (Z.max 1 (n / 2)) (n / 2)); lia.
Qed.
