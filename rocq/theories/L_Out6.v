(** Proofs about files: Bloch phases of the other half, and every point once. *)
From Coq Require Import List ZArith Reals Bool Lia Lra Permutation.
From Verif Require Import Base RC Loops M_Tensor M_Evect M_Grid S_Grid L_Grid L_Grid5 M_Half S_Half L_Half L_Half2 M_Out S_Out L_Out L_Out2 L_Out3 L_Out4 L_Out5.
Import ListNotations.
Local Open Scope Z_scope.

Lemma frac_opp n i : 0 <= i < n -> (IZR i / IZR n + IZR (opp n i) / IZR n = if (i =? 0)%Z then 0 else 1)%R.
Proof.
  intros H. assert (N : IZR n <> 0%R) by (apply not_0_IZR; lia). destruct (opp_cases n i H) as [(-> & ->)|(Pi & ->)].
  - cbn [Z.eqb]. field. exact N.
  - destruct (Z.eqb_spec i 0); [lia|]. rewrite minus_IZR. field. exact N.
Qed.

Section Grid.
Variables n1 n2 n3 : Z.
Hypotheses (P1 : 0 < n1) (P2 : 0 < n2) (P3 : 0 < n3).
Notation kp := (kp n1 n2 n3). Notation nn := (nn n1 n2 n3). Notation blk := (blk n1 n2 n3). Notation oblk := (oblk n1 n2 n3).
Notation oplace := (oplace n1 n2 n3). Notation share_ok := (share_ok n1 n2 n3).

Definition phi (k : R * R * R) (c : Z * Z * Z) : R :=
  let '(k1, k2, k3) := k in let '(i1, i2, i3) := c in (2 * PI * (k1 * (IZR i1 / IZR n1) + k2 * (IZR i2 / IZR n2) + k3 * (IZR i3 / IZR n3)))%R.
Lemma bloch_phi k c : bloch_at k n1 n2 n3 c = expi (phi k c).
Proof. destruct k as ((? & ?) & ?), c as ((? & ?) & ?). reflexivity. Qed.

Lemma phase_eq k pr c : share_ok true pr -> In c (whole n1 n2 n3) -> kp <= last_coord n2 n3 c ->
  (let '(x, y) := wrapped n2 n3 pr c in half_phases (among pr) (fft_rank n2 n3) (out_k pr k) x y) = expi (- (phi k c + phi k (mirror n1 n2 n3 c))).
Proof.
  intros Ho Hc Hk. destruct c as ((i1 & i2) & i3), k as ((k1 & k2) & k3). apply whole_in in Hc as (H1 & H2 & H3). pose proof (half_arith n1 n2 n3 P1 P2 P3) as HA.
  assert (EQ : (- (phi (k1, k2, k3) (i1, i2, i3) + phi (k1, k2, k3) (mirror n1 n2 n3 (i1, i2, i3))) =
    - (2 * PI) * (k1 * (if (i1 =? 0)%Z then 0 else 1) + k2 * (if (i2 =? 0)%Z then 0 else 1) + k3 * (if (i3 =? 0)%Z then 0 else 1)))%R).
  { rewrite <- (frac_opp n1 i1 H1), <- (frac_opp n2 i2 H2), <- (frac_opp n3 i3 H3). cbn [phi mirror]. ring. }
  rewrite EQ. clear EQ. unfold last_coord in Hk. unfold wrapped, fft_rank, half_phases, out_k.
  destruct pr as [|l s]; cbn [among].
  - destruct (Z.eqb_spec n3 1) as [E3|E3]; [destruct (Z.eqb_spec n2 1) as [E2|E2]|]; cbn [andb Z.eqb Pos.eqb] in *; cbn [Z.eqb Pos.eqb].
    + destruct (Z.eqb_spec i1 0); [lia|]. destruct (Z.eqb_spec i2 0); [|lia]. destruct (Z.eqb_spec i3 0); [|lia]. apply f_equal. ring.
    + destruct (Z.eqb_spec i2 0); [lia|]. destruct (Z.eqb_spec i3 0); [|lia]. destruct (Z.eqb_spec i1 0); cbn [negb]; apply f_equal; ring.
    + destruct (Z.eqb_spec i3 0); [lia|]. destruct (Z.eqb_spec i1 0), (Z.eqb_spec i2 0); cbn [negb]; apply f_equal; ring.
  - destruct Ho as (_ & _ & Hr & _). destruct (Z.eqb_spec n3 1) as [E3|E3]; [destruct (Z.eqb_spec n2 1) as [E2|E2]; [lia|]|]; cbn [andb Z.eqb Pos.eqb] in *; cbn [Z.eqb Pos.eqb].
    + destruct (Z.eqb_spec i2 0); [lia|]. destruct (Z.eqb_spec i3 0); [|lia]. destruct (Z.eqb_spec i1 0); cbn [negb]; apply f_equal; ring.
    + destruct (Z.eqb_spec i3 0); [lia|]. destruct (Z.eqb_spec i1 0), (Z.eqb_spec i2 0); cbn [negb]; apply f_equal; ring.
Qed.

Lemma folds_bloch k pr nc A : share_ok true pr -> hermitian n1 n2 n3 nc A ->
  folds n1 n2 n3 Cmul Cconj nc (out_k pr k) pr (fun a c => A a c * bloch_at k n1 n2 n3 c)%C.
Proof.
  intros Ho HA r c Hr Hc Hk. rewrite (phase_eq k pr c Ho Hc Hk). rewrite !bloch_phi, (HA r c Hr Hc).
  set (u := phi k c). set (m := phi k (mirror n1 n2 n3 c)). replace (expi u) with (Cconj (expi (- (u + m))) * Cconj (expi m))%C.
  - destruct (A r c) as (a & b), (expi (- (u + m))) as (p & q), (expi m) as (x & y). unfold Cmul, Cconj. cbn. f_equal; ring.
  - rewrite !expi_conj, expi_add. f_equal. ring.
Qed.

Lemma phases_stored real pr k (d : list C) A : share_ok real pr -> stored n1 n2 n3 3 real pr d A ->
  exists d', times_phases (bl (fdims n1 n2 n3 pr)) (bl (blk real pr)) (bl (fstart pr)) (out_k pr k) d = Val d' /\
    stored n1 n2 n3 3 real pr d' (fun a c => A a c * bloch_at k n1 n2 n3 c)%C.
Proof.
  intros Ho Hst. pose proof (fits_main n1 n2 n3 P1 P2 P3 real pr Ho) as F.
  assert (Pd : let '(d0, d1, d2) := fdims n1 n2 n3 pr in 0 < d0 /\ 0 < d1 /\ 0 < d2) by (unfold fdims; destruct (among pr); lia).
  assert (Pb : let '(b0, b1, b2) := blk real pr in 0 <= b0 /\ 0 < b1 /\ 0 < b2).
  { pose proof (half_arith n1 n2 n3 P1 P2 P3) as HA. pose proof (ldim_cases n1 n2 n3) as LC. unfold blk, share_ok in *. destruct pr, real; ones; lia. }
  unfold stored in *. assert (Hph : forall t, fphase (fdims n1 n2 n3 pr) (fstart pr) (out_k pr k) t = bloch_at k n1 n2 n3 (place_in pr t)).
  { intros ((a & b) & c). rewrite bloch_phi. destruct k as ((k1 & k2) & k3). destruct pr as [|l s]; cbn [fdims among fstart out_k fphase place_in phi]; apply f_equal; rewrite ?Z.add_0_r; ring. }
  destruct (fdims n1 n2 n3 pr) as ((d0 & d1) & d2), (blk real pr) as ((b0 & b1) & b2), (fstart pr) as ((s0 & s1) & s2). destruct F as (? & ? & ? & _).
  assert (Len : 3 * (b0 * b1 * b2) <= Z.of_nat (length d)).
  { destruct (Z.eq_dec b0 0) as [Eb|Eb]; [rewrite Eb; lia|]. pose proof (rd_bound _ _ _ (Hst 2 (b0 - 1, b1 - 1, b2 - 1) ltac:(lia) ltac:(cbn [whole3]; apply whole_in; lia))) as B. cbn [size3] in B. replace (((b0 - 1) * b1 + (b1 - 1)) * b2 + (b2 - 1)) with (b0 * b1 * b2 - 1) in B by ring. lia. }
  destruct (phases_ok d0 d1 d2 b0 b1 b2 s0 s1 s2 (out_k pr k) d ltac:(lia) ltac:(lia) ltac:(lia) ltac:(lia) ltac:(lia) ltac:(lia) Len) as (d' & E & L & H3). exists d'. split; [exact E|].
  intros r t Hr Ht. rewrite (H3 t r Ht Hr), Hph. f_equal. f_equal. pose proof (Hst r t Hr Ht) as Q. pose proof (rd_bound _ _ _ Q) as B. rewrite (rd_get_s d _ (0, 0)%R B) in Q. apply val_inj in Q. exact Q.
Qed.

(** Without a wavevector nothing changes, also where there is one number per point. *)
Lemma phases_zero real pr (d : list C) A : share_ok real pr -> stored n1 n2 n3 1 real pr d A ->
  (let '(b0, b1, b2) := blk real pr in 3 * (b0 * b1 * b2) <= Z.of_nat (length d)) ->
  exists d', times_phases (bl (fdims n1 n2 n3 pr)) (bl (blk real pr)) (bl (fstart pr)) (out_k pr (0, 0, 0)%R) d = Val d' /\
    stored n1 n2 n3 1 real pr d' (fun a c => A a c * bloch_at (0, 0, 0)%R n1 n2 n3 c)%C.
Proof.
  intros Ho Hst Len. pose proof (fits_main n1 n2 n3 P1 P2 P3 real pr Ho) as F.
  assert (Pd : let '(d0, d1, d2) := fdims n1 n2 n3 pr in 0 < d0 /\ 0 < d1 /\ 0 < d2) by (unfold fdims; destruct (among pr); lia).
  assert (One : forall x, expi (2 * PI * (0 * x + 0 * x + 0 * x)) = (1, 0)%R) by (intros x; rewrite <- expi_0; f_equal; ring).
  assert (One' : forall x y z, expi (2 * PI * (0 * x + 0 * y + 0 * z)) = (1, 0)%R) by (intros x y z; rewrite <- expi_0; f_equal; ring).
  assert (Hk : out_k pr (0, 0, 0)%R = (0, 0, 0)%R) by (destruct pr; reflexivity). rewrite Hk.
  unfold stored in *.
  destruct (fdims n1 n2 n3 pr) as ((d0 & d1) & d2), (blk real pr) as ((b0 & b1) & b2), (fstart pr) as ((s0 & s1) & s2). destruct F as (B0 & B1 & B2 & _).
  destruct (phases_ok d0 d1 d2 b0 b1 b2 s0 s1 s2 (0, 0, 0)%R d ltac:(lia) ltac:(lia) ltac:(lia) B0 B1 B2 Len) as (d' & E & L & H3). exists d'. split; [exact E|].
  intros r t Hr Ht. pose proof (Hst r t Hr Ht) as Q. pose proof (rd_bound _ _ _ Q) as B. rewrite (rd_get_s d _ (0, 0)%R B) in Q. apply val_inj in Q. set (e := 1 * size3 (b0, b1, b2) t + r) in *.
  assert (He : 0 <= e < b0 * b1 * b2). { unfold e. destruct t as ((a & b) & c). cbn [whole3] in Ht. apply whole_in in Ht. cbn [size3]. assert (0 <= a * b1 + b < b0 * b1) by nia. nia. }
  assert (Ee : e = 3 * (e / 3) + e mod 3) by (apply Z.div_mod; lia). pose proof (Z.mod_pos_bound e 3 ltac:(lia)) as R3. assert (0 <= e / 3 < b0 * b1 * b2) by (split; [apply Z.div_pos; lia|apply Z.div_lt_upper_bound; lia]).
  destruct (size3_in b0 b1 b2 (e / 3) B1 B2 ltac:(assumption)) as (t' & Ht' & Et'). specialize (H3 t' (e mod 3) Ht' R3). rewrite <- Et', <- Ee in H3. rewrite H3. f_equal. rewrite Q. f_equal.
  rewrite bloch_phi. destruct t' as ((a' & b') & c'). cbn [fphase]. rewrite One'. destruct (place_in pr t) as ((x & y) & z). cbn [phi]. rewrite One'. reflexivity.
Qed.

(** ** Every point once *)
Definition key (real : bool) (c : Z * Z * Z) : Z :=
  let '(i1, i2, i3) := c in
  if real then (if n3 =? 1 then (if i2 <? kp then i2 else n2 - i2) else (if i3 <? kp then i2 else opp n2 i2)) else i2.

Lemma nodup_map_in {A B} (f : A -> B) l : (forall x y, In x l -> In y l -> f x = f y -> x = y) -> NoDup l -> NoDup (map f l).
Proof.
  induction l as [|a l IH]; intros Hf Hl; [constructor|]. inversion Hl as [|? ? Ha Hl']; subst. cbn [map]. constructor.
  - intros H. apply in_map_iff in H as (x & Ex & Hx). apply Ha. rewrite <- (Hf x a); [exact Hx|right; exact Hx|left; reflexivity|exact Ex].
  - apply IH; [|exact Hl']. intros x y Hx Hy. apply Hf; right; assumption.
Qed.

Lemma tri_inj {A B D} (a a' : A) (b b' : B) (c c' : D) : (a, b, c) = (a', b', c') -> a = a' /\ b = b' /\ c = c'.
Proof. intros E. inversion E. repeat split. Qed.

Lemma tri_eq (a a' b b' c c' : Z) : a = a' -> b = b' -> c = c' -> (a, b, c) = (a', b', c').
Proof. intros -> -> ->. reflexivity. Qed.

(** The other half of a process with several slabs, in the order of the slabs. *)
Lemma opts_perm pr : share_ok true pr -> Permutation (opts n1 n2 n3 pr) (map (oplace pr) (whole3 (oblk pr))).
Proof.
  intros Ho. unfold opts. destruct (special n3 pr) eqn:Esp; [|apply Permutation_refl]. destruct (special_parts n1 n2 n3 pr Esp) as (l & -> & Hn3 & Eo & Eo'). rewrite Eo', Eo. cbn [whole3].
  assert (Hl : 0 < l) by (cbn [share_ok] in Ho; lia).
  assert (EM : map (fun t : Z * Z * Z => let '(a, b, c) := t in oplace (Among l 0) (a + 1, b, c)) (whole (l - 1) n1 nn) = map (oplace (Among l 0)) (map (fun t : Z * Z * Z => let '(a, b, c) := t in (a + 1, b, c)) (whole (l - 1) n1 nn))).
  { rewrite map_map. apply map_ext. intros ((a & b) & c). reflexivity. }
  rewrite EM, <- map_app. apply Permutation_map. apply NoDup_Permutation.
  - apply nodup_app.
    + apply nodup_map_in; [|apply whole_nodup]. intros ((a & b) & c) ((a' & b') & c') _ _ E. apply tri_inj in E as (E1 & E2 & E3). apply tri_eq; lia.
    + apply whole_nodup.
    + intros ((a & b) & c) H H'. apply in_map_iff in H as (((a' & b') & c') & E & H). apply tri_inj in E as (E1 & E2 & E3). apply whole_in in H. apply whole_in in H'. lia.
  - apply whole_nodup.
  - intros ((a & b) & c). rewrite in_app_iff, in_map_iff, !whole_in. split.
    + intros [(((a' & b') & c') & E & H)|H]; [|lia]. apply tri_inj in E as (E1 & E2 & E3). apply whole_in in H. lia.
    + intros H. destruct (Z.eq_dec a 0); [right; lia|left]. exists (a - 1, b, c). rewrite whole_in. split; [apply tri_eq|]; lia.
Qed.

Lemma oplace_inj pr t t' : share_ok true pr -> In t (whole3 (oblk pr)) -> In t' (whole3 (oblk pr)) -> oplace pr t = oplace pr t' -> t = t'.
Proof.
  intros Ho Ht Ht' E. destruct t as ((a & b) & c), t' as ((a' & b') & c'). destruct pr as [|l s]; unfold oplace, oblk, share_ok in *.
  - destruct (Z.eqb_spec n3 1) as [E3|E3]; [destruct (Z.eqb_spec n2 1) as [E2|E2]|]; apply tri_inj in E as (Ea & Eb & Ec); apply tri_eq; lia.
  - destruct (Z.eqb_spec n3 1) as [E3|E3]; cbn [whole3] in *; apply whole_in in Ht; apply whole_in in Ht'; apply tri_inj in E as (Ea & Eb & Ec).
    + apply tri_eq; lia.
    + destruct (Z.eqb_spec s 0); [destruct (Z.eqb_spec a 0), (Z.eqb_spec a' 0)|]; apply tri_eq; lia.
Qed.

Lemma pts_in real pr c : share_ok real pr -> In c (pts n1 n2 n3 real pr) <-> In c (whole n1 n2 n3) /\ match pr with Alone => True | Among l s => s <= key real c < s + l end.
Proof.
  intros Ho. pose proof (half_arith n1 n2 n3 P1 P2 P3) as HA. pose proof (ldim_cases n1 n2 n3) as LC. destruct c as ((i & j) & k). unfold pts. rewrite in_app_iff.
  assert (HO : In (i, j, k) (if real then opts n1 n2 n3 pr else []) <-> real = true /\ In (i, j, k) (map (oplace pr) (whole3 (oblk pr)))).
  { destruct real; [|cbn; intuition discriminate]. split.
    - intros H. split; [reflexivity|]. exact (Permutation_in _ (opts_perm pr Ho) H).
    - intros (_ & H). exact (Permutation_in _ (Permutation_sym (opts_perm pr Ho)) H). }
  rewrite HO. clear HO. rewrite !in_map_iff, whole_in. destruct pr as [|l s]; cbn [share_ok] in *.
  - split.
    + intros [(((a & b) & c) & E & H)|(-> & ((a & b) & c) & E & H)].
      * cbn [place_in] in E. apply tri_inj in E as (-> & -> & ->). split; [|exact I]. unfold blk in H. destruct real; [|cbn [whole3] in H; apply whole_in in H; exact H].
        destruct (Z.eqb_spec n3 1); [destruct (Z.eqb_spec n2 1)|]; cbn [whole3] in H; apply whole_in in H; lia.
      * split; [|exact I]. unfold oplace, oblk, nn in *. destruct (Z.eqb_spec n3 1); [destruct (Z.eqb_spec n2 1)|]; cbn [whole3] in H; apply whole_in in H; apply tri_inj in E as (Ea & Eb & Ec); lia.
    + intros (H & _). destruct real.
      2:{ left. exists (i, j, k). split; [reflexivity|]. cbn [blk whole3]. apply whole_in. exact H. }
      unfold blk, oplace, oblk, nn. destruct (Z.eqb_spec n3 1); [destruct (Z.eqb_spec n2 1)|]; cbn [whole3].
      * destruct (Z_lt_le_dec i kp); [left; exists (i, j, k); cbn [place_in]; rewrite whole_in; split; [reflexivity|lia]|right; split; [reflexivity|]]. exists (i - kp, j, k). rewrite whole_in. split; [apply tri_eq; lia|lia].
      * destruct (Z_lt_le_dec j kp); [left; exists (i, j, k); cbn [place_in]; rewrite whole_in; split; [reflexivity|lia]|right; split; [reflexivity|]]. exists (i, j - kp, k). rewrite whole_in. split; [apply tri_eq; lia|lia].
      * destruct (Z_lt_le_dec k kp); [left; exists (i, j, k); cbn [place_in]; rewrite whole_in; split; [reflexivity|lia]|right; split; [reflexivity|]]. exists (i, j, k - kp). rewrite whole_in. split; [apply tri_eq; lia|lia].
  - unfold key. destruct real.
    2:{ cbn [blk whole3 place_in]. split.
        - intros [(((a & b) & c) & E & H)|(E & _)]; [|discriminate]. apply tri_inj in E as (-> & E & ->). apply whole_in in H. lia.
        - intros (H & Hk). left. exists (j - s, i, k). rewrite whole_in. split; [apply tri_eq; lia|lia]. }
    destruct Ho as (Hl & Hs & Hr & Hle). cbn [blk place_in]. unfold oplace, oblk, nn in *. destruct (Z.eqb_spec n3 1) as [E3|E3]; cbn [whole3].
    + destruct (Z.eqb_spec n2 1) as [E2|E2]; [lia|].
      set (ny := if (s + l =? kp) && (n2 mod 2 =? 0) then 1 else 0).
      assert (Ny : (ny = 1 /\ s + l = kp /\ n2 mod 2 = 0) \/ (ny = 0 /\ (s + l <> kp \/ n2 mod 2 <> 0))).
      { unfold ny. destruct (Z.eqb_spec (s + l) kp), (Z.eqb_spec (n2 mod 2) 0); cbn; lia. }
      set (z0 := if s =? 0 then 1 else 0). assert (Hz : (z0 = 1 /\ s = 0) \/ (z0 = 0 /\ 0 < s)) by (unfold z0; destruct (Z.eqb_spec s 0); lia). rewrite LC in HA. split.
      * intros [(((a & b) & c) & E & H)|(_ & ((a & b) & c) & E & H)]; apply whole_in in H; apply tri_inj in E as (Ea & Eb & Ec); destruct (Z.ltb_spec j kp); lia.
      * intros (H & Hk). destruct (Z.ltb_spec j kp).
        -- left. exists (j - s, i, k). rewrite whole_in. split; [apply tri_eq; lia|lia].
        -- right. split; [reflexivity|]. exists (j - (n2 - (s + l - 1) + ny), i, k). rewrite whole_in. split; [apply tri_eq; lia|lia].
    + rewrite LC in HA. split.
      * intros [(((a & b) & c) & E & H)|(_ & ((a & b) & c) & E & H)]; apply whole_in in H; apply tri_inj in E as (Ea & Eb & Ec); destruct (Z.ltb_spec k kp); try lia.
        destruct (Z.eqb_spec s 0); [destruct (Z.eqb_spec a 0)|].
        -- subst j. change (opp n2 0) with (- 0 mod n2). rewrite Z.mod_small by lia. lia.
        -- rewrite opp_pos by lia. lia.
        -- rewrite opp_pos by lia. lia.
      * intros (H & Hk). destruct (Z.ltb_spec k kp).
        -- left. exists (j - s, i, k). rewrite whole_in. split; [apply tri_eq; lia|lia].
        -- right. split; [reflexivity|]. destruct (opp_cases n2 j ltac:(lia)) as [(-> & Eo)|(Pj & Eo)]; rewrite Eo in Hk.
           ++ exists (0, i, k - kp). rewrite whole_in. assert (Es : s = 0) by lia. subst s. cbn [Z.eqb]. split; [apply tri_eq; lia|lia].
           ++ destruct (Z.eqb_spec s 0) as [Es|Es].
              ** exists (j - (n2 - l), i, k - kp). rewrite whole_in. destruct (Z.eqb_spec (j - (n2 - l)) 0); [lia|]. split; [apply tri_eq; lia|lia].
              ** exists (j - (n2 - (s + l - 1)), i, k - kp). rewrite whole_in. split; [apply tri_eq; lia|lia].
Qed.

Lemma pts_nodup real pr : share_ok real pr -> NoDup (pts n1 n2 n3 real pr).
Proof.
  intros Ho. unfold pts. apply nodup_app.
  - apply nodup_map_in; [|destruct (blk real pr) as ((? & ?) & ?); apply whole_nodup]. intros ((a & b) & c) ((a' & b') & c') _ _ E. destruct pr; cbn [place_in] in E; apply tri_inj in E as (Ea & Eb & Ec); apply tri_eq; lia.
  - destruct real; [|constructor]. apply (Permutation_NoDup (Permutation_sym (opts_perm pr Ho))). apply nodup_map_in; [|destruct (oblk pr) as ((? & ?) & ?); apply whole_nodup]. intros x y Hx Hy. apply (oplace_inj pr x y Ho Hx Hy).
  - intros ((i & j) & k) H H'. destruct real; [|destruct H']. apply (Permutation_in _ (opts_perm pr Ho)) in H'. apply in_map_iff in H as (((a & b) & c) & E & H). apply in_map_iff in H' as (((a' & b') & c') & E' & H').
    pose proof (half_arith n1 n2 n3 P1 P2 P3) as HA. pose proof (ldim_cases n1 n2 n3) as LC. unfold blk, oplace, oblk, place_in, share_ok, nn in *. destruct pr as [|l s].
    + destruct (Z.eqb_spec n3 1) as [E3|E3]; [destruct (Z.eqb_spec n2 1) as [E2|E2]|]; cbn [whole3] in *; apply whole_in in H; apply whole_in in H'; apply tri_inj in E as (Ea & Eb & Ec); apply tri_inj in E' as (Ea' & Eb' & Ec'); lia.
    + destruct Ho as (Hl & Hs & Hr & Hle). destruct (Z.eqb_spec n3 1) as [E3|E3]; [destruct (Z.eqb_spec n2 1) as [E2|E2]; [lia|]|]; cbn [whole3] in *; apply whole_in in H; apply whole_in in H'; apply tri_inj in E as (Ea & Eb & Ec); apply tri_inj in E' as (Ea' & Eb' & Ec'); [|lia].
      rewrite LC in HA. destruct (Z.eqb_spec (s + l) kp), (Z.eqb_spec (n2 mod 2) 0); cbn [andb] in *; lia.
Qed.

Lemma key_range real c : In c (whole n1 n2 n3) -> (real = true -> n2 <> 1 \/ n3 <> 1) -> 0 <= key real c < if real then (if n3 =? 1 then kp else n2) else n2.
Proof.
  destruct c as ((i & j) & k). rewrite whole_in. intros H Hr. pose proof (half_arith n1 n2 n3 P1 P2 P3) as HA. pose proof (ldim_cases n1 n2 n3) as LC. unfold key. destruct real; [|lia]. specialize (Hr eq_refl).
  destruct (Z.eqb_spec n3 1); [|destruct (Z.ltb_spec k kp); [lia|apply opp_range; lia]]. destruct (Z.eqb_spec n2 1); [lia|]. unfold nn in *. destruct (Z.ltb_spec j kp); lia.
Qed.

Lemma shares_ok (real : bool) shares from to : 0 <= from -> consecutive from shares to -> (real = true -> Forall (fun sh => 0 < snd sh) shares) ->
  (if real then (n2 <> 1 \/ n3 <> 1) /\ to <= (if n3 =? 1 then kp else n2) else to <= n2) ->
  from <= to /\ (forall pr, In pr (map (fun sh => Among (snd sh) (fst sh)) shares) -> share_ok real pr) /\
  NoDup (flat_map (pts n1 n2 n3 real) (map (fun sh => Among (snd sh) (fst sh)) shares)) /\
  (forall c, In c (flat_map (pts n1 n2 n3 real) (map (fun sh => Among (snd sh) (fst sh)) shares)) <-> In c (whole n1 n2 n3) /\ from <= key real c < to).
Proof.
  intros Hf Hc HF Hto. revert from Hf Hc HF. induction shares as [|(s & l) t IH]; intros from Hf Hc HF.
  - cbn in *. subst to. split; [lia|]. split; [intros _ []|]. split; [constructor|]. intros c. split; [intros []|lia].
  - cbn [consecutive] in Hc. destruct Hc as (-> & Hl & Hc). assert (Hl' : real = true -> 0 < l) by (intros Q; specialize (HF Q); inversion HF; assumption). assert (HF' : real = true -> Forall (fun sh => 0 < snd sh) t) by (intros Q; specialize (HF Q); inversion HF; assumption).
    destruct (IH (from + l) ltac:(lia) Hc HF') as (Hle & Hsh & Nd & Hin).
    assert (Ho : share_ok real (Among l from)). { cbn [share_ok]. destruct real; [|lia]. specialize (Hl' eq_refl). destruct Hto as (Hr & Hto). repeat split; try assumption; lia. }
    cbn [map flat_map fst snd]. split; [lia|]. split; [intros pr [<-|H]; [exact Ho|exact (Hsh pr H)]|]. split.
    + apply nodup_app; [apply pts_nodup; exact Ho|exact Nd|]. intros c H H'. apply (pts_in real (Among l from) c Ho) in H. apply Hin in H'. lia.
    + intros c. rewrite in_app_iff, (pts_in real (Among l from) c Ho), Hin. split.
      * intros [(H & Hk)|(H & Hk)]; (split; [exact H|lia]).
      * intros (H & Hk). destruct (Z_lt_le_dec (key real c) (from + l)); [left|right]; (split; [exact H|lia]).
Qed.

Lemma procs_ok real prs : procs n1 n2 n3 real prs ->
  (forall pr, In pr prs -> share_ok real pr /\ among pr = parallel prs) /\ Permutation (flat_map (pts n1 n2 n3 real) prs) (whole n1 n2 n3).
Proof.
  intros [->|(shares & -> & Hd)].
  - split; [intros pr [<-|[]]; split; [exact I|reflexivity]|]. cbn [flat_map]. rewrite app_nil_r. apply NoDup_Permutation; [apply pts_nodup; exact I|apply whole_nodup|]. intros c. rewrite (pts_in real Alone c I). tauto.
  - assert (Hk : kept n2 = kept n2) by reflexivity. pose proof (half_arith n1 n2 n3 P1 P2 P3) as HA.
    assert (Ekp : n3 = 1 -> n2 <> 1 -> kp = kept n2) by (intros E3 E2; unfold L_Out3.kp; rewrite (ldim_cases n1 n2 n3), E3; cbn [Z.eqb Pos.eqb]; destruct (Z.eqb_spec n2 1); [lia|reflexivity]).
    set (to := if real then (if n3 =? 1 then kp else n2) else n2).
    assert (Hc : consecutive 0 shares to).
    { unfold to. destruct real; [|exact Hd]. destruct Hd as (Hr & _ & Hd). unfold divided in Hd. destruct (Z.eqb_spec n3 1); [|exact Hd]. rewrite Ekp by lia. exact Hd. }
    assert (Hr : real = true -> n2 <> 1 \/ n3 <> 1) by (intros ->; tauto).
    assert (HF : real = true -> Forall (fun sh => 0 < snd sh) shares) by (intros ->; tauto).
    destruct (shares_ok real shares 0 to ltac:(lia) Hc HF) as (_ & Hsh & Nd & Hin).
    { unfold to. destruct real; [|lia]. split; [apply Hr; reflexivity|]. destruct (n3 =? 1); lia. }
    split.
    + intros pr Hpr. split; [exact (Hsh pr Hpr)|]. apply in_map_iff in Hpr as (sh & <- & Hsin). destruct shares as [|sh0 t]; [destruct Hsin|]. reflexivity.
    + apply NoDup_Permutation; [exact Nd|apply whole_nodup|]. intros c. rewrite Hin. split; [tauto|]. intros H. split; [exact H|]. exact (key_range real c H Hr).
Qed.
End Grid.
