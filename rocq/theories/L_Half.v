(** Proofs about half-stored grids. *)
From Coq Require Import List ZArith Reals Bool Lia Lra Permutation.
From Verif Require Import Base RC Loops M_Tensor M_Evect S_Evect M_Grid S_Grid L_Grid L_Grid5 M_Op S_Op M_Fld S_Fld L_Fld3 M_Half S_Half.
Import ListNotations.
Local Open Scope Z_scope.

Lemma upto_in n x : In x (upto n) <-> 0 <= x < n.
Proof. exact (zrange_in n x). Qed.
Lemma prod_nodup {A B} (l : list A) (l' : list B) : NoDup l -> NoDup l' -> NoDup (list_prod l l').
Proof.
  intros H H'. induction H as [|a l Na H IH]; cbn [list_prod]; [constructor|]. apply nodup_app.
  - apply FinFun.Injective_map_NoDup; [intros x y E; injection E; auto|exact H'].
  - exact IH.
  - intros (x & y) P Q. apply in_map_iff in P as (z & E & _). injection E as <- <-. apply in_prod_iff in Q. tauto.
Qed.
Lemma whole_in n1 n2 n3 i1 i2 i3 : In (i1, i2, i3) (whole n1 n2 n3) <-> 0 <= i1 < n1 /\ 0 <= i2 < n2 /\ 0 <= i3 < n3.
Proof. unfold whole. rewrite !in_prod_iff, !upto_in. tauto. Qed.
Lemma whole_nodup n1 n2 n3 : NoDup (whole n1 n2 n3).
Proof. unfold whole. repeat apply prod_nodup; apply zrange_nodup. Qed.

Lemma mirror_in n1 n2 n3 c : In c (whole n1 n2 n3) -> In (mirror n1 n2 n3 c) (whole n1 n2 n3).
Proof. destruct c as ((i & j) & k). unfold mirror. rewrite !whole_in. intros (H1 & H2 & H3). pose proof (opp_range n1 i). pose proof (opp_range n2 j). pose proof (opp_range n3 k). lia. Qed.
Lemma mirror_mirror n1 n2 n3 c : In c (whole n1 n2 n3) -> mirror n1 n2 n3 (mirror n1 n2 n3 c) = c.
Proof. destruct c as ((i & j) & k). rewrite whole_in. intros (H1 & H2 & H3). unfold mirror. rewrite !opp_opp by assumption. reflexivity. Qed.
Lemma back_opp n i : 0 <= i < n -> back n i = opp n i.
Proof. intros H. unfold back, opp. destruct (Z.eqb_spec i 0) as [->|Ne]; [reflexivity|]. rewrite Z.mod_opp_l_nz; rewrite ?Z.mod_small; lia. Qed.
Lemma opp_pos n i : 0 < i < n -> opp n i = n - i.
Proof. intros H. rewrite <- back_opp by lia. unfold back. destruct (Z.eqb_spec i 0); lia. Qed.

Lemma consecutive_start from shares to : 0 <= from -> consecutive from shares to -> forall sh, In sh shares -> 0 <= fst sh /\ 0 <= snd sh.
Proof.
  revert from. induction shares as [|(s & n) t IH]; intros from Hf H sh; [intros []|]. cbn [consecutive] in H. destruct H as (-> & Hn & Ht). intros [<-|Hs]; [cbn [fst snd]; lia|]. exact (IH (from + n) ltac:(lia) Ht sh Hs).
Qed.

Section Half.
Variables n1 n2 n3 : Z.
Hypotheses (P1 : 0 < n1) (P2 : 0 < n2) (P3 : 0 < n3).
Let ld := last_dim n1 n2 n3.

Lemma ld_pos : 0 < ld.
Proof. unfold ld, last_dim, fft_rank. destruct (n3 =? 1); [destruct (n2 =? 1)|]; cbn; assumption. Qed.
Lemma ld_cases : ld = if n3 =? 1 then (if n2 =? 1 then n1 else n2) else n3.
Proof. unfold ld, last_dim, fft_rank. destruct (n3 =? 1); [destruct (n2 =? 1)|]; reflexivity. Qed.
Lemma last_range c : In c (whole n1 n2 n3) -> 0 <= last_coord n2 n3 c < ld.
Proof. destruct c as ((i & j) & k). rewrite whole_in, ld_cases. unfold last_coord. destruct (n3 =? 1); [destruct (n2 =? 1)|]; tauto. Qed.
Lemma last_mirror c : last_coord n2 n3 (mirror n1 n2 n3 c) = opp ld (last_coord n2 n3 c).
Proof. destruct c as ((i & j) & k). rewrite ld_cases. unfold last_coord, mirror. destruct (n3 =? 1); [destruct (n2 =? 1)|]; reflexivity. Qed.
Lemma twice_iff c : In c (whole n1 n2 n3) -> last_coord n2 n3 c < kept ld -> (twice_at n1 n2 n3 c = true <-> kept ld <= last_coord n2 n3 (mirror n1 n2 n3 c)).
Proof.
  intros Hc Hk. pose proof (last_range c Hc) as R. rewrite last_mirror. unfold twice_at. fold ld. unfold kept in *. rewrite andb_true_iff, !negb_true_iff, !Z.eqb_neq.
  assert (D : 2 * (ld / 2) <= ld < 2 * (ld / 2) + 2) by (pose proof (Z.div_mod ld 2 ltac:(lia)); pose proof (Z.mod_pos_bound ld 2 ltac:(lia)); lia).
  destruct (Z.eq_dec (last_coord n2 n3 c) 0) as [E|E].
  - rewrite E. unfold opp. rewrite Z.mod_0_l by lia. lia.
  - rewrite opp_pos by lia. lia.
Qed.
Lemma beyond c : In c (whole n1 n2 n3) -> kept ld <= last_coord n2 n3 c -> let m := mirror n1 n2 n3 c in last_coord n2 n3 m < kept ld /\ twice_at n1 n2 n3 m = true.
Proof.
  intros Hc Hk m. pose proof (last_range c Hc) as R. unfold kept in *.
  assert (D : 2 * (ld / 2) <= ld < 2 * (ld / 2) + 2) by (pose proof (Z.div_mod ld 2 ltac:(lia)); pose proof (Z.mod_pos_bound ld 2 ltac:(lia)); lia).
  assert (A : last_coord n2 n3 m < ld / 2 + 1) by (unfold m; rewrite last_mirror, opp_pos; lia).
  split; [exact A|]. apply twice_iff; [apply mirror_in, Hc|exact A|]. unfold m. rewrite mirror_mirror by exact Hc. exact Hk.
Qed.

Lemma half_perm L : NoDup L -> (forall c, In c L <-> In c (whole n1 n2 n3) /\ last_coord n2 n3 c < kept ld) ->
  Permutation (flat_map (fun c => stands_for n1 n2 n3 (twice_at n1 n2 n3 c) c) L) (whole n1 n2 n3).
Proof.
  intros Nd HL. apply NoDup_Permutation; [|apply whole_nodup|].
  - assert (G : forall l, NoDup l -> (forall c, In c l -> In c L) -> NoDup (flat_map (fun c => stands_for n1 n2 n3 (twice_at n1 n2 n3 c) c) l) /\
      forall c, In c (flat_map (fun c => stands_for n1 n2 n3 (twice_at n1 n2 n3 c) c) l) -> In c l \/ (kept ld <= last_coord n2 n3 c /\ In (mirror n1 n2 n3 c) l)).
    { clear Nd. induction l as [|a l IH]; intros Nl Hl; [split; [constructor|intros c []]|]. inversion Nl as [|? ? Na Nl']. subst. destruct (IH Nl' (fun c H => Hl c (or_intror H))) as (I1 & I2).
      assert (Ha : In a (whole n1 n2 n3) /\ last_coord n2 n3 a < kept ld) by (apply HL, Hl; left; reflexivity). destruct Ha as (Ha & Hk).
      cbn [flat_map]. unfold stands_for at 1 3. destruct (twice_at n1 n2 n3 a) eqn:T; cbn [app].
      - pose proof (proj1 (twice_iff a Ha Hk) T) as Hm. split.
        + constructor; [|constructor; [|exact I1]].
          * intros [E|Q]; [rewrite E in Hm; lia|]. destruct (I2 a Q) as [|(X & _)]; [contradiction|lia].
          * intros Q. destruct (I2 _ Q) as [X|(_ & X)].
            -- apply (or_intror) with (A := a = mirror n1 n2 n3 a) in X. apply Hl in X. apply HL in X. lia.
            -- rewrite mirror_mirror in X by exact Ha. contradiction.
        + intros c [<-|[<-|Q]]; [left; left; reflexivity|right; split; [exact Hm|left; symmetry; apply mirror_mirror, Ha]|]. destruct (I2 c Q) as [X|(X & Y)]; [left; right; exact X|right; split; [exact X|right; exact Y]].
      - split.
        + constructor; [|exact I1]. intros Q. destruct (I2 a Q) as [|(X & _)]; [contradiction|lia].
        + intros c [<-|Q]; [left; left; reflexivity|]. destruct (I2 c Q) as [X|(X & Y)]; [left; right; exact X|right; split; [exact X|right; exact Y]]. }
    apply (G L Nd). auto.
  - intros c. rewrite in_flat_map. split.
    + intros (a & Ha & Q). apply HL in Ha as (Ha & _). unfold stands_for in Q. destruct Q as [<-|Q]; [exact Ha|]. destruct (twice_at n1 n2 n3 a); [|contradiction]. destruct Q as [<-|[]]. apply mirror_in, Ha.
    + intros Hc. destruct (Z_lt_le_dec (last_coord n2 n3 c) (kept ld)) as [Q|Q].
      * exists c. split; [apply HL; auto|left; reflexivity].
      * destruct (beyond c Hc Q) as (A & B). exists (mirror n1 n2 n3 c). split; [apply HL; split; [apply mirror_in, Hc|exact A]|]. unfold stands_for. rewrite B. right. left. apply mirror_mirror, Hc.
Qed.

Lemma flat_map_fst {A} (f : Z * Z * Z -> list A) (L : list (Z * Z * Z * Z)) : flat_map (fun pt => f (fst pt)) L = flat_map f (map fst L).
Proof. induction L as [|a L IH]; cbn; [reflexivity|]. rewrite IH. reflexivity. Qed.
Lemma flat_map_eq {A B} (f g : A -> list B) l : (forall x, In x l -> f x = g x) -> flat_map f l = flat_map g l.
Proof. intros H. induction l as [|a l IH]; cbn; [reflexivity|]. rewrite H by (left; reflexivity). rewrite IH; [reflexivity|]. intros x Hx. apply H. right. exact Hx. Qed.

Lemma nlast : Z.quot (last_dim_size n1 n2 n3) 2 = kept ld.
Proof. unfold last_dim_size, kept. fold ld. pose proof ld_pos. rewrite (Z.quot_div_nonneg ld) by lia. rewrite (Z.mul_comm 2), Z.quot_mul by lia. reflexivity. Qed.

Lemma real_index c idx : In (c, idx) (loop_real n1 n2 n3) -> twice_real (kept ld) ld idx = twice_at n1 n2 n3 c.
Proof.
  unfold loop_real. rewrite nlast. intros H. apply in_flat_map in H as (a & Ha & H). apply in_map_iff in H as (b & E & Hb). apply zrange_in in Ha, Hb.
  unfold twice_real, twice_at. fold ld.
  assert (Q : idx = a * kept ld + b /\ last_coord n2 n3 c = b).
  { unfold fft_rank in E. unfold last_coord. destruct (n3 =? 1); [destruct (n2 =? 1)|]; cbn in E; injection E as <- <-; auto. }
  destruct Q as (-> & ->). rewrite Z.rem_mod_nonneg by (try nia; unfold kept in *; pose proof ld_pos; pose proof (Z.div_pos ld 2); lia). rewrite dm_mod by lia. reflexivity.
Qed.
Lemma real_points c : In c (map fst (loop_real n1 n2 n3)) <-> In c (whole n1 n2 n3) /\ last_coord n2 n3 c < kept ld.
Proof.
  destruct (loop_real_ok n1 n2 n3 P1 P2 P3) as (_ & _ & H). rewrite H. destruct c as ((i & j) & k). rewrite whole_in. rewrite ld_cases. unfold last_coord, box, kept.
  destruct (Z.eqb_spec n3 1) as [->|]; [destruct (Z.eqb_spec n2 1) as [->|]|]; cbn [box].
  - assert (n1 / 2 + 1 <= n1) by (pose proof (Z.div_lt n1 2); lia). lia.
  - assert (n2 / 2 + 1 <= n2) by (pose proof (Z.div_lt n2 2); lia). lia.
  - assert (n3 / 2 + 1 <= n3) by (pose proof (Z.div_lt n3 2); lia). lia.
Qed.
Lemma real_perm : Permutation (flat_map (fun pt => stands_for n1 n2 n3 (twice_real (kept ld) ld (snd pt)) (fst pt)) (loop_real n1 n2 n3)) (whole n1 n2 n3).
Proof.
  rewrite (flat_map_eq _ (fun pt => stands_for n1 n2 n3 (twice_at n1 n2 n3 (fst pt)) (fst pt))).
  - rewrite (flat_map_fst (fun c => stands_for n1 n2 n3 (twice_at n1 n2 n3 c) c)). apply half_perm; [|exact real_points]. apply (loop_real_ok n1 n2 n3 P1 P2 P3).
  - intros (c & idx) H. cbn [fst snd]. rewrite (real_index c idx H). reflexivity.
Qed.

(** Parallel: in 2d the index gives the second coordinate, in 3d the third. *)
Definition par_twice (start : Z) (idx : Z) : bool := if n3 =? 1 then twice_mpi2 n1 start ld idx else twice_real (kept ld) ld idx.
Hypothesis rank : n2 <> 1 \/ n3 <> 1.
Lemma mpi_index count start c idx : 0 <= start -> In (c, idx) (loop_real_mpi n1 n2 n3 count start) -> par_twice start idx = twice_at n1 n2 n3 c.
Proof.
  intros Hs H. unfold loop_real_mpi in H. rewrite nlast in H. apply in_flat_map in H as (a & Ha & H). apply in_flat_map in H as (b & Hb & H). apply in_map_iff in H as (k & E & Hk). apply zrange_in in Ha, Hb, Hk. injection E as <- <-.
  unfold par_twice, twice_at, last_coord. fold ld. destruct (Z.eqb_spec n3 1) as [E3|E3].
  - rewrite E3 in *. cbn in Hk |- *. unfold twice_mpi2. destruct (Z.eqb_spec n2 1); [lia|]. assert (k = 0) by lia. subst k. rewrite Z.mul_1_r, Z.add_0_r. rewrite Z.quot_div_nonneg by nia. rewrite dm_div by lia. reflexivity.
  - assert (Q : (n3 >? 1) = true) by lia. rewrite Q in *. unfold twice_real. assert (Z0 : 0 <= a * n1 + b) by nia. rewrite Z.rem_mod_nonneg; [|nia|lia]. rewrite dm_mod by lia. reflexivity.
Qed.
Lemma mpi_points count start c : 0 <= count -> In c (map fst (loop_real_mpi n1 n2 n3 count start)) <-> let '(i, j, k) := c in 0 <= i < n1 /\ start <= j < start + count /\ 0 <= k < (if n3 =? 1 then 1 else kept n3).
Proof.
  intros Hc. unfold loop_real_mpi. rewrite nlast.
  assert (E : (if n3 >? 1 then kept ld else 1) = if n3 =? 1 then 1 else kept n3).
  { rewrite ld_cases. destruct (Z.eqb_spec n3 1) as [->|]; [reflexivity|]. assert (Q : (n3 >? 1) = true) by lia. rewrite Q. reflexivity. }
  rewrite E. set (l3 := if n3 =? 1 then 1 else kept n3). assert (H3 : 0 <= l3) by (unfold l3, kept; destruct (n3 =? 1); [lia|]; pose proof (Z.div_pos n3 2); lia).
  destruct (loop_mpi_gen n1 l3 count start ltac:(lia) Hc H3) as (_ & _ & H). rewrite H. destruct c as ((i & j) & k). unfold box. reflexivity.
Qed.
Lemma mpi_nodup count start : 0 <= count -> NoDup (map fst (loop_real_mpi n1 n2 n3 count start)).
Proof.
  intros Hc. unfold loop_real_mpi. set (l3 := if n3 >? 1 then _ else 1). assert (H3 : 0 <= l3) by (unfold l3; rewrite nlast; unfold kept; pose proof ld_pos; pose proof (Z.div_pos ld 2); destruct (n3 >? 1); lia).
  apply (loop_mpi_gen n1 l3 count start ltac:(lia) Hc H3).
Qed.
Lemma shares_points from shares to : consecutive from shares to -> from <= to /\
  NoDup (flat_map (fun sh => map fst (loop_real_mpi n1 n2 n3 (snd sh) (fst sh))) shares) /\
  forall i j k, In (i, j, k) (flat_map (fun sh => map fst (loop_real_mpi n1 n2 n3 (snd sh) (fst sh))) shares) <-> 0 <= i < n1 /\ from <= j < to /\ 0 <= k < (if n3 =? 1 then 1 else kept n3).
Proof.
  revert from. induction shares as [|(s & n) t IH]; intros from H; cbn [consecutive flat_map fst snd] in *.
  - subst. split; [lia|]. split; [constructor|]. intros i j k. split; [intros []|lia].
  - destruct H as (-> & Hn & Ht). destruct (IH _ Ht) as (Le & Nd & Hin). split; [lia|]. split.
    + apply nodup_app; [apply mpi_nodup, Hn|exact Nd|]. intros ((i & j) & k) A B. apply mpi_points in A; [|exact Hn]. apply Hin in B. lia.
    + intros i j k. rewrite in_app_iff, mpi_points, Hin by exact Hn. lia.
Qed.
Lemma flat_flat {A B D} (f : B -> list D) (g : A -> list B) l : flat_map (fun a => flat_map f (g a)) l = flat_map f (flat_map g l).
Proof. induction l as [|a l IH]; cbn; [reflexivity|]. rewrite flat_map_app, IH. reflexivity. Qed.
Lemma mpi_perm shares : divided n2 n3 shares ->
  Permutation (flat_map (fun sh => flat_map (fun pt => stands_for n1 n2 n3 (par_twice (fst sh) (snd pt)) (fst pt)) (loop_real_mpi n1 n2 n3 (snd sh) (fst sh))) shares) (whole n1 n2 n3).
Proof.
  intros D. unfold divided in D.
  rewrite (flat_map_eq _ (fun sh => flat_map (fun c => stands_for n1 n2 n3 (twice_at n1 n2 n3 c) c) (map fst (loop_real_mpi n1 n2 n3 (snd sh) (fst sh))))).
  - rewrite flat_flat. destruct (shares_points _ _ _ D) as (_ & Nd & Hin). apply half_perm; [exact Nd|]. intros ((i & j) & k). rewrite Hin, whole_in, ld_cases. unfold last_coord, kept.
    destruct (Z.eqb_spec n3 1) as [->|]; [destruct (Z.eqb_spec n2 1) as [->|]|]; try lia.
    + assert (n2 / 2 + 1 <= n2) by (pose proof (Z.div_lt n2 2); lia). lia.
    + assert (n3 / 2 + 1 <= n3) by (pose proof (Z.div_lt n3 2); lia). lia.
  - intros sh Hs. rewrite <- flat_map_fst. apply flat_map_eq. intros (c & idx) H. cbn [fst snd]. rewrite (mpi_index (snd sh) (fst sh) c idx); [reflexivity| |exact H]. apply (consecutive_start 0 shares _ ltac:(lia) D sh Hs).
Qed.
End Half.

(* ------------------------------------------------------------------ *)
(** * Sums *)

Lemma sumR_app f l l' : sumR f (l ++ l') = (sumR f l + sumR f l')%R.
Proof. induction l as [|a l IH]; cbn [app sumR fold_right] in *; [unfold sumR; cbn; lra|]. fold (sumR f (l ++ l')). fold (sumR f l). rewrite IH. lra. Qed.
Lemma sumR_perm f l l' : Permutation l l' -> sumR f l = sumR f l'.
Proof. induction 1 as [|x l l' H IH|x y l|l l' l'' H IH H' IH']; cbn [sumR fold_right] in *; try (fold (sumR f l) in *; fold (sumR f l') in *); try lra. Qed.
Lemma sumC_app f l l' : sumC f (l ++ l') = (sumC f l + sumC f l')%C.
Proof. induction l as [|a l IH]; unfold sumC in *; cbn [app fold_right] in *; [cring|]. rewrite IH. cring. Qed.
Lemma sumC_perm f l l' : Permutation l l' -> sumC f l = sumC f l'.
Proof. unfold sumC. induction 1 as [|x l l' H IH|x y l|l l' l'' H IH H' IH']; cbn [fold_right] in *; [reflexivity|rewrite IH; reflexivity|cring|congruence]. Qed.

(** A weighted sum over the indices of a loop. *)
Lemma wsum_visits (tw : Z -> bool) L size (v : nat -> R) : 0 <= size -> map snd L = map Z.of_nat (seq 0 (Z.to_nat size)) ->
  wsum tw (Z.to_nat size) v = fold_right (fun (pt : Z * Z * Z * Z) a => ((if tw (snd pt) then 2 else 1) * v (Z.to_nat (snd pt)) + a)%R) 0%R L.
Proof.
  intros Hs HL. unfold wsum.
  assert (G : fold_right (fun (pt : Z * Z * Z * Z) a => ((if tw (snd pt) then 2 else 1) * v (Z.to_nat (snd pt)) + a)%R) 0%R L = fold_right (fun i a => ((if tw i then 2 else 1) * v (Z.to_nat i) + a)%R) 0%R (map snd L)).
  { clear. induction L as [|a L IH]; cbn; [reflexivity|]. rewrite IH. reflexivity. }
  rewrite G, HL. clear. generalize (Z.to_nat size). intros n.
  assert (A : forall n f, rsum n f = fold_right (fun i a => (f (Z.to_nat i) + a)%R) 0%R (map Z.of_nat (seq 0 n))).
  { clear. induction n as [|n IH]; intros f; [reflexivity|]. rewrite seq_S, map_app, fold_right_app. cbn [map fold_right]. cbn [rsum]. rewrite IH. cbn [Nat.add]. rewrite Nat2Z.id.
    assert (B : forall l (z : R), fold_right (fun i a => (f (Z.to_nat i) + a)%R) z l = (fold_right (fun i a => (f (Z.to_nat i) + a)%R) 0 l + z)%R) by (clear; induction l as [|a l IH]; intros z; cbn; [lra|rewrite IH; lra]). rewrite (B _ (f n + 0)%R). lra. }
  rewrite A. clear. induction (seq 0 n) as [|a l IH]; [reflexivity|]. cbn [map fold_right]. rewrite IH, Nat2Z.id. reflexivity.
Qed.
Lemma half_sum n1 n2 n3 (tw : Z -> bool) (f : Z * Z * Z -> R) (v : nat -> R) L : even n1 n2 n3 f ->
  (forall c idx, In (c, idx) L -> In c (whole n1 n2 n3) /\ v (Z.to_nat idx) = f c) ->
  fold_right (fun (pt : Z * Z * Z * Z) a => ((if tw (snd pt) then 2 else 1) * v (Z.to_nat (snd pt)) + a)%R) 0%R L =
  sumR f (flat_map (fun pt => stands_for n1 n2 n3 (tw (snd pt)) (fst pt)) L).
Proof.
  intros Ev. induction L as [|(c & idx) L IH]; intros H; [reflexivity|]. cbn [fold_right flat_map fst snd]. rewrite sumR_app, <- IH by (intros; apply H; right; assumption).
  destruct (H c idx (or_introl eq_refl)) as (Hc & ->). unfold stands_for. destruct (tw idx); cbn [sumR fold_right]; [rewrite (Ev c Hc)|]; lra.
Qed.

(* ------------------------------------------------------------------ *)
(** * All ways of holding a grid *)

Lemma single_perm n1 n2 n3 (L : list (Z * Z * Z * Z)) : flat_map (fun pt => stands_for n1 n2 n3 (once (snd pt)) (fst pt)) L = map fst L.
Proof. induction L as [|a L IH]; [reflexivity|]. cbn [flat_map map]. rewrite IH. reflexivity. Qed.
Lemma cmpi_shares n1 n2 n3 from shares to : 0 < n1 -> 0 < n3 -> consecutive from shares to -> from <= to /\
  NoDup (flat_map (fun sh => map fst (loop_complex_mpi n1 n2 n3 (snd sh) (fst sh))) shares) /\
  forall i j k, In (i, j, k) (flat_map (fun sh => map fst (loop_complex_mpi n1 n2 n3 (snd sh) (fst sh))) shares) <-> 0 <= i < n1 /\ from <= j < to /\ 0 <= k < n3.
Proof.
  intros P1 P3. revert from. induction shares as [|(s & n) t IH]; intros from H; cbn [consecutive flat_map fst snd] in *.
  - subst. split; [lia|]. split; [constructor|]. intros i j k. split; [intros []|lia].
  - destruct H as (-> & Hn & Ht). destruct (IH _ Ht) as (Le & Nd & Hin). split; [lia|]. destruct (loop_mpi_gen n1 n3 n from ltac:(lia) Hn ltac:(lia)) as (_ & Nd1 & H1). fold (loop_complex_mpi n1 n2 n3 n from) in Nd1, H1. split.
    + apply nodup_app; [exact Nd1|exact Nd|]. intros ((i & j) & k) A B. apply H1 in A. cbn [box] in A. apply Hin in B. lia.
    + intros i j k. rewrite in_app_iff, H1, Hin. cbn [box]. lia.
Qed.
Lemma concat_map_flat {A B D} (f : B -> list D) (g : A -> B) l : flat_map f (map g l) = flat_map (fun x => f (g x)) l.
Proof. induction l as [|a l IH]; [reflexivity|]. cbn. rewrite IH. reflexivity. Qed.

Section Held.
Variables n1 n2 n3 : Z.
Hypotheses (P1 : 0 < n1) (P2 : 0 < n2) (P3 : 0 < n3).

Lemma par2 start idx : n2 <> 1 -> n3 = 1 -> par_twice n1 n2 n3 start idx = twice_mpi2 n1 start n2 idx.
Proof. intros H2 H3. unfold par_twice. rewrite ld_cases. rewrite (proj2 (Z.eqb_eq n3 1) H3), (proj2 (Z.eqb_neq n2 1) H2). reflexivity. Qed.
Lemma par3 start idx : n3 <> 1 -> par_twice n1 n2 n3 start idx = twice_real (kept n3) n3 idx.
Proof. intros H3. unfold par_twice. rewrite ld_cases. rewrite (proj2 (Z.eqb_neq n3 1) H3). reflexivity. Qed.

Lemma held_perm real parts : held n1 n2 n3 real parts -> Permutation (flat_map (points n1 n2 n3) parts) (whole n1 n2 n3).
Proof.
  intros H. destruct H as [|shares D| |shares H2 H3 D|shares H3 D]; unfold points.
  - cbn [flat_map fst snd]. rewrite app_nil_r, single_perm. destruct (loop_complex_ok n1 n2 n3 ltac:(lia) ltac:(lia) ltac:(lia)) as (_ & Nd & Hin).
    apply NoDup_Permutation; [exact Nd|apply whole_nodup|]. intros ((i & j) & k). rewrite Hin, whole_in. cbn [box]. lia.
  - rewrite concat_map_flat. cbn [fst snd]. rewrite (flat_map_eq _ (fun sh => map fst (loop_complex_mpi n1 n2 n3 (snd sh) (fst sh)))) by (intros; apply single_perm).
    destruct (cmpi_shares n1 n2 n3 0 shares n2 P1 P3 D) as (_ & Nd & Hin). apply NoDup_Permutation; [exact Nd|apply whole_nodup|]. intros ((i & j) & k). rewrite Hin, whole_in. lia.
  - cbn [flat_map fst snd]. rewrite app_nil_r. apply real_perm; assumption.
  - rewrite concat_map_flat. cbn [fst snd]. rewrite <- (mpi_perm n1 n2 n3 P1 P2 P3 (or_introl H2) shares D) at 1. match goal with |- Permutation ?a ?b => replace a with b; [reflexivity|] end.
    apply flat_map_eq. intros sh _. apply flat_map_eq. intros pt _. rewrite par2 by assumption. reflexivity.
  - rewrite concat_map_flat. cbn [fst snd]. rewrite <- (mpi_perm n1 n2 n3 P1 P2 P3 (or_intror H3) shares D) at 1. match goal with |- Permutation ?a ?b => replace a with b; [reflexivity|] end.
    apply flat_map_eq. intros sh _. apply flat_map_eq. intros pt _. rewrite par3 by assumption. reflexivity.
Qed.
(** The tests on the index and on the coordinates agree. *)
Lemma held_twice real parts p c idx : held n1 n2 n3 real parts -> In p parts -> In (c, idx) (fst p) -> snd p idx = real && twice_at n1 n2 n3 c.
Proof.
  intros H. destruct H as [|shares D| |shares H2 H3 D|shares H3 D]; intros Hp Hi.
  - destruct Hp as [<-|[]]. reflexivity.
  - apply in_map_iff in Hp as (sh & <- & _). reflexivity.
  - destruct Hp as [<-|[]]. cbn [fst snd andb] in *. apply real_index; assumption.
  - apply in_map_iff in Hp as (sh & <- & Hs). cbn [fst snd andb] in *. rewrite <- par2 by assumption. apply (mpi_index n1 n2 n3 P1 P2 P3 (or_introl H2) (snd sh)); [|exact Hi]. apply (consecutive_start 0 shares _ ltac:(lia) D sh Hs).
  - apply in_map_iff in Hp as (sh & <- & Hs). cbn [fst snd andb] in *. rewrite <- (par3 (fst sh)) by assumption. apply (mpi_index n1 n2 n3 P1 P2 P3 (or_intror H3) (snd sh)); [|exact Hi]. apply (consecutive_start 0 shares _ ltac:(lia) D sh Hs).
Qed.
Lemma held_in real parts p c idx : held n1 n2 n3 real parts -> In p parts -> In (c, idx) (fst p) -> In c (whole n1 n2 n3).
Proof.
  intros H Hp Hi. apply (Permutation_in c (held_perm real parts H)). apply in_flat_map. exists p. split; [exact Hp|]. unfold points. apply in_flat_map. exists (c, idx). split; [exact Hi|left; reflexivity].
Qed.
(** The indices are those of an array. *)
Lemma held_index real parts p : held n1 n2 n3 real parts -> In p parts -> exists size, 0 <= size /\ map snd (fst p) = zrange size.
Proof.
  intros H. destruct H as [|shares D| |shares H2 H3 D|shares H3 D]; intros Hp.
  - destruct Hp as [<-|[]]. exists (n1 * n2 * n3). split; [nia|]. apply (loop_complex_ok n1 n2 n3); lia.
  - apply in_map_iff in Hp as (sh & <- & Hs). cbn [fst]. destruct (consecutive_start 0 shares _ ltac:(lia) D sh Hs) as (_ & Hn). exists (snd sh * n1 * n3). split; [nia|]. apply (loop_mpi_gen n1 n3 (snd sh) (fst sh)); lia.
  - destruct Hp as [<-|[]]. cbn [fst]. eexists. split; [|apply (loop_real_ok n1 n2 n3 P1 P2 P3)]. assert (0 <= n1 / 2 /\ 0 <= n2 / 2 /\ 0 <= n3 / 2) by (repeat split; apply Z.div_pos; lia). destruct (n3 =? 1); [destruct (n2 =? 1)|]; nia.
  - apply in_map_iff in Hp as (sh & <- & Hs). cbn [fst]. destruct (consecutive_start 0 shares _ ltac:(lia) D sh Hs) as (_ & Hn). unfold loop_real_mpi. set (l3 := if n3 >? 1 then _ else 1). assert (A : 0 <= l3) by (unfold l3; rewrite H3; cbn; lia). exists (snd sh * n1 * l3). split; [nia|]. apply (loop_mpi_gen n1 l3 (snd sh) (fst sh)); lia.
  - apply in_map_iff in Hp as (sh & <- & Hs). cbn [fst]. destruct (consecutive_start 0 shares _ ltac:(lia) D sh Hs) as (_ & Hn). unfold loop_real_mpi. set (l3 := if n3 >? 1 then _ else 1). assert (A : 0 <= l3) by (unfold l3; rewrite nlast by assumption; unfold kept; pose proof (ld_pos n1 n2 n3 P1 P2 P3); pose proof (Z.div_pos (last_dim n1 n2 n3) 2); destruct (n3 >? 1); lia). exists (snd sh * n1 * l3). split; [nia|]. apply (loop_mpi_gen n1 l3 (snd sh) (fst sh)); lia.
Qed.

Lemma held_sum real parts (vs : list (nat -> R)) f : held n1 n2 n3 real parts -> even n1 n2 n3 f -> Forall2 (fun p v => shows (fst p) v f) parts vs ->
  fold_right (fun q a => (wsum (snd (fst q)) (length (fst (fst q))) (snd q) + a)%R) 0%R (combine parts vs) = sumR f (whole n1 n2 n3).
Proof.
  intros H Ev Hv. rewrite <- (sumR_perm f _ _ (held_perm real parts H)).
  assert (G : forall ps vs, (forall p, In p ps -> In p parts) -> Forall2 (fun p v => shows (fst p) v f) ps vs ->
    fold_right (fun q a => (wsum (snd (fst q)) (length (fst (fst q))) (snd q) + a)%R) 0%R (combine ps vs) = sumR f (flat_map (points n1 n2 n3) ps)).
  { clear Hv vs. intros ps. induction ps as [|p ps IH]; intros vs Hp Hv; inversion Hv as [|? v ? vs' Hv1 Hv2]; subst; [reflexivity|]. cbn [combine fold_right flat_map fst snd]. rewrite sumR_app, (IH vs') by (auto; intros; apply Hp; right; assumption). f_equal.
    destruct (held_index real parts p H (Hp p (or_introl eq_refl))) as (size & Hs & E).
    assert (Hl : length (fst p) = Z.to_nat size) by (rewrite <- (map_length snd), E; unfold zrange; rewrite map_length, seq_length; reflexivity). rewrite Hl.
    rewrite (wsum_visits (snd p) (fst p) size v Hs E). rewrite (half_sum n1 n2 n3 (snd p) f v (fst p) Ev); [reflexivity|]. intros c idx Hi. split; [apply (held_in real parts p c idx H (Hp p (or_introl eq_refl)) Hi)|apply (Hv1 c idx Hi)]. }
  apply (G parts vs); auto.
Qed.
End Held.

(* ------------------------------------------------------------------ *)
(** * get_epsilon *)

Definition stat (E : Z * Z * Z -> R) (pts : list (Z * Z * Z)) (q : R * R * R * R * Z) : Prop :=
  let '(low, high, m, v, n) := q in
  ((low = 10 ^ 20 \/ exists c, In c pts /\ E c = low) /\ low <= 10 ^ 20 /\ (forall c, In c pts -> low <= E c) /\
   (high = - 10 ^ 20 \/ exists c, In c pts /\ E c = high) /\ - 10 ^ 20 <= high /\ (forall c, In c pts -> E c <= high) /\
   m = sumR E pts /\ v = sumR (fun c => / E c) pts /\ IZR n = sumR (fun c => above (E c) (10001 / 10000)) pts)%R.

Lemma above_n x : IZR (if Rltb (10001 / 10000) x then 1 else 0) = above x (10001 / 10000).
Proof. unfold above. destruct (Rltb_spec (10001 / 10000) x), (Rlt_dec (10001 / 10000) x); try reflexivity; lra. Qed.

Lemma stat_one E pts low high m v n c : stat E pts (low, high, m, v, n) ->
  let e := E c in stat E (pts ++ [c]) ((if Rltb e low then e else low), (if Rltb high e then e else high), m + e, v + / e, (n + if Rltb (10001 / 10000) e then 1 else 0)%Z)%R.
Proof.
  intros (L1 & L2 & L3 & H1 & H2 & H3 & Hm & Hv & Hn) e. unfold stat. rewrite !sumR_app. cbn [sumR fold_right]. rewrite plus_IZR, above_n. fold e. rewrite <- Hm, <- Hv, <- Hn.
  assert (X : forall d, In d (pts ++ [c]) <-> In d pts \/ d = c) by (intros d; rewrite in_app_iff; cbn; intuition congruence).
  destruct (Rltb_spec e low) as [Q|Q], (Rltb_spec high e) as [Q'|Q']; repeat split; try lra;
    try (right; exists c; split; [apply X; auto|reflexivity]);
    try (destruct L1 as [L1|(d & D1 & D2)]; [left; exact L1|right; exists d; split; [apply X; auto|exact D2]]);
    try (destruct H1 as [H1|(d & D1 & D2)]; [left; exact H1|right; exists d; split; [apply X; auto|exact D2]]);
    intros d Hd; apply X in Hd as [Hd| ->]; try (specialize (L3 d Hd)); try (specialize (H3 d Hd)); fold e; lra.
Qed.
Lemma stat_two E pts low high m v n c c' : E c' = E c -> stat E pts (low, high, m, v, n) ->
  let e := E c in let k := (if Rltb (10001 / 10000) e then 1 else 0) in stat E (pts ++ [c; c']) ((if Rltb e low then e else low), (if Rltb high e then e else high), m + e + e, v + / e + / e, (n + k + k)%Z)%R.
Proof.
  intros Ec H e k. pose proof (stat_one E pts low high m v n c H) as A. cbv zeta in A. pose proof (stat_one E _ _ _ _ _ _ c' A) as B. cbv zeta in B. rewrite Ec in B. fold e in B. fold k in B. rewrite <- app_assoc in B. cbn [app] in B.
  match type of B with stat _ _ (?l, ?h, _, _, _) => replace l with (if Rltb e low then e else low) in B; [replace h with (if Rltb high e then e else high) in B; [exact B|]|] end.
  - destruct (Rltb_spec high e) as [Q|Q]; [destruct (Rltb_spec e e); reflexivity|destruct (Rltb_spec high e); [lra|reflexivity]].
  - destruct (Rltb_spec e low) as [Q|Q]; [destruct (Rltb_spec e e); reflexivity|destruct (Rltb_spec e low); [lra|reflexivity]].
Qed.
Lemma stat_app E p q l h m v n l' h' m' v' n' : stat E p (l, h, m, v, n) -> stat E q (l', h', m', v', n') -> stat E (p ++ q) (Rmin l l', Rmax h h', m + m', v + v', (n + n')%Z)%R.
Proof.
  intros (L1 & L2 & L3 & H1 & H2 & H3 & Hm & Hv & Hn) (L1' & L2' & L3' & H1' & H2' & H3' & Hm' & Hv' & Hn'). unfold stat. rewrite !sumR_app, plus_IZR, <- Hm, <- Hv, <- Hn, <- Hm', <- Hv', <- Hn'.
  pose proof (Rmin_l l l'). pose proof (Rmin_r l l'). pose proof (Rmax_l h h'). pose proof (Rmax_r h h').
  repeat split; try lra.
  - unfold Rmin. destruct (Rle_dec l l'); [destruct L1 as [|(d & ? & ?)]|destruct L1' as [|(d & ? & ?)]]; auto; right; exists d; rewrite in_app_iff; auto.
  - intros d Hd. apply in_app_iff in Hd as [Hd|Hd]; [specialize (L3 d Hd)|specialize (L3' d Hd)]; lra.
  - unfold Rmax. destruct (Rle_dec h h'); [destruct H1' as [|(d & ? & ?)]|destruct H1 as [|(d & ? & ?)]]; auto; right; exists d; rewrite in_app_iff; auto.
  - intros d Hd. apply in_app_iff in Hd as [Hd|Hd]; [specialize (H3 d Hd)|specialize (H3' d Hd)]; lra.
Qed.
Lemma stat_perm E p q s : Permutation p q -> stat E p s -> stat E q s.
Proof.
  intros P. destruct s as ((((l & h) & m) & v) & n). intros (L1 & L2 & L3 & H1 & H2 & H3 & Hm & Hv & Hn).
  assert (X : forall d, In d p <-> In d q) by (intros d; split; apply Permutation_in; [exact P|symmetry; exact P]).
  unfold stat. rewrite <- !(sumR_perm _ _ _ P). repeat split; auto.
  - destruct L1 as [|(d & D & ?)]; [auto|right; exists d; rewrite <- X; auto].
  - intros d Hd. apply L3, X, Hd.
  - destruct H1 as [|(d & D & ?)]; [auto|right; exists d; rewrite <- X; auto].
  - intros d Hd. apply H3, X, Hd.
Qed.

Lemma fm_snoc {A B} (f : A -> list B) l x : flat_map f (l ++ [x]) = flat_map f l ++ f x.
Proof. rewrite flat_map_app. cbn. rewrite app_nil_r. reflexivity. Qed.
Lemma nth_firstn_S {A} (l : list A) i d : (i < length l)%nat -> firstn (S i) l = firstn i l ++ [nth i l d].
Proof. revert l. induction i as [|i IH]; intros [|a l] H; cbn in *; try lia; [reflexivity|]. rewrite (IH l) by lia. reflexivity. Qed.

Lemma rd_get_s {A} (l : list A) i d : 0 <= i < Z.of_nat (length l) -> rd l i = Val (nth (Z.to_nat i) l d).
Proof. intros H. unfold rd. destruct (Z.ltb_spec i 0); [lia|]. rewrite (nth_error_nth' l d) by lia. reflexivity. Qed.

Lemma sums_ok n1 n2 n3 eigs d (p : list (Z * Z * Z * Z) * (Z -> bool)) E eps : even n1 n2 n3 E -> epsilons eigs d eps -> map snd (fst p) = zrange (d_out d) -> 0 <= d_out d ->
  shows (fst p) eps E -> (forall c idx, In (c, idx) (fst p) -> In c (whole n1 n2 n3) /\ (E c <> 0)%R) ->
  exists q, epsilon_sums eigs d (snd p) = Val (map eps (seq 0 (Z.to_nat (d_out d))), q) /\ stat E (points n1 n2 n3 p) q.
Proof.
  intros Ev (Hl & He) Hz Ho Hs Hw. unfold epsilon_sums.
  assert (Len : length (fst p) = Z.to_nat (d_out d)) by (rewrite <- (map_length snd), Hz; unfold zrange; rewrite map_length, seq_length; reflexivity).
  match goal with |- exists q, forZ _ _ ?g ?s0 = _ /\ _ => destruct (forZ_inv (fun i s => exists q, s = (map eps (seq 0 (Z.to_nat i)), q) /\ stat E (points n1 n2 n3 (firstn (Z.to_nat i) (fst p), snd p)) q) g 0 (d_out d) s0) as (s & R & q & -> & St) end.
  - exact Ho.
  - eexists. split; [reflexivity|]. cbn. unfold stat, points. cbn. repeat split; try lra; try tauto; try (left; lra).
  - intros i s Hi (q & -> & St). destruct q as ((((low & high) & m) & v) & n).
    set (k := Z.to_nat i) in *. assert (Hk : (k < length (fst p))%nat) by lia.
    set (pt := nth k (fst p) (0, 0, 0, 0)). assert (Hpt : In pt (fst p)) by (apply nth_In, Hk).
    assert (Hidx : snd pt = i). { unfold pt. rewrite <- (map_nth snd), Hz. cbn [snd]. unfold zrange. rewrite (nth_indep _ 0 (Z.of_nat 0)) by (rewrite map_length, seq_length; lia). rewrite (map_nth Z.of_nat), seq_nth by lia. unfold k. lia. }
    assert (Sk : Z.to_nat (i + 1) = S k) by (unfold k; lia).
    destruct pt as (c & idx) eqn:Ept. cbn [snd] in Hidx. subst idx.
    assert (Ec : eps k = E c) by (apply (Hs c i Hpt)). destruct (Hw c i Hpt) as (Hc & Hnz).
    rewrite (rd_get_s (d_eps_inv d) i sym0) by lia. cbn [bind]. fold k.
    assert (Hm : mean_medium eigs (nth k (d_eps_inv d) sym0) = Val (E c)). { rewrite <- Ec, <- (He k) by lia. reflexivity. }
    rewrite Hm. cbn [bind]. rewrite fdiv_nz by exact Hnz. cbn [bind].
    assert (Pk : points n1 n2 n3 (firstn (S k) (fst p), snd p) = points n1 n2 n3 (firstn k (fst p), snd p) ++ stands_for n1 n2 n3 (snd p i) c).
    { unfold points. cbn [fst snd]. rewrite (nth_firstn_S (fst p) k (0, 0, 0, 0) Hk). fold pt. rewrite fm_snoc. fold pt. rewrite Ept. reflexivity. }
    rewrite Sk, Pk. unfold stands_for. replace (1 / E c)%R with (/ E c)%R by (unfold Rdiv; ring).
    rewrite seq_S, map_app. cbn [map Nat.add]. rewrite Ec. destruct (snd p i).
    + eexists. split; [reflexivity|]. eexists. split; [reflexivity|]. apply stat_two; [apply Ev, Hc|exact St].
    + eexists. split; [reflexivity|]. eexists. split; [reflexivity|]. apply stat_one, St.
  - exists q. split; [exact R|]. rewrite <- Len in St. rewrite firstn_all in St. destruct p. exact St.
Qed.
