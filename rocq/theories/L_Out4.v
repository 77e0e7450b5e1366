(** Proofs about files: phases, blocks written, and the whole file. *)
From Coq Require Import List ZArith Reals Bool Lia Lra Permutation.
From Verif Require Import Base RC Loops M_Tensor M_Evect M_Grid S_Grid L_Grid L_Grid5 M_Half S_Half L_Half L_Half2 M_Out S_Out L_Out L_Out2 L_Out3.
Import ListNotations.
Local Open Scope Z_scope.

(** ** Bloch phases *)
Lemma expi_add x y : (expi x * expi y)%C = expi (x + y).
Proof. unfold expi, Cmul. cbn. rewrite cos_plus, sin_plus. f_equal; ring. Qed.
Lemma expi_conj x : Cconj (expi x) = expi (- x).
Proof. unfold expi, Cconj. cbn. rewrite cos_neg, sin_neg. reflexivity. Qed.
Lemma expi_0 : expi 0 = (1, 0)%R.
Proof. unfold expi. rewrite cos_0, sin_0. reflexivity. Qed.

Definition fphase (dims start : Z * Z * Z) (k : R * R * R) (t : Z * Z * Z) : C :=
  let '(d0, d1, d2) := dims in let '(s0, s1, s2) := start in let '(k0, k1, k2) := k in let '(a, b, c) := t in
  expi (2 * PI * (k0 * (IZR (a + s0) / IZR d0) + k1 * (IZR (b + s1) / IZR d1) + k2 * (IZR (c + s2) / IZR d2))).

Lemma phases_ok d0 d1 d2 l0 l1 l2 s0 s1 s2 k (d : list C) : 0 < d0 -> 0 < d1 -> 0 < d2 -> 0 <= l0 -> 0 <= l1 -> 0 <= l2 -> 3 * (l0 * l1 * l2) <= Z.of_nat (length d) ->
  exists d', times_phases [d0; d1; d2] [l0; l1; l2] [s0; s1; s2] k d = Val d' /\ length d' = length d /\
    forall t r, In t (whole l0 l1 l2) -> 0 <= r < 3 ->
      rd d' (3 * size3 (l0, l1, l2) t + r) = Val (nth (Z.to_nat (3 * size3 (l0, l1, l2) t + r)) d (0, 0)%R * fphase (d0, d1, d2) (s0, s1, s2) k t)%C.
Proof.
  intros D0 D1 D2 L0 L1 L2 HL. destruct k as ((k0 & k1) & k2). unfold times_phases.
  change (get3 [d0; d1; d2] 0) with d0. change (get3 [d0; d1; d2] 1) with d1. change (get3 [d0; d1; d2] 2) with d2.
  change (get3 [l0; l1; l2] 0) with l0. change (get3 [l0; l1; l2] 1) with l1. change (get3 [l0; l1; l2] 2) with l2.
  change (get3 [s0; s1; s2] 0) with s0. change (get3 [s0; s1; s2] 1) with s1. change (get3 [s0; s1; s2] 2) with s2.
  assert (N0 : IZR d0 <> 0%R) by (apply not_0_IZR; lia). assert (N1 : IZR d1 <> 0%R) by (apply not_0_IZR; lia). assert (N2 : IZR d2 <> 0%R) by (apply not_0_IZR; lia).
  rewrite !fdiv_nz by assumption. cbn [bind].
  set (p := fphase (d0, d1, d2) (s0, s1, s2) (k0, k1, k2)). set (idx := size3 (l0, l1, l2)).
  set (L := prod_list (prod_list (zran 0 l0) (fun _ => zran 0 l1)) (fun _ => zran 0 l2)).
  match goal with |- context [forZ 0 l0 ?f d] => assert (E : forZ 0 l0 f d = foldM (fun t => conj_point (fun z => z * p t)%C 3 (idx t) (idx t)) L d) end.
  { rewrite forZ_foldM. unfold L. set (st := fun t : Z * Z * Z => conj_point (fun z => z * p t)%C 3 (idx t) (idx t)).
    rewrite (foldM_ext st (fun q f => (fun q c => st (q, c)) (fst q) (snd q) f)) by (intros ((a & b) & c) s _; reflexivity).
    rewrite <- (foldM_nest (fun q c => st (q, c)) (fun _ => zran 0 l2)).
    rewrite (foldM_ext _ (fun q f => (fun a b f => foldM (fun c => st (a, b, c)) (zran 0 l2) f) (fst q) (snd q) f) (prod_list (zran 0 l0) (fun _ => zran 0 l1))) by (intros (a & b) s _; reflexivity).
    rewrite <- (foldM_nest (fun a b f => foldM (fun c => st (a, b, c)) (zran 0 l2) f) (fun _ => zran 0 l1)).
    apply foldM_ext. intros a f _. cbv zeta. rewrite forZ_foldM. apply foldM_ext. intros b g _. rewrite forZ_foldM. apply foldM_ext. intros c h _. unfold st, conj_point, idx, size3. rewrite !forZ_foldM. apply foldM_ext. intros r u _.
    replace (((a * l1 + b) * l2 + c) * 3 + r) with (3 * ((a * l1 + b) * l2 + c) + r) by ring. destruct (rd u (3 * ((a * l1 + b) * l2 + c) + r)); cbn [bind]; try reflexivity. f_equal. f_equal.
    unfold p, fphase. change (?x, ?y)%R with (x, y). fold (expi (2 * PI * k0 / IZR d0 * IZR (a + s0))). fold (expi (2 * PI * k1 / IZR d1 * IZR (b + s1))). fold (expi (2 * PI * k2 / IZR d2 * IZR (c + s2))).
    rewrite !expi_add. f_equal. field. auto. }
  rewrite E. clear E.
  assert (Lin : forall a b c, In (a, b, c) L <-> 0 <= a < l0 /\ 0 <= b < l1 /\ 0 <= c < l2) by (intros; unfold L; rewrite !prod_list_in, !zran_in; tauto).
  set (dec := fun q => (q / l2 / l1, (q / l2) mod l1, q mod l2)).
  assert (Dec : forall t, In t L -> dec (idx t) = t).
  { intros ((a & b) & c) H. apply Lin in H. unfold dec, idx, size3. rewrite (dm_div l2 (a * l1 + b) c), (dm_mod l2 _ c), dm_div, dm_mod by lia. reflexivity. }
  assert (Rng : forall t, In t L -> 0 <= idx t < l0 * l1 * l2).
  { intros ((a & b) & c) H. apply Lin in H. unfold idx, size3. assert (0 <= a * l1 + b < l0 * l1) by nia. nia. }
  assert (QR : forall q r, 0 <= r < 3 -> (3 * q + r) / 3 = q) by (intros q r Hr; rewrite (Z.mul_comm 3 q); apply dm_div; exact Hr).
  destruct (owner_ok (fun t => conj_point (fun z => z * p t)%C 3 (idx t) (idx t)) (fun t x => x / 3 = idx t)
    (fun x => nth (Z.to_nat x) d (0, 0)%R * p (dec (x / 3)))%C d L) as (d' & E & Len & H).
  - unfold L. repeat (apply prod_list_nodup; [|intros; apply zran_nodup]). apply zran_nodup.
  - intros t t' x Ht Ht' _ Ho Ho'. rewrite <- (Dec t Ht), <- (Dec t' Ht'). congruence.
  - intros t dd Ht L1' Hdd. pose proof (Rng t Ht) as Rt.
    destruct (conj_point_ok (fun z => z * p t)%C 3 (0, 0)%R ltac:(lia) (idx t) (idx t) (l0 * l1 * l2) dd Rt Rt ltac:(lia)) as (d2' & E2 & L2' & H2).
    exists d2'. split; [exact E2|]. split; [congruence|]. intros x Hx.
    assert (Ex : x = 3 * (x / 3) + x mod 3) by (apply Z.div_mod; lia). pose proof (Z.mod_pos_bound x 3 ltac:(lia)) as Rx. set (q := x / 3) in *. set (r := x mod 3) in *.
    replace (rd d2' x) with (rd d2' (3 * q + r)) by (rewrite <- Ex; reflexivity). replace (rd dd x) with (rd dd (3 * q + r)) by (rewrite <- Ex; reflexivity). rewrite (H2 q r Rx). split.
    + intros Eq. specialize (Hdd x Hx Eq). rewrite Eq in *. rewrite Z.eqb_refl, Dec by exact Ht. do 2 f_equal. rewrite <- Ex. rewrite (rd_get_s dd x (0, 0)%R), (rd_get_s d x (0, 0)%R) in Hdd by (rewrite ?L1'; exact Hx). apply val_inj in Hdd. rewrite Hdd. reflexivity.
    + intros Ho. destruct (Z.eqb_spec q (idx t)); [contradiction|reflexivity].
  - exists d'. split; [exact E|]. split; [exact Len|]. intros t r Ht Hr. assert (Ht' : In t L) by (destruct t as ((a & b) & c); apply whole_in in Ht; apply Lin; exact Ht).
    pose proof (Rng t Ht') as Rt. destruct (H (3 * idx t + r)) as (H1 & _); [lia|]. rewrite (H1 t Ht') by (apply QR; exact Hr). rewrite QR, Dec by assumption. reflexivity.
Qed.

(** ** Writing blocks *)
Lemma pick_one {A} (f : Z -> list A) n a : 0 <= a < n -> flat_map (fun c => if c =? a then f c else []) (zrange n) = f a.
Proof.
  intros H. assert (G : forall l, NoDup l -> (In a l -> flat_map (fun c => if c =? a then f c else []) l = f a) /\ (~ In a l -> flat_map (fun c => if c =? a then f c else []) l = [])).
  { induction l as [|x l IH]; intros Nd; [split; [intros []|reflexivity]|]. inversion Nd as [|? ? Nx Nl]; subst. destruct (IH Nl) as (I1 & I2). cbn [flat_map]. split.
    - intros [->|Hin]; [rewrite Z.eqb_refl, I2 by exact Nx; apply app_nil_r|]. destruct (Z.eqb_spec x a) as [->|]; [contradiction|]. apply I1. exact Hin.
    - intros Hn. destruct (Z.eqb_spec x a) as [->|]; [exfalso; apply Hn; left; reflexivity|]. apply I2. intros Q. apply Hn. right. exact Q. }
  apply (G (zrange n) (zrange_nodup n)). apply zrange_in. exact H.
Qed.

Definition log_of {A} (d1 d2 : Z) (start blkd : Z * Z * Z) (v : Z * Z * Z -> A) : list (list Z * A) :=
  let '(s0, s1, s2) := start in map (fun t => let '(i, j, k) := t in (cut d1 d2 [s0 + i; s1 + j; s2 + k], v t)) (whole3 blkd).
Definition fits (d0 d1 d2 : Z) (start blkd : Z * Z * Z) : Prop :=
  let '(s0, s1, s2) := start in let '(l0, l1, l2) := blkd in
  0 <= l0 /\ 0 <= l1 /\ 0 <= l2 /\ 0 <= s0 /\ 0 <= s1 /\ 0 <= s2 /\ s0 + l0 <= d0 /\ s1 + l1 <= d1 /\ s2 + l2 <= d2 /\ (d2 = 1 -> l2 = 1 /\ (d1 = 1 -> l1 = 1)).

Lemma size3_in l0 l1 l2 i : 0 <= l1 -> 0 <= l2 -> 0 <= i < l0 * l1 * l2 -> exists t, In t (whole l0 l1 l2) /\ i = size3 (l0, l1, l2) t.
Proof.
  intros L1 L2 Hi. assert (P2 : 0 < l2) by (destruct (Z.eq_dec l2 0) as [E|E]; [rewrite E, Z.mul_0_r in Hi; lia|lia]). assert (P1 : 0 < l1) by (destruct (Z.eq_dec l1 0) as [E|E]; [rewrite E, Z.mul_0_r in Hi; cbn in Hi; lia|lia]). exists (i / l2 / l1, (i / l2) mod l1, i mod l2).
  pose proof (Z.div_mod i l2 ltac:(lia)). pose proof (Z.mod_pos_bound i l2 P2). pose proof (Z.div_mod (i / l2) l1 ltac:(lia)). pose proof (Z.mod_pos_bound (i / l2) l1 P1).
  split; [|cbn [size3]; rewrite (Z.mul_comm (i / l2 / l1) l1), <- (Z.div_mod (i / l2) l1) by lia; lia]. apply whole_in. assert (0 <= i / l2 < l0 * l1) by (split; [apply Z.div_pos; lia|apply Z.div_lt_upper_bound; lia]).
  split; [|lia]. split; [apply Z.div_pos; lia|apply Z.div_lt_upper_bound; lia].
Qed.

Lemma wv_ok vals base d0 d1 d2 start blkd (v : Z * Z * Z -> R) : fits d0 d1 d2 start blkd ->
  (forall t, In t (whole3 blkd) -> rd vals (base + size3 blkd t) = Val (v t)) ->
  let '(s0, s1, s2) := start in let '(l0, l1, l2) := blkd in write_vals vals base [d0; d1; d2] [l0; l1; l2] [s0; s1; s2] = Val (log_of d1 d2 start blkd v).
Proof.
  destruct start as ((s0 & s1) & s2), blkd as ((l0 & l1) & l2). intros (L0 & L1 & L2 & S0 & S1 & S2 & B0 & B1 & B2 & Hd) Hv. unfold write_vals.
  rewrite (block_ok d0 d1 d2 l0 l1 l2 s0 s1 s2 1 _ (fun i => nth (Z.to_nat (base + i)) vals 0%R)); try assumption; try lia.
  - unfold log_of. cbn [whole3]. f_equal. apply map_ext_in. intros ((i & j) & k) Ht. f_equal. specialize (Hv (i, j, k) Ht). pose proof (rd_bound _ _ _ Hv) as B. rewrite (rd_get_s _ _ 0%R B) in Hv. apply val_inj in Hv. exact Hv.
  - intros i Hi. rewrite Z.mul_1_r. destruct (size3_in l0 l1 l2 i L1 L2 Hi) as (t & Ht & ->). specialize (Hv t Ht). pose proof (rd_bound _ _ _ Hv) as B. apply rd_get_s. exact B.
Qed.

Lemma wc_ok field base d0 d1 d2 start blkd which nc (v : Z -> Z * Z * Z -> C) : 0 < nc -> fits d0 d1 d2 start blkd ->
  (forall r t, 0 <= r < nc -> In t (whole3 blkd) -> rd field (base + nc * size3 blkd t + r) = Val (v r t)) ->
  let '(s0, s1, s2) := start in let '(l0, l1, l2) := blkd in
  exists w, write_components field base [d0; d1; d2] [l0; l1; l2] [s0; s1; s2] which nc = Val w /\
    forall a ri, 0 <= a < nc -> written a ri w = if (a =? which) || (which <? 0) then log_of d1 d2 start blkd (fun t => part ri (v a t)) else [].
Proof.
  destruct start as ((s0 & s1) & s2), blkd as ((l0 & l1) & l2). intros Hnc (L0 & L1 & L2 & S0 & S1 & S2 & B0 & B1 & B2 & Hd) Hv. unfold write_components.
  set (g := fun cr : Z * bool => (fst cr, snd cr, log_of d1 d2 (s0, s1, s2) (l0, l1, l2) (fun t => part (snd cr) (v (fst cr) t)))).
  rewrite (mapM_total _ g).
  - eexists. split; [reflexivity|]. intros a ri Ha. unfold written. rewrite flat_map_map, <- flat_flat. cbn [g fst snd].
    rewrite (flat_ext _ (fun c => if c =? a then (if (c =? which) || (which <? 0) then log_of d1 d2 (s0, s1, s2) (l0, l1, l2) (fun t => part ri (v c t)) else []) else [])).
    + rewrite (pick_one (fun c => if (c =? which) || (which <? 0) then log_of d1 d2 (s0, s1, s2) (l0, l1, l2) (fun t => part ri (v c t)) else []) nc a Ha). reflexivity.
    + intros c _. destruct ((c =? which) || (which <? 0)); [|destruct (c =? a); reflexivity]. cbn [flat_map g fst snd]. destruct (c =? a); cbn [andb]; [|reflexivity]. destruct ri; cbn [Bool.eqb app]; rewrite ?app_nil_r; reflexivity.
  - intros (c & ri) Hin. apply in_flat_map in Hin as (c' & Hc & Hin). apply zrange_in in Hc.
    assert (Ec : c' = c) by (destruct ((c' =? which) || (which <? 0)); [destruct Hin as [E|[E|[]]]; congruence|destruct Hin]). subst c'. clear Hin.
    rewrite (block_ok d0 d1 d2 l0 l1 l2 s0 s1 s2 (2 * nc) _ (fun i => part ri (nth (Z.to_nat (base + nc * i + c)) field (0, 0)%R))); try assumption; try lia.
    + cbn [bind]. unfold g, log_of. cbn [fst snd whole3]. do 2 f_equal. apply map_ext_in. intros ((i & j) & k) Ht. f_equal. f_equal. specialize (Hv c (i, j, k) Hc Ht). pose proof (rd_bound _ _ _ Hv) as B. rewrite (rd_get_s field _ (0, 0)%R B) in Hv. apply val_inj in Hv. exact Hv.
    + intros i Hi. destruct (size3_in l0 l1 l2 i L1 L2 Hi) as (t & Ht & Ei). specialize (Hv c t Hc Ht). rewrite <- Ei in Hv. pose proof (rd_bound _ _ _ Hv) as B.
      unfold numbers. set (b := if ri then 1 else 0). assert (Hb : 0 <= b < 2) by (unfold b; destruct ri; lia).
      replace (2 * (base + c) + b + i * (2 * nc)) with ((base + nc * i + c) * 2 + b) by ring. rewrite dm_div by exact Hb. rewrite (rd_get_s field _ (0, 0)%R B). cbn [bind].
      assert (Eo : Z.odd ((base + nc * i + c) * 2 + b) = ri) by (rewrite Z.odd_add, Z.odd_mul; cbn [Z.odd]; rewrite andb_false_r; unfold b; destruct ri; reflexivity). rewrite Eo. reflexivity.
Qed.
