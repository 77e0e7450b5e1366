(** Bounds on overlaps, inverse operations. *)
From Coq Require Import List ZArith Reals Bool Lia Lra Permutation.
From Verif Require Import Base RC M_Tensor S_Tensor M_Evect S_Evect M_Grid S_Grid M_Op S_Op M_Fld S_Fld M_Interp S_Interp M_Data M_Trans S_Trans.
From Verif Require Import L_Op L_Op3 L_Fld L_Fld3 L_Trans.
Import ListNotations.
Local Open Scope R_scope.

Lemma unit_bound z T : 0 <= T -> (forall u, normsqr u = 1 -> re (u * z)%C <= T) -> normsqr z <= T * T.
Proof.
  intros HT H. destruct (normsqr_nonneg z) as [P|E]; [|rewrite <- E; apply Rmult_le_pos; assumption].
  set (r := sqrt (normsqr z)). assert (Hr : 0 < r) by (apply sqrt_lt_R0; exact P). assert (E : r * r = normsqr z) by (apply sqrt_sqrt; lra).
  assert (Hu : normsqr (RtoC (/ r) * Cconj z)%C = 1).
  { rewrite normsqr_mul. replace (normsqr (Cconj z)) with (normsqr z) by (clear; csimp; ring). replace (normsqr (RtoC (/ r))) with (/ r * / r) by (clear; csimp; ring). rewrite <- E. field. lra. }
  specialize (H _ Hu). replace (re (RtoC (/ r) * Cconj z * z)%C) with r in H.
  - rewrite <- E. apply Rmult_le_compat; lra.
  - replace (RtoC (/ r) * Cconj z * z)%C with (RtoC (/ r) * (Cconj z * z))%C by ring. rewrite normsqr_conj, <- E. clear - Hr. csimp. field. lra.
Qed.
Lemma form_sub V x y c : form V (fun i => x i - c * y i)%C (fun i => x i - c * y i)%C =
  (form V x x - c * form V x y - Cconj c * form V y x + Cconj c * c * form V y y)%C.
Proof.
  assert (Q : forall a b : C, Cconj (a - b)%C = (Cconj a - Cconj b)%C) by (intros; apply C_eq; csimp; ring).
  unfold form. rewrite !csum3. rewrite !Q, !Cconj_mul. ring.
Qed.
Lemma form_bound V x y u : PSD V -> normsqr u = 1 -> re (u * form V x y)%C <= (re (quad V x) + re (quad V y)) / 2.
Proof.
  intros P Hu. destruct (P (fun i => x i - u * y i)%C) as (_ & H). unfold quad in H. fold (form V (fun i => x i - u * y i)%C (fun i => x i - u * y i)%C) in H.
  rewrite form_sub in H. rewrite (form_conj V y x) in H. rewrite normsqr_conj, Hu in H. change (quad V x) with (form V x x). change (quad V y) with (form V y y).
  generalize dependent (form V x x). generalize dependent (form V x y). generalize dependent (form V y y). clear. intros a b c H. csimp. lra.
Qed.

(* ------------------------------------------------------------------ *)
Lemma rsum_list n f : rsum n f = fold_right (fun i acc => f i + acc) 0 (seq 0 n).
Proof.
  induction n as [|n IH]; [reflexivity|]. rewrite seq_S, fold_right_app. cbn [rsum fold_right Nat.add]. rewrite IH. clear IH.
  generalize (f n). intros u. induction (seq 0 n) as [|x l IH]; cbn [fold_right]; [ring|]. rewrite <- IH. ring.
Qed.
Lemma fold_perm (f : nat -> R) l l' : Permutation l l' -> fold_right (fun i acc => f i + acc) 0 l = fold_right (fun i acc => f i + acc) 0 l'.
Proof. induction 1; cbn [fold_right]; lra. Qed.
Lemma inj_perm n sg : (forall i, (i < n)%nat -> (sg i < n)%nat) -> (forall i j, (i < n)%nat -> (j < n)%nat -> sg i = sg j -> i = j) -> Permutation (map sg (seq 0 n)) (seq 0 n).
Proof.
  intros H1 H2. apply NoDup_Permutation_bis.
  - assert (K : forall l, NoDup l -> (forall i, In i l -> (i < n)%nat) -> NoDup (map sg l)).
    { induction l as [|a l IH]; intros Nd Hl; [constructor|]. inversion_clear Nd as [|? ? Ha Hd]. cbn [map]. constructor.
      - rewrite in_map_iff. intros (b & E & Hb). apply H2 in E; [subst; contradiction|apply Hl; right; exact Hb|apply Hl; left; reflexivity].
      - apply IH; [exact Hd|]. intros i Hi. apply Hl. right. exact Hi. }
    apply K; [apply seq_NoDup|]. intros i Hi. apply in_seq in Hi. lia.
  - rewrite map_length. lia.
  - intros x. rewrite in_map_iff. intros (i & <- & Hi). apply in_seq in Hi. apply in_seq. specialize (H1 i ltac:(lia)). lia.
Qed.
Lemma rsum_perm n sg g : (forall i, (i < n)%nat -> (sg i < n)%nat) -> (forall i j, (i < n)%nat -> (j < n)%nat -> sg i = sg j -> i = j) -> rsum n (fun i => g (sg i)) = rsum n g.
Proof.
  intros H1 H2. rewrite !rsum_list. rewrite <- (fold_perm g _ _ (inj_perm n sg H1 H2)).
  induction (seq 0 n) as [|a l IH]; cbn [map fold_right]; [reflexivity|]. rewrite IH. reflexivity.
Qed.
Lemma csum_perm n sg g : (forall i, (i < n)%nat -> (sg i < n)%nat) -> (forall i j, (i < n)%nat -> (j < n)%nat -> sg i = sg j -> i = j) -> csum n (fun i => g (sg i)) = csum n g.
Proof. intros H1 H2. apply C_eq; [rewrite !csum_re|rewrite !csum_im]; [exact (rsum_perm n sg (fun i => re (g i)) H1 H2)|exact (rsum_perm n sg (fun i => im (g i)) H1 H2)]. Qed.

(* ------------------------------------------------------------------ *)
(** Grid points are different modulo the lattice. *)
Lemma pos_apart s n a b m : s <> 0 -> (1 <= n)%Z -> (0 <= a < n)%Z -> (0 <= b < n)%Z -> position_of s n a - position_of s n b = IZR m * s -> a = b.
Proof.
  intros Hs Hn Ha Hb. unfold position_of. destruct (Z.eqb_spec n 1) as [->|_]; [lia|]. intros E. assert (N : IZR n <> 0) by (apply not_0_IZR; lia).
  assert (Q : IZR (a - b) = IZR (m * n)).
  { rewrite minus_IZR, mult_IZR. apply (Rmult_eq_reg_r (s / IZR n)).
    - replace ((IZR a - IZR b) * (s / IZR n)) with (s * (IZR a / IZR n - 1 / 2) - s * (IZR b / IZR n - 1 / 2)) by (field; exact N). rewrite E. field. exact N.
    - unfold Rdiv. apply Rmult_integral_contrapositive_currified; [exact Hs|apply Rinv_neq_0_compat; exact N]. }
  apply eq_IZR in Q. assert (m = 0)%Z by nia. nia.
Qed.
Lemma spot_apart d f sx sy sz i j a b c : on_grid d f -> has_size (sx, sy, sz) -> (i < Z.to_nat (d_out d))%nat -> (j < Z.to_nat (d_out d))%nat ->
  spot d (sx, sy, sz) i = move (spot d (sx, sy, sz) j) (sx, sy, sz) a b c -> i = j.
Proof.
  intros (_ & H1 & H2 & H3 & Out) (S1 & S2 & S3) Hi Hj E.
  destruct (coords _ _ _ (Z.of_nat i) H1 H2 H3 ltac:(lia)) as ((A1 & A2 & A3) & Ei). destruct (coords _ _ _ (Z.of_nat j) H1 H2 H3 ltac:(lia)) as ((B1 & B2 & B3) & Ej).
  unfold spot, place, move in E. injection E as E1 E2 E3.
  assert (Q1 := pos_apart sx _ _ _ a S1 H1 A1 B1 ltac:(lra)). assert (Q2 := pos_apart sy _ _ _ b S2 H2 A2 B2 ltac:(lra)). assert (Q3 := pos_apart sz _ _ _ c S3 H3 A3 B3 ltac:(lra)).
  rewrite Q1, Q2, Q3 in Ei. lia.
Qed.

Lemma act_plus A u v : act A (plus3 u v) = plus3 (act A u) (act A v).
Proof. rewrite !act_vec. destruct A as [[[[a0 a1] a2] [[b0 b1] b2]] [[c0 c1] c2]], u as [[x y] z], v as [[p q] r]. cbn. apply triple; ring. Qed.
Lemma move_plus p s a b c : move p s a b c = plus3 p (move (0, 0, 0) s a b c).
Proof. destruct p as [[x y] z], s as [[sx sy] sz]. cbn. apply triple; ring. Qed.

Lemma carries_inj d f size W w sg m : on_grid d f -> has_size size -> keeps_lattice size W -> carries d size W w sg m ->
  forall i j, (i < Z.to_nat (d_out d))%nat -> (j < Z.to_nat (d_out d))%nat -> sg i = sg j -> i = j.
Proof.
  intros G Hs K Hc i j Hi Hj E. destruct (Hc i Hi) as (_ & Ei). destruct (Hc j Hj) as (_ & Ej). destruct size as [[sx sy] sz].
  rewrite E in Ei. destruct (m i) as [[a b] c], (m j) as [[a' b'] c']. unfold spot_at in *.
  destruct (K (a - a') (b - b') (c - c'))%Z as (x & y & z & Ex).
  apply (spot_apart d f sx sy sz i j x y z G Hs Hi Hj). rewrite <- Ei, <- Ej.
  assert (Q : move (spot d (sx, sy, sz) (sg j)) (sx, sy, sz) a b c = plus3 (move (spot d (sx, sy, sz) (sg j)) (sx, sy, sz) a' b' c') (move (0, 0, 0) (sx, sy, sz) (a - a') (b - b') (c - c'))).
  { destruct (spot d (sx, sy, sz) (sg j)) as [[p0 p1] p2]. cbn. rewrite !minus_IZR. apply triple; ring. }
  rewrite Q, act_plus, Ex. clear. destruct (act W _) as [[u0 u1] u2], w as [[w0 w1] w2]. cbn. apply triple; ring.
Qed.

Lemma keeps_det size W : has_size size -> keeps_lattice size W -> exists n : Z, determinant W = IZR n.
Proof.
  destruct size as [[sx sy] sz], W as [[[[a0 a1] a2] [[b0 b1] b2]] [[c0 c1] c2]]. intros (S1 & S2 & S3) K.
  destruct (K 1 0 0)%Z as (x0 & x1 & x2 & E). rewrite act_vec in E. cbn in E. injection E as E0 E1 E2.
  destruct (K 0 1 0)%Z as (y0 & y1 & y2 & F). rewrite act_vec in F. cbn in F. injection F as F0 F1 F2.
  destruct (K 0 0 1)%Z as (z0 & z1 & z2 & H). rewrite act_vec in H. cbn in H. injection H as H0 H1 H2.
  exists (x0 * (y1 * z2 - z1 * y2) - y0 * (x1 * z2 - z1 * x2) + z0 * (x1 * y2 - y1 * x2))%Z.
  unfold determinant. cbn [elem axis]. rewrite plus_IZR, minus_IZR, !mult_IZR, !minus_IZR, !mult_IZR.
  assert (A0 : a0 = IZR x0) by (apply (Rmult_eq_reg_r sx); lra). assert (A1 : a1 = IZR x1 * sy / sx) by (apply (Rmult_eq_reg_r sx); [field_simplify; [lra|assumption]|assumption]).
  assert (A2 : a2 = IZR x2 * sz / sx) by (apply (Rmult_eq_reg_r sx); [field_simplify; [lra|assumption]|assumption]).
  assert (B0 : b0 = IZR y0 * sx / sy) by (apply (Rmult_eq_reg_r sy); [field_simplify; [lra|assumption]|assumption]). assert (B1 : b1 = IZR y1) by (apply (Rmult_eq_reg_r sy); lra).
  assert (B2 : b2 = IZR y2 * sz / sy) by (apply (Rmult_eq_reg_r sy); [field_simplify; [lra|assumption]|assumption]).
  assert (C0' : c0 = IZR z0 * sx / sz) by (apply (Rmult_eq_reg_r sz); [field_simplify; [lra|assumption]|assumption]).
  assert (C1' : c1 = IZR z1 * sy / sz) by (apply (Rmult_eq_reg_r sz); [field_simplify; [lra|assumption]|assumption]). assert (C2' : c2 = IZR z2) by (apply (Rmult_eq_reg_r sz); lra).
  rewrite A0, A1, A2, B0, B1, B2, C0', C1', C2'. field. auto.
Qed.
Lemma det_cases size W : has_size size -> keeps_lattice size W -> Rltb (1 / 1000000000000) (Rabs (Rabs (determinant W) - 1)) = true \/ Rabs (determinant W) = 1.
Proof.
  intros Hs K. destruct (keeps_det size W Hs K) as (n & ->). destruct (Rltb_spec (1 / 1000000000000) (Rabs (Rabs (IZR n) - 1))) as [|H]; [left; reflexivity|right].
  rewrite <- abs_IZR in *. rewrite <- minus_IZR, <- abs_IZR in H. apply (f_equal IZR). assert (Q : IZR (Z.abs (Z.abs n - 1)) < 1) by lra. apply lt_IZR in Q. lia.
Qed.

(* ------------------------------------------------------------------ *)
Lemma phase_unit k s p q : normsqr (phase_between k s p q) = 1.
Proof. unfold phase_between. generalize (2 * PI * rsum 3 (fun a => axis k a * (axis q a - axis p a) / axis s a)). intros x. pose proof (sin2_cos2 x) as H. unfold Rsqr in H. csimp. lra. Qed.
Lemma energy_val t d f Vol HN mem tot fr : stored d f -> compute_field_energy t d once Vol HN (flat f) = Val (mem, tot :: fr) -> HN <> 0 ->
  tot = rsum (Z.to_nat (d_out d)) (density t d f) * (Vol / HN).
Proof.
  intros S E H. unfold compute_field_energy in E. destruct (energy_internal_ok t d once f S) as (mem' & Ei & _). rewrite Ei in E. cbn [bind] in E. rewrite fdiv_nz in E by exact H. cbn [bind] in E.
  assert (VI : forall (X : Type) (a b : X), Val a = Val b -> a = b) by congruence. apply VI in E. apply (f_equal snd) in E. cbn [snd] in E. injection E as E _. rewrite <- E. unfold wsum, once. rewrite (rsum_ext _ _ (density t d f)) by (intros; ring). field. exact H.
Qed.
Lemma overlap_bound t d size k f Wc sg m : (forall i, (i < Z.to_nat (d_out d))%nat -> PSD (medium t d i)) -> keeps_medium t d Wc sg ->
  (forall i, (i < Z.to_nat (d_out d))%nat -> (sg i < Z.to_nat (d_out d))%nat) ->
  (forall i j, (i < Z.to_nat (d_out d))%nat -> (j < Z.to_nat (d_out d))%nat -> sg i = sg j -> i = j) ->
  let T := rsum (Z.to_nat (d_out d)) (density t d f) in 0 <= T /\ normsqr (overlap t d size k f Wc sg m) <= T * T.
Proof.
  intros P K H1 H2. cbv zeta. set (n := Z.to_nat (d_out d)) in *.
  assert (T0 : 0 <= rsum n (density t d f)) by (apply rsum_nonneg; intros i Hi; apply (P i Hi)).
  split; [exact T0|]. apply unit_bound; [exact T0|]. intros u Hu. unfold overlap. fold n. rewrite <- csum_scal, csum_re.
  replace (rsum n (density t d f)) with (rsum n (fun i => (density t d f i + density t d f (sg i)) / 2)).
  2:{ rewrite (rsum_ext _ _ (fun i => / 2 * (density t d f i + density t d f (sg i)))) by (intros; field). rewrite rsum_scal, rsum_add, (rsum_perm n sg (density t d f) H1 H2). field. }
  apply rsum_le. intros i Hi. set (e := phase_between _ _ _ _).
  replace (u * (e * form (medium t d i) (at_point f i) (turned Wc (at_point f (sg i)))))%C with ((u * e) * form (medium t d i) (at_point f i) (turned Wc (at_point f (sg i))))%C by ring.
  pose proof (form_bound (medium t d i) (at_point f i) (turned Wc (at_point f (sg i))) (u * e)%C (P i Hi)) as B.
  rewrite normsqr_mul, Hu in B. unfold e in B. rewrite phase_unit in B. specialize (B ltac:(ring)). rewrite (K i _ Hi) in B. fold e in B. exact B.
Qed.
