(** The overlap on the grid. *)
From Coq Require Import List ZArith Reals Bool Lia Lra Permutation.
From Verif Require Import Base RC M_Tensor S_Tensor M_Evect S_Evect M_Grid S_Grid M_Op S_Op M_Fld S_Fld M_Interp S_Interp M_Data M_Trans S_Trans.
From Verif Require Import L_Op L_Op3 L_Fld L_Fld3 L_Interp L_Interp2 L_Grid5 P_Interp.
Import ListNotations.
Local Open Scope Z_scope.

Lemma triple {X Y Z0} (a a' : X) (b b' : Y) (c c' : Z0) : a = a' -> b = b' -> c = c' -> (a, b, c) = (a', b', c').
Proof. congruence. Qed.
Lemma act_vec A v : act A v = m_vec A v.
Proof. destruct A as [[[[a0 a1] a2] [[b0 b1] b2]] [[c0 c1] c2]], v as [[x y] z]. unfold act, m_vec. cbn [rsum elem axis]. rewrite !Rplus_0_l. reflexivity. Qed.
Lemma det_ok A : m_det A = determinant A.
Proof. destruct A as [[[[a0 a1] a2] [[b0 b1] b2]] [[c0 c1] c2]]. unfold m_det, v_dot, v_cross, determinant. cbn [elem axis]. ring. Qed.
Lemma inverse_val A : determinant A <> 0%R -> exists B, m_inverse A = Val B /\ (forall v, act B (act A v) = v) /\ (forall v, act A (act B v) = v).
Proof.
  intros H. rewrite <- det_ok in H. destruct A as [[[[a0 a1] a2] [[b0 b1] b2]] [[c0 c1] c2]]. unfold m_inverse. unfold m_det in H.
  destruct (Reqb_spec (v_dot (a0, a1, a2) (v_cross (b0, b1, b2) (c0, c1, c2))) 0); [contradiction|].
  eexists. split; [reflexivity|]. unfold v_dot, v_cross in *.
  split; intros [[x y] z]; rewrite !act_vec; unfold m_vec, m_transpose, v_scale; apply triple; field; exact H.
Qed.
Lemma mult_act A B v : act (m_mult A B) v = act A (act B v).
Proof.
  rewrite !act_vec. destruct A as [[[[a0 a1] a2] [[b0 b1] b2]] [[c0 c1] c2]], B as [[[[d0 d1] d2] [[e0 e1] e2]] [[f0 f1] f2]], v as [[x y] z].
  unfold m_mult, m_vec. apply triple; ring.
Qed.
Lemma act_ext A B : (forall v, act A v = act B v) -> A = B.
Proof.
  intros H. pose proof (H (1, 0, 0)%R) as H1. pose proof (H (0, 1, 0)%R) as H2. pose proof (H (0, 0, 1)%R) as H3.
  rewrite !act_vec in *. destruct A as [[[[a0 a1] a2] [[b0 b1] b2]] [[c0 c1] c2]], B as [[[[d0 d1] d2] [[e0 e1] e2]] [[f0 f1] f2]].
  unfold m_vec in *. injection H1 as H11 H12 H13. injection H2 as H21 H22 H23. injection H3 as H31 H32 H33.
  apply triple; apply triple; lra.
Qed.
Lemma cartesian_val basis W Wc ib : m_inverse basis = Val ib -> determinant basis <> 0%R -> cartesian basis W Wc -> m_mult (m_mult basis W) ib = Wc.
Proof.
  intros E D H. destruct (inverse_val basis D) as (B & E' & _ & I). rewrite E in E'. injection E' as <-.
  apply act_ext. intros v. rewrite !mult_act. rewrite <- H, I. reflexivity.
Qed.

Lemma turn_ok Wc (F : cvec) x : (forall a, (a < 3)%nat -> vsel a F = x a) -> forall a, (a < 3)%nat -> vsel a (turn_vector Wc F) = turned Wc x a.
Proof.
  intros H a Ha. destruct Wc as [[[[a0 a1] a2] [[b0 b1] b2]] [[c0 c1] c2]], F as [[u v] w].
  pose proof (H 0%nat ltac:(lia)) as H0. pose proof (H 1%nat ltac:(lia)) as H1. pose proof (H 2%nat ltac:(lia)) as H2. cbn in H0, H1, H2. subst.
  unfold turned. cbn [csum]. destruct a as [|[|[|a]]]; [| | |lia]; cbn [turn_vector vsel elem axis]; clear; apply C_eq; csimp; ring.
Qed.
Lemma inner_form V v F : cinner (assign_symmatrix_vector V v) F = form V (fun i => vsel i v) (fun i => vsel i F).
Proof.
  rewrite form_conj. rewrite <- cdotv_form. destruct (assign_symmatrix_vector V v) as [[a b] c], F as [[x y] z].
  unfold cinner, cdotv. rewrite csum3. cbn [vsel fst snd]. clear. apply C_eq; csimp; ring.
Qed.

(* ------------------------------------------------------------------ *)
(** * Points of the grid *)

Lemma coords n1 n2 n3 i : 1 <= n1 -> 1 <= n2 -> 1 <= n3 -> 0 <= i < n1 * n2 * n3 ->
  in_cell n1 n2 n3 (i / (n2 * n3)) ((i / n3) mod n2) (i mod n3) /\ ((i / (n2 * n3)) * n2 + (i / n3) mod n2) * n3 + i mod n3 = i.
Proof.
  intros H1 H2 H3 Hi. rewrite (Z.mul_comm n2 n3), <- Z.div_div by lia.
  pose proof (Z.div_mod i n3 ltac:(lia)). pose proof (Z.mod_pos_bound i n3 ltac:(lia)).
  pose proof (Z.div_mod (i / n3) n2 ltac:(lia)). pose proof (Z.mod_pos_bound (i / n3) n2 ltac:(lia)).
  set (q := i / n3) in *. set (c := q / n2) in *. assert (0 <= q) by (apply Z.div_pos; lia). assert (0 <= c) by (apply Z.div_pos; lia).
  assert (Q : q < n1 * n2) by (apply Z.div_lt_upper_bound; lia). assert (c < n1) by (apply Z.div_lt_upper_bound; lia).
  split; [unfold in_cell; lia|]. rewrite (Z.mul_comm c n2). lia.
Qed.
Lemma coords_of n1 n2 n3 a b c : in_cell n1 n2 n3 a b c -> let i := (a * n2 + b) * n3 + c in
  i / (n2 * n3) = a /\ (i / n3) mod n2 = b /\ i mod n3 = c /\ 0 <= i < n1 * n2 * n3.
Proof.
  intros (Ha & Hb & Hc). cbv zeta. rewrite (Z.mul_comm n2 n3), <- Z.div_div by lia.
  assert (E : ((a * n2 + b) * n3 + c) / n3 = a * n2 + b) by (rewrite Z.add_comm, Z.div_add by lia; rewrite Z.div_small by lia; lia).
  rewrite E. split; [rewrite Z.add_comm, Z.div_add by lia; rewrite Z.div_small by lia; lia|].
  split; [rewrite Z.add_comm, Z.mod_add by lia; apply Z.mod_small; lia|]. split; [rewrite Z.add_comm, Z.mod_add by lia; apply Z.mod_small; lia|].
  assert (0 <= a * n2) by (apply Z.mul_nonneg_nonneg; lia). split; [apply Z.add_nonneg_nonneg; [apply Z.mul_nonneg_nonneg|]; lia|].
  assert (a * n2 + b <= n1 * n2 - 1) by (assert (a * n2 <= (n1 - 1) * n2) by (apply Z.mul_le_mono_nonneg_r; lia); lia).
  assert ((a * n2 + b) * n3 <= (n1 * n2 - 1) * n3) by (apply Z.mul_le_mono_nonneg_r; lia). lia.
Qed.

Lemma unit_at n s i r : 1 <= n -> 0 <= i < n -> s <> 0%R -> frac_of (position_of s n i / s + / 2) r -> unit_weight n i (fun j => ptent n j (r * IZR n)).
Proof.
  intros Hn Hi Hs F. unfold position_of in F. destruct (Z.eqb_spec n 1) as [->|G].
  - assert (i = 0) as -> by lia. assert (r = / 2)%R as ->.
    { apply (frac_unique _ _ _ F). split; [lra|]. exists 0. unfold Rdiv. lra. }
    intros j Hj. assert (j = 0) as -> by lia. cbn. unfold ptent. rewrite (Rabs_right (/ 2 * 1 - 0)) by lra. rewrite (Rabs_left (/ 2 * 1 - 0 - 1)) by lra. rewrite !Rmax_right by lra. lra.
  - assert (N : IZR n <> 0%R) by (apply not_0_IZR; lia). assert (r = IZR i / IZR n)%R as ->; [|apply ptent_point; exact Hi].
    apply (frac_unique _ _ _ F). split; [apply point_frac; exact Hi|]. exists 0. field. auto.
Qed.

Lemma nth_error_skipn {A} (l : list A) o k : nth_error (skipn o l) k = nth_error l (o + k).
Proof. revert l. induction o as [|o IH]; intros l; [reflexivity|]. destruct l as [|a l]; [destruct k; reflexivity|]. cbn [skipn Nat.add nth_error]. apply IH. Qed.
Lemma rd_skipn {A} (l : list A) o i : 0 <= i -> rd (skipn o l) i = rd l (Z.of_nat o + i).
Proof.
  intros H. unfold rd. destruct (Z.ltb_spec i 0); [lia|]. destruct (Z.ltb_spec (Z.of_nat o + i) 0); [lia|].
  replace (Z.to_nat (Z.of_nat o + i)) with (o + Z.to_nat i)%nat by lia. rewrite nth_error_skipn. reflexivity.
Qed.

Section Grid.
Variables (d : mdata) (f : list C) (sx sy sz : R).
Notation n1 := (d_nx d). Notation n2 := (d_ny d). Notation n3 := (d_nz d).
Notation size := (sx, sy, sz).
Hypothesis G : on_grid d f.
Hypothesis Hs : has_size size.

Lemma interp_spot j m off (g : nat -> R) : (j < Z.to_nat (d_out d))%nat -> (off < 6)%nat ->
  (forall i, (i < Z.to_nat (d_out d))%nat -> rd (flat f) (Z.of_nat off + Z.of_nat i * 6) = Val (g i)) ->
  forall cj, interp_val (get_val false n1 n2 n3 (d_last_size d) (skipn off (flat f)) 6 cj) n1 n2 n3 size (spot_at d size j m) = Val (g j).
Proof.
  intros Hj Ho Hg cj. destruct G as ((_ & Lf & _) & H1 & H2 & H3 & Out). destruct m as [[ma mb] mc]. unfold spot_at. rewrite interp_val_move by exact Hs.
  assert (Gd : grid_data n1 n2 n3 6 (skipn off (flat f))).
  { unfold grid_data. rewrite skipn_length, flat_length. repeat split; lia. }
  destruct (C24_complex n1 n2 n3 (d_last_size d) 6 (skipn off (flat f)) cj size (spot d size j) Gd Hs) as ([[rx ry] rz] & Cp & ->). f_equal.
  destruct (coords n1 n2 n3 (Z.of_nat j) H1 H2 H3 ltac:(lia)) as ((C1 & C2 & C3) & E).
  unfold spot, place, cell_pt in Cp. destruct Cp as (Fx & Fy & Fz). destruct Hs as (S1 & S2 & S3). unfold ptents.
  rewrite (weighted_at n1 n2 n3 _ _ _ _ _ _ _ C1 C2 C3); [|exact (unit_at n1 sx _ rx H1 C1 S1 Fx)|exact (unit_at n2 sy _ ry H2 C2 S2 Fy)|exact (unit_at n3 sz _ rz H3 C3 S3 Fz)].
  unfold at3, getr. rewrite E. rewrite rd_skipn by lia. rewrite Hg by exact Hj. reflexivity.
Qed.

Lemma flat_at i c : (i < Z.to_nat (d_out d))%nat -> (c < 3)%nat ->
  rd (flat f) (Z.of_nat (2 * c) + Z.of_nat i * 6) = Val (re (at_point f i c)) /\ rd (flat f) (Z.of_nat (2 * c + 1) + Z.of_nat i * 6) = Val (im (at_point f i c)).
Proof.
  intros Hi Hc. destruct G as ((_ & Lf & _) & _). unfold at_point.
  assert (H : 0 <= 3 * Z.of_nat i + Z.of_nat c < Z.of_nat (length f)) by lia. pose proof (L_Evect3.gets_in f _ H) as E.
  assert (N : nth_error f (3 * i + c) = Some (gets f (3 * Z.of_nat i + Z.of_nat c))).
  { unfold rd in E. destruct (Z.ltb_spec (3 * Z.of_nat i + Z.of_nat c) 0); [lia|]. replace (Z.to_nat (3 * Z.of_nat i + Z.of_nat c)) with (3 * i + c)%nat in E by lia.
    destruct (nth_error f (3 * i + c)); [|discriminate]. injection E as E. f_equal. exact E. }
  destruct (flat_nth f _ _ N) as (A & B). apply rd_nth_error in A, B.
  split; [rewrite <- A|rewrite <- B]; f_equal; lia.
Qed.
Lemma bloch_spot j m : (j < Z.to_nat (d_out d))%nat ->
  get_bloch_field_point false n1 n2 n3 (d_last_size d) (flat f) size (spot_at d size j m) = Val (at_point f j 0, at_point f j 1, at_point f j 2).
Proof.
  intros Hj. unfold get_bloch_field_point, interp_cval.
  rewrite (interp_spot j m 0 (fun i => re (at_point f i 0))) by (try exact Hj; try lia; intros i Hi; apply (flat_at i 0 Hi); lia). cbn [bind].
  rewrite (interp_spot j m (0 + 1) (fun i => im (at_point f i 0))) by (try exact Hj; try lia; intros i Hi; apply (flat_at i 0 Hi); lia). cbn [bind].
  rewrite (interp_spot j m 2 (fun i => re (at_point f i 1))) by (try exact Hj; try lia; intros i Hi; apply (flat_at i 1 Hi); lia). cbn [bind].
  rewrite (interp_spot j m (2 + 1) (fun i => im (at_point f i 1))) by (try exact Hj; try lia; intros i Hi; apply (flat_at i 1 Hi); lia). cbn [bind].
  rewrite (interp_spot j m 4 (fun i => re (at_point f i 2))) by (try exact Hj; try lia; intros i Hi; apply (flat_at i 2 Hi); lia). cbn [bind].
  rewrite (interp_spot j m (4 + 1) (fun i => im (at_point f i 2))) by (try exact Hj; try lia; intros i Hi; apply (flat_at i 2 Hi); lia). cbn [bind].
  destruct (at_point f j 0), (at_point f j 1), (at_point f j 2). reflexivity.
Qed.

Variables (t : ftype) (W Wc : m33) (w k : vec) (sg : nat -> nat) (m : nat -> Z * Z * Z) (invW : m33).
Hypothesis Ht : t <> FOther.
Hypothesis Hc : carries d size W w sg m.
Hypothesis Hi : forall v, act invW (act W v) = v.
Let kk : vec := let '(k0, k1, k2) := k in (k0 * (2 * PI / sx), k1 * (2 * PI / sy), k2 * (2 * PI / sz))%R.
Let term (i : nat) : C := (phase_between k size (spot d size i) (spot_at d size (sg i) (m i)) * form (medium t d i) (at_point f i) (turned Wc (at_point f (sg i))))%C.

Lemma iso_form v F : cinner v F = form (iso 1) (fun i => vsel i v) (fun i => vsel i F).
Proof.
  destruct v as [[a b] c], F as [[x y] z]. unfold cinner, form. rewrite !csum3. cbn [vsel fst snd entry iso m00 m11 m22 m01 m02 m12]. clear. apply C_eq; csimp; ring.
Qed.
Lemma point_term a b c idx z : in_cell n1 n2 n3 a b c -> idx = (a * n2 + b) * n3 + c ->
  overlap_point t d size kk f invW Wc w (a, b, c, idx) z = Val (z + term (Z.to_nat idx))%C.
Proof.
  intros Hin ->. pose proof (coords_of n1 n2 n3 a b c Hin) as (E1 & E2 & E3 & Hb). destruct Hin as (Ha & Hb' & Hc').
  destruct G as ((_ & Lf & Le & Lm) & H1 & H2 & H3 & Out). set (idx := (a * n2 + b) * n3 + c) in *. set (i := Z.to_nat idx).
  assert (Hn : (i < Z.to_nat (d_out d))%nat) by (unfold i; lia). assert (Zi : Z.of_nat i = idx) by (unfold i; lia).
  unfold overlap_point. rewrite grid_point_ok by lia. cbn [bind].
  assert (P : place sx sy sz n1 n2 n3 a b c = spot d size i) by (unfold spot; rewrite Zi, E1, E2, E3; reflexivity). rewrite P.
  destruct (Hc i Hn) as (Hsg & Em).
  assert (Q : m_vec invW (v_minus (spot d size i) w) = spot_at d size (sg i) (m i)).
  { rewrite <- Em. rewrite <- (Hi (spot_at d size (sg i) (m i))) at 2. rewrite <- act_vec. f_equal.
    destruct (act W (spot_at d size (sg i) (m i))) as [[u0 u1] u2]. clear. destruct w as [[w0 w1] w2]. cbn. apply triple; ring. }
  rewrite Q. rewrite bloch_spot by exact Hsg. cbn [bind].
  replace (3 * idx) with (3 * idx) by reflexivity. rewrite rd3_ok by lia. cbn [bind].
  set (v := arr f idx). set (Ft := turn_vector Wc (at_point f (sg i) 0, at_point f (sg i) 1, at_point f (sg i) 2)).
  assert (Sv : forall a, (a < 3)%nat -> vsel a v = at_point f i a).
  { intros q Hq. unfold v, arr, at_point. rewrite Zi. destruct q as [|[|[|q]]]; [| | |lia]; cbn [vsel fst snd]; f_equal; lia. }
  assert (St : forall a, (a < 3)%nat -> vsel a Ft = turned Wc (at_point f (sg i)) a).
  { apply turn_ok. intros q Hq. destruct q as [|[|[|q]]]; [reflexivity|reflexivity|reflexivity|lia]. }
  assert (K : exists F, (match t, d_mu_inv d with
    | FD, _ => let! e := rd (d_eps_inv d) idx in Val (assign_symmatrix_vector e v)
    | FB, Some mu => let! m := rd mu idx in Val (assign_symmatrix_vector m v)
    | _, _ => Val v
    end) = Val F /\ cinner F Ft = form (medium t d i) (at_point f i) (turned Wc (at_point f (sg i)))).
  { unfold medium, sym_at. destruct t; [| |contradiction].
    - rewrite (rd_nth0 _ idx sym0) by lia. cbn [bind]. eexists. split; [reflexivity|]. rewrite inner_form. fold i. apply form_ext; [exact Sv|exact St].
    - destruct (d_mu_inv d) as [mu|].
      + specialize (Lm mu eq_refl). rewrite (rd_nth0 _ idx sym0) by lia. cbn [bind]. eexists. split; [reflexivity|]. rewrite inner_form. fold i. apply form_ext; [exact Sv|exact St].
      + eexists. split; [reflexivity|]. rewrite iso_form. apply form_ext; [exact Sv|exact St]. }
  destruct K as (F & EF & Eform). rewrite EF. cbn [bind]. rewrite Eform. f_equal. f_equal. unfold term. match goal with |- (?x * ?y)%C = (?u * ?v)%C => replace (u * v)%C with (v * u)%C by (clear; ring) end. f_equal.
  unfold phase_between. destruct (spot_at d size (sg i) (m i)) as [[q0 q1] q2]. destruct (spot d size i) as [[p0 p1] p2]. unfold kk. destruct k as [[k0 k1] k2].
  cbn [v_dot v_minus rsum axis]. destruct Hs as (S1 & S2 & S3).
  assert (A : (k0 * (2 * PI / sx) * (q0 - p0) + k1 * (2 * PI / sy) * (q1 - p1) + k2 * (2 * PI / sz) * (q2 - p2) =
    2 * PI * (0 + k0 * (q0 - p0) / sx + k1 * (q1 - p1) / sy + k2 * (q2 - p2) / sz))%R) by (field; auto).
  rewrite A. reflexivity.
Qed.

Lemma run_term : run (overlap_point t d size kk f invW Wc w) (loop_complex n1 n2 n3) C0 = Val (overlap t d size k f Wc sg m).
Proof.
  pose proof G as (_ & H1 & H2 & H3 & Out). destruct (loop_complex_ok n1 n2 n3 ltac:(lia) ltac:(lia) ltac:(lia)) as (M & _ & _).
  assert (I : forall a b c idx, In (a, b, c, idx) (loop_complex n1 n2 n3) -> in_cell n1 n2 n3 a b c /\ idx = (a * n2 + b) * n3 + c).
  { intros a b c idx. unfold loop_complex. rewrite in_flat_map. intros (x & Hx & Hin). apply in_flat_map in Hin as (y & Hy & Hin). apply in_map_iff in Hin as (u & E & Hu).
    rewrite zrange_in in *. injection E as <- <- <- <-. split; [unfold in_cell; auto|reflexivity]. }
  assert (R1 : forall L z, (forall a b c idx, In (a, b, c, idx) L -> in_cell n1 n2 n3 a b c /\ idx = (a * n2 + b) * n3 + c) ->
    run (overlap_point t d size kk f invW Wc w) L z = Val (z + fold_right (fun x acc => term (Z.to_nat x) + acc) C0 (map snd L))%C).
  { induction L as [|(((a & b) & c) & idx) L IH]; intros z HL; [cbn; f_equal; clear; cring|]. cbn [run]. destruct (HL a b c idx (or_introl eq_refl)) as (Hin & E).
    rewrite (point_term a b c idx z Hin E). cbn [bind]. rewrite IH by (intros; apply HL; right; assumption). cbn [map snd fold_right]. f_equal. clear. cring. }
  rewrite R1 by exact I. f_equal. rewrite M. unfold overlap. rewrite Out. unfold zrange. generalize (Z.to_nat (n1 * n2 * n3)) as nn. intros nn.
  fold term. clear. cut (fold_right (fun x acc => term (Z.to_nat x) + acc)%C C0 (map Z.of_nat (seq 0 nn)) = csum nn term).
  { intros ->. cring. }
  induction nn as [|nn IH]; [reflexivity|]. rewrite seq_S, map_app, fold_right_app. cbn [map fold_right Nat.add csum]. rewrite <- IH, Nat2Z.id. clear IH.
  generalize (term nn) as u. intros u. induction (map Z.of_nat (seq 0 nn)) as [|x l IH]; cbn [fold_right]; [cring|]. rewrite IH. cring.
Qed.
End Grid.

Lemma overlap_val t d size basis k Vol HN f W w Wc sg m : t <> FOther -> on_grid d f -> has_size size -> HN <> 0%R -> determinant basis <> 0%R -> Rabs (determinant W) = 1%R ->
  cartesian basis W Wc -> carries d size W w sg m ->
  transformed_overlap t d size basis k Vol HN f W w = Val (RtoC (parity_of t W * (Vol / HN)) * overlap t d size k f Wc sg m)%C.
Proof.
  intros Ht G Hs HN0 Db DW Hc Hm. unfold transformed_overlap. destruct size as [[sx sy] sz], k as [[k0 k1] k2].
  assert (DW0 : determinant W <> 0%R) by (intros E; rewrite E, Rabs_R0 in DW; lra).
  destruct (inverse_val W DW0) as (iW & EW & IW & _). destruct (inverse_val basis Db) as (ib & Eb & _).
  rewrite EW, Eb. rewrite det_ok, DW.
  replace (1 - 1)%R with 0%R by ring. rewrite Rabs_R0. destruct (Rltb_spec (1 / 1000000000000) 0); [lra|]. cbn [bind]. rewrite (cartesian_val basis W Wc ib Eb Db Hc).
  pose proof Hs as (S1 & S2 & S3). rewrite !fdiv_nz by assumption. cbn [bind].
  pose proof (run_term d f sx sy sz G Hs t W Wc w (k0, k1, k2) sg m iW Ht Hm IW) as E. cbv beta iota zeta in E. rewrite E.
  unfold parity_of. destruct t; [| |contradiction]; cbn [bind]; generalize (overlap FD d (sx, sy, sz) (k0, k1, k2) f Wc sg m) (overlap FB d (sx, sy, sz) (k0, k1, k2) f Wc sg m); intros u v; clear; apply (f_equal Val); apply C_eq; csimp; ring.
Qed.
