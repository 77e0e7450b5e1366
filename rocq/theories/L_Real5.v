(** Every problem of the complex build has its real build; a structure without inversion symmetry. *)
From Coq Require Import List ZArith Reals Bool Lia Lra.
From Verif Require Import Base RC Loops M_Tensor S_Tensor M_Evect S_Evect L_Evect L_Evect3 M_Grid S_Grid M_Op S_Op L_Op L_Op2 L_Mir1 M_Real S_Real L_Real1 L_Real2 L_Real3 L_Real4.
Import ListNotations.
Local Open Scope Z_scope.

Definition half_list (d : mdata) (n : Z) (t : list sym) : list sym := map (fun h => sym_at t (Z.to_nat (unstored d h))) (zrange n).
Lemma zrange_len n : 0 <= n -> Z.of_nat (length (zrange n)) = n.
Proof. intros H. unfold zrange. rewrite map_length, seq_length. lia. Qed.
Lemma half_list_at d n t h : 0 <= h < n -> sym_at (half_list d n t) (Z.to_nat h) = sym_at t (Z.to_nat (unstored d h)).
Proof.
  intros H. unfold half_list. unfold sym_at at 1. rewrite (nth_indep _ sym0 (sym_at t (Z.to_nat (unstored d 0)))) by (rewrite map_length; unfold zrange; rewrite map_length, seq_length; lia).
  rewrite (map_nth (fun h => sym_at t (Z.to_nat (unstored d h)))). f_equal. f_equal. f_equal. unfold zrange. change 0 with (Z.of_nat 0). rewrite map_nth, seq_nth by lia. lia.
Qed.
Lemma half_list_ok d n t : wfr d -> n = d_other d * stored d -> half_of d (half_list d n t) t.
Proof.
  intros Wr En x y z h I. pose proof (r_S_bounds d Wr) as Sb. pose proof (r_O d Wr) as Ob. destruct (r_sizes d Wr) as (P1 & P2 & P3).
  assert (EL : d_last d = last_dim (d_nx d) (d_ny d) (d_nz d)) by apply Wr. assert (EO : d_other d * d_last d = npts d) by apply Wr. pose proof (r_L d Wr) as Lp.
  unfold loop_real in I. assert (Eo : other_dims (d_nx d) (d_nx d) (d_ny d) (d_nz d) = d_other d).
  { unfold other_dims, local_N. rewrite <- EL. change (d_nx d * d_ny d * d_nz d) with (npts d). rewrite <- EO. apply Z.quot_mul. lia. }
  assert (Es : Z.quot (last_dim_size (d_nx d) (d_ny d) (d_nz d)) 2 = stored d). { unfold last_dim_size, stored. rewrite <- EL. rewrite Z.mul_comm. apply Z.quot_mul. lia. }
  rewrite Eo, Es in I. apply in_flat_map in I. destruct I as (i & Ii & I). apply in_map_iff in I. destruct I as (j & E & Ij).
  assert (Zr : forall n i, In i (zrange n) -> 0 <= i < n) by (intros m k Hk; unfold zrange in Hk; apply in_map_iff in Hk; destruct Hk as (q & <- & Hq); apply in_seq in Hq; lia).
  apply Zr in Ii. apply Zr in Ij. cbv zeta in E.
  assert (Eh : h = i * stored d + j) by (destruct (fft_rank (d_ny d) (d_nz d) =? 2); [|destruct (fft_rank (d_ny d) (d_nz d) =? 3)]; injection E; intros; congruence).
  assert (Hh : 0 <= h < n) by (subst n; rewrite Eh; apply (rowin (d_other d) (stored d) (stored d)); lia).
  rewrite half_list_at by exact Hh. f_equal. f_equal. unfold unstored. rewrite Eh. destruct (divmod' i j (stored d) Ij) as (-> & ->). unfold pt.
  unfold last_dim, fft_rank in *. assert (EN : npts d = d_nx d * d_ny d * d_nz d) by reflexivity.
  destruct (Z.eqb_spec (d_nz d) 1) as [E3|E3]; [destruct (Z.eqb_spec (d_ny d) 1) as [E2|E2]|].
  - change (1 =? 2) with false in E. change (1 =? 3) with false in E. cbv iota in E. change (1 =? 1) with true in EL. cbv iota in EL. injection E as <- <- <- _.
    assert (d_other d = 1) by nia. assert (i = 0) by lia. rewrite E2, E3. lia.
  - change (2 =? 2) with true in E. cbv iota in E. change (2 =? 1) with false in EL. change (2 =? 2) with true in EL. cbv iota in EL. injection E as <- <- <- _. rewrite E3, EL. ring.
  - change (3 =? 2) with false in E. change (3 =? 3) with true in E. cbv iota in E. change (3 =? 1) with false in EL. change (3 =? 2) with false in EL. cbv iota in EL. injection E as <- <- <- _.
    rewrite EL. f_equal. f_equal. rewrite Z.mul_comm. apply Z.quot_rem'.
Qed.
Theorem real_build dc nfb : wfd dc -> exists dr, wfr dr /\ same_problem dr dc /\ d_nfb dr = nfb.
Proof.
  intros Wc. destruct Wc as (Hx & Hy & Hz & _ & _ & _ & _ & _ & Lk & _).
  set (mk := fun e mu => create_shape_real (d_nx dc) (d_ny dc) (d_nz dc) nfb (d_kG dc) e mu [] 0%R).
  set (d0 := mk [] None). set (n := d_out d0).
  assert (Hn : 0 <= n).
  { unfold n, d0, mk, create_shape_real. cbn [d_out]. cbv zeta. set (l := last_dim _ _ _). assert (1 <= l) by (unfold l, last_dim; destruct (_ =? 1); [lia|]; destruct (_ =? 2); lia).
    assert (0 <= Z.quot l 2) by (apply Z.quot_pos; lia). assert (0 < d_nx dc * d_ny dc) by nia. apply Z.quot_pos; [|lia]. apply Z.mul_nonneg_nonneg; [apply Z.quot_pos; nia|lia]. }
  set (e := half_list d0 n (d_eps_inv dc)). set (mu := option_map (half_list d0 n) (d_mu_inv dc)). set (dr := mk e mu).
  assert (Lh : forall t, Z.of_nat (length (half_list d0 n t)) = n) by (intros t; unfold half_list; rewrite map_length; apply zrange_len; exact Hn).
  assert (W : wfr dr).
  { apply shape_real; [lia|lia|lia|exact Lk|apply Lh|]. intros m Em. unfold mu in Em. destruct (d_mu_inv dc); [|discriminate]. injection Em as <-. apply Lh. }
  exists dr. split; [exact W|]. split; [|reflexivity].
  assert (Ho : forall t, half_of dc (half_list d0 n t) t).
  { intros t. assert (H := half_list_ok dr n t W (r_out dr W)). exact H. }
  split; [reflexivity|]. split; [reflexivity|]. split; [reflexivity|]. split; [reflexivity|]. split; [apply Ho|].
  change (d_mu_inv dr) with mu. unfold mu. destruct (d_mu_inv dc) as [m|]; [|exact I]. apply Ho.
Qed.

(** Four points along z. *)
Definition rl_k (q : R) : kdata := {| kmag := Rabs q; km := ((q / Rabs q)%R, 0%R, 0%R); kn := (0, 1, 0)%R |}.
Lemma transverse_z q : q <> 0%R -> transverse (0, 0, q)%R = Val (rl_k q).
Proof.
  intros Hq. unfold transverse. cbv zeta. assert (Hqq : (q * q <> 0)%R) by (apply Rmult_integral_contrapositive_currified; assumption).
  replace (0 * 0 + 0 * 0 + q * q)%R with (q * q)%R by ring. destruct (Reqb_spec (q * q) 0) as [E|_]; [contradiction|]. destruct (Reqb_spec 0 0) as [_|E]; [|contradiction]. cbn [andb bind vcross].
  replace ((1 * q - 0 * 0) * (1 * q - 0 * 0) + (0 * 0 - 0 * q) * (0 * 0 - 0 * q) + (0 * 0 - 1 * 0) * (0 * 0 - 1 * 0))%R with (q * q)%R by ring.
  assert (Es : sqrt (q * q) = Rabs q) by (change (q * q)%R with (Rsqr q); apply sqrt_Rsqr_abs). rewrite Es. assert (Rabs q <> 0%R) by (apply Rabs_no_R0; exact Hq). rewrite fdiv_nz by assumption. cbn [bind]. unfold rl_k, vscale. f_equal. f_equal. f_equal; [f_equal|]; field; assumption.
Qed.
Definition rl_wave (s : R) : vec := (0, 0, s)%R.
Definition rl_G1 : vec := (1, 0, 0)%R. Definition rl_G2 : vec := (0, 1, 0)%R. Definition rl_G3 : vec := (0, 0, 1)%R.
Definition rl_kG : list kdata := [rl_k (1 / 4); rl_k (1 / 4 - 1); rl_k (1 / 4 + 2); rl_k (1 / 4 + 1)].
Lemma rl_table : k_plus_G 1 1 4 0 1 (rl_wave (1 / 4)) rl_G1 rl_G2 rl_G3 = Val rl_kG.
Proof.
  unfold k_plus_G. change (planewaves 1 1 4 0 1) with [(0, 0, 0); (0, 0, 1); (0, 0, -2); (0, 0, -1)]. unfold rl_kG. cbn [mapM].
  assert (K : forall z q, (1 / 4 - IZR z)%R = q -> q <> 0%R -> transverse (kpG (rl_wave (1 / 4)) rl_G1 rl_G2 rl_G3 0 0 z) = Val (rl_k q)).
  { intros z q E Hq. rewrite <- transverse_z by exact Hq. f_equal. unfold kpG, rl_wave, rl_G1, rl_G2, rl_G3. cbn [fst snd]. rewrite <- E. f_equal; [f_equal|]; ring. }
  rewrite (K 0 (1 / 4)%R) by lra. cbn [bind]. rewrite (K 1 (1 / 4 - 1)%R) by lra. cbn [bind]. rewrite (K (-2) (1 / 4 + 2)%R) by lra. cbn [bind]. rewrite (K (-1) (1 / 4 + 1)%R) by lra. reflexivity.
Qed.
Definition rl_iso (e : R) : sym := mkSym e e e C0 C0 C0.
Definition rl_c (mu : bool) (a b c e : R) : mdata := create_shape 1 1 4 1 rl_kG [rl_iso a; rl_iso b; rl_iso c; rl_iso e] (if mu then Some [rl_iso c; rl_iso a; rl_iso b; rl_iso a] else None) [] 0%R.
Definition rl_r (mu : bool) (a b c : R) : mdata := create_shape_real 1 1 4 1 rl_kG [rl_iso a; rl_iso b; rl_iso c] (if mu then Some [rl_iso c; rl_iso a; rl_iso b] else None) [] 0%R.
Lemma rl_wfd (mu : bool) a b c e : wfd (rl_c mu a b c e).
Proof. unfold wfd; repeat split; cbn; try lia; try reflexivity. intros m Hm. destruct mu; [|discriminate]. injection Hm as <-. reflexivity. Qed.
Lemma rl_wfr (mu : bool) a b c : wfr (rl_r mu a b c).
Proof. unfold wfr; repeat split; cbn; try lia; try reflexivity. intros m Hm. destruct mu; [|discriminate]. injection Hm as <-. reflexivity. Qed.
Lemma rl_same (mu : bool) a b c e : same_problem (rl_r mu a b c) (rl_c mu a b c e).
Proof.
  repeat (split; [reflexivity|]). split.
  - intros x y z h I. change (loop_real (d_nx (rl_c mu a b c e)) (d_ny (rl_c mu a b c e)) (d_nz (rl_c mu a b c e))) with [(0, 0, 0, 0); (0, 0, 1, 1); (0, 0, 2, 2)] in I. destruct I as [E|[E|[E|[]]]]; injection E as <- <- <- <-; reflexivity.
  - destruct mu; [|exact I]. cbn. intros x y z h I. change (loop_real (d_nx (rl_c true a b c e)) (d_ny (rl_c true a b c e)) (d_nz (rl_c true a b c e))) with [(0, 0, 0, 0); (0, 0, 1, 1); (0, 0, 2, 2)] in I. destruct I as [E|[E|[E|[]]]]; injection E as <- <- <- <-; reflexivity.
Qed.
Lemma rl_symmetric (mu : bool) a b c : symmetric_structure (rl_c mu a b c b).
Proof.
  assert (K : forall t : list sym, (forall n, (n < 4)%nat -> exists q, sym_at t n = rl_iso q) -> sym_at t 1 = sym_at t 3 -> inversion (rl_c mu a b c b) t).
  { intros t Hq H13 x y z i j Hx Hy Hz Hi Hj. cbn [rl_c create_shape d_nx d_ny d_nz] in *. unfold pt. cbn [rl_c create_shape d_nx d_ny d_nz].
    assert (x = 0) by lia. assert (y = 0) by lia. subst x y. assert (z = 0 \/ z = 1 \/ z = 2 \/ z = 3) as [-> | [-> | [-> | ->]]] by lia;
    change (opp 1 0) with 0; [change (opp 4 0) with 0|change (opp 4 1) with 3|change (opp 4 2) with 2|change (opp 4 3) with 1]; cbn [Z.mul Z.add Z.to_nat Pos.to_nat Pos.iter_op Nat.add Pos.mul Pos.add]; cbv [Pos.to_nat Pos.iter_op Nat.add]; rewrite <- ?H13;
    match goal with |- context [sym_at t ?n] => destruct (Hq n ltac:(lia)) as (q & ->) end; destruct i as [|[|[|]]], j as [|[|[|]]]; try lia; cbn [entry rl_iso m00 m11 m22 m01 m02 m12]; apply C_eq; csimp; ring. }
  split; [|destruct mu; [cbn|exact I]]; apply K; try reflexivity; intros n Hn; destruct n as [|[|[|[|]]]]; try lia; eexists; reflexivity.
Qed.
Definition rl_X : emat R := {| en := 8; ep := 1; ealloc := 1; edata := [1; 0; 0; 0; 0; 0; 0; 0]%R |}.
Definition rl_Xc : emat C := {| en := 8; ep := 1; ealloc := 1; edata := [C1; C0; C0; C0; C0; C0; C0; C0] |}.
Lemma rl_ready (mu : bool) a b c : ready_r 1 (rl_r mu a b c) rl_X rl_X (repeat 0%R 18).
Proof. unfold ready_r, fields_r, wf, scratch_r; repeat split; cbn; lia. Qed.
Lemma rl_ready_c (mu : bool) a b c e : ready 1 (rl_c mu a b c e) rl_Xc rl_Xc (repeat C0 12).
Proof. unfold ready, S_Op.fields, wf, scratch; repeat split; cbn; lia. Qed.
Lemma rl_same_X : same_amplitudes rl_X rl_Xc.
Proof.
  split; [reflexivity|]. split; [reflexivity|]. intros i j Hi Hj. cbn [rl_X en ep] in Hi, Hj. assert (j = 0) by lia. subst j.
  assert (i = 0 \/ i = 1 \/ i = 2 \/ i = 3 \/ i = 4 \/ i = 5 \/ i = 6 \/ i = 7) as E by lia. repeat (destruct E as [->|E]; [reflexivity|]). subst i. reflexivity.
Qed.

(** What the complex operator makes of that field. *)
Lemma rl_kern_b a b c e r : (r < 4)%nat -> kern (rl_c false a b c e) (-1) (Z.of_nat r) 1 = nth r [(1, 0); (0, 1); (-1, 0); (0, -1)]%R C0.
Proof.
  intros Hr. unfold kern, phase. cbn [rl_c create_shape d_nx d_ny d_nz Z.ltb Z.compare].
  assert (P1 : point 1 4 1 = (0, 0, 1)) by reflexivity. rewrite P1.
  assert (Pr : point 1 4 (Z.of_nat r) = (0, 0, Z.of_nat r)) by (do 4 (destruct r; [reflexivity|]); lia). rewrite Pr.
  replace (2 * PI * (IZR (0 * 0) / IZR 1 + IZR (0 * 0) / IZR 1 + IZR (Z.of_nat r * 1) / IZR 4))%R with (IZR (Z.of_nat r) * (PI / 2))%R by (rewrite Z.mul_1_r; cbn [Z.mul]; field).
  destruct r as [|[|[|[|]]]]; [| | | |lia]; cbn [Z.of_nat Pos.of_succ_nat Pos.succ nth].
  - rewrite Rmult_0_l, cos_0, sin_0. reflexivity.
  - rewrite Rmult_1_l, cos_PI2, sin_PI2. reflexivity.
  - replace (2 * (PI / 2))%R with PI by field. rewrite cos_PI, sin_PI. reflexivity.
  - replace (3 * (PI / 2))%R with (3 * (PI / 2))%R by field. rewrite cos_3PI2, sin_3PI2. reflexivity.
Qed.
Lemma rl_kern_f a b c e r : kern (rl_c false a b c e) 1 0 r = C1.
Proof.
  unfold kern, phase. cbn [rl_c create_shape d_nx d_ny d_nz Z.ltb Z.compare]. assert (P0 : point 1 4 0 = (0, 0, 0)) by reflexivity. rewrite P0. destruct (point 1 4 r) as ((x & y) & z). cbn [Z.mul].
  replace (2 * PI * (0 / IZR 1 + 0 / IZR 1 + 0 / IZR 4))%R with 0%R by (field). rewrite cos_0, sin_0. apply C_eq; csimp; ring.
Qed.
Lemma rl_abs q : (0 < q)%R -> Rabs q = q. Proof. intros. apply Rabs_right. lra. Qed.
Lemma rl_position a b c e r : position (rl_c false a b c e) assign_cross_t2c (fld rl_Xc 0) r = (C0, RtoC (1 / 4), C0).
Proof.
  unfold position. change (Z.to_nat (npts (rl_c false a b c e))) with 4%nat.
  assert (Z0 : forall g, (0 < g < 4)%nat -> assign_cross_t2c (kz (rl_c false a b c e) (Z.of_nat g)) (fld rl_Xc 0 (Z.of_nat g) 0) (fld rl_Xc 0 (Z.of_nat g) 1) = (C0, C0, C0)).
  { intros g Hg. assert (E : fld rl_Xc 0 (Z.of_nat g) 0 = C0 /\ fld rl_Xc 0 (Z.of_nat g) 1 = C0) by (destruct g as [|[|[|[|]]]]; try lia; split; reflexivity). destruct E as (-> & ->).
    destruct (kz _ _) as [m [[m0 m1] m2] [[n0 n1] n2]]. unfold assign_cross_t2c. cbn [km kn kmag]. f_equal; [f_equal|]; apply C_eq; csimp; ring. }
  assert (Z1 : assign_cross_t2c (kz (rl_c false a b c e) (Z.of_nat 0)) (fld rl_Xc 0 (Z.of_nat 0) 0) (fld rl_Xc 0 (Z.of_nat 0) 1) = (C0, RtoC (1 / 4), C0)).
  { change (fld rl_Xc 0 (Z.of_nat 0) 0) with C1. change (fld rl_Xc 0 (Z.of_nat 0) 1) with C0. change (kz (rl_c false a b c e) (Z.of_nat 0)) with (rl_k (1 / 4)). unfold rl_k, assign_cross_t2c. cbn [km kn kmag]. rewrite rl_abs by lra. f_equal; [f_equal|]; apply C_eq; csimp; lra. }
  cbn [csum]. rewrite Z1, !Z0 by lia. unfold vbuild, vsel. cbn [fst snd]. change (Z.of_nat 0) with 0. rewrite rl_kern_f.
  f_equal; [f_equal|]; apply C_eq; csimp; ring.
Qed.
Lemma rl_op a b c e : opcol (rl_c false a b c e) (fld rl_Xc 0) 1 0 = ((3 / 64) * (a - c), (3 / 64) * (b - e))%R.
Proof.
  unfold opcol. change (d_mu_inv (rl_c false a b c e)) with (@None (list sym)). cbv iota. unfold epscol, sand. cbv zeta. cbn [Z.eqb].
  assert (Eb : back (rl_c false a b c e) (fun r => tens (d_eps_inv (rl_c false a b c e)) r (position (rl_c false a b c e) assign_cross_t2c (fld rl_Xc 0) r)) 1 = (C0, ((a - c) / 4, (b - e) / 4)%R, C0)).
  { unfold back. change (Z.to_nat (npts (rl_c false a b c e))) with 4%nat. cbn [csum]. rewrite !rl_kern_b by lia. rewrite !rl_position. unfold tens. rewrite !Nat2Z.id.
    unfold vbuild, vsel, sym_at. cbn [rl_c create_shape d_eps_inv nth rl_iso assign_symmatrix_vector m00 m11 m22 m01 m02 m12 fst snd]. f_equal; [f_equal|]; apply C_eq; csimp; field. }
  rewrite Eb. change (kz (rl_c false a b c e) 1) with (rl_k (1 / 4 - 1)). unfold assign_cross_c2t, rl_k, cdot3. cbn [km kn kmag fst snd]. change (mN (rl_c false a b c e)) with 4%R.
  assert (Ea : Rabs (1 / 4 - 1) = (3 / 4)%R) by (rewrite Rabs_left by lra; lra). rewrite Ea. apply C_eq; csimp; field.
Qed.
