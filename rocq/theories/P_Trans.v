(** Property C54: overlaps of a field with its transform under a symmetry operation. *)
From Coq Require Import List ZArith Reals Bool Lia Lra.
From Verif Require Import Base RC M_Tensor S_Tensor M_Evect S_Evect M_Grid S_Grid M_Op S_Op M_Fld S_Fld M_Interp S_Interp M_Data M_Trans S_Trans.
From Verif Require Import L_Fld L_Fld3 L_Trans L_Trans2 L_Trans3.
Import ListNotations.
Local Open Scope R_scope.

(** An operation that takes grid points to grid points: the value is the sum over the grid of
    the field, times its medium, with the field at the inverse image, turned in Cartesian
    coordinates, with the Bloch phase between the points; times det W for axial fields. *)
Theorem C54_value : forall t d size basis k Vol HN f W w Wc sg m, t <> FOther -> on_grid d f -> has_size size -> HN <> 0 ->
  determinant basis <> 0 -> Rabs (determinant W) = 1 -> cartesian basis W Wc -> carries d size W w sg m ->
  transformed_overlap t d size basis k Vol HN f W w = Val (RtoC (parity_of t W * (Vol / HN)) * overlap t d size k f Wc sg m)%C.
Proof. exact overlap_val. Qed.
Print Assumptions C54_value.

(** The identity: the overlap is real and the total energy of the field. *)
Theorem C54_identity : forall t d size basis k Vol HN f mem tot fr, t <> FOther -> on_grid d f -> has_size size -> HN <> 0 -> determinant basis <> 0 ->
  compute_field_energy t d once Vol HN (flat f) = Val (mem, tot :: fr) ->
  transformed_overlap t d size basis k Vol HN f unit_matrix (0, 0, 0) = Val (tot, 0).
Proof.
  intros t d size basis k Vol HN f mem tot fr Ht G Hs HN0 Db E.
  assert (D1 : determinant unit_matrix = 1) by (unfold determinant; cbn [elem axis unit_matrix]; ring).
  rewrite (overlap_val t d size basis k Vol HN f unit_matrix (0, 0, 0) unit_matrix (fun i => i) (fun _ => (0, 0, 0)%Z) Ht G Hs HN0 Db).
  - rewrite unit_overlap by (intros; apply quad_real). rewrite (energy_val t d f Vol HN mem tot fr (proj1 G) E HN0). unfold parity_of. rewrite D1. f_equal. clear. destruct t; apply C_eq; csimp; ring.
  - rewrite D1. apply Rabs_R1.
  - intros v. rewrite !unit_act. reflexivity.
  - apply (unit_carries d f). exact G.
Qed.
Print Assumptions C54_identity.

(** A symmetry of lattice, grid and medium: the overlap is no larger than the total energy. *)
Theorem C54_bound : forall t d size basis k Vol HN f W w Wc sg m mem tot fr, t <> FOther -> on_grid d f -> has_size size -> 0 < HN -> 0 <= Vol ->
  determinant basis <> 0 -> cartesian basis W Wc -> keeps_lattice size W -> carries d size W w sg m ->
  (forall i, (i < Z.to_nat (d_out d))%nat -> PSD (medium t d i)) -> keeps_medium t d Wc sg ->
  compute_field_energy t d once Vol HN (flat f) = Val (mem, tot :: fr) ->
  exists z, transformed_overlap t d size basis k Vol HN f W w = Val z /\ 0 <= tot /\ normsqr z <= tot * tot.
Proof.
  intros t d size basis k Vol HN f W w Wc sg m mem tot fr Ht G Hs HN0 HV Db Hc Kl Hm Psd Km E.
  pose proof (energy_val t d f Vol HN mem tot fr (proj1 G) E ltac:(lra)) as Et.
  destruct (overlap_bound t d size k f Wc sg m Psd Km (fun i Hi => proj1 (Hm i Hi)) (carries_inj d f size W w sg m G Hs Kl Hm)) as (T0 & B).
  assert (Q : 0 <= Vol / HN) by (apply Rmult_le_pos; [exact HV|left; apply Rinv_0_lt_compat; exact HN0]).
  assert (Tp : 0 <= tot) by (rewrite Et; apply Rmult_le_pos; assumption).
  destruct (det_cases size W Hs Kl) as [Hd|Hd].
  - exists C0. split; [|split; [exact Tp|replace (normsqr C0) with 0 by (clear; csimp; ring); apply Rmult_le_pos; exact Tp]].
    unfold transformed_overlap. rewrite det_ok, Hd. destruct t; [reflexivity|reflexivity|contradiction].
  - eexists. split; [apply (overlap_val t d size basis k Vol HN f W w Wc sg m); try assumption; lra|]. split; [exact Tp|].
    rewrite normsqr_mul. assert (P1 : parity_of t W * parity_of t W = 1).
    { unfold parity_of. destruct t; try ring. rewrite <- (Rabs_right (determinant W * determinant W)) by (apply Rle_ge, Rle_0_sqr). rewrite Rabs_mult, Hd. ring. }
    replace (normsqr (RtoC (parity_of t W * (Vol / HN)))) with (parity_of t W * parity_of t W * ((Vol / HN) * (Vol / HN))) by (clear; csimp; ring). rewrite P1, Et.
    replace (rsum (Z.to_nat (d_out d)) (density t d f) * (Vol / HN) * (rsum (Z.to_nat (d_out d)) (density t d f) * (Vol / HN)))
      with (1 * ((Vol / HN) * (Vol / HN)) * (rsum (Z.to_nat (d_out d)) (density t d f) * rsum (Z.to_nat (d_out d)) (density t d f))) by ring.
    apply Rmult_le_compat_l; [|exact B]. apply Rmult_le_pos; [lra|]. apply Rmult_le_pos; exact Q.
Qed.
Print Assumptions C54_bound.

(** Isotropic media with equal constants at points carried onto each other are kept by every
    operation that keeps lengths. *)
Theorem C54_isotropic : forall t d Wc sg e, isotropic t d e -> isometry Wc -> (forall i, (i < Z.to_nat (d_out d))%nat -> (sg i < Z.to_nat (d_out d))%nat /\ e (sg i) = e i) ->
  keeps_medium t d Wc sg.
Proof. exact iso_keeps. Qed.
Print Assumptions C54_isotropic.

(** The B field without permeability: the bound holds whatever the dielectric constant is. *)
Theorem C54_b_bound : forall d size basis k Vol HN f W w Wc sg m mem tot fr, d_mu_inv d = None -> on_grid d f -> has_size size -> 0 < HN -> 0 <= Vol ->
  determinant basis <> 0 -> cartesian basis W Wc -> isometry Wc -> keeps_lattice size W -> carries d size W w sg m ->
  compute_field_energy FB d once Vol HN (flat f) = Val (mem, tot :: fr) ->
  exists z, transformed_overlap FB d size basis k Vol HN f W w = Val z /\ 0 <= tot /\ normsqr z <= tot * tot.
Proof.
  intros d size basis k Vol HN f W w Wc sg m mem tot fr Mu G Hs HN0 HV Db Hc Iso Kl Hm E.
  assert (It : isotropic FB d (fun _ => 1)) by (intros i _; unfold medium; rewrite Mu; reflexivity).
  apply (C54_bound FB d size basis k Vol HN f W w Wc sg m mem tot fr); try assumption; [discriminate| |].
  - intros i Hi. rewrite (It i Hi). apply iso_psd. lra.
  - apply (iso_keeps FB d Wc sg (fun _ => 1) It Iso). intros i Hi. split; [apply (Hm i Hi)|reflexivity].
Qed.
Print Assumptions C54_b_bound.

(** A field that the operation multiplies by a number: the overlap is that number times the
    energy (with the sign of axial fields). *)
Theorem C54_eigenvalue : forall t d size basis k Vol HN f W w Wc sg m mem tot fr lam, t <> FOther -> on_grid d f -> has_size size -> HN <> 0 ->
  determinant basis <> 0 -> Rabs (determinant W) = 1 -> cartesian basis W Wc -> carries d size W w sg m ->
  (forall i a, (i < Z.to_nat (d_out d))%nat -> (a < 3)%nat ->
    (phase_between k size (spot d size i) (spot_at d size (sg i) (m i)) * turned Wc (at_point f (sg i)) a = lam * at_point f i a)%C) ->
  compute_field_energy t d once Vol HN (flat f) = Val (mem, tot :: fr) ->
  transformed_overlap t d size basis k Vol HN f W w = Val (RtoC (parity_of t W) * lam * RtoC tot)%C.
Proof.
  intros t d size basis k Vol HN f W w Wc sg m mem tot fr lam Ht G Hs HN0 Db DW Hc Hm He E.
  rewrite (overlap_val t d size basis k Vol HN f W w Wc sg m Ht G Hs HN0 Db DW Hc Hm). f_equal. rewrite (overlap_eigen t d size k f Wc sg m lam He).
  rewrite (energy_val t d f Vol HN mem tot fr (proj1 G) E HN0). rewrite !RtoC_mul. ring.
Qed.
Print Assumptions C54_eigenvalue.

(** The inverse operation has the conjugate overlap, if the operation keeps the lattice, the
    medium and (up to a reciprocal lattice vector) the wave vector. *)
Theorem C54_inverse : forall t d size basis k Vol HN f W w Wc sg m W' w' Wc' tau m' z, t <> FOther -> on_grid d f -> has_size size -> HN <> 0 ->
  determinant basis <> 0 -> Rabs (determinant W) = 1 -> cartesian basis W Wc -> cartesian basis W' Wc' -> inverse_ops W w W' w' ->
  keeps_lattice size W -> carries d size W w sg m -> carries d size W' w' tau m' -> keeps_medium t d Wc sg -> keeps_k size k W ->
  transformed_overlap t d size basis k Vol HN f W w = Val z -> transformed_overlap t d size basis k Vol HN f W' w' = Val (Cconj z).
Proof.
  intros t d size basis k Vol HN f W w Wc sg m W' w' Wc' tau m' z Ht G Hs HN0 Db DW Hc Hc' Inv Kl Hm Hm' Km Kk E. pose proof (det_inverse W W' (proj1 Inv) DW) as DW'.
  rewrite (overlap_val t d size basis k Vol HN f W w Wc sg m Ht G Hs HN0 Db DW Hc Hm) in E. injection E as <-.
  rewrite (overlap_val t d size basis k Vol HN f W' w' Wc' tau m' Ht G Hs HN0 Db) by (try assumption; rewrite DW'; exact DW). f_equal.
  assert (Ic : forall v, act Wc (act Wc' v) = v).
  { intros v. destruct (inverse_val basis Db) as (ib & _ & _ & I). rewrite <- (I v) at 1. rewrite (Hc' (act ib v)), (Hc (act W' (act ib v))). rewrite (proj1 Inv). apply I. }
  destruct size as [[sx sy] sz]. rewrite (overlap_inverse t d f sx sy sz k W W' Wc Wc' w w' sg tau m m' G Hs Kl Inv Hm Hm' Kk Ic Km).
  rewrite Cconj_mul, Cconj_R. unfold parity_of. rewrite DW'. reflexivity.
Qed.
Print Assumptions C54_inverse.

(** Matrices that do not keep volumes, and other fields, give 0. *)
Theorem C54_rejects : forall t d size basis k Vol HN f W w, t = FOther \/ 1 / 1000000000000 < Rabs (Rabs (determinant W) - 1) ->
  transformed_overlap t d size basis k Vol HN f W w = Val C0.
Proof.
  intros t d size basis k Vol HN f W w [-> |H]; [reflexivity|]. unfold transformed_overlap. rewrite det_ok.
  destruct (Rltb_spec (1 / 1000000000000) (Rabs (Rabs (determinant W) - 1))); [destruct t; reflexivity|contradiction].
Qed.
Print Assumptions C54_rejects.

(* ------------------------------------------------------------------ *)
(** Two grid points, translation by half a cell. *)
Definition ex_two (a b : R) : mdata := create_shape 2 1 1 1 [] [iso a; iso b] None [] 1.
Definition ex_field : list C := [(2, 0); (0, 0); (0, 0); (1, 0); (0, 0); (0, 0)].
Definition ex_sg (i : nat) : nat := (1 - i)%nat.
Definition ex_m (i : nat) : Z * Z * Z := match i with O => (-1, 0, 0)%Z | _ => (0, 0, 0)%Z end.
Lemma ex_on a b : on_grid (ex_two a b) ex_field.
Proof. unfold on_grid, stored. cbn. repeat split; try lia; try discriminate. Qed.
Definition ex_comp (i a : nat) : C := match i, a with O, O => (2, 0) | S O, O => (1, 0) | _, _ => C0 end.
Lemma ex_at00 : at_point ex_field 0 0 = ex_comp 0 0. Proof. reflexivity. Qed.
Lemma ex_at01 : at_point ex_field 0 1 = ex_comp 0 1. Proof. reflexivity. Qed.
Lemma ex_at02 : at_point ex_field 0 2 = ex_comp 0 2. Proof. reflexivity. Qed.
Lemma ex_at10 : at_point ex_field 1 0 = ex_comp 1 0. Proof. reflexivity. Qed.
Lemma ex_at11 : at_point ex_field 1 1 = ex_comp 1 1. Proof. reflexivity. Qed.
Lemma ex_at12 : at_point ex_field 1 2 = ex_comp 1 2. Proof. reflexivity. Qed.
Lemma ex_spot0 a b : spot (ex_two a b) (1, 1, 1) 0 = (- 1 / 2, 0, 0).
Proof. change (spot (ex_two a b) (1, 1, 1) 0) with (position_of 1 2 0, position_of 1 1 0, position_of 1 1 0). unfold position_of. change (2 =? 1)%Z with false. change (1 =? 1)%Z with true. cbv iota. apply triple; lra. Qed.
Lemma ex_spot1 a b : spot (ex_two a b) (1, 1, 1) 1 = (0, 0, 0).
Proof. change (spot (ex_two a b) (1, 1, 1) 1) with (position_of 1 2 1, position_of 1 1 0, position_of 1 1 0). unfold position_of. change (2 =? 1)%Z with false. change (1 =? 1)%Z with true. cbv iota. apply triple; lra. Qed.
Lemma ex_carries a b : carries (ex_two a b) (1, 1, 1) unit_matrix (1 / 2, 0, 0) ex_sg ex_m.
Proof.
  intros i Hi. change (Z.to_nat (d_out (ex_two a b))) with 2%nat in *. destruct i as [|[|i]]; [| |lia].
  - split; [unfold ex_sg; lia|]. change (ex_sg 0) with 1%nat. change (ex_m 0) with (-1, 0, 0)%Z. unfold spot_at. rewrite unit_act, ex_spot0, ex_spot1. cbn [move plus3]. apply triple; lra.
  - split; [unfold ex_sg; lia|]. change (ex_sg 1) with 0%nat. change (ex_m 1) with (0, 0, 0)%Z. unfold spot_at. rewrite unit_act, ex_spot0, ex_spot1. cbn [move plus3]. apply triple; lra.
Qed.
Lemma ex_det : determinant unit_matrix = 1.
Proof. unfold determinant. cbn [elem axis unit_matrix]. ring. Qed.
Lemma ex_lattice : keeps_lattice (1, 1, 1) unit_matrix.
Proof. intros a b c. exists a, b, c. apply unit_act. Qed.
Lemma ex_value a b : transformed_overlap FD (ex_two a b) (1, 1, 1) unit_matrix (0, 0, 0) 1 2 ex_field unit_matrix (1 / 2, 0, 0) = Val (a + b, 0).
Proof.
  rewrite (overlap_val FD (ex_two a b) (1, 1, 1) unit_matrix (0, 0, 0) 1 2 ex_field unit_matrix (1 / 2, 0, 0) unit_matrix ex_sg ex_m).
  - f_equal. unfold overlap. change (Z.to_nat (d_out (ex_two a b))) with 2%nat. cbn [csum].
    assert (P : forall p q, phase_between (0, 0, 0) (1, 1, 1) p q = C1).
    { intros p q. unfold phase_between. replace (rsum 3 _) with 0; [rewrite Rmult_0_r, cos_0, sin_0; reflexivity|]. cbn [rsum axis]. unfold Rdiv. ring. }
    rewrite !P. rewrite !(L_Op3.form_ext _ _ (at_point ex_field _) _ (at_point ex_field _) (fun i _ => eq_refl) (unit_turned _)).
    change (ex_sg 0) with 1%nat. change (ex_sg 1) with 0%nat. change (medium FD (ex_two a b) 0) with (iso a). change (medium FD (ex_two a b) 1) with (iso b).
    rewrite !form_iso. rewrite ?ex_at00, ?ex_at01, ?ex_at02, ?ex_at10, ?ex_at11, ?ex_at12. cbn [ex_comp parity_of]. clear. apply C_eq; csimp; field.
  - discriminate.
  - apply ex_on.
  - cbn. lra.
  - lra.
  - rewrite ex_det. lra.
  - rewrite ex_det. apply Rabs_R1.
  - intros v. rewrite !unit_act. reflexivity.
  - apply ex_carries.
Qed.
Lemma ex_energy a b : exists mem fr, compute_field_energy FD (ex_two a b) once 1 2 (flat ex_field) = Val (mem, (4 * a + b) / 2 :: fr).
Proof.
  unfold compute_field_energy. destruct (energy_internal_ok FD (ex_two a b) once ex_field (proj1 (ex_on a b))) as (mem & E & _). rewrite E. cbn [bind]. rewrite fdiv_nz by lra. cbn [bind].
  eexists. eexists. apply f_equal. apply f_equal2; [reflexivity|]. apply f_equal2; [|reflexivity].
  change (Z.to_nat (d_out (ex_two a b))) with 2%nat. unfold wsum, once, density. cbn [rsum].
  change (medium FD (ex_two a b) 0) with (iso a). change (medium FD (ex_two a b) 1) with (iso b).
  rewrite !quad_iso. cbn [rsum]. rewrite ?ex_at00, ?ex_at01, ?ex_at02, ?ex_at10, ?ex_at11, ?ex_at12. cbn [ex_comp]. clear. csimp. field.
Qed.

(** Without a symmetric medium the overlap can exceed the energy. *)
Theorem C54_asymmetric_medium_refuted : exists d size basis k Vol HN f W w sg m mem tot fr z,
  on_grid d f /\ has_size size /\ 0 < HN /\ 0 <= Vol /\ determinant basis <> 0 /\ keeps_lattice size W /\ carries d size W w sg m /\
  (forall i, (i < Z.to_nat (d_out d))%nat -> PSD (medium FD d i)) /\ compute_field_energy FD d once Vol HN (flat f) = Val (mem, tot :: fr) /\
  transformed_overlap FD d size basis k Vol HN f W w = Val z /\ tot * tot < normsqr z.
Proof.
  destruct (ex_energy 1 4) as (mem & fr & E). exists (ex_two 1 4), (1, 1, 1), unit_matrix, (0, 0, 0), 1, 2, ex_field, unit_matrix, (1 / 2, 0, 0), ex_sg, ex_m, mem, ((4 * 1 + 4) / 2), fr, (1 + 4, 0).
  split; [apply ex_on|]. split; [cbn; lra|]. split; [lra|]. split; [lra|]. split; [rewrite ex_det; lra|]. split; [exact ex_lattice|]. split; [apply ex_carries|]. split.
  - intros i Hi. change (Z.to_nat (d_out (ex_two 1 4))) with 2%nat in Hi. destruct i as [|[|i]]; [apply iso_psd; lra|apply iso_psd; lra|lia].
  - split; [exact E|]. split; [apply ex_value|]. csimp. lra.
Qed.
Print Assumptions C54_asymmetric_medium_refuted.

(** A symmetric medium: the hypotheses of [C54_bound] hold; overlap 2e, energy 5e/2. *)
Example C54_example : forall e, 0 < e -> keeps_medium FD (ex_two e e) unit_matrix ex_sg /\
  transformed_overlap FD (ex_two e e) (1, 1, 1) unit_matrix (0, 0, 0) 1 2 ex_field unit_matrix (1 / 2, 0, 0) = Val (e + e, 0) /\
  exists mem fr, compute_field_energy FD (ex_two e e) once 1 2 (flat ex_field) = Val (mem, (4 * e + e) / 2 :: fr).
Proof.
  intros e He. split; [|split; [apply ex_value|apply ex_energy]]. apply (iso_keeps FD (ex_two e e) unit_matrix ex_sg (fun _ => e)).
  - intros i Hi. change (Z.to_nat (d_out (ex_two e e))) with 2%nat in Hi. destruct i as [|[|i]]; [reflexivity|reflexivity|lia].
  - intros v. rewrite unit_act. reflexivity.
  - intros i Hi. split; [apply (ex_carries e e i Hi)|reflexivity].
Qed.

(** Its inverse, and a field the translation multiplies by -1. *)
Definition ex_m' (i : nat) : Z * Z * Z := match i with O => (0, 0, 0)%Z | _ => (1, 0, 0)%Z end.
Example C54_inverse_example : forall a b, inverse_ops unit_matrix (1 / 2, 0, 0) unit_matrix (- (1 / 2), 0, 0) /\ keeps_k (1, 1, 1) (1 / 3, 0, 0) unit_matrix /\
  carries (ex_two a b) (1, 1, 1) unit_matrix (- (1 / 2), 0, 0) ex_sg ex_m'.
Proof.
  intros a b. split; [|split].
  - split; [intros v; rewrite !unit_act; reflexivity|]. split; [intros v; rewrite !unit_act; reflexivity|]. rewrite unit_act. cbn [plus3]. apply triple; lra.
  - intros x y z x' y' z' E. rewrite unit_act in E. cbn [move] in E. injection E as E1 E2 E3. exists 0%Z. cbn [axis]. rewrite minus_IZR. lra.
  - intros i Hi. change (Z.to_nat (d_out (ex_two a b))) with 2%nat in *. destruct i as [|[|i]]; [| |lia].
    + split; [unfold ex_sg; lia|]. change (ex_sg 0) with 1%nat. change (ex_m' 0) with (0, 0, 0)%Z. unfold spot_at. rewrite unit_act, ex_spot0, ex_spot1. cbn [move plus3]. apply triple; lra.
    + split; [unfold ex_sg; lia|]. change (ex_sg 1) with 0%nat. change (ex_m' 1) with (1, 0, 0)%Z. unfold spot_at. rewrite unit_act, ex_spot0, ex_spot1. cbn [move plus3]. apply triple; lra.
Qed.
Example C54_eigenvalue_example : forall a b i c, (i < Z.to_nat (d_out (ex_two a b)))%nat -> (c < 3)%nat ->
  let f := [(3, 0); C0; C0; (- 3, 0); C0; C0] in
  (phase_between (0, 0, 0) (1, 1, 1) (spot (ex_two a b) (1, 1, 1) i) (spot_at (ex_two a b) (1, 1, 1) (ex_sg i) (ex_m i)) * turned unit_matrix (at_point f (ex_sg i)) c = RtoC (- 1) * at_point f i c)%C.
Proof.
  intros a b i c Hi Hc. change (Z.to_nat (d_out (ex_two a b))) with 2%nat in Hi. cbv zeta. rewrite unit_turned by exact Hc.
  assert (P : forall p q, phase_between (0, 0, 0) (1, 1, 1) p q = C1).
  { intros p q. unfold phase_between. replace (rsum 3 _) with 0; [rewrite Rmult_0_r, cos_0, sin_0; reflexivity|]. cbn [rsum axis]. unfold Rdiv. ring. }
  rewrite P. clear P.
  set (f := [(3, 0); C0; C0; (- 3, 0); C0; C0]).
  destruct i as [|[|i]]; [change (ex_sg 0) with 1%nat|change (ex_sg 1) with 0%nat|lia]; destruct c as [|[|[|c]]]; try lia;
    [change (at_point f 1 0) with ((- 3, 0) : C); change (at_point f 0 0) with ((3, 0) : C)
    |change (at_point f 1 1) with C0; change (at_point f 0 1) with C0|change (at_point f 1 2) with C0; change (at_point f 0 2) with C0
    |change (at_point f 1 0) with ((- 3, 0) : C); change (at_point f 0 0) with ((3, 0) : C)
    |change (at_point f 1 1) with C0; change (at_point f 0 1) with C0|change (at_point f 1 2) with C0; change (at_point f 0 2) with C0]; clear; apply C_eq; csimp; lra.
Qed.
