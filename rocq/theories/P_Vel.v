(** Property C97: the group velocity is the derivative of the frequency. *)
From Coq Require Import List ZArith Reals Lra Lia Bool.
From Verif Require Import Base RC M_Tensor S_Tensor M_Evect S_Evect M_Grid S_Grid M_Op S_Op L_Op L_Op2 L_Op3 L_Op4 L_Op5 P_Op M_Gv S_Gv L_Gv S_Fgrad M_Vel S_Vel L_Vel L_Vel2 L_Vel3.
Import ListNotations.
Local Open Scope R_scope.

(** The velocity along a direction given in the reciprocal basis: the derivative of the band's
    frequency as the wave vector moves along the unit vector in that direction. *)
Theorem C97_component : forall s d k b w wk dir, solved s d k b w -> work_ok d wk -> in_basis (v_Gm s) dir <> (0, 0, 0) ->
  exists x u c, compute_1_group_velocity_component s wk dir b = Some (Val x) /\ u = rsc c (in_basis (v_Gm s) dir) /\ 0 < c /\ rdot u u = 1 /\ velocity_along s d k b u x.
Proof.
  intros s d k b w wk dir So Wk Nz. rewrite <- mult_in_basis in *. destruct (unit_total (matrix3x3_vector3_mult (v_Gm s) dir)) as (u & Eu & _ & c & Ec & Hc & Hu).
  exists (slope d u (v_H s) (b - 1) / w), u, c. split; [exact (component_ok s d k b w wk dir u So Wk Eu)|]. split; [exact Ec|]. split; [exact Hc|]. split; [exact (Hu Nz)|]. exact (velocity_slope s d k b w u So).
Qed.
Print Assumptions C97_component.

(** The velocity as a Cartesian vector: its product with any vector u is the derivative of the
    frequency as the wave vector moves along u. *)
Theorem C97_vector : forall s d k b w wx wy wz, solved s d k b w -> work_ok d wx -> work_ok d wy -> work_ok d wz ->
  exists v, compute_1_group_velocity s wx wy wz b = Some (Val v) /\ forall u, velocity_along s d k b u (rdot v u).
Proof.
  intros s d k b w wx wy wz So Wx Wy Wz. destruct (vector_ok s d k b w wx wy wz So Wx Wy Wz) as (v & E & H). exists v. split; [exact E|]. intros u. rewrite H. exact (velocity_slope s d k b w u So).
Qed.
Print Assumptions C97_vector.

(** In reciprocal coordinates: the gradient with respect to the coordinates of the wave vector
    in the basis of the reciprocal lattice vectors. *)
Theorem C97_reciprocal : forall s d k b w wx wy wz, solved s d k b w -> work_ok d wx -> work_ok d wy -> work_ok d wz ->
  exists v, compute_1_group_velocity_reciprocal s wx wy wz b = Some (Val v) /\ forall h, velocity_along s d k b (in_basis (v_Gm s) h) (rdot v h).
Proof.
  intros s d k b w wx wy wz So Wx Wy Wz. destruct (vector_ok s d k b w wx wy wz So Wx Wy Wz) as (v & E & H). unfold compute_1_group_velocity_reciprocal. rewrite E. cbn [obind].
  eexists. split; [reflexivity|]. intros h. rewrite transpose_dot, H. exact (velocity_slope s d k b w _ So).
Qed.
Print Assumptions C97_reciprocal.

(** The velocities of all bands at once are the same derivatives. *)
Theorem C97_all_bands : forall d G1 G2 G3 k mx bs num_bands same neg u freqs s, wfd d -> d_mu_inv d = None -> table_at d G1 G2 G3 k (d_kG d) -> gv_ready mx bs num_bands same d freqs s ->
  exists v, group_velocity mx num_bands same neg u freqs s = Some (Val (v, g_H s)) /\ Z.of_nat (length v) = num_bands /\
  forall i w, (0 <= i < num_bands)%Z -> rd freqs i = Val (if neg then w * w else w) -> 0 < w -> dotl (g_H s) (g_H s) i i = C1 -> eigenfield d (g_H s) i (w * w) ->
  exists x, rd v i = Val x /\ forall ks Y j lam, followed d G1 G2 G3 k u (g_H s) i ks Y j lam -> derivable_pt_lim (fun t => sqrt (lam t)) 0 x.
Proof.
  intros d G1 G2 G3 k mx bs nbands same neg u freqs s Wd Hm T0 Rd. destruct (gv_total d mx bs nbands same neg u freqs s Wd Rd) as (v & H' & E & L & Hv & _ & _ & Hsame & _); [congruence|].
  rewrite (Hsame (or_introl Hm)) in E. exists v. split; [exact E|]. split; [exact L|]. intros i w Hi Ef Hw N1 Ei. exists (getr v i). split; [apply getr_in; lia|].
  assert (Lf : Z.of_nat (length freqs) = nbands) by (unfold gv_ready in Rd; tauto).
  assert (Ho : orthonormal_basis d) by (destruct (table_facts _ _ _ _ _ _ Wd T0) as (_ & Ho & _); rewrite same_table in Ho; exact Ho).
  destruct (Hv i Hi) as (_ & H1). rewrite (slope_gvv d u (g_H s) i Wd Ho Hm) in H1.
  assert (Eg : getr freqs i = if neg then w * w else w) by (pose proof (getr_in freqs i ltac:(lia)) as Q; rewrite Ef in Q; injection Q as Q; symmetry; exact Q).
  rewrite Eg in H1. assert (Nz : (if neg then w * w else w) <> 0) by (destruct neg; apply Rgt_not_eq; [apply Rmult_gt_0_compat|]; exact Hw). specialize (H1 Nz).
  assert (Dv : divisor neg (if neg then w * w else w) = w) by (unfold divisor; destruct neg; [|reflexivity]; rewrite Rabs_pos_eq by nra; apply sqrt_square; lra).
  rewrite Dv in H1. intros ks Y j lam Fo. replace (getr v i) with (slope d u (g_H s) i / w) by (rewrite <- H1; field; apply Rgt_not_eq; exact Hw).
  exact (frequency_moves _ _ _ _ _ _ _ _ _ _ _ _ _ Wd Hm T0 N1 Hw Ei Fo).
Qed.
Print Assumptions C97_all_bands.

(** The reciprocal lattice vectors are dual to the lattice vectors, and vectors that span no
    volume are refused. *)
Theorem C97_lattice : forall Rm, (rdot (col 0 Rm) (rcross (col 1 Rm) (col 2 Rm)) = 0 /\ reciprocal_vectors Rm = Abort) \/ (exists Gm, reciprocal_vectors Rm = Val Gm /\ dual Rm Gm).
Proof.
  intros Rm. destruct (reciprocal_vectors Rm) as [Gm| | |] eqn:E.
  - right. exists Gm. split; [reflexivity|]. exact (proj1 (reciprocal_dual Rm Gm E)).
  - left. split; [|reflexivity]. apply reciprocal_singular. exact E.
  - exfalso. unfold reciprocal_vectors in E. destruct Rm as [[[[a0 a1] a2] [[b0 b1] b2]] [[c0 c1] c2]]. cbn [matrix3x3_transpose] in E. unfold matrix3x3_inverse in E.
    match type of E with context [Reqb ?x 0] => destruct (Reqb_spec x 0) as [Z0|N] end; [discriminate|]. rewrite fdiv_nz in E by exact N. discriminate.
  - exfalso. unfold reciprocal_vectors in E. destruct Rm as [[[[a0 a1] a2] [[b0 b1] b2]] [[c0 c1] c2]]. cbn [matrix3x3_transpose] in E. unfold matrix3x3_inverse in E.
    match type of E with context [Reqb ?x 0] => destruct (Reqb_spec x 0) as [Z0|N] end; [discriminate|]. rewrite fdiv_nz in E by exact N. discriminate.
Qed.
Print Assumptions C97_lattice.
(** Lattices with independent basis vectors are never refused, whatever their sizes and
    dimensions: directions without size count as one basis vector long. *)
Theorem C97_lattice_total : forall inf dims size basis, 0 < inf -> rdot (col 0 basis) (rcross (col 1 basis) (col 2 basis)) <> 0 ->
  exists Rm Gm, lattice_vectors inf dims size basis = Val Rm /\ reciprocal_vectors Rm = Val Gm /\ dual Rm Gm.
Proof.
  intros inf dims [[sx sy] sz] basis Hi Hb. assert (Hn : 0 < 2 / inf) by (apply Rdiv_lt_0_compat; lra).
  unfold lattice_vectors. rewrite fdiv_nz by (apply Rgt_not_eq; exact Hi). cbn [bind].
  assert (P : forall (c : bool) s, 0 < (if Rleb s (2 / inf) || c then 1 else s)) by (intros c s; destruct (Rleb_spec s (2 / inf)); destruct c; cbn [orb]; lra).
  pose proof (P false sx) as Px. rewrite orb_false_r in Px. pose proof (P (dims <? 2)%Z sy) as Py. pose proof (P (dims <? 3)%Z sz) as Pz.
  destruct basis as [[b0 b1] b2]. cbn [col fst snd] in Hb.
  set (x := if Rleb sx (2 / inf) then 1 else sx) in *. set (y := if Rleb sy (2 / inf) || (dims <? 2)%Z then 1 else sy) in *. set (z := if Rleb sz (2 / inf) || (dims <? 3)%Z then 1 else sz) in *.
  assert (Nd : rdot (vscale x b0) (rcross (vscale y b1) (vscale z b2)) <> 0).
  { replace (rdot (vscale x b0) (rcross (vscale y b1) (vscale z b2))) with (x * (y * z) * rdot b0 (rcross b1 b2)) by (destruct b0 as [[p0 p1] p2], b1 as [[q0 q1] q2], b2 as [[r0 r1] r2]; cbn; ring).
    apply Rmult_integral_contrapositive_currified; [apply Rgt_not_eq; repeat apply Rmult_gt_0_compat; assumption|exact Hb]. }
  destruct (C97_lattice (vscale x b0, vscale y b1, vscale z b2)) as [(E & _)|(Gm & E & D)]; [cbn [col fst snd] in E; contradiction|].
  exists (vscale x b0, vscale y b1, vscale z b2), Gm. auto.
Qed.
Print Assumptions C97_lattice_total.

(** Bands outside the range are refused. *)
Theorem C97_band_checked : forall s d wk dir b, v_mdata s = Some d -> v_kindex s <> 0%Z -> wfd d -> fields d (v_H s) -> work_ok d wk -> ~ (1 <= b <= ep (v_H s))%Z ->
  compute_1_group_velocity_component s wk dir b = Some Abort.
Proof.
  intros s d [[W0 W1] fft] dir b S1 S2 Wd FH (F0 & A0 & F1 & A1 & _) Hb. unfold compute_1_group_velocity_component. rewrite S1. destruct (Z.eqb_spec (v_kindex s) 0); [contradiction|].
  destruct (unit_total (matrix3x3_vector3_mult (v_Gm s) dir)) as (u & -> & _). destruct (v_nwork s <=? 1)%Z; [reflexivity|]. apply gv1_range; assumption.
Qed.
Print Assumptions C97_band_checked.

(** Called before init-params or before a k point is solved, the functions print an error and
    return the value of an uninitialised variable. *)
Theorem C97_unsolved_refuted : forall s wk dir b wx wy wz, v_mdata s = None \/ v_kindex s = 0%Z ->
  compute_1_group_velocity_component s wk dir b = Some UB /\ compute_1_group_velocity s wx wy wz b = Some UB /\ compute_1_group_velocity_reciprocal s wx wy wz b = Some UB.
Proof.
  intros s wk dir b wx wy wz H. assert (Q : forall wk dir, compute_1_group_velocity_component s wk dir b = Some UB).
  { intros wk' dir'. unfold compute_1_group_velocity_component. destruct H as [-> | H]; [reflexivity|]. rewrite H. destruct (v_mdata s); reflexivity. }
  split; [apply Q|]. unfold compute_1_group_velocity_reciprocal, compute_1_group_velocity. rewrite !Q. split; reflexivity.
Qed.
Print Assumptions C97_unsolved_refuted.

(** A case meeting the hypotheses: two points of a medium with dielectric constant 4, wave vector
    1/2 along x; the plane wave with both polarisations has frequency (1/2 + t)/2, and velocity
    1/2 along x. *)
Example C97_ex : let k := (/ 2, 0, 0) in let wk := (vx_H, vx_H, repeat C0 6) in
  solved vx_s vx_d k 1 (/ 4) /\ work_ok vx_d wk /\
  followed vx_d (col 0 (v_Gm vx_s)) (col 1 (v_Gm vx_s)) (col 2 (v_Gm vx_s)) k (1, 0, 0) vx_H 0 (fun t => vx_k (/ 2 + t)) (fun _ => vx_H) 0 (fun t => / 4 * ((/ 2 + t) * (/ 2 + t))) /\
  derivable_pt_lim (fun t => sqrt (/ 4 * ((/ 2 + t) * (/ 2 + t)))) 0 (/ 2) /\ v_mdata {| v_mdata := None; v_kindex := 0; v_nwork := 3; v_neg := false; v_freqs := []; v_H := vx_H; v_Rm := vx_I; v_Gm := vx_I |} = None.
Proof.
  intros k wk. destruct (vx_wfd (/ 2)) as (Wd & Ho). change (with_kG (vx_k (/ 2)) vx_d) with vx_d in Wd, Ho.
  split; [|split; [|split; [|split]]].
  - unfold solved. split; [reflexivity|]. split; [discriminate|]. split; [cbn; lia|]. split.
    { unfold reciprocal_vectors. cbn [vx_s v_Rm v_Gm vx_I matrix3x3_transpose]. unfold matrix3x3_inverse.
      match goal with |- context [Reqb ?x 0] => assert (D1 : x = 1) by (cbn; ring); rewrite D1 end. destruct (Reqb_spec 1 0) as [E|N]; [lra|]. rewrite fdiv_nz by exact N. cbn [bind vscale].
      unfold vx_I. f_equal. f_equal; [f_equal|]; (f_equal; [f_equal|]); field. }
    split; [exact Wd|]. split; [reflexivity|]. split; [cbn; lia|]. split; [apply vx_table; lra|]. split; [cbn; lia|]. split; [reflexivity|]. split; [reflexivity|]. split; [lra|]. split.
    + unfold dotl. cbn [vx_s v_H vx_H en]. change (Z.to_nat 4) with 4%nat. cbn [csum]. change (entC _ (Z.of_nat 0) _) with (RtoC (3 / 5)). change (entC _ (Z.of_nat 1) _) with (RtoC (4 / 5)). change (entC _ (Z.of_nat 2) _) with C0. change (entC _ (Z.of_nat 3) _) with C0.
      apply C_eq; csimp; lra.
    + replace (/ 4 * / 4) with (/ 4 * (/ 2 * / 2)) by lra. exact (vx_eigen (/ 2)).
  - unfold work_ok, fields, wf, npts. cbn. repeat split; lia.
  - split.
    + exists (/ 4). split; [lra|]. intros t Ht. apply Rabs_def2 in Ht. split; [|apply vx_eigen].
      unfold k. cbn [vadd3 rsc]. replace (/ 2 + t * 1) with (/ 2 + t) by ring. replace (0 + t * 0) with 0 by ring. apply vx_table. lra.
    + intros g i Hg Hi. assert (Q : forall t, cart (with_kG (vx_k (/ 2 + t)) vx_d) vx_H 0 g i = cart vx_d vx_H 0 g i).
      { intros t. unfold npts in Hg. cbn in Hg. destruct g as [|[|g]]; [| |lia]; reflexivity. }
      split; [apply Q|]. split; (apply continuity_pt_const; intros x y; rewrite !Q; reflexivity).
  - apply (L_Fgrad.deriv_near (fun t => / 2 * (/ 2 + t))).
    + exists (/ 4). split; [lra|]. intros t Ht. apply Rabs_def2 in Ht. replace (/ 4 * ((/ 2 + t) * (/ 2 + t))) with (/ 2 * (/ 2 + t) * (/ 2 * (/ 2 + t))) by lra. rewrite sqrt_square; [reflexivity|]. nra.
    + assert (Q : derivable_pt_lim (fun t => / 2 * (/ 2 + t)) 0 (/ 2 * (0 + 1))); [|replace (/ 2 * (0 + 1)) with (/ 2) in Q by lra; exact Q].
      refine (L_Fgrad.deriv_mul_const (fun t => / 2 + t) (/ 2) (0 + 1) _). exact (derivable_pt_lim_plus (fun _ => / 2) (fun t => t) 0 0 1 (derivable_pt_lim_const _ _) (derivable_pt_lim_id 0)).
  - reflexivity.
Qed.
