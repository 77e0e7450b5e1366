(** Property C100: the dielectric tensor and stored fields at a point. *)
From Coq Require Import List ZArith Reals Bool Lia Lra.
From Verif Require Import Base RC M_Tensor M_Evect M_Grid M_Interp S_Interp L_Interp L_Interp2 L_Interp3 P_Interp M_Pnt S_Pnt L_Pnt.
Import ListNotations.
Local Open Scope R_scope.

(** At every point of space the inverse dielectric tensor is Hermitian, and its form is the periodic
    interpolation of the forms of the tensors at the grid points. *)
Theorem C100_tensor : forall h nx ny nz l data size p, tensors_stored h nx ny nz data -> has_size size ->
  exists r m, cell_pt size p r /\ get_epsilon_inverse_tensor_point h nx ny nz l data size p = Val m /\ hermitian33 m /\
  forall v, mquad m v = RtoC (ptents nx ny nz r (fun i j k => tquad (tensor_at h ny nz data i j k) v)).
Proof.
  intros h nx ny nz l data size p T Hs. pose proof T as (Nx & Ny & Nz & _). destruct (interp_point_ok nx ny nz size p Hs) as (rx & ry & rz & Hr & _).
  destruct (eps_at nx ny nz l data size p _ Hs Hr h T) as (t & E & V). exists (rx, ry, rz), (full t). split; [exact Hr|]. split; [|split; [apply full_herm|]].
  - unfold get_epsilon_inverse_tensor_point. rewrite E. cbn [bind]. destruct t as [[[[[? ?] ?] ?] ?] ?]. reflexivity.
  - intros v. rewrite full_quad, V. reflexivity.
Qed.
Print Assumptions C100_tensor.

(** Bounds of the tensors on the grid hold at every point; so the tensor is positive definite
    wherever the grid's are. *)
Theorem C100_bounds : forall h nx ny nz l data size p lo hi, tensors_stored h nx ny nz data -> has_size size ->
  (forall i j k v, (0 <= i < nx)%Z -> (0 <= j < ny)%Z -> (0 <= k < nz)%Z -> lo * vnorm2 v <= tquad (tensor_at h ny nz data i j k) v <= hi * vnorm2 v) ->
  exists m, get_epsilon_inverse_tensor_point h nx ny nz l data size p = Val m /\ forall v, lo * vnorm2 v <= re (mquad m v) <= hi * vnorm2 v.
Proof.
  intros h nx ny nz l data size p lo hi T Hs B. pose proof T as (Nx & Ny & Nz & _). destruct (C100_tensor h nx ny nz l data size p T Hs) as (r & m & Hr & E & _ & V).
  exists m. split; [exact E|]. intros v. rewrite V. cbn [re RtoC fst]. apply (C24_between nx ny nz size p r); try assumption. intros i j k Hi Hj Hk. apply B; assumption.
Qed.
Print Assumptions C100_bounds.

(** At a grid point it is the tensor stored there, and lattice vectors change nothing. *)
Theorem C100_grid_point : forall h nx ny nz l data sx sy sz i j k, tensors_stored h nx ny nz data -> has_size (sx, sy, sz) ->
  (0 <= i < nx)%Z -> (0 <= j < ny)%Z -> (0 <= k < nz)%Z ->
  get_epsilon_inverse_tensor_point h nx ny nz l data (sx, sy, sz) ((IZR i / IZR nx - / 2) * sx, (IZR j / IZR ny - / 2) * sy, (IZR k / IZR nz - / 2) * sz) = Val (full (tensor_at h ny nz data i j k)).
Proof.
  intros h nx ny nz l data sx sy sz i j k T Hs Hi Hj Hk. set (p := ((IZR i / IZR nx - / 2) * sx, (IZR j / IZR ny - / 2) * sy, (IZR k / IZR nz - / 2) * sz)).
  destruct (interp_point_ok nx ny nz (sx, sy, sz) p Hs) as (rx & ry & rz & Hr & _). destruct (eps_at nx ny nz l data (sx, sy, sz) p _ Hs Hr h T) as (t & E & V).
  unfold get_epsilon_inverse_tensor_point. rewrite E. cbn [bind].
  assert (Q : full t = full (tensor_at h ny nz data i j k)).
  { apply quad_det. intros v. rewrite V. apply (C24_grid_point nx ny nz sx sy sz (fun i j k => tquad (tensor_at h ny nz data i j k) v) i j k _ Hi Hj Hk Hs Hr). }
  rewrite <- Q. destruct t as [[[[[? ?] ?] ?] ?] ?]. reflexivity.
Qed.
Print Assumptions C100_grid_point.
Theorem C100_periodic : forall h nx ny nz l data size p a b c, has_size size ->
  get_epsilon_inverse_tensor_point h nx ny nz l data size (move p size a b c) = get_epsilon_inverse_tensor_point h nx ny nz l data size p.
Proof. intros. unfold get_epsilon_inverse_tensor_point, interp_eps_inv, interp_cval. rewrite !C24_periodic by assumption. reflexivity. Qed.
Print Assumptions C100_periodic.

(** The value of a stored vector field at a point is that of the current field with the same numbers,
    as long as no other k point is solved; the value without Bloch phase and that of a field marked as
    having none do not depend on the k point at all. *)
Theorem C100_stored : forall nx ny nz l k ks size f p,
  stored_then_point nx ny nz l k [] size f p = get_field_point (vf_v f) false nx ny nz l (vf_data f) k size p /\
  (vf_v f = true -> stored_then_point nx ny nz l k ks size f p = get_bloch_field_point false nx ny nz l (vf_data f) size p) /\
  cvector_field_get_point_bloch nx ny nz l size f p = get_bloch_field_point false nx ny nz l (vf_data f) size p.
Proof.
  intros. split; [reflexivity|]. split; [|reflexivity]. intros E. unfold stored_then_point, cvector_field_get_point, get_field_point. rewrite E.
  destruct (get_bloch_field_point false nx ny nz l (vf_data f) size p); reflexivity.
Qed.
Print Assumptions C100_stored.

(** Solving another k point changes the values of a stored field: its phase is then that of the other
    k point. *)
Theorem C100_stored_refuted : exists nx ny nz l k k' size f p u u', vf_v f = false /\ has_size size /\
  stored_then_point nx ny nz l k [] size f p = Val u /\ stored_then_point nx ny nz l k [k'] size f p = Val u' /\ u <> u'.
Proof.
  exists 1%Z, 1%Z, 1%Z, 2%Z, (0, 0, 0), (1, 0, 0), (1, 1, 1), {| vf_data := [1; 0; 1; 0; 1; 0]; vf_v := false |}, (/ 2, 0, 0). eexists. eexists.
  assert (Hs : has_size (1, 1, 1)) by (cbn; lra).
  assert (B : get_bloch_field_point false 1 1 1 2 [1; 0; 1; 0; 1; 0] (1, 1, 1) (/ 2, 0, 0) = Val (C1, C1, C1)).
  { unfold get_bloch_field_point, interp_cval.
    assert (K : forall d cj v, skipn 0 d = d -> (0 < length d)%nat -> getr d 0 = v -> interp_val (get_val false 1 1 1 2 d 6 cj) 1 1 1 (1, 1, 1) (/ 2, 0, 0) = Val v).
    { intros d cj v _ Ld E. destruct (C24_complex 1 1 1 2 6 d cj (1, 1, 1) (/ 2, 0, 0)) as (r & Hr & Ev); [unfold grid_data; cbn; lia|exact Hs|]. rewrite Ev. f_equal.
      assert (Bt : v <= ptents 1 1 1 r (at3 1 1 6 d) <= v); [|lra]. apply (C24_between 1 1 1 (1, 1, 1) (/ 2, 0, 0) r); try lia; [exact Hr|].
      intros i j k Hi Hj Hk. assert (i = 0)%Z as -> by lia. assert (j = 0)%Z as -> by lia. assert (k = 0)%Z as -> by lia. unfold at3. cbn [Z.mul Z.add]. rewrite E. lra. }
    rewrite (K _ false 1), (K _ true 0) by (reflexivity || (cbn; lia)). cbn [bind]. rewrite (K (skipn 2 _) false 1), (K (skipn (2 + 1) _) true 0) by (reflexivity || (cbn; lia)). cbn [bind].
    rewrite (K (skipn 4 _) false 1), (K (skipn (4 + 1) _) true 0) by (reflexivity || (cbn; lia)). reflexivity. }
  split; [reflexivity|]. split; [exact Hs|]. unfold stored_then_point, cvector_field_get_point, get_field_point. cbn [vf_v vf_data last]. rewrite B. cbn [bind].
  unfold bloch_phase. rewrite !fdiv_nz by lra. cbn [bind]. split; [reflexivity|]. split; [reflexivity|]. intros E. apply (f_equal (fun x => re (fst (fst x)))) in E. cbn [fst] in E.
  replace (2 * PI * (0 * (/ 2 / 1) + 0 * (0 / 1) + 0 * (0 / 1))) with 0 in E by field. replace (2 * PI * (1 * (/ 2 / 1) + 0 * (0 / 1) + 0 * (0 / 1))) with PI in E by field.
  rewrite cos_0, sin_0, cos_PI, sin_PI in E. csimp. lra.
Qed.
Print Assumptions C100_stored_refuted.

(** get-epsilon-point lies between the dielectric constants of the grid: if these are between
    elo and ehi in every direction, so is the value at every point. *)
Theorem C100_epsilon : forall eigs h nx ny nz l data size p elo ehi, (forall t, interp_eps_inv h nx ny nz l data size p = Val t -> eigs_of t (eigs t)) -> tensors_stored h nx ny nz data -> has_size size -> 0 < elo ->
  (forall i j k v, (0 <= i < nx)%Z -> (0 <= j < ny)%Z -> (0 <= k < nz)%Z -> / ehi * vnorm2 v <= tquad (tensor_at h ny nz data i j k) v <= / elo * vnorm2 v) -> 0 < ehi ->
  exists eps, get_epsilon_point eigs h nx ny nz l data size p = Val eps /\ elo <= eps <= ehi.
Proof.
  intros eigs h nx ny nz l data size p elo ehi Ok T Hs Pl B Ph. pose proof T as (Nx & Ny & Nz & _). destruct (interp_point_ok nx ny nz size p Hs) as (rx & ry & rz & Hr & _).
  destruct (eps_at nx ny nz l data size p _ Hs Hr h T) as (t & E & V). specialize (Ok t E). unfold get_epsilon_point. rewrite E. cbn [bind]. destruct (eigs t) as [[e0 e1] e2].
  destruct Ok as (A0 & A1 & _ & _).
  assert (Bt : forall v, / ehi * vnorm2 v <= tquad t v <= / elo * vnorm2 v).
  { intros v. rewrite V. apply (C24_between nx ny nz size p (rx, ry, rz)); try assumption. intros i j k Hi Hj Hk. apply B; assumption. }
  pose proof (eigenvalue_bounds t e0 _ _ A0 Bt) as Q0. pose proof (eigenvalue_bounds t e1 _ _ A1 Bt) as Q1.
  assert (I1 : 0 < / ehi) by (apply Rinv_0_lt_compat; exact Ph). assert (Ps : 0 < e0 + e1) by lra. rewrite fdiv_nz by lra. eexists. split; [reflexivity|]. split.
  - apply (Rmult_le_reg_r (e0 + e1)); [exact Ps|]. replace (2 / (e0 + e1) * (e0 + e1)) with 2 by (field; lra).
    apply (Rle_trans _ (elo * (2 * / elo))); [apply Rmult_le_compat_l; lra|]. right. field. lra.
  - apply (Rmult_le_reg_r (e0 + e1)); [exact Ps|]. replace (2 / (e0 + e1) * (e0 + e1)) with 2 by (field; lra).
    apply (Rle_trans _ (ehi * (2 * / ehi))); [right; field; lra|]. apply Rmult_le_compat_l; lra.
Qed.
Print Assumptions C100_epsilon.

(** Where the tensors of all grid points are those of one material, it is the dielectric constant of
    that material. *)
Theorem C100_epsilon_uniform : forall eigs h nx ny nz l data size p eps, (forall t, interp_eps_inv h nx ny nz l data size p = Val t -> eigs_of t (eigs t)) -> tensors_stored h nx ny nz data -> has_size size -> 0 < eps ->
  (forall i j k, (0 <= i < nx)%Z -> (0 <= j < ny)%Z -> (0 <= k < nz)%Z -> tensor_at h ny nz data i j k = (/ eps, / eps, / eps, C0, C0, C0)) ->
  get_epsilon_point eigs h nx ny nz l data size p = Val eps.
Proof.
  intros eigs h nx ny nz l data size p eps Ok T Hs Pe U. destruct (C100_epsilon eigs h nx ny nz l data size p eps eps Ok T Hs Pe) as (x & -> & B); [|exact Pe|f_equal; lra].
  intros i j k v Hi Hj Hk. rewrite U by assumption. destruct v as [[[a a'] [b b']] [c c']]. unfold tquad, vnorm2. csimp. split; right; ring.
Qed.
Print Assumptions C100_epsilon_uniform.

(** Complex scalar fields: the two parts are interpolated, and lattice vectors multiply the value with
    the Bloch phase, or leave it if the field has none. *)
Theorem C100_cscalar : forall t nx ny nz l data k size p, (0 < nx)%Z -> (0 < ny)%Z -> (0 < nz)%Z -> Z.of_nat (length data) = (nx * ny * nz * 2)%Z -> has_size size ->
  exists r s ph, cell_pt size p r /\ s = (ptents nx ny nz r (entry ny nz 2 data 0), ptents nx ny nz r (entry ny nz 2 data 1)) /\
  cscalar_point_bloch nx ny nz l data size p = Val s /\ bloch_phase k size p = Val ph /\
  cscalar_point t nx ny nz l data k size p = Val (if t then Cmul s ph else s) /\
  forall a b c, let '(kx, ky, kz) := k in let phi := 2 * PI * (kx * IZR a + ky * IZR b + kz * IZR c) in
    cscalar_point t nx ny nz l data k size (move p size a b c) = Val (if t then Cmul (Cmul s ph) (cos phi, sin phi) else s).
Proof.
  intros t nx ny nz l data k size p Nx Ny Nz L Hs. destruct (interp_point_ok nx ny nz size p Hs) as (rx & ry & rz & Hr & _).
  destruct (bloch_move k size p 0 0 0 Hs) as (ph & Eph & _).
  assert (Es : cscalar_point_bloch nx ny nz l data size p = Val (ptents nx ny nz (rx, ry, rz) (entry ny nz 2 data 0), ptents nx ny nz (rx, ry, rz) (entry ny nz 2 data 1))).
  { unfold cscalar_point_bloch, interp_cval. rewrite (val_at nx ny nz l data size p _ Hs Hr 2 0 false), (val_at nx ny nz l data size p _ Hs Hr 2 (0 + 1) true) by (assumption || (cbn; lia)). reflexivity. }
  exists (rx, ry, rz). eexists. exists ph. split; [exact Hr|]. split; [reflexivity|]. split; [exact Es|]. split; [exact Eph|]. split.
  - unfold cscalar_point. rewrite Es. cbn [bind]. destruct t; [rewrite Eph|]; reflexivity.
  - intros a b c. destruct (bloch_move k size p a b c Hs) as (ph' & Eph' & Mv). rewrite Eph in Eph'. injection Eph' as <-. destruct k as [[kx ky] kz]. unfold cscalar_point.
    assert (Es' : cscalar_point_bloch nx ny nz l data size (move p size a b c) = cscalar_point_bloch nx ny nz l data size p) by (unfold cscalar_point_bloch, interp_cval; rewrite !C24_periodic by assumption; reflexivity).
    rewrite Es', Es. cbn [bind]. destruct t; [|reflexivity]. rewrite Mv. cbn [bind]. f_equal. apply C_eq; csimp; ring.
Qed.
Print Assumptions C100_cscalar.

(** Two grid points with different Hermitian tensors. *)
Definition px_d : list R := [1; 2; 3; 0; / 2; 0; 0; 0; 0; 4; 5; 6; / 2; 0; 0; 0; 0; 0].
Example C100_ex : tensors_stored true 2 1 1 px_d /\ has_size (1, 2, 3) /\ tensor_at true 1 1 px_d 0 0 0 = (1, 2, 3, (0, / 2), (0, 0), (0, 0)) /\
  tensor_at true 1 1 px_d 1 0 0 = (4, 5, 6, (/ 2, 0), (0, 0), (0, 0)) /\
  forall i j k v, (0 <= i < 2)%Z -> (0 <= j < 1)%Z -> (0 <= k < 1)%Z -> / 2 * vnorm2 v <= tquad (tensor_at true 1 1 px_d i j k) v <= 7 * vnorm2 v.
Proof.
  assert (T0 : tensor_at true 1 1 px_d 0 0 0 = (1, 2, 3, (0, / 2), (0, 0), (0, 0))) by reflexivity. assert (T1 : tensor_at true 1 1 px_d 1 0 0 = (4, 5, 6, (/ 2, 0), (0, 0), (0, 0))) by reflexivity.
  split; [unfold tensors_stored; cbn; lia|]. split; [cbn; lra|]. split; [exact T0|]. split; [exact T1|].
  intros i j k v Hi Hj Hk. assert (j = 0)%Z as -> by lia. assert (k = 0)%Z as -> by lia. assert (i = 0 \/ i = 1)%Z as [-> | ->] by lia; rewrite ?T0, ?T1; destruct v as [[[a a'] [b b']] [c c']]; unfold tquad, vnorm2; csimp.
  - pose proof (Rle_0_sqr (a + b')). pose proof (Rle_0_sqr (a - b')). pose proof (Rle_0_sqr (a' + b)). pose proof (Rle_0_sqr (a' - b)). pose proof (Rle_0_sqr a). pose proof (Rle_0_sqr a'). pose proof (Rle_0_sqr b). pose proof (Rle_0_sqr b'). pose proof (Rle_0_sqr c). pose proof (Rle_0_sqr c'). unfold Rsqr in *. lra.
  - pose proof (Rle_0_sqr (a + b)). pose proof (Rle_0_sqr (a - b)). pose proof (Rle_0_sqr (a' + b')). pose proof (Rle_0_sqr (a' - b')). pose proof (Rle_0_sqr a). pose proof (Rle_0_sqr a'). pose proof (Rle_0_sqr b). pose proof (Rle_0_sqr b'). pose proof (Rle_0_sqr c). pose proof (Rle_0_sqr c'). unfold Rsqr in *. lra.
Qed.
(** One grid point with an anisotropic material, and the eigenvalues read from the diagonal. *)
Definition px_a : list R := [/ 4; 0; 0; / 2; 0; / 2].
Definition px_eigs (t : point_tensor) : R * R * R := let '(m00, m11, m22, _, _, _) := t in (m00, m11, m22).
Example C100_eps_ex : tensors_stored false 1 1 1 px_a /\ (forall p t, interp_eps_inv false 1 1 1 1 px_a (1, 1, 1) p = Val t -> eigs_of t (px_eigs t)) /\
  forall i j k v, (0 <= i < 1)%Z -> (0 <= j < 1)%Z -> (0 <= k < 1)%Z -> / 4 * vnorm2 v <= tquad (tensor_at false 1 1 px_a i j k) v <= / 2 * vnorm2 v.
Proof.
  assert (Hs : has_size (1, 1, 1)) by (cbn; lra). assert (T : tensors_stored false 1 1 1 px_a) by (unfold tensors_stored; cbn; lia).
  assert (T0 : tensor_at false 1 1 px_a 0 0 0 = (/ 4, / 2, / 2, C0, C0, C0)) by reflexivity.
  split; [exact T|]. split.
  - intros p t E. destruct (interp_point_ok 1 1 1 (1, 1, 1) p Hs) as (rx & ry & rz & Hr & _). destruct (eps_at 1 1 1 1 px_a (1, 1, 1) p _ Hs Hr false T) as (t' & E' & V). rewrite E in E'. injection E' as <-.
    assert (Q : full t = full (/ 4, / 2, / 2, C0, C0, C0)).
    { apply quad_det. intros v. rewrite V. set (w := tquad (/ 4, / 2, / 2, C0, C0, C0) v).
      assert (Bt : w <= ptents 1 1 1 (rx, ry, rz) (fun i j k => tquad (tensor_at false 1 1 px_a i j k) v) <= w); [|lra]. apply (C24_between 1 1 1 (1, 1, 1) p (rx, ry, rz)); try lia; [exact Hr|].
      intros i j k Hi Hj Hk. assert (i = 0)%Z as -> by lia. assert (j = 0)%Z as -> by lia. assert (k = 0)%Z as -> by lia. rewrite T0. unfold w. lra. }
    destruct t as [[[[[m00 m11] m22] m01] m02] m12]. unfold full in Q. injection Q as A0 A1 A2 A3 A4 A5 A6 A7 A8. unfold px_eigs, eigs_of, eigenvalue, full. subst.
    split; [exists (C1, C0, C0)|split; [exists (C0, C1, C0)|split; [exists (C0, C0, C1)|lra]]]; (split; [unfold vnorm2; csimp; lra|]); unfold rdot; repeat split; apply C_eq; csimp; ring.
  - intros i j k v Hi Hj Hk. assert (i = 0)%Z as -> by lia. assert (j = 0)%Z as -> by lia. assert (k = 0)%Z as -> by lia. rewrite T0. destruct v as [[[a a'] [b b']] [c c']]. unfold tquad, vnorm2. csimp.
    pose proof (Rle_0_sqr a). pose proof (Rle_0_sqr a'). pose proof (Rle_0_sqr b). pose proof (Rle_0_sqr b'). pose proof (Rle_0_sqr c). pose proof (Rle_0_sqr c'). unfold Rsqr in *. lra.
Qed.
