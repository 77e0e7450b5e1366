(** Proofs about tensors at a point. *)
From Coq Require Import List ZArith Reals Bool Lia Lra.
From Verif Require Import Base RC M_Tensor M_Evect M_Grid M_Interp S_Interp L_Interp L_Interp2 M_Pnt S_Pnt.
Import ListNotations.
Local Open Scope R_scope.

Lemma getr_skip (d : list R) o i : (0 <= i)%Z -> getr (skipn o d) i = getr d (i + Z.of_nat o).
Proof.
  intros Hi. unfold getr, rd. destruct (Z.ltb_spec i 0); [lia|]. destruct (Z.ltb_spec (i + Z.of_nat o) 0); [lia|].
  rewrite Z2Nat.inj_add, Nat2Z.id by lia. generalize (Z.to_nat i) as n. clear. intros n. revert d. induction o as [|o IH]; intros d.
  - rewrite Nat.add_0_r. reflexivity.
  - destruct d as [|x d]; [cbn; destruct n; cbn; reflexivity|]. rewrite Nat.add_succ_r. cbn. apply IH.
Qed.

Lemma weighted_scal wx wy wz nx ny nz c F : c * weighted wx wy wz nx ny nz F = weighted wx wy wz nx ny nz (fun i j k => c * F i j k).
Proof. unfold weighted. rewrite <- gsum_scal. apply gsum_ext. intros. ring. Qed.

Lemma lin9 nx ny nz r c0 c1 c2 c3 c4 c5 c6 c7 c8 F0 F1 F2 F3 F4 F5 F6 F7 F8 G :
  (forall i j k, (0 <= i < nx)%Z -> (0 <= j < ny)%Z -> (0 <= k < nz)%Z ->
    G i j k = c0 * F0 i j k + (c1 * F1 i j k + (c2 * F2 i j k + (c3 * F3 i j k + (c4 * F4 i j k + (c5 * F5 i j k + (c6 * F6 i j k + (c7 * F7 i j k + c8 * F8 i j k)))))))) ->
  ptents nx ny nz r G = c0 * ptents nx ny nz r F0 + (c1 * ptents nx ny nz r F1 + (c2 * ptents nx ny nz r F2 + (c3 * ptents nx ny nz r F3 + (c4 * ptents nx ny nz r F4 + (c5 * ptents nx ny nz r F5 + (c6 * ptents nx ny nz r F6 + (c7 * ptents nx ny nz r F7 + c8 * ptents nx ny nz r F8))))))).
Proof. intros H. destruct r as [[x y] z]. unfold ptents. rewrite !weighted_scal, !weighted_add. apply weighted_ext. exact H. Qed.

Section Point.
Variables (nx ny nz l : Z) (data : list R) (size p r : vec).
Hypothesis Hs : has_size size.
Hypothesis Hr : cell_pt size p r.

Lemma val_at stride o conj : (0 < nx)%Z -> (0 < ny)%Z -> (0 < nz)%Z -> (Z.of_nat o < stride)%Z -> Z.of_nat (length data) = (nx * ny * nz * stride)%Z ->
  interp_val (get_val false nx ny nz l (skipn o data) stride conj) nx ny nz size p = Val (ptents nx ny nz r (entry ny nz stride data (Z.of_nat o))).
Proof.
  intros Nx Ny Nz Ho L. destruct (interp_val_ok (get_val false nx ny nz l (skipn o data) stride conj) (entry ny nz stride data (Z.of_nat o)) nx ny nz size p Nx Ny Nz Hs) as (r' & Hr' & E).
  - intros x y z Hx Hy Hz. cbn [get_val]. pose proof (idx3 nx ny nz x y z Hx Hy Hz) as I. set (q := ((x * ny + y) * nz + z)%Z) in *. assert (q * stride <= (nx * ny * nz - 1) * stride)%Z by (apply Z.mul_le_mono_nonneg_r; lia).
    assert (0 <= q * stride)%Z by (apply Z.mul_nonneg_nonneg; lia).
    rewrite rd_getr; [|rewrite skipn_length; lia]. rewrite getr_skip by assumption. reflexivity.
  - rewrite (cell_pt_unique size p r r' Hr Hr'). exact E.
Qed.

Lemma eps_at h : tensors_stored h nx ny nz data -> exists t, interp_eps_inv h nx ny nz l data size p = Val t /\ forall v, tquad t v = ptents nx ny nz r (fun i j k => tquad (tensor_at h ny nz data i j k) v).
Proof.
  intros (Nx & Ny & Nz & L). destruct h; unfold interp_eps_inv, interp_cval.
  - change (skipn (3 + 1) data) with (skipn 4 data). change (skipn (5 + 1) data) with (skipn 6 data). change (skipn (7 + 1) data) with (skipn 8 data). rewrite !val_at by (assumption || lia). cbn [bind]. eexists. split; [reflexivity|].
    intros [[[a a'] [b b']] [c c']]. symmetry.
    rewrite (lin9 nx ny nz r (a * a + a' * a') (b * b + b' * b') (c * c + c' * c') (2 * (a * b + a' * b')) (- 2 * (a * b' - a' * b)) (2 * (a * c + a' * c')) (- 2 * (a * c' - a' * c)) (2 * (b * c + b' * c')) (- 2 * (b * c' - b' * c))
      (entry ny nz 9 data 0) (entry ny nz 9 data 1) (entry ny nz 9 data 2) (entry ny nz 9 data 3) (entry ny nz 9 data 4) (entry ny nz 9 data 5) (entry ny nz 9 data 6) (entry ny nz 9 data 7) (entry ny nz 9 data 8)).
    + unfold tquad. csimp. cbn [Z.of_nat Pos.of_succ_nat Pos.succ]. ring.
    + intros i j k _ _ _. unfold tquad, tensor_at. csimp. ring.
  - rewrite !val_at by (assumption || lia). cbn [bind]. eexists. split; [reflexivity|].
    intros [[[a a'] [b b']] [c c']]. symmetry.
    rewrite (lin9 nx ny nz r (a * a + a' * a') (b * b + b' * b') (c * c + c' * c') (2 * (a * b + a' * b')) 0 (2 * (a * c + a' * c')) 0 (2 * (b * c + b' * c')) 0
      (entry ny nz 6 data 0) (entry ny nz 6 data 3) (entry ny nz 6 data 5) (entry ny nz 6 data 1) (entry ny nz 6 data 1) (entry ny nz 6 data 2) (entry ny nz 6 data 1) (entry ny nz 6 data 4) (entry ny nz 6 data 1)).
    + unfold tquad. csimp. cbn [Z.of_nat Pos.of_succ_nat Pos.succ]. ring.
    + intros i j k _ _ _. unfold tquad, tensor_at. csimp. ring.
Qed.
End Point.

Lemma full_quad t v : mquad (full t) v = RtoC (tquad t v).
Proof. destruct t as [[[[[m00 m11] m22] [x01 y01]] [x02 y02]] [x12 y12]], v as [[[a a'] [b b']] [c c']]. unfold mquad, full, tquad, rdot. apply C_eq; csimp; ring. Qed.
Lemma full_herm t : hermitian33 (full t).
Proof. destruct t as [[[[[m00 m11] m22] m01] m02] m12]. unfold hermitian33, full. repeat split; apply C_eq; csimp; ring. Qed.
(** A tensor is determined by its form. *)
Lemma quad_det t u : (forall v, tquad t v = tquad u v) -> full t = full u.
Proof.
  destruct t as [[[[[m00 m11] m22] [x01 y01]] [x02 y02]] [x12 y12]], u as [[[[[n00 n11] n22] [a01 b01]] [a02 b02]] [a12 b12]]. intros H.
  pose proof (H (C1, C0, C0)) as E0. pose proof (H (C0, C1, C0)) as E1. pose proof (H (C0, C0, C1)) as E2.
  pose proof (H (C1, C1, C0)) as E3. pose proof (H (C1, Ci, C0)) as E4. pose proof (H (C1, C0, C1)) as E5. pose proof (H (C1, C0, Ci)) as E6. pose proof (H (C0, C1, C1)) as E7. pose proof (H (C0, C1, Ci)) as E8. clear H.
  unfold tquad in *. csimp.
  assert (m00 = n00) by lra. assert (m11 = n11) by lra. assert (m22 = n22) by lra. assert (x01 = a01) by lra. assert (y01 = b01) by lra. assert (x02 = a02) by lra. assert (y02 = b02) by lra. assert (x12 = a12) by lra. assert (y12 = b12) by lra.
  subst. reflexivity.
Qed.
Lemma vnorm2_nonneg v : 0 <= vnorm2 v.
Proof. destruct v as [[a b] c]. unfold vnorm2. pose proof (normsqr_nonneg a). pose proof (normsqr_nonneg b). pose proof (normsqr_nonneg c). lra. Qed.
Lemma eigenvalue_quad t e : eigenvalue t e -> exists v, 0 < vnorm2 v /\ tquad t v = e * vnorm2 v.
Proof.
  intros (v & N & H). exists v. split; [pose proof (vnorm2_nonneg v); lra|].
  assert (Q : mquad (full t) v = RtoC (e * vnorm2 v)).
  { unfold mquad. destruct (full t) as [[r0 r1] r2]. destruct v as [[a b] c]. destruct H as (-> & -> & ->). unfold vnorm2. destruct a, b, c. apply C_eq; csimp; ring. }
  rewrite full_quad in Q. apply (f_equal re) in Q. exact Q.
Qed.
Lemma eigenvalue_bounds t e lo hi : eigenvalue t e -> (forall v, lo * vnorm2 v <= tquad t v <= hi * vnorm2 v) -> lo <= e <= hi.
Proof.
  intros He H. destruct (eigenvalue_quad t e He) as (v & N & Q). specialize (H v). rewrite Q in H. split; apply (Rmult_le_reg_r (vnorm2 v)); lra.
Qed.
