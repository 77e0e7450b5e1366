(** Orthogonality of the waves of the discrete Fourier transform. *)
From Coq Require Import List ZArith Reals Bool Lia Lra.
From Verif Require Import Base RC Loops M_Tensor S_Tensor M_Evect S_Evect L_Evect L_Evect3 M_Grid S_Grid M_Op S_Op L_Op L_Op2 L_Op3.
Import ListNotations.
Local Open Scope Z_scope.

Definition cis (a : R) : C := (cos a, sin a).
Lemma cis_add a b : cis (a + b) = (cis a * cis b)%C.
Proof. unfold cis. rewrite cos_plus, sin_plus. apply C_eq; csimp; ring. Qed.
Lemma cis_0 : cis 0 = C1.
Proof. unfold cis. rewrite cos_0, sin_0. reflexivity. Qed.
Lemma cis_neg a : cis (- a) = Cconj (cis a).
Proof. unfold cis. rewrite cos_neg, sin_neg. reflexivity. Qed.
Lemma cis_2pi k : cis (2 * PI * IZR k) = C1.
Proof.
  assert (P : forall n : nat, cis (2 * PI * INR n) = C1).
  { induction n as [|n IH]; [cbn; rewrite Rmult_0_r; apply cis_0|].
    rewrite S_INR, Rmult_plus_distr_l, cis_add, IH. unfold cis. rewrite Rmult_1_r, cos_2PI, sin_2PI. apply C_eq; csimp; ring. }
  destruct (Z_le_gt_dec 0 k) as [H|H].
  - rewrite <- (Z2Nat.id k H), <- INR_IZR_INZ. apply P.
  - replace (2 * PI * IZR k)%R with (- (2 * PI * INR (Z.to_nat (- k))))%R.
    + rewrite cis_neg, P. apply Cconj_1.
    + rewrite INR_IZR_INZ, Z2Nat.id by lia. rewrite opp_IZR. ring.
Qed.
Lemma cis_ne_1 a : (0 < Rabs a < 2 * PI)%R -> cis a <> C1.
Proof.
  assert (P : forall a, (0 < a < 2 * PI)%R -> cis a <> C1).
  { intros b Hb E. unfold cis, C1 in E. injection E as E _.
    replace b with (2 * (b / 2))%R in E by field. rewrite cos_2a_sin in E.
    assert (0 < sin (b / 2))%R by (apply sin_gt_0; lra). nra. }
  intros H E. destruct (Rcase_abs a) as [Hn|Hp].
  - rewrite (Rabs_left a Hn) in H. apply (P (- a)%R H). rewrite cis_neg, E. apply Cconj_1.
  - rewrite (Rabs_right a Hp) in H. exact (P a H E).
Qed.


(** Sum of the powers of a nontrivial n-th root of unity. *)
Lemma geo t (n : nat) : cis (t * INR n) = C1 -> cis t <> C1 -> csum n (fun x => cis (t * INR x)) = C0.
Proof.
  intros H1 Hne.
  assert (G : forall m, (csum m (fun x => cis (t * INR x)) * (cis t - C1))%C = (cis (t * INR m) - C1)%C).
  { induction m as [|m IH]; [cbn; rewrite Rmult_0_r, cis_0; ring|]. cbn [csum]. rewrite S_INR, Rmult_plus_distr_l, Rmult_1_r, cis_add.
    transitivity (csum m (fun x => cis (t * INR x)) * (cis t - C1) + cis (t * INR m) * (cis t - C1))%C; [ring|]. rewrite IH. ring. }
  specialize (G n). rewrite H1 in G. set (S := csum n _) in *. set (w := (cis t - C1)%C) in *.
  assert (Hw : w <> C0). { intros E. apply Hne. unfold w in E. transitivity (cis t - C1 + C1)%C; [ring|]. rewrite E. ring. }
  assert (Z : (normsqr S * normsqr w = 0)%R).
  { rewrite <- normsqr_mul, G. csimp. ring. }
  apply Rmult_integral in Z as [Z|Z]; apply normsqr_0 in Z; [exact Z|contradiction].
Qed.

Lemma wave1 n a b : 1 <= n -> 0 <= a < n -> 0 <= b < n ->
  csum (Z.to_nat n) (fun x => cis (2 * PI * (IZR ((a - b) * Z.of_nat x) / IZR n))) = if a =? b then RtoC (IZR n) else C0.
Proof.
  intros Hn Ha Hb. assert (Nz : IZR n <> 0%R) by (apply not_0_IZR; lia).
  destruct (Z.eqb_spec a b) as [->|Hne].
  - rewrite (csum_ext _ _ (fun _ => RtoC 1)).
    + rewrite csum_RtoC, rsum_const, INR_IZR_INZ, Z2Nat.id, Rmult_1_r by lia. reflexivity.
    + intros x _. rewrite Z.sub_diag, Z.mul_0_l. unfold Rdiv. rewrite Rmult_0_l, Rmult_0_r. apply cis_0.
  - rewrite (csum_ext _ _ (fun x => cis (2 * PI * (IZR (a - b) / IZR n) * INR x))).
    2:{ intros x _. f_equal. rewrite mult_IZR, <- INR_IZR_INZ. field. exact Nz. }
    apply geo.
    + rewrite INR_IZR_INZ, Z2Nat.id by lia. replace (2 * PI * (IZR (a - b) / IZR n) * IZR n)%R with (2 * PI * IZR (a - b))%R by (field; exact Nz). apply cis_2pi.
    + apply cis_ne_1. pose proof PI_RGT_0 as Pp. assert (Np : (0 < IZR n)%R) by (apply IZR_lt; lia).
      rewrite Rabs_mult. rewrite (Rabs_right (2 * PI)) by lra. unfold Rdiv. rewrite Rabs_mult. rewrite (Rabs_right (/ IZR n)) by (left; apply Rinv_0_lt_compat; exact Np).
      rewrite <- abs_IZR. assert (H1 : (1 <= IZR (Z.abs (a - b)))%R) by (apply IZR_le; lia). assert (H2 : (IZR (Z.abs (a - b)) < IZR n)%R) by (apply IZR_lt; lia).
      assert (Q1 : (0 < IZR (Z.abs (a - b)) * / IZR n)%R) by (apply Rmult_lt_0_compat; [lra|apply Rinv_0_lt_compat; exact Np]).
      assert (Q2 : (IZR (Z.abs (a - b)) * / IZR n < 1)%R).
      { apply (Rmult_lt_reg_r (IZR n)); [exact Np|]. rewrite Rmult_assoc, Rinv_l by exact Nz. lra. }
      split; nra.
Qed.

Lemma csum_split n m f : csum (n + m) f = (csum n f + csum m (fun j => f (n + j)%nat))%C.
Proof.
  induction m as [|m IH]; [rewrite Nat.add_0_r; cbn; ring|]. rewrite Nat.add_succ_r. cbn [csum]. rewrite IH. ring.
Qed.
Lemma csum_flat a b f : csum (a * b) f = csum a (fun i => csum b (fun j => f (i * b + j)%nat)).
Proof.
  induction a as [|a IH]; [reflexivity|]. replace (S a * b)%nat with (a * b + b)%nat by lia. rewrite csum_split. cbn [csum]. rewrite IH. reflexivity.
Qed.

Section D.
Variable d : mdata.
Hypothesis Wd : wfd d.
Notation N := (npts d).
Notation NN := (Z.to_nat (npts d)).

Lemma kern_cis g r : kern d 1 g r = Cconj (cis (phase (d_nx d) (d_ny d) (d_nz d) g r)).
Proof. reflexivity. Qed.

Lemma point_inj g g' : 0 <= g < N -> 0 <= g' < N -> point (d_ny d) (d_nz d) g = point (d_ny d) (d_nz d) g' -> g = g'.
Proof.
  destruct Wd as (Hx & Hy & Hz & _). unfold point. intros Hg Hg' E. injection E as E1 E2 E3.
  rewrite (Z.mul_comm (d_ny d)) in E1. rewrite <- (Z.div_div g (d_nz d) (d_ny d)), <- (Z.div_div g' (d_nz d) (d_ny d)) in E1 by lia.
  assert (g / d_nz d = g' / d_nz d) by (rewrite (Z.div_mod (g / d_nz d) (d_ny d)), (Z.div_mod (g' / d_nz d) (d_ny d)) by lia; congruence).
  rewrite (Z.div_mod g (d_nz d)), (Z.div_mod g' (d_nz d)) by lia. congruence.
Qed.
Lemma point_range g : 0 <= g < N -> let '(x, y, z) := point (d_ny d) (d_nz d) g in 0 <= x < d_nx d /\ 0 <= y < d_ny d /\ 0 <= z < d_nz d.
Proof.
  destruct Wd as (Hx & Hy & Hz & _). unfold point, npts. intros Hg. split; [|split].
  - split; [apply Z.div_pos; [lia|nia]|]. apply Z.div_lt_upper_bound; [nia|]. nia.
  - apply Z.mod_pos_bound. lia.
  - apply Z.mod_pos_bound. lia.
Qed.
Lemma point_flat i j k : (j < Z.to_nat (d_ny d))%nat -> (k < Z.to_nat (d_nz d))%nat ->
  point (d_ny d) (d_nz d) (Z.of_nat ((i * Z.to_nat (d_ny d) + j) * Z.to_nat (d_nz d) + k)) = (Z.of_nat i, Z.of_nat j, Z.of_nat k).
Proof.
  destruct Wd as (Hx & Hy & Hz & _). intros Hj Hk. unfold point.
  replace (Z.of_nat ((i * Z.to_nat (d_ny d) + j) * Z.to_nat (d_nz d) + k)) with ((Z.of_nat i * d_ny d + Z.of_nat j) * d_nz d + Z.of_nat k).
  2:{ rewrite !Nat2Z.inj_add, !Nat2Z.inj_mul, !Nat2Z.inj_add, !Nat2Z.inj_mul, !Z2Nat.id by lia. reflexivity. }
  set (q := Z.of_nat i * d_ny d + Z.of_nat j).
  assert (E1 : (q * d_nz d + Z.of_nat k) / d_nz d = q) by (rewrite Z.div_add_l, Z.div_small by lia; lia).
  assert (E2 : (q * d_nz d + Z.of_nat k) mod d_nz d = Z.of_nat k) by (rewrite Z.add_comm, Z.mod_add, Z.mod_small by lia; reflexivity).
  rewrite (Z.mul_comm (d_ny d)), <- Z.div_div by lia. rewrite E1, E2. unfold q.
  rewrite Z.div_add_l, Z.div_small, Z.add_0_r by lia. rewrite Z.add_comm, Z.mod_add, Z.mod_small by lia. reflexivity.
Qed.

Lemma kern_orth g g' : 0 <= g < N -> 0 <= g' < N ->
  csum NN (fun r => (Cconj (kern d 1 g (Z.of_nat r)) * kern d 1 g' (Z.of_nat r))%C) = if g =? g' then RtoC (mN d) else C0.
Proof.
  intros Hg Hg'. pose proof (point_range g Hg) as Rg. pose proof (point_range g' Hg') as Rg'. pose proof (point_inj g g' Hg Hg') as Inj.
  destruct (point (d_ny d) (d_nz d) g) as [[gx gy] gz] eqn:Eg. destruct (point (d_ny d) (d_nz d) g') as [[hx hy] hz] eqn:Eh.
  destruct Wd as (Hx & Hy & Hz & _).
  replace NN with (Z.to_nat (d_nx d) * Z.to_nat (d_ny d) * Z.to_nat (d_nz d))%nat by (unfold npts; rewrite !Z2Nat.inj_mul by nia; reflexivity).
  rewrite csum_flat, csum_flat.
  set (f := fun (n a b : Z) (x : nat) => cis (2 * PI * (IZR ((a - b) * Z.of_nat x) / IZR n))).
  rewrite (csum_ext _ _ (fun i => csum (Z.to_nat (d_ny d)) (fun j => csum (Z.to_nat (d_nz d)) (fun k =>
     (f (d_nx d) gx hx i * f (d_ny d) gy hy j * f (d_nz d) gz hz k)%C)))).
  2:{ intros i _. apply csum_ext. intros j Hj. apply csum_ext. intros k Hk. rewrite !kern_cis, Cconj_conj, <- cis_neg, <- cis_add. unfold f. rewrite <- !cis_add.
      f_equal. unfold phase. rewrite Eg, Eh, point_flat by assumption. rewrite !mult_IZR, !minus_IZR. unfold Rdiv. ring. }
  rewrite (csum_ext _ _ (fun i => (f (d_nx d) gx hx i * (csum (Z.to_nat (d_ny d)) (f (d_ny d) gy hy) * csum (Z.to_nat (d_nz d)) (f (d_nz d) gz hz)))%C)).
  2:{ intros i _. rewrite (csum_ext _ _ (fun j => (f (d_ny d) gy hy j * (f (d_nx d) gx hx i * csum (Z.to_nat (d_nz d)) (f (d_nz d) gz hz)))%C)).
      - rewrite csum_scal_r. ring.
      - intros j _. rewrite csum_scal. ring. }
  rewrite csum_scal_r. unfold f. rewrite !wave1 by lia.
  destruct (Z.eqb_spec g g') as [Heq|Hne].
  - subst g'. rewrite Eg in Eh. injection Eh as -> -> ->. rewrite !Z.eqb_refl. unfold mN. rewrite <- !RtoC_mul, <- !mult_IZR. f_equal. f_equal. ring.
  - destruct (Z.eqb_spec gx hx) as [->|]; [|ring]. destruct (Z.eqb_spec gy hy) as [->|]; [|ring]. destruct (Z.eqb_spec gz hz) as [->|]; [|ring].
    exfalso. apply Hne. apply Inj. reflexivity.
Qed.

(** Transforming forward and back multiplies by the number of points. *)
Lemma back_position asg f g : 0 <= g < N ->
  back d (position d asg f) g = vbuild (fun i => (RtoC (mN d) * vsel i (asg (kz d g) (f g 0%Z) (f g 1%Z)))%C).
Proof.
  intros Hg. unfold back.
  assert (K : forall i, (i < 3)%nat -> csum NN (fun r => (kern d (-1) (Z.of_nat r) g * vsel i (position d asg f (Z.of_nat r)))%C) =
      (RtoC (mN d) * vsel i (asg (kz d g) (f g 0%Z) (f g 1%Z)))%C).
  { intros i Hi. set (v := fun h : Z => vsel i (asg (kz d h) (f h 0%Z) (f h 1%Z))).
    rewrite (csum_ext _ _ (fun r => csum NN (fun h => (Cconj (kern d 1 g (Z.of_nat r)) * kern d 1 (Z.of_nat h) (Z.of_nat r) * v (Z.of_nat h))%C))).
    2:{ intros r _. unfold position. rewrite vsel_build by exact Hi. rewrite kern_conj, <- csum_scal. apply csum_ext. intros h _. unfold v. ring. }
    rewrite csum_swap. rewrite (csum_single NN (Z.to_nat g)).
    - rewrite csum_scal_r. rewrite Z2Nat.id by lia. rewrite kern_orth by assumption. rewrite Z.eqb_refl. reflexivity.
    - lia.
    - intros h Hh Hne. rewrite csum_scal_r, kern_orth by lia. destruct (Z.eqb_spec g (Z.of_nat h)); [lia|]. ring. }
  unfold vbuild. rewrite !K by lia. reflexivity.
Qed.
End D.
