(** Properties C01-C05: dielectric tensors and subpixel averaging. *)
From Coq Require Import Reals Lra Lia List ZArith.
From Verif Require Import Base RC M_Tensor S_Tensor L_Tensor L_Tensor2.
Import ListNotations.
Local Open Scope R_scope.

(* ------------------------------------------------------------------ C01 *)

(** What the routine returns is the two-sided inverse of the represented Hermitian
    matrix. *)
Theorem C01_invert_correct : forall V W, invert V = Val W -> is_inverse V W.
Proof. exact invert_val. Qed.
Print Assumptions C01_invert_correct.

(** It returns a matrix exactly for the tensors of nonzero determinant. *)
Theorem C01_invert_accepts_nonsingular :
  forall V, cdet V <> C0 <-> exists W, invert V = Val W.
Proof. exact invert_total. Qed.
Print Assumptions C01_invert_accepts_nonsingular.

(** A singular tensor with an off-diagonal entry is rejected with a fatal error. *)
Theorem C01_singular_rejected_partial : forall V, cdet V = C0 ->
  ~ (m01 V = C0 /\ m02 V = C0 /\ m12 V = C0) -> invert V = Abort.
Proof. exact invert_singular_abort. Qed.
Print Assumptions C01_singular_rejected_partial.

(** The full claim "singular tensors are rejected with a fatal error" is false: the
    diagonal branch divides by zero without a check. *)
Theorem C01_singular_rejected_refuted :
  exists V, cdet V = C0 /\ invert V = NonFin.
Proof.
  exists (mkSym 0 1 1 C0 C0 C0). split.
  - unfold cdet. cbn. apply C_eq; csimp; ring.
  - destruct (invert_cases (mkSym 0 1 1 C0 C0 C0)) as [(W & _ & H & _)|[(_ & _ & H)|(H & _)]].
    + exfalso. apply H. unfold det_of. cbn [m00 m11 m22 m01 m02 m12]. csimp. ring.
    + exfalso. apply H. repeat split.
    + exact H.
Qed.
Print Assumptions C01_singular_rejected_refuted.

(** The build without complex off-diagonals computes the same thing on real tensors. *)
Theorem C01_real_build_agrees : forall V,
  match rinvert V with
  | Val W => invert (embed V) = Val (embed W)
  | Abort => invert (embed V) = Abort
  | UB => False
  | NonFin => invert (embed V) = NonFin
  end.
Proof. exact rinvert_embed. Qed.
Print Assumptions C01_real_build_agrees.

(** Non-vacuity: a full complex Hermitian tensor is accepted. *)
Example C01_example : exists W, invert (mkSym 2 3 4 (0, 1) (1, 0) (0, 0)) = Val W.
Proof.
  apply C01_invert_accepts_nonsingular. rewrite cdet_det, RtoC_inj0. unfold det_of.
  cbn [m00 m11 m22 m01 m02 m12]. csimp. lra.
Qed.
Example C01_example_singular :
  invert (mkSym 1 1 1 (1, 0) (0, 0) (0, 0)) = Abort.
Proof.
  apply C01_singular_rejected_partial.
  - rewrite cdet_det, RtoC_inj0. unfold det_of. cbn [m00 m11 m22 m01 m02 m12]. csimp. lra.
  - cbn. intros (H & _). injection H as H. lra.
Qed.

(* ------------------------------------------------------------------ C02 *)

Theorem C02_positive_definite_exact : forall V, positive_definite V = true <-> PD V.
Proof. exact positive_definite_iff. Qed.
Print Assumptions C02_positive_definite_exact.

Theorem C02_real_build_agrees : forall V, rpositive_definite V = positive_definite (embed V).
Proof. exact rpd_embed. Qed.
Print Assumptions C02_real_build_agrees.

Example C02_example_true : PD (mkSym 2 3 4 (0, 1) (1, 0) (0, 0)).
Proof.
  apply C02_positive_definite_exact. unfold positive_definite. csimp.
  repeat match goal with |- context [Rltb 0 ?d] => destruct (Rltb_spec 0 d); [cbn|lra] end. reflexivity.
Qed.
Example C02_example_false : ~ PD (mkSym 1 1 1 (0, 2) (0, 0) (0, 0)).
Proof.
  rewrite <- C02_positive_definite_exact. unfold positive_definite. csimp.
  destruct (Rltb_spec (0) (1*1 - (0*0+2*2))); [lra|]. rewrite Bool.andb_false_r. discriminate.
Qed.

(* ------------------------------------------------------------------ C03 *)

(** The rotation built from a unit normal. *)
Theorem C03_rotation_matrix : forall n0 n1 n2, n0*n0 + n1*n1 + n2*n2 = 1 ->
  exists Rt, rotation_matrix n0 n1 n2 = Val Rt /\ orthonormal Rt /\ det3 Rt = 1 /\
    Rt 0%nat 0%nat = n0 /\ Rt 1%nat 0%nat = n1 /\ Rt 2%nat 0%nat = n2.
Proof. exact rotation_matrix_ok. Qed.
Print Assumptions C03_rotation_matrix.

(** Rotation is the congruence R^T A R (so Hermitian; [entry] is Hermitian by
    construction and the formula is the full matrix product). *)
Theorem C03_rotate_is_congruence : forall A Rt i j, (i < 3)%nat -> (j < 3)%nat ->
  entry (rotate A Rt) i j =
  csum 3 (fun k => csum 3 (fun l => (RtoC (Rt k i) * entry A k l * RtoC (Rt l j))%C)).
Proof. exact rotate_entry. Qed.
Print Assumptions C03_rotate_is_congruence.

Theorem C03_rotate_roundtrip : forall A Rt, orthonormal Rt ->
  rotate (rotate A Rt) (transpose3 Rt) = A.
Proof. exact rotate_back. Qed.
Print Assumptions C03_rotate_roundtrip.

Theorem C03_rotate_definite : forall A Rt, orthonormal Rt -> (PD (rotate A Rt) <-> PD A).
Proof. exact rotate_PD_iff. Qed.
Print Assumptions C03_rotate_definite.

(** A generic unit normal, and the z axis (the other branch). *)
Example C03_example : (2/3)*(2/3) + (1/3)*(1/3) + (2/3)*(2/3) = 1 /\ 0*0 + 0*0 + 1*1 = 1.
Proof. split; lra. Qed.

(* ------------------------------------------------------------------ C04 *)

(** With mesh sizes of at least one, the stored inverse tensors are positive definite
    for every material function with positive definite values, every averaging
    callback with positive definite values, every grid and every moment mesh; the
    dielectric check never reports a non-positive-definite tensor. *)
Theorem C04_smoothing_positive_definite_partial :
  forall ms n mm Rl epsilon mepsilon pts,
  mesh_ok ms ->
  (forall q, PD (fst (epsilon q)) /\ PD (snd (epsilon q))) ->
  (forall q e, mepsilon q = MeanTensor e -> PD e) ->
  exists l, set_dielectric ms n mm Rl epsilon mepsilon pts = Val l /\ length l = length pts /\ Forall PD l /\
    forall req2d, check_dielectric false req2d l <> 1%nat.
Proof. exact set_dielectric_PD. Qed.
Print Assumptions C04_smoothing_positive_definite_partial.

(** The analytic two-material average of the front end is positive definite. *)
Theorem C04_analytic_average_positive_definite :
  forall e1 e2 fill a b c, PD e1 -> PD e2 -> 0 <= fill <= 1 -> (a,b,c) <> (0,0,0) ->
  exists T, mean_eps_two e1 e2 fill a b c = Val (Some T) /\ PD T.
Proof. exact mean_eps_two_PD. Qed.
Print Assumptions C04_analytic_average_positive_definite.

(** The dielectric check reports 1 only if some tensor is not positive definite. *)
Theorem C04_check_sound : forall req2d l,
  check_dielectric false req2d l = 1%nat -> exists e, In e l /\ ~ PD e.
Proof. exact check_dielectric_1. Qed.
Print Assumptions C04_check_sound.

(** For arbitrary mesh sizes the claim is false although the library documents that
    sizes below one are treated as one: the mesh loops use the raw sizes. *)
Theorem C04_smoothing_refuted : exists ms n epsilon i,
  (forall q, PD (fst (epsilon q)) /\ PD (snd (epsilon q))) /\
  forall mm Rl, ~ exists W, voxel_eps_inv ms n mm Rl epsilon (fun _ => MeanNone) i = Val W /\ PD W.
Proof.
  exists (0,2,1)%Z, (2,1,1)%Z, ex_eps, (0,0,0)%Z. split; [exact ex_eps_PD|exact voxel_bad_mesh].
Qed.
Print Assumptions C04_smoothing_refuted.

(** Non-vacuity: a two-material function with a voxel straddling the interface. *)
Example C04_example : mesh_ok (3,3,1)%Z /\ (forall q, PD (fst (ex_eps q)) /\ PD (snd (ex_eps q))) /\
  detect_interface (0,0,0) ex_eps 1 (1/2, 1, 1) = true.
Proof. split; [cbn; lia|]. split; [exact ex_eps_PD|exact ex_eps_detect]. Qed.

(* ------------------------------------------------------------------ C05 *)

(** A uniform medium: every branch stores exactly the inverse of the tensor. *)
Theorem C05_uniform_voxel : forall ms n mm Rl e ei mepsilon i,
  mesh_ok ms -> PD e -> invert e = Val ei -> (forall q e', mepsilon q = MeanTensor e' -> e' = e) ->
  voxel_eps_inv ms n mm Rl (fun _ => (e, ei)) mepsilon i = Val ei.
Proof. exact voxel_uniform. Qed.
Print Assumptions C05_uniform_voxel.

(** Any number of equal samples with any normal. *)
Theorem C05_uniform_kottke : forall e k a b c, PD e -> (0 < k)%nat -> (a,b,c) <> (0,0,0) ->
  kottke (repeat e k) (1 / INR k) a b c = invert e.
Proof. exact kottke_uniform. Qed.
Print Assumptions C05_uniform_kottke.

Theorem C05_uniform_analytic : forall e fill a b c, PD e -> (a,b,c) <> (0,0,0) ->
  mean_eps_two e e fill a b c = Val (Some e).
Proof. exact mean_eps_two_uniform. Qed.
Print Assumptions C05_uniform_analytic.

(** Isotropic samples es with weight k: the stored inverse acts on the normal as the
    weighted sum of 1/eps and on every tangent vector as one over the weighted sum of
    eps: harmonic mean across, arithmetic mean along the interface. *)
Theorem C05_isotropic_kottke : forall es k a b c,
  (forall e, In e es -> 0 < e) -> es <> [] -> 0 < k -> (a,b,c) <> (0,0,0) ->
  exists W, kottke (map iso es) k a b c = Val W /\
    (forall i, (i < 3)%nat -> apply3 W (nvec a b c) i = RtoC (k * sumR (map Rinv es) * nvec a b c i)) /\
    (forall t i, a * t 0%nat + b * t 1%nat + c * t 2%nat = 0 -> (i < 3)%nat ->
        apply3 W t i = RtoC (/ (k * sumR es) * t i)).
Proof. exact kottke_iso. Qed.
Print Assumptions C05_isotropic_kottke.

Theorem C05_isotropic_analytic : forall e1 e2 fill a b c,
  0 < e1 -> 0 < e2 -> 0 <= fill <= 1 -> (a,b,c) <> (0,0,0) ->
  exists T, mean_eps_two (iso e1) (iso e2) fill a b c = Val (Some T) /\
    (forall i, (i < 3)%nat -> apply3 T (nvec a b c) i = RtoC (/ (fill / e1 + (1 - fill) / e2) * nvec a b c i)) /\
    (forall t i, a * t 0%nat + b * t 1%nat + c * t 2%nat = 0 -> (i < 3)%nat ->
        apply3 T t i = RtoC ((fill * e1 + (1 - fill) * e2) * t i)).
Proof. exact mean_eps_two_iso. Qed.
Print Assumptions C05_isotropic_analytic.

Example C05_example : (forall e, In e [1; 12; 12] -> 0 < e) /\ (1,2,3) <> (0,0,0) :> R*R*R.
Proof. split; [intros e [<-|[<-|[<-|[]]]]; lra|]. intros H. injection H. lra. Qed.
Example C05_example_uniform : PD (iso 12) /\ mesh_ok (3,1,7)%Z.
Proof. split; [apply iso_PD; lra|cbn; lia]. Qed.
