(** The vector of group velocities. *)
From Coq Require Import List ZArith Reals Lra Lia Bool.
From Verif Require Import Base RC M_Tensor S_Tensor M_Evect S_Evect M_Grid S_Grid M_Op S_Op L_Op L_Op2 L_Op3 L_Op4 L_Op5 P_Op M_Gv S_Gv L_Gv S_Fgrad M_Vel S_Vel L_Vel L_Vel2.
Import ListNotations.
Local Open Scope R_scope.

Lemma reciprocal_dual Rm Gm : reciprocal_vectors Rm = Val Gm -> dual Rm Gm /\ dual (matrix3x3_transpose Gm) (matrix3x3_transpose Rm).
Proof.
  destruct Rm as [[[[a0 a1] a2] [[b0 b1] b2]] [[c0 c1] c2]]. unfold reciprocal_vectors. cbn [matrix3x3_transpose]. unfold matrix3x3_inverse. unfold matrix3x3_determinant at 1.
  match goal with |- context [Reqb ?x 0] => set (D := x) end. destruct (Reqb_spec D 0) as [E|N]; [discriminate|]. unfold matrix3x3_determinant. fold D. rewrite fdiv_nz by exact N. cbn [bind].
  intros H. injection H as <-. split; intros i j Hi Hj; destruct i as [|[|[|i]]]; try lia; destruct j as [|[|[|j]]]; try lia; cbn; unfold D in *; field; exact N.
Qed.
Lemma reciprocal_singular Rm : reciprocal_vectors Rm = Abort <-> rdot (col 0 Rm) (rcross (col 1 Rm) (col 2 Rm)) = 0.
Proof.
  destruct Rm as [[[[a0 a1] a2] [[b0 b1] b2]] [[c0 c1] c2]]. unfold reciprocal_vectors. cbn [matrix3x3_transpose]. unfold matrix3x3_inverse. unfold matrix3x3_determinant at 1.
  match goal with |- context [Reqb ?x 0] => set (D := x) end. assert (ED : rdot (a0, a1, a2) (rcross (b0, b1, b2) (c0, c1, c2)) = D) by (unfold D; cbn; ring).
  cbn [col fst snd]. rewrite ED. destruct (Reqb_spec D 0) as [E|N]; [split; auto|]. unfold matrix3x3_determinant. fold D. rewrite fdiv_nz by exact N. cbn [bind].
  split; [discriminate|contradiction].
Qed.
Lemma mult_in_basis m h : matrix3x3_vector3_mult m h = in_basis m h.
Proof. destruct m as [[[[a0 a1] a2] [[b0 b1] b2]] [[c0 c1] c2]], h as [[x y] z]. cbn. f_equal; [f_equal|]; ring. Qed.
(** Converting to the reciprocal basis and back. *)
Lemma round_trip Rm Gm v : reciprocal_vectors Rm = Val Gm -> matrix3x3_vector3_mult Gm (matrix3x3_vector3_mult (matrix3x3_transpose Rm) v) = v.
Proof.
  intros E. destruct (reciprocal_dual Rm Gm E) as (_ & Du). destruct Rm as [[[[a0 a1] a2] [[b0 b1] b2]] [[c0 c1] c2]], Gm as [[[[p0 p1] p2] [[q0 q1] q2]] [[r0 r1] r2]], v as [[x y] z].
  pose proof (Du 0 0 ltac:(lia) ltac:(lia))%nat as D00. pose proof (Du 0 1 ltac:(lia) ltac:(lia))%nat as D01. pose proof (Du 0 2 ltac:(lia) ltac:(lia))%nat as D02.
  pose proof (Du 1 0 ltac:(lia) ltac:(lia))%nat as D10. pose proof (Du 1 1 ltac:(lia) ltac:(lia))%nat as D11. pose proof (Du 1 2 ltac:(lia) ltac:(lia))%nat as D12.
  pose proof (Du 2 0 ltac:(lia) ltac:(lia))%nat as D20. pose proof (Du 2 1 ltac:(lia) ltac:(lia))%nat as D21. pose proof (Du 2 2 ltac:(lia) ltac:(lia))%nat as D22. clear Du E. cbn in *.
  f_equal; [f_equal|].
  - transitivity (x * (p0 * a0 + q0 * b0 + r0 * c0) + y * (p0 * a1 + q0 * b1 + r0 * c1) + z * (p0 * a2 + q0 * b2 + r0 * c2)); [ring|]. rewrite D00, D01, D02. ring.
  - transitivity (x * (p1 * a0 + q1 * b0 + r1 * c0) + y * (p1 * a1 + q1 * b1 + r1 * c1) + z * (p1 * a2 + q1 * b2 + r1 * c2)); [ring|]. rewrite D10, D11, D12. ring.
  - transitivity (x * (p2 * a0 + q2 * b0 + r2 * c0) + y * (p2 * a1 + q2 * b1 + r2 * c1) + z * (p2 * a2 + q2 * b2 + r2 * c2)); [ring|]. rewrite D20, D21, D22. ring.
Qed.
Lemma unit_total v : exists u, unit_vector3 v = Val u /\ (rdot v v = 1 -> u = v) /\ exists s, u = rsc s v /\ 0 < s /\ (v <> (0, 0, 0) -> rdot u u = 1).
Proof.
  destruct v as [[x y] z]. unfold unit_vector3. set (q := x * x + y * y + z * z). assert (Hq : 0 <= q) by (unfold q; nra). destruct (Reqb_spec (sqrt q) 0) as [E|N].
  - exists (x, y, z). split; [reflexivity|]. split; [auto|]. exists 1. split; [cbn; f_equal; [f_equal|]; ring|]. split; [lra|]. intros Hn. exfalso. apply Hn.
    apply sqrt_eq_0 in E; [|exact Hq]. unfold q in E. assert (x = 0) by nra. assert (y = 0) by nra. assert (z = 0) by nra. congruence.
  - rewrite fdiv_nz by exact N. cbn [bind]. pose proof (sqrt_pos q) as Sp. assert (0 < sqrt q) by lra. pose proof (sqrt_sqrt q Hq) as SS.
    eexists. split; [reflexivity|]. split.
    + cbn [rdot]. fold q. intros E. rewrite E, sqrt_1. f_equal; [f_equal|]; field.
    + exists (1 / sqrt q). split; [cbn; f_equal; [f_equal|]; ring|]. split; [apply Rdiv_lt_0_compat; lra|]. intros _. cbn [rdot].
      transitivity (q * (1 / sqrt q * (1 / sqrt q))); [unfold q; ring|]. rewrite <- SS at 1. field. exact N.
Qed.

Lemma component_ok s d k b w wk dir u : solved s d k b w -> work_ok d wk -> unit_vector3 (matrix3x3_vector3_mult (v_Gm s) dir) = Val u ->
  compute_1_group_velocity_component s wk dir b = Some (Val (slope d u (v_H s) (b - 1) / w)).
Proof.
  intros (S1 & S2 & S3 & S4 & Wd & Hm & Hn & T0 & Hb & Lq & Ef & Hw & N1 & Ei) Wk Eu. destruct wk as [[W0 W1] fft]. destruct Wk as (F0 & A0 & F1 & A1 & Hf).
  unfold compute_1_group_velocity_component. rewrite S1, Eu. destruct (Z.eqb_spec (v_kindex s) 0); [contradiction|]. destruct (Z.leb_spec (v_nwork s) 1); [lia|].
  destruct (gv1_ok d (v_neg s) u (v_freqs s) b (v_H s) W0 W1 fft Wd (proj1 Ei) Hb Lq F0 A0 F1 A1 Hn Hf) as (x & E & _ & Hx). rewrite E.
  assert (Ho : orthonormal_basis d) by (destruct (table_facts _ _ _ _ _ _ Wd T0) as (_ & Ho & _); rewrite same_table in Ho; exact Ho).
  rewrite (slope_gvv d u (v_H s) (b - 1) Wd Ho Hm) in Hx.
  assert (Eg : getr (v_freqs s) (b - 1) = if v_neg s then w * w else w).
  { pose proof (getr_in (v_freqs s) (b - 1) ltac:(lia)) as Q. rewrite Ef in Q. injection Q as Q. symmetry. exact Q. }
  rewrite Eg in Hx. assert (Nz : (if v_neg s then w * w else w) <> 0) by (destruct (v_neg s); apply Rgt_not_eq; [apply Rmult_gt_0_compat|]; exact Hw). specialize (Hx Nz). do 2 f_equal.
  assert (Dv : divisor (v_neg s) (if v_neg s then w * w else w) = w).
  { unfold divisor. destruct (v_neg s); [|reflexivity]. rewrite Rabs_pos_eq by nra. apply sqrt_square. lra. }
  rewrite Dv in Hx. rewrite <- Hx. field. lra.
Qed.
Lemma velocity_slope s d k b w u : solved s d k b w -> velocity_along s d k b u (slope d u (v_H s) (b - 1) / w).
Proof.
  intros (S1 & S2 & S3 & S4 & Wd & Hm & Hn & T0 & Hb & Lq & Ef & Hw & N1 & Ei) ks Y j lam Fo. exact (frequency_moves _ _ _ _ _ _ _ _ _ _ _ _ _ Wd Hm T0 N1 Hw Ei Fo).
Qed.
Lemma slope_axes d u H b : slope d u H b = S_Op.comp 0 u * slope d (1, 0, 0) H b + S_Op.comp 1 u * slope d (0, 1, 0) H b + S_Op.comp 2 u * slope d (0, 0, 1) H b.
Proof.
  rewrite <- !slope_scale, <- !slope_add. f_equal. destruct u as [[x y] z]. cbn. f_equal; [f_equal|]; ring.
Qed.
Lemma vector_ok s d k b w wx wy wz : solved s d k b w -> work_ok d wx -> work_ok d wy -> work_ok d wz ->
  exists v, compute_1_group_velocity s wx wy wz b = Some (Val v) /\ forall u, rdot v u = slope d u (v_H s) (b - 1) / w.
Proof.
  intros So Wx Wy Wz. pose proof So as (S1 & S2 & S3 & S4 & _ & _ & _ & _ & _ & _ & _ & Hw & _).
  assert (U : forall e, rdot e e = 1 -> unit_vector3 (matrix3x3_vector3_mult (v_Gm s) (matrix3x3_vector3_mult (matrix3x3_transpose (v_Rm s)) e)) = Val e).
  { intros e He. rewrite (round_trip _ _ e S4). destruct (unit_total e) as (u & -> & Hu & _). rewrite (Hu He). reflexivity. }
  unfold compute_1_group_velocity. rewrite (component_ok s d k b w wx _ (1, 0, 0) So Wx) by (apply U; cbn; ring). cbn [obind].
  rewrite (component_ok s d k b w wy _ (0, 1, 0) So Wy) by (apply U; cbn; ring). cbn [obind]. rewrite (component_ok s d k b w wz _ (0, 0, 1) So Wz) by (apply U; cbn; ring). cbn [obind].
  eexists. split; [reflexivity|]. intros u. rewrite (slope_axes d u). destruct u as [[x y] z]. cbn [rdot S_Op.comp fst snd]. field. apply Rgt_not_eq. exact Hw.
Qed.
Lemma transpose_dot m v h : rdot (matrix3x3_vector3_mult (matrix3x3_transpose m) v) h = rdot v (in_basis m h).
Proof. destruct m as [[[[a0 a1] a2] [[b0 b1] b2]] [[c0 c1] c2]], h as [[x y] z], v as [[v0 v1] v2]. cbn. ring. Qed.

(** * A case: two points, uniform medium, wave vector 1/2 along x *)
Lemma transverse_x x : 0 < x -> transverse (x, 0, 0) = Val {| kmag := x; km := (0, 0, -1); kn := (0, 1, 0) |}.
Proof.
  intros Hx. unfold transverse. replace (x * x + 0 * 0 + 0 * 0) with (x * x) by ring. destruct (Reqb_spec (x * x) 0) as [E|_]; [nra|]. destruct (Reqb_spec x 0) as [E|_]; [lra|]. cbn [andb vcross].
  replace (0 * 0 - 1 * 0) with 0 by ring. replace (1 * x - 0 * 0) with x by ring. replace (0 * 0 - 0 * x) with 0 by ring.
  replace (0 * 0 + x * x + 0 * 0) with (x * x) by ring. rewrite sqrt_square by lra. rewrite fdiv_nz by (apply Rgt_not_eq; exact Hx). cbn [bind vscale vcross].
  replace (0 * (1 / x)) with 0 by ring. replace (x * (1 / x)) with 1 by (field; lra).
  replace (1 * 0 - 0 * 0) with 0 by ring. replace (0 * x - 0 * 0) with 0 by ring. replace (0 * 0 - 1 * x) with (- x) by ring.
  replace (0 * 0 + 0 * 0 + - x * - x) with (x * x) by ring. rewrite sqrt_square by lra. rewrite fdiv_nz by (apply Rgt_not_eq; exact Hx). cbn [bind vscale].
  do 2 f_equal. f_equal; [f_equal; ring|]. field. lra.
Qed.
Definition vx_k (x : R) : list kdata := [{| kmag := x; km := (0, 0, -1); kn := (0, 1, 0) |}; {| kmag := x + 1; km := (0, 0, -1); kn := (0, 1, 0) |}].
Definition vx_d : mdata := create_shape 2 1 1 1 (vx_k (/ 2)) [iso (/ 4); iso (/ 4)] None [/ 4; / 4] (/ 4).
Definition vx_H : emat C := {| en := 4; ep := 1; ealloc := 1; edata := [RtoC (3 / 5); RtoC (4 / 5); C0; C0] |}.
Definition vx_I : matrix3x3 := ((1, 0, 0), (0, 1, 0), (0, 0, 1)).
Definition vx_s : vstate := {| v_mdata := Some vx_d; v_kindex := 1; v_nwork := 3; v_neg := false; v_freqs := [/ 4]; v_H := vx_H; v_Rm := vx_I; v_Gm := vx_I |}.
Lemma vx_table x : 0 < x -> table_at vx_d (1, 0, 0) (0, 1, 0) (0, 0, 1) (x, 0, 0) (vx_k x).
Proof.
  intros Hx. unfold table_at, k_plus_G. change (planewaves (d_nx vx_d) (d_ny vx_d) (d_nz vx_d) 0 (d_nx vx_d)) with [(0, 0, 0); (-1, 0, 0)]%Z. cbn [mapM]. unfold kpG. cbn [fst snd].
  replace (x - (1 * 0 + 0 * 0 + 0 * 0)) with x by ring. replace (x - (1 * -1 + 0 * 0 + 0 * 0)) with (x + 1) by ring.
  replace (0 - (0 * 0 + 1 * 0 + 0 * 0)) with 0 by ring. replace (0 - (0 * 0 + 0 * 0 + 1 * 0)) with 0 by ring. replace (0 - (0 * -1 + 1 * 0 + 0 * 0)) with 0 by ring. replace (0 - (0 * -1 + 0 * 0 + 1 * 0)) with 0 by ring.
  rewrite !transverse_x by lra. reflexivity.
Qed.
Lemma vx_wfd x : wfd (with_kG (vx_k x) vx_d) /\ orthonormal_basis (with_kG (vx_k x) vx_d).
Proof.
  split.
  - exact (create_wfd 2 1 1 1 (vx_k x) [iso (/ 4); iso (/ 4)] None [/ 4; / 4] (/ 4) ltac:(lia) ltac:(lia) ltac:(lia) eq_refl eq_refl ltac:(discriminate)).
  - intros g Hg. unfold npts in Hg. cbn in Hg. destruct g as [|[|g]]; [| |lia]; unfold kat; cbn; repeat split; ring.
Qed.
Lemma vx_eigen x : eigenfield (with_kG (vx_k x) vx_d) vx_H 0 (/ 4 * (x * x)).
Proof.
  destruct (vx_wfd x) as (Wd & Ho). set (d := with_kG (vx_k x) vx_d) in *.
  assert (Rd : ready 1 d vx_H vx_H (repeat C0 6)) by (unfold ready, fields, wf, scratch, npts; cbn; repeat split; lia).
  split; [exact (proj1 Rd)|]. split; [cbn; lia|]. destruct (C13_total 1 d vx_H vx_H (repeat C0 6) Wd Rd) as (AY & g & E & _). exists 1%nat, vx_H, (repeat C0 6), AY, g. split; [exact Rd|]. split; [exact E|].
  destruct (op_result _ _ _ _ _ _ _ Wd Rd E) as (_ & _ & Q). specialize (Q 0%Z ltac:(cbn; lia)).
  assert (U : uniform d (d_eps_inv d) (/ 4)) by (intros r Hr; unfold npts in Hr; cbn in Hr; destruct r as [|[|r]]; [reflexivity|reflexivity|lia]).
  intros i Hi. cbn [vx_H en] in Hi. assert (HN : npts d = 2%Z) by reflexivity. assert (Hg : (0 <= i / 2 < npts d)%Z) by (rewrite HN; split; [apply Z.div_pos; lia|apply Z.div_lt_upper_bound; lia]).
  pose proof (Z.mod_pos_bound i 2 ltac:(lia)) as Hc. specialize (Q (i / 2)%Z (i mod 2)%Z Hg Hc). unfold fld at 1 in Q. rewrite <- (Z.div_mod i 2) in Q by lia. rewrite Q.
  unfold opcol. change (d_mu_inv d) with (@None (list sym)). cbv iota. rewrite (epscol_iso d Wd _ _ Ho U _ _ Hg Hc). unfold fld. rewrite <- (Z.div_mod i 2) by lia.
  assert (i = 0 \/ i = 1 \/ i = 2 \/ i = 3)%Z as [-> | [-> | [-> | ->]]] by lia.
  - f_equal. 
  - f_equal.
  - change (entC vx_H 2 0) with C0. cring.
  - change (entC vx_H 3 0) with C0. cring.
Qed.
