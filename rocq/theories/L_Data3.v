(** Proofs about mpb-data: the rectangular cell and the matrices. *)
From Coq Require Import String List ZArith Reals Lra Lia Bool Psatz.
From Verif Require Import Base RC Loops M_Tensor M_Evect M_Data S_Data.
Import ListNotations.
Local Open Scope R_scope.

Definition edge_normal (L : m33) : vec := let '(c0, c1, c2) := L in v_cross (v_minus c1 c0) (v_minus c2 c0).

Lemma dot_zero v : v_dot v v = 0 -> v = (0, 0, 0).
Proof. destruct v as [[x y] z]. unfold v_dot. intros H. assert (x = 0) by nra. assert (y = 0) by nra. assert (z = 0) by nra. subst. reflexivity. Qed.
Lemma dot_nonneg v : 0 <= v_dot v v.
Proof. destruct v as [[x y] z]. unfold v_dot. nra. Qed.
Lemma unit_ok v : v <> (0, 0, 0) -> exists s, 0 < s /\ v_norm v = s /\ s * s = v_dot v v /\ v_unit v = v_scale (1 / s) v /\ v = v_scale s (v_unit v) /\ v_dot (v_unit v) (v_unit v) = 1.
Proof.
  intros Hv. assert (P : 0 < v_dot v v). { pose proof (dot_nonneg v). destruct (Req_dec (v_dot v v) 0) as [E|E]; [|lra]. elim Hv. apply dot_zero; exact E. }
  exists (v_norm v). assert (Q : 0 < v_norm v) by (apply sqrt_lt_R0; exact P). assert (S : v_norm v * v_norm v = v_dot v v) by (apply sqrt_sqrt; lra).
  assert (U : v_unit v = v_scale (1 / v_norm v) v). { unfold v_unit. destruct (Reqb_spec (v_norm v) 0); [lra|reflexivity]. }
  split; [exact Q|]. split; [reflexivity|]. split; [exact S|]. split; [exact U|]. rewrite U. generalize dependent (v_norm v). intros s Q S U. clear U.
  destruct v as [[x y] z]. unfold v_scale, v_dot in *. split.
  - f_equal; [f_equal|]; field; lra.
  - replace (1 / s * x * (1 / s * x) + 1 / s * y * (1 / s * y) + 1 / s * z * (1 / s * z)) with ((x * x + y * y + z * z) / (s * s)) by (field; lra).
    rewrite S. field. rewrite <- S. nra.
Qed.
Lemma cramer u0 u1 u2 w : triple (u0, u1, u2) <> 0 -> v_dot w u0 = 0 -> v_dot w u1 = 0 -> v_dot w u2 = 0 -> w = (0, 0, 0).
Proof.
  destruct u0 as [[a0 a1] a2], u1 as [[b0 b1] b2], u2 as [[d0 d1] d2], w as [[x y] z]. unfold triple, v_dot.
  set (t := a0 * (b1 * d2 - b2 * d1) + a1 * (b2 * d0 - b0 * d2) + a2 * (b0 * d1 - b1 * d0)). intros T A B D.
  assert (X : x * t = 0). { replace (x * t) with ((x * a0 + y * a1 + z * a2) * (b1 * d2 - b2 * d1) + (x * b0 + y * b1 + z * b2) * (d1 * a2 - d2 * a1) + (x * d0 + y * d1 + z * d2) * (a1 * b2 - a2 * b1)) by (unfold t; ring). rewrite A, B, D. ring. }
  assert (Y : y * t = 0). { replace (y * t) with ((x * a0 + y * a1 + z * a2) * (b2 * d0 - b0 * d2) + (x * b0 + y * b1 + z * b2) * (d2 * a0 - d0 * a2) + (x * d0 + y * d1 + z * d2) * (a2 * b0 - a0 * b2)) by (unfold t; ring). rewrite A, B, D. ring. }
  assert (W : z * t = 0). { replace (z * t) with ((x * a0 + y * a1 + z * a2) * (b0 * d1 - b1 * d0) + (x * b0 + y * b1 + z * b2) * (d0 * a1 - d1 * a0) + (x * d0 + y * d1 + z * d2) * (a0 * b1 - a1 * b0)) by (unfold t; ring). rewrite A, B, D. ring. }
  apply Rmult_integral in X, Y, W. f_equal; [f_equal|]; tauto.
Qed.
Lemma minus_zero a b : v_minus a b = (0, 0, 0) -> a = b.
Proof. destruct a as [[a0 a1] a2], b as [[b0 b1] b2]. unfold v_minus. intros E. injection E as E1 E2 E3. f_equal; [f_equal|]; lra. Qed.

(** The inverse of a matrix of orthonormal columns has them as rows. *)
Lemma inverse_orthonormal u0 u1 u2 : triple (u0, u1, u2) <> 0 ->
  v_dot u0 u0 = 1 -> v_dot u1 u1 = 1 -> v_dot u2 u2 = 1 -> v_dot u0 u1 = 0 -> v_dot u0 u2 = 0 -> v_dot u1 u2 = 0 ->
  m_inverse (u0, u1, u2) = Val (m_transpose (u0, u1, u2)).
Proof.
  intros T N0 N1 N2 O01 O02 O12. unfold m_inverse.
  assert (D : v_dot u0 (v_cross u1 u2) = triple (u0, u1, u2)). { destruct u0 as [[a0 a1] a2], u1 as [[b0 b1] b2], u2 as [[d0 d1] d2]. unfold v_dot, v_cross, triple. ring. }
  rewrite D. destruct (Reqb_spec (triple (u0, u1, u2)) 0) as [E|_]; [contradiction|]. f_equal. f_equal.
  assert (E0 : v_scale (1 / triple (u0, u1, u2)) (v_cross u1 u2) = u0).
  { apply minus_zero. apply (cramer u0 u1 u2 _ T); clear D; revert T N0 N1 N2 O01 O02 O12; destruct u0 as [[a0 a1] a2], u1 as [[b0 b1] b2], u2 as [[d0 d1] d2]; unfold v_dot, v_minus, v_scale, v_cross, triple; intros.
    - transitivity (1 - (a0 * a0 + a1 * a1 + a2 * a2)); [field; exact T|lra].
    - transitivity (0 - (a0 * b0 + a1 * b1 + a2 * b2)); [field; exact T|lra].
    - transitivity (0 - (a0 * d0 + a1 * d1 + a2 * d2)); [field; exact T|lra]. }
  assert (E1 : v_scale (1 / triple (u0, u1, u2)) (v_cross u2 u0) = u1).
  { apply minus_zero. apply (cramer u0 u1 u2 _ T); clear D; clear E0; revert T N0 N1 N2 O01 O02 O12; destruct u0 as [[a0 a1] a2], u1 as [[b0 b1] b2], u2 as [[d0 d1] d2]; unfold v_dot, v_minus, v_scale, v_cross, triple; intros.
    - transitivity (0 - (a0 * b0 + a1 * b1 + a2 * b2)); [field; exact T|lra].
    - transitivity (1 - (b0 * b0 + b1 * b1 + b2 * b2)); [field; exact T|lra].
    - transitivity (0 - (b0 * d0 + b1 * d1 + b2 * d2)); [field; exact T|lra]. }
  assert (E2 : v_scale (1 / triple (u0, u1, u2)) (v_cross u0 u1) = u2).
  { apply minus_zero. apply (cramer u0 u1 u2 _ T); clear D; clear E0 E1; revert T N0 N1 N2 O01 O02 O12; destruct u0 as [[a0 a1] a2], u1 as [[b0 b1] b2], u2 as [[d0 d1] d2]; unfold v_dot, v_minus, v_scale, v_cross, triple; intros.
    - transitivity (0 - (a0 * d0 + a1 * d1 + a2 * d2)); [field; exact T|lra].
    - transitivity (0 - (b0 * d0 + b1 * d1 + b2 * d2)); [field; exact T|lra].
    - transitivity (1 - (d0 * d0 + d1 * d1 + d2 * d2)); [field; exact T|lra]. }
  rewrite E0, E1, E2. reflexivity.
Qed.

(** The steps of the rectification as a list of facts about unit vector u, edges d1 and d2. *)
Lemma project_dot u d : v_dot u u = 1 -> v_dot u (v_minus d (v_scale (v_dot u d) u)) = 0.
Proof.
  destruct u as [[a b] c], d as [[x y] z]. unfold v_dot, v_minus, v_scale. intros H.
  replace (_ + _) with ((a * x + b * y + c * z) * (1 - (a * a + b * b + c * c))) by ring. rewrite H. ring.
Qed.
Lemma dot_comm a b : v_dot a b = v_dot b a.
Proof. destruct a as [[a0 a1] a2], b as [[b0 b1] b2]. unfold v_dot. ring. Qed.
Lemma dot_minus a b c : v_dot a (v_minus b c) = v_dot a b - v_dot a c.
Proof. destruct a as [[a0 a1] a2], b as [[b0 b1] b2], c as [[c0 c1] c2]. unfold v_dot, v_minus. ring. Qed.
Lemma dot_scale a s b : v_dot a (v_scale s b) = s * v_dot a b.
Proof. destruct a as [[a0 a1] a2], b as [[b0 b1] b2]. unfold v_dot, v_scale. ring. Qed.
Lemma triple_project u d1 d2 q p : let e1 := v_minus d1 (v_scale (v_dot u d1) u) in let e2 := v_minus d2 (v_scale (v_dot u d2) u) in
  triple (v_scale q u, e1, v_minus e2 (v_scale p e1)) = q * v_dot (v_cross d1 d2) u.
Proof.
  cbv zeta. generalize (v_dot u d1) as s, (v_dot u d2) as t. intros s t.
  destruct u as [[a b] c], d1 as [[x y] z], d2 as [[l m] n]. unfold triple, v_dot, v_cross, v_minus, v_scale. ring.
Qed.
Lemma volume_dot c0 c1 c2 : v_dot (v_cross c0 c1) c2 = triple (c0, c1, c2).
Proof. destruct c0 as [[a0 a1] a2], c1 as [[b0 b1] b2], c2 as [[d0 d1] d2]. unfold v_dot, v_cross, triple. ring. Qed.
Lemma triple_zero1 a c : triple (a, (0, 0, 0), c) = 0.
Proof. destruct a as [[a0 a1] a2], c as [[c0 c1] c2]. unfold triple. ring. Qed.
Lemma triple_zero0 a c : triple ((0, 0, 0), a, c) = 0.
Proof. destruct a as [[a0 a1] a2], c as [[c0 c1] c2]. unfold triple. ring. Qed.
Lemma triple_zero2 a c : triple (a, c, (0, 0, 0)) = 0.
Proof. destruct a as [[a0 a1] a2], c as [[c0 c1] c2]. unfold triple. ring. Qed.
Lemma triple_scale a b c s t r : triple (v_scale s a, v_scale t b, v_scale r c) = s * t * r * triple (a, b, c).
Proof. destruct a as [[a0 a1] a2], b as [[b0 b1] b2], c as [[c0 c1] c2]. unfold triple, v_scale. ring. Qed.
Lemma dot_unit a b s t : v_dot (v_scale s a) (v_scale t b) = s * t * v_dot a b.
Proof. destruct a as [[a0 a1] a2], b as [[b0 b1] b2]. unfold v_dot, v_scale. ring. Qed.

Lemma rectify_ok Rin ve : let '(c0, c1, c2) := Rin in
  let v := match ve with Some v => v | None => c0 end in
  triple Rin <> 0 -> v_dot (edge_normal Rin) v <> 0 ->
  exists r0 r1 r2, rectify Rin ve = Val ((r0, r1, r2), m_transpose (v_unit r0, v_unit r1, v_unit r2)) /\
    v_dot r0 r1 = 0 /\ v_dot r0 r2 = 0 /\ v_dot r1 r2 = 0 /\
    r0 = v_scale (triple Rin / v_dot (edge_normal Rin) v) v /\ triple (r0, r1, r2) = triple Rin /\
    v_dot (v_unit r0) (v_unit r0) = 1 /\ v_dot (v_unit r1) (v_unit r1) = 1 /\ v_dot (v_unit r2) (v_unit r2) = 1.
Proof.
  destruct Rin as [[c0 c1] c2]. cbv zeta. intros T Hn.
  set (v := match ve with Some v => v | None => c0 end) in *.
  assert (Hv : v <> (0, 0, 0)). { intros E. apply Hn. rewrite E. destruct (edge_normal (c0, c1, c2)) as [[a b] c]. unfold v_dot. ring. }
  destruct (unit_ok v Hv) as (s & Ps & _ & Ss & U & V & N).
  unfold rectify. replace (match ve with Some v => v_unit v | None => v_unit c0 end) with (v_unit v) by (unfold v; destruct ve; reflexivity).
  set (u := v_unit v) in *.
  rewrite volume_dot. set (d1 := v_minus c1 c0). set (d2 := v_minus c2 c0).
  assert (En : edge_normal (c0, c1, c2) = v_cross d1 d2) by reflexivity. rewrite En in *.
  assert (Hu : v_dot (v_cross d1 d2) u <> 0). { intros E. apply Hn. rewrite V, dot_scale, E. ring. }
  rewrite fdiv_nz by exact Hu. cbn [bind].
  set (q := triple (c0, c1, c2) / v_dot (v_cross d1 d2) u).
  set (e1 := v_minus d1 (v_scale (v_dot u d1) u)). set (e2 := v_minus d2 (v_scale (v_dot u d2) u)).
  assert (TP : forall p, triple (v_scale q u, e1, v_minus e2 (v_scale p e1)) = triple (c0, c1, c2)).
  { intros p. unfold e1, e2. rewrite triple_project. unfold q. field. exact Hu. }
  assert (He1 : v_dot e1 e1 <> 0). { intros E. apply dot_zero in E. apply T. rewrite <- (TP 0), E. apply triple_zero1. }
  rewrite fdiv_nz by exact He1. cbn [bind].
  set (p := v_dot e1 e2 / v_dot e1 e1). set (e3 := v_minus e2 (v_scale p e1)).
  assert (O01 : v_dot (v_scale q u) e1 = 0). { rewrite dot_comm, dot_scale, dot_comm. unfold e1. rewrite project_dot by exact N. ring. }
  assert (O02 : v_dot (v_scale q u) e3 = 0).
  { unfold e3. rewrite dot_minus, dot_scale, O01. rewrite (dot_comm (v_scale q u) e2), dot_scale, (dot_comm e2 u). unfold e2. rewrite project_dot by exact N. ring. }
  assert (O12 : v_dot e1 e3 = 0). { unfold e3. rewrite dot_minus, dot_scale. unfold p. field. exact He1. }
  pose proof (TP p) as TT. fold e3 in TT.
  assert (Z0 : v_scale q u <> (0, 0, 0)) by (intros E; apply T; rewrite <- TT, E; apply triple_zero0).
  assert (Z1 : e1 <> (0, 0, 0)) by (intros E; apply T; rewrite <- TT, E; apply triple_zero1).
  assert (Z2 : e3 <> (0, 0, 0)) by (intros E; apply T; rewrite <- TT, E; apply triple_zero2).
  destruct (unit_ok _ Z0) as (s0 & P0 & _ & _ & U0 & _ & N0). destruct (unit_ok _ Z1) as (s1 & P1 & _ & _ & U1 & _ & N1). destruct (unit_ok _ Z2) as (s2 & P2 & _ & _ & U2 & _ & N2).
  assert (M : m_inverse (v_unit (v_scale q u), v_unit e1, v_unit e3) = Val (m_transpose (v_unit (v_scale q u), v_unit e1, v_unit e3))).
  { apply inverse_orthonormal; auto.
    - rewrite U0, U1, U2, triple_scale, TT. apply Rmult_integral_contrapositive_currified; [|exact T].
      pose proof (Rdiv_lt_0_compat 1 s0 Rlt_0_1 P0) as Q0. pose proof (Rdiv_lt_0_compat 1 s1 Rlt_0_1 P1) as Q1. pose proof (Rdiv_lt_0_compat 1 s2 Rlt_0_1 P2) as Q2.
      apply Rgt_not_eq. exact (Rmult_gt_0_compat _ _ (Rmult_gt_0_compat _ _ Q0 Q1) Q2).
    - rewrite U0, U1, dot_unit, O01. ring.
    - rewrite U0, U2, dot_unit, O02. ring.
    - rewrite U1, U2, dot_unit, O12. ring. }
  rewrite M. cbn [bind]. exists (v_scale q u), e1, e3. split; [reflexivity|]. split; [exact O01|]. split; [exact O02|]. split; [exact O12|].
  split; [|split; [exact TT|split; [exact N0|split; [exact N1|exact N2]]]].
  unfold q. rewrite V at 2. rewrite V at 1. rewrite (dot_scale _ s u).
  set (h := v_dot (v_cross d1 d2) u) in *. clear -Hu Ps. destruct u as [[a b] c]. unfold v_scale. f_equal; [f_equal|]; field; split; lra.
Qed.
