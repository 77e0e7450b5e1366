(** Proofs about rotation and tensor averaging. *)
From Coq Require Import Reals Lra Lia List Bool ZArith.
From Verif Require Import Base RC M_Tensor S_Tensor L_Tensor.
Import ListNotations.
Local Open Scope R_scope.

(* ------------------------------------------------------------- rotation *)


Lemma rotate_entry A Rt i j : (i < 3)%nat -> (j < 3)%nat ->
  entry (rotate A Rt) i j =
  csum 3 (fun k => csum 3 (fun l => (RtoC (Rt k i) * entry A k l * RtoC (Rt l j))%C)).
Proof.
  intros Hi Hj. destruct A as [a b c [x1 x2] [y1 y2] [z1 z2]].
  case3 i; case3 j;
  cbn [csum entry m00 m11 m22 m01 m02 m12 rotate]; unfold mulRtA, mulAR, re_arr, im_arr;
  cbn [m00 m11 m22 m01 m02 m12]; apply C_eq; csimp; ring.
Qed.

Lemma sym_ext A B : (forall i j, (i < 3)%nat -> (j < 3)%nat -> entry A i j = entry B i j) -> A = B.
Proof.
  intros H. destruct A as [a b c x y z], B as [a' b' c' x' y' z'].
  pose proof (H 0 0 ltac:(lia) ltac:(lia))%nat as H00. pose proof (H 1 1 ltac:(lia) ltac:(lia))%nat as H11.
  pose proof (H 2 2 ltac:(lia) ltac:(lia))%nat as H22. pose proof (H 0 1 ltac:(lia) ltac:(lia))%nat as H01.
  pose proof (H 0 2 ltac:(lia) ltac:(lia))%nat as H02. pose proof (H 1 2 ltac:(lia) ltac:(lia))%nat as H12.
  cbn in *. injection H00 as ->. injection H11 as ->. injection H22 as ->. subst. reflexivity.
Qed.

Lemma orth_rows Rt : orthonormal Rt -> orthonormal (transpose3 Rt).
Proof.
  intros H.
  assert (T : forall i j, (i < 3)%nat -> (j < 3)%nat ->
     Rt 0%nat i * Rt 0%nat j + Rt 1%nat i * Rt 1%nat j + Rt 2%nat i * Rt 2%nat j = if Nat.eqb i j then 1 else 0).
  { intros i j Hi Hj. rewrite <- (H i j Hi Hj). cbn [rsum]. ring. }
  pose proof (T 0 0 ltac:(lia) ltac:(lia))%nat as T00. pose proof (T 0 1 ltac:(lia) ltac:(lia))%nat as T01.
  pose proof (T 0 2 ltac:(lia) ltac:(lia))%nat as T02. pose proof (T 1 1 ltac:(lia) ltac:(lia))%nat as T11.
  pose proof (T 1 2 ltac:(lia) ltac:(lia))%nat as T12. pose proof (T 2 2 ltac:(lia) ltac:(lia))%nat as T22.
  cbn [Nat.eqb] in *. clear H T.
  set (d := det3 Rt).
  intros i j Hi Hj. unfold transpose3. cbn [rsum].
  set (a := Rt 0%nat 0%nat) in *. set (b := Rt 0%nat 1%nat) in *. set (c := Rt 0%nat 2%nat) in *.
  set (e := Rt 1%nat 0%nat) in *. set (f := Rt 1%nat 1%nat) in *. set (g := Rt 1%nat 2%nat) in *.
  set (h := Rt 2%nat 0%nat) in *. set (k := Rt 2%nat 1%nat) in *. set (l := Rt 2%nat 2%nat) in *.
  assert (Ed : d = a*(f*l-g*k) - b*(e*l-g*h) + c*(e*k-f*h)) by reflexivity.
  assert (Hd2 : d * d = 1).
  { assert (E : d*d = (a*a+e*e+h*h)*((b*b+f*f+k*k)*(c*c+g*g+l*l) - (b*c+f*g+k*l)*(b*c+f*g+k*l))
       - (a*b+e*f+h*k)*((a*b+e*f+h*k)*(c*c+g*g+l*l) - (b*c+f*g+k*l)*(a*c+e*g+h*l))
       + (a*c+e*g+h*l)*((a*b+e*f+h*k)*(b*c+f*g+k*l) - (b*b+f*f+k*k)*(a*c+e*g+h*l))).
    { rewrite Ed. ring. }
    rewrite E, T00, T11, T22, T01, T02, T12. ring. }
  assert (Hd : d <> 0) by (intros E; rewrite E in Hd2; lra).
  (* adjugate *)
  assert (Aa : a*d = f*l-g*k). { transitivity ((a*a+e*e+h*h)*(f*l-g*k) + (a*b+e*f+h*k)*(g*h-e*l) + (a*c+e*g+h*l)*(e*k-f*h)); [rewrite Ed; ring|rewrite T00,T01,T02; ring]. }
  assert (Ae : e*d = c*k-b*l). { transitivity ((a*a+e*e+h*h)*(c*k-b*l) + (a*b+e*f+h*k)*(a*l-c*h) + (a*c+e*g+h*l)*(b*h-a*k)); [rewrite Ed; ring|rewrite T00,T01,T02; ring]. }
  assert (Ah : h*d = b*g-c*f). { transitivity ((a*a+e*e+h*h)*(b*g-c*f) + (a*b+e*f+h*k)*(c*e-a*g) + (a*c+e*g+h*l)*(a*f-b*e)); [rewrite Ed; ring|rewrite T00,T01,T02; ring]. }
  assert (Ab : b*d = g*h-e*l). { transitivity ((a*b+e*f+h*k)*(f*l-g*k) + (b*b+f*f+k*k)*(g*h-e*l) + (b*c+f*g+k*l)*(e*k-f*h)); [rewrite Ed; ring|rewrite T01,T11,T12; ring]. }
  assert (Af : f*d = a*l-c*h). { transitivity ((a*b+e*f+h*k)*(c*k-b*l) + (b*b+f*f+k*k)*(a*l-c*h) + (b*c+f*g+k*l)*(b*h-a*k)); [rewrite Ed; ring|rewrite T01,T11,T12; ring]. }
  assert (Ak : k*d = c*e-a*g). { transitivity ((a*b+e*f+h*k)*(b*g-c*f) + (b*b+f*f+k*k)*(c*e-a*g) + (b*c+f*g+k*l)*(a*f-b*e)); [rewrite Ed; ring|rewrite T01,T11,T12; ring]. }
  assert (Ac : c*d = e*k-f*h). { transitivity ((a*c+e*g+h*l)*(f*l-g*k) + (b*c+f*g+k*l)*(g*h-e*l) + (c*c+g*g+l*l)*(e*k-f*h)); [rewrite Ed; ring|rewrite T02,T12,T22; ring]. }
  assert (Ag : g*d = b*h-a*k). { transitivity ((a*c+e*g+h*l)*(c*k-b*l) + (b*c+f*g+k*l)*(a*l-c*h) + (c*c+g*g+l*l)*(b*h-a*k)); [rewrite Ed; ring|rewrite T02,T12,T22; ring]. }
  assert (Al : l*d = a*f-b*e). { transitivity ((a*c+e*g+h*l)*(b*g-c*f) + (b*c+f*g+k*l)*(c*e-a*g) + (c*c+g*g+l*l)*(a*f-b*e)); [rewrite Ed; ring|rewrite T02,T12,T22; ring]. }
  case3 i; case3 j; cbn [Nat.eqb]; apply (Rmult_eq_reg_r d); [|exact Hd| |exact Hd| |exact Hd| |exact Hd| |exact Hd| |exact Hd| |exact Hd| |exact Hd| |exact Hd];
  match goal with |- (0 + ?p1*?q1 + ?p2*?q2 + ?p3*?q3) * d = ?r =>
    transitivity (p1*(q1*d) + p2*(q2*d) + p3*(q3*d)); [ring|] end;
  subst a b c e f g h k l;
  rewrite ?Aa, ?Ab, ?Ac, ?Ae, ?Af, ?Ag, ?Ah, ?Ak, ?Al; rewrite ?Ed; ring.
Qed.

Lemma orth_apply Rt (v : nat -> R) i : orthonormal Rt -> (i < 3)%nat ->
  rsum 3 (fun k => Rt i k * rsum 3 (fun j => Rt j k * v j)) = v i.
Proof.
  intros H Hi. apply orth_rows in H. unfold orthonormal, transpose3 in H.
  transitivity (rsum 3 (fun j => rsum 3 (fun k => Rt i k * Rt j k) * v j)).
  { cbn [rsum]. ring. }
  cbn [rsum]. cbn [rsum] in H. rewrite !(H i) by lia.
  case3 i; cbn [Nat.eqb]; ring.
Qed.

Lemma rotate_back A Rt : orthonormal Rt -> rotate (rotate A Rt) (transpose3 Rt) = A.
Proof.
  intros H. apply sym_ext. intros i j Hi Hj.
  rewrite rotate_entry by assumption. unfold transpose3.
  pose proof (orth_rows _ H) as Hr. unfold orthonormal, transpose3 in Hr.
  transitivity (csum 3 (fun p => csum 3 (fun q =>
     (RtoC (rsum 3 (fun k => Rt i k * Rt p k)%R) * entry A p q * RtoC (rsum 3 (fun l => Rt q l * Rt j l)%R))%C))).
  { cbn [csum]. rewrite !rotate_entry by lia. cbn [csum rsum].
    rewrite ?RtoC_add, ?RtoC_mul. change (RtoC 0) with C0. clear. ring. }
  cbn [csum]. rewrite !Hr by lia. clear Hr H.
  case3 i; case3 j; cbn [Nat.eqb]; change (RtoC 0) with C0; change (RtoC 1) with C1; ring.
Qed.

(** congruence on the quadratic form *)
Lemma rotate_quad A Rt x :
  quad (rotate A Rt) x = quad A (fun k => csum 3 (fun i => (RtoC (Rt k i) * x i)%C)).
Proof.
  unfold quad. cbn [csum]. rewrite !rotate_entry by lia. cbn [csum].
  rewrite ?Cconj_add, ?Cconj_mul, ?Cconj_R. replace (Cconj C0) with C0 by (apply C_eq; csimp; ring). ring.
Qed.

Lemma rotate_PD A Rt : orthonormal Rt -> PD A -> PD (rotate A Rt).
Proof.
  intros H HA x Hx. rewrite rotate_quad. apply HA.
  destruct (Ceqb_spec (csum 3 (fun i => (RtoC (Rt 0%nat i) * x i)%C)) C0) as [E0|]; [|exists 0%nat; split; [lia|assumption]].
  destruct (Ceqb_spec (csum 3 (fun i => (RtoC (Rt 1%nat i) * x i)%C)) C0) as [E1|]; [|exists 1%nat; split; [lia|assumption]].
  destruct (Ceqb_spec (csum 3 (fun i => (RtoC (Rt 2%nat i) * x i)%C)) C0) as [E2|]; [|exists 2%nat; split; [lia|assumption]].
  exfalso. destruct Hx as (j & Hj & Hx). apply Hx.
  transitivity (csum 3 (fun i => (RtoC (rsum 3 (fun k => Rt k j * Rt k i)%R) * x i)%C)).
  { cbn [csum]. rewrite !H by lia. clear H HA Hx E0 E1 E2. case3 j; cbn [Nat.eqb]; apply C_eq; csimp; ring. }
  transitivity (csum 3 (fun k => (RtoC (Rt k j) * csum 3 (fun i => (RtoC (Rt k i) * x i)%C))%C)).
  { cbn [csum rsum]. clear. apply C_eq; csimp; ring. }
  cbn [csum] in *. rewrite E0, E1, E2. apply C_eq; csimp; ring.
Qed.

Lemma rotate_PD_iff A Rt : orthonormal Rt -> (PD (rotate A Rt) <-> PD A).
Proof.
  intros H. split; [|apply rotate_PD; assumption].
  intros HP. rewrite <- (rotate_back A Rt H). apply rotate_PD; [apply orth_rows; assumption|exact HP].
Qed.

Lemma rotation_matrix_ok n0 n1 n2 : n0*n0 + n1*n1 + n2*n2 = 1 ->
  exists Rt, rotation_matrix n0 n1 n2 = Val Rt /\ orthonormal Rt /\ det3 Rt = 1 /\
    Rt 0%nat 0%nat = n0 /\ Rt 1%nat 0%nat = n1 /\ Rt 2%nat 0%nat = n2.
Proof.
  intros Hn. unfold rotation_matrix.
  set (cc := if Rltb (1/100) (Rabs n0) || Rltb (1/100) (Rabs n1) then (n1, - n0, 0) else (0, - n2, n1)).
  assert (Hc : exists c0 c1 c2, cc = (c0, c1, c2) /\ 0 < c0*c0+c1*c1+c2*c2 /\ c0*n0+c1*n1+c2*n2 = 0).
  { unfold cc. destruct (Rltb_spec (1/100) (Rabs n0)) as [H0|H0]; cbn [orb].
    - exists n1, (-n0), 0. split; [reflexivity|]. split; [|ring].
      assert (n0 <> 0). { intros ->. rewrite Rabs_R0 in H0. lra. }
      pose proof (Rsq_pos n0 H). nra.
    - destruct (Rltb_spec (1/100) (Rabs n1)) as [H1|H1].
      + exists n1, (-n0), 0. split; [reflexivity|]. split; [|ring].
        assert (n1 <> 0). { intros ->. rewrite Rabs_R0 in H1. lra. }
        pose proof (Rsq_pos n1 H). nra.
      + exists 0, (-n2), n1. split; [reflexivity|]. split; [|ring].
        assert (n0*n0 <= 1/10000).
        { unfold Rabs in H0. destruct (Rcase_abs n0); nra. }
        nra. }
  destruct Hc as (c0 & c1 & c2 & -> & Hp & Ho).
  set (N := c0*c0+c1*c1+c2*c2) in *.
  assert (Hs : sqrt N <> 0). { pose proof (sqrt_lt_R0 _ Hp). lra. }
  rewrite fdiv_nz by exact Hs. cbn [bind].
  eexists. split; [reflexivity|].
  set (s := 1 / sqrt N).
  assert (HsN : s*s*N = 1). { unfold s. rewrite <- (sqrt_sqrt N) at 3 by lra. field. exact Hs. }
  assert (Hu : (c0*s)*(c0*s)+(c1*s)*(c1*s)+(c2*s)*(c2*s) = 1). { rewrite <- HsN. unfold N. ring. }
  assert (Ho' : (c0*s)*n0+(c1*s)*n1+(c2*s)*n2 = 0). { replace 0 with (s * (c0*n0+c1*n1+c2*n2)) by (rewrite Ho; ring). ring. }
  clearbody s. generalize dependent (c0*s). intros u0. generalize dependent (c1*s). intros u1. generalize dependent (c2*s). intros u2.
  intros Hu Ho'. clear - Hn Hu Ho'.
  (* |u x n|^2 = 1 *)
  assert (Hx : (u1*n2-u2*n1)*(u1*n2-u2*n1)+(u2*n0-u0*n2)*(u2*n0-u0*n2)+(u0*n1-u1*n0)*(u0*n1-u1*n0) = 1).
  { transitivity ((u0*u0+u1*u1+u2*u2)*(n0*n0+n1*n1+n2*n2) - (u0*n0+u1*n1+u2*n2)*(u0*n0+u1*n1+u2*n2)); [ring|].
    rewrite Hn, Hu, Ho'. ring. }
  split; [|split; [|repeat split; reflexivity]].
  - intros i j Hi Hj. case3 i; case3 j; cbn [rsum Nat.eqb]; try ring; try lra.
  - unfold det3.
    transitivity ((u0*u0+u1*u1+u2*u2)*(n0*n0+n1*n1+n2*n2) - (u0*n0+u1*n1+u2*n2)*(u0*n0+u1*n1+u2*n2)); [ring|].
    rewrite Hn, Hu, Ho'. ring.
Qed.

Lemma normalize_ok a b c : (a, b, c) <> (0, 0, 0) ->
  sqrt (a*a+b*b+c*c) <> 0 /\
  let s := 1 / sqrt (a*a+b*b+c*c) in 0 < s /\ (a*s)*(a*s)+(b*s)*(b*s)+(c*s)*(c*s) = 1.
Proof.
  intros H. assert (P : 0 < a*a+b*b+c*c).
  { destruct (Req_dec a 0) as [->|Ha]; [destruct (Req_dec b 0) as [->|Hb]; [destruct (Req_dec c 0) as [->|Hc]; [congruence|]|]|].
    - pose proof (Rsq_pos c Hc). lra.
    - pose proof (Rsq_pos b Hb). nra.
    - pose proof (Rsq_pos a Ha). nra. }
  pose proof (sqrt_lt_R0 _ P) as Q. split; [lra|]. split.
  - apply Rdiv_lt_0_compat; lra.
  - set (N := a*a+b*b+c*c) in *.
    transitivity (N * (1 / (sqrt N * sqrt N))). { clear H. generalize dependent (sqrt N). intros q Hq. unfold N. field. lra. }
    rewrite sqrt_sqrt by lra. field. lra.
Qed.

(* ------------------------------------------------------------ inverse *)

Definition applyC (V : sym) (x : nat -> C) (i : nat) : C := csum 3 (fun j => (entry V i j * x j)%C).

Lemma inverse_applyC V W x i : is_inverse V W -> (i < 3)%nat -> applyC V (applyC W x) i = x i.
Proof.
  intros H Hi.
  transitivity (csum 3 (fun j => (prod3 V W i j * x j)%C)).
  { unfold applyC, prod3. cbn [csum]. ring. }
  assert (E : forall j, (j < 3)%nat -> prod3 V W i j = delta i j) by (intros j Hj; exact (proj1 (H i j Hi Hj))).
  cbn [csum]. rewrite !E by lia. unfold delta.
  case3 i; cbn [Nat.eqb]; ring.
Qed.

Lemma is_inverse_sym V W : is_inverse V W -> is_inverse W V.
Proof. intros H i j Hi Hj. destruct (H i j Hi Hj). split; assumption. Qed.

Lemma quad_applyC V x : quad V x = csum 3 (fun i => (Cconj (x i) * applyC V x i)%C).
Proof. unfold quad, applyC. cbn [csum]. ring. Qed.

Lemma entry_conj V i j : Cconj (entry V i j) = entry V j i.
Proof.
  destruct V as [a b c x y z].
  destruct i as [|[|[|i]]], j as [|[|[|j]]]; cbn [entry m00 m11 m22 m01 m02 m12];
    apply C_eq; csimp; ring.
Qed.

Lemma inverse_quad V W y : is_inverse V W -> quad W y = quad V (applyC W y).
Proof.
  intros H. rewrite (quad_applyC V).
  cbn [csum]. rewrite !(inverse_applyC V W) by (assumption || lia).
  unfold quad, applyC. cbn [csum]. rewrite ?Cconj_add, ?Cconj_mul, !entry_conj.
  replace (Cconj C0) with C0 by (apply C_eq; csimp; ring). ring.
Qed.

Lemma inverse_PD V W : is_inverse V W -> PD V -> PD W.
Proof.
  intros H HV y Hy. rewrite (inverse_quad V W y H). apply HV.
  destruct (Ceqb_spec (applyC W y 0) C0) as [E0|]; [|exists 0%nat; split; [lia|assumption]].
  destruct (Ceqb_spec (applyC W y 1) C0) as [E1|]; [|exists 1%nat; split; [lia|assumption]].
  destruct (Ceqb_spec (applyC W y 2) C0) as [E2|]; [|exists 2%nat; split; [lia|assumption]].
  exfalso. destruct Hy as (j & Hj & Hy). apply Hy.
  rewrite <- (inverse_applyC V W y j H Hj). unfold applyC at 1. cbn [csum].
  rewrite E0, E1, E2. ring.
Qed.

Lemma PD_det V : PD V -> 0 < det_of V.
Proof.
  intros H. apply positive_definite_iff in H. destruct V as [a b c x y z]. unfold positive_definite in H.
  rewrite !andb_true_iff in H. destruct H as [_ H].
  match type of H with Rltb 0 ?d = true => destruct (Rltb_spec 0 d) as [H'|]; [|discriminate] end.
  unfold det_of. cbn [m00 m11 m22 m01 m02 m12].
  match type of H' with 0 < ?d => match goal with |- 0 < ?e => replace e with d by ring end end. exact H'.
Qed.

Lemma invert_PD V : PD V -> exists W, invert V = Val W /\ PD W /\ is_inverse V W.
Proof.
  intros H. pose proof (PD_det V H) as Hd.
  destruct (proj1 (invert_total V)) as (W & E). { rewrite cdet_det, RtoC_inj0. lra. }
  exists W. pose proof (invert_val V W E) as HI. split; [exact E|]. split; [eapply inverse_PD; eassumption|exact HI].
Qed.

Lemma PD_m00 V : PD V -> 0 < m00 V.
Proof.
  intros H. apply PD_PD6 in H. specialize (H 1 0 0 0 0 0 ltac:(lra)). unfold q6 in H. lra.
Qed.

(* ------------------------------------------------------------- Kottke *)

Definition low (V : sym) (r s t u : R) : R :=
  m11 V * (r*r+s*s) + m22 V * (t*t+u*u)
  + 2 * ((r * re (m12 V) + s * im (m12 V)) * t + (s * re (m12 V) - r * im (m12 V)) * u).

Definition TauOK (V : sym) : Prop :=
  m00 V < 0 /\ forall r s t u, 0 < r*r+s*s+t*t+u*u -> 0 < low V r s t u.
Definition TauW (V : sym) : Prop :=
  m00 V <= 0 /\ forall r s t u, 0 <= low V r s t u.

Definition tau_form (e : sym) : sym :=
  let '(mkSym a b c x y z) := e in
  mkSym (-1/a) (b - normsqr x / a) (c - normsqr y / a) (re x / a, im x / a) (re y / a, im y / a)
        (re z - (re y * re x + im y * im x)/a, im z - (im y * re x - re y * im x)/a).

Definition tau_inv_form (e : sym) : sym :=
  let '(mkSym a b c x y z) := e in
  mkSym (-1/a) (b - normsqr x / a) (c - normsqr y / a) (- re x / a, - im x / a) (- re y / a, - im y / a)
        (re z - (re y * re x + im y * im x)/a, im z - (im y * re x - re y * im x)/a).

Lemma tau_of_form e : m00 e <> 0 -> tau_of e = Val (tau_form e).
Proof.
  destruct e as [a b c x y z]. cbn [m00]. intros Ha. unfold tau_of.
  rewrite !fdiv_nz by exact Ha. cbn [bind]. reflexivity.
Qed.
Lemma tau_inv_of_form e : m00 e <> 0 -> tau_inv e = Val (tau_inv_form e).
Proof.
  destruct e as [a b c x y z]. cbn [m00]. intros Ha. unfold tau_inv.
  rewrite !fdiv_nz by exact Ha. cbn [bind]. reflexivity.
Qed.

Lemma tau_roundtrip e : m00 e <> 0 -> tau_inv_form (tau_form e) = e.
Proof.
  destruct e as [a b c [x1 x2] [y1 y2] [z1 z2]]. cbn [m00]. intros Ha. unfold tau_inv_form, tau_form.
  f_equal; try apply C_eq; csimp; field; auto.
Qed.

Lemma tau_form_OK e : PD e -> TauOK (tau_form e).
Proof.
  intros H. pose proof (PD_m00 e H) as Ha. apply PD_PD6 in H.
  destruct e as [a b c [x1 x2] [y1 y2] [z1 z2]]. cbn [m00] in Ha. split.
  - cbn. apply Rmult_lt_reg_l with a; [exact Ha|]. field_simplify; lra.
  - intros r s t u Hn.
    specialize (H (-(x1*r - x2*s + y1*t - y2*u)/a) (-(x1*s + x2*r + y1*u + y2*t)/a) r s t u).
    assert (0 < q6 {| m00 := a; m11 := b; m22 := c; m01 := (x1, x2); m02 := (y1, y2); m12 := (z1, z2) |}
      (-(x1*r - x2*s + y1*t - y2*u)/a) (-(x1*s + x2*r + y1*u + y2*t)/a) r s t u).
    { apply H. pose proof (sq2 (-(x1*r - x2*s + y1*t - y2*u)/a) (-(x1*s + x2*r + y1*u + y2*t)/a)). lra. }
    match goal with _ : 0 < ?e |- 0 < ?g => replace g with e; [assumption|] end.
    unfold q6, low, tau_form. csimp. cbn [m00 m11 m22 m01 m02 m12 fst snd]. field. lra.
Qed.

Lemma tau_inv_form_PD t : TauOK t -> PD (tau_inv_form t).
Proof.
  intros [Ha HL]. apply PD_PD6. intros p q r s u v Hn.
  destruct t as [a b c [x1 x2] [y1 y2] [z1 z2]]. cbn [m00] in Ha.
  set (L := low (mkSym a b c (x1,x2) (y1,y2) (z1,z2)) r s u v).
  assert (E : q6 (tau_inv_form (mkSym a b c (x1,x2) (y1,y2) (z1,z2))) p q r s u v =
     (/ (-a)) * ((p + x1*r - x2*s + y1*u - y2*v)*(p + x1*r - x2*s + y1*u - y2*v)
      + (q + x1*s + x2*r + y1*v + y2*u)*(q + x1*s + x2*r + y1*v + y2*u)) + L).
  { unfold L, q6, low, tau_inv_form. csimp. cbn [m00 m11 m22 m01 m02 m12 fst snd]. field. lra. }
  rewrite E. assert (Hi : 0 < / (-a)) by (apply Rinv_0_lt_compat; lra).
  pose proof (sq2 (p + x1*r - x2*s + y1*u - y2*v) (q + x1*s + x2*r + y1*v + y2*u)) as S.
  destruct (Rlt_dec 0 (r*r+s*s+u*u+v*v)) as [Hl|Hl].
  - specialize (HL r s u v Hl). fold L in HL.
    apply Rplus_le_lt_0_compat; [apply Rmult_le_pos; lra|exact HL].
  - assert (r = 0) by (clear -Hl; nra). assert (s = 0) by (clear -Hl; nra).
    assert (u = 0) by (clear -Hl; nra). assert (v = 0) by (clear -Hl; nra). subst.
    assert (L = 0). { unfold L, low. csimp. ring. }
    rewrite H. rewrite Rplus_0_r. apply Rmult_lt_0_compat; [exact Hi|].
    replace ((p + x1 * 0 - x2 * 0 + y1 * 0 - y2 * 0) * (p + x1 * 0 - x2 * 0 + y1 * 0 - y2 * 0) +
      (q + x1 * 0 + x2 * 0 + y1 * 0 + y2 * 0) * (q + x1 * 0 + x2 * 0 + y1 * 0 + y2 * 0)) with (p*p+q*q) by ring.
    lra.
Qed.

Lemma low_add A B r s t u : low (sym_add A B) r s t u = low A r s t u + low B r s t u.
Proof. unfold low, sym_add. csimp. cbn [m00 m11 m22 m01 m02 m12 fst snd]. ring. Qed.
Lemma low_scale k A r s t u : low (sym_scale k A) r s t u = k * low A r s t u.
Proof. unfold low, sym_scale. csimp. cbn [m00 m11 m22 m01 m02 m12 fst snd]. ring. Qed.

Lemma TauOK_W V : TauOK V -> TauW V.
Proof.
  intros [H1 H2]. split; [lra|]. intros r s t u.
  destruct (Rlt_dec 0 (r*r+s*s+t*t+u*u)) as [Hl|Hl]; [left; auto|].
  assert (r = 0) by (clear -Hl; nra). assert (s = 0) by (clear -Hl; nra).
  assert (t = 0) by (clear -Hl; nra). assert (u = 0) by (clear -Hl; nra). subst. unfold low. lra.
Qed.
Lemma TauW0 : TauW sym0.
Proof. split; [cbn; lra|]. intros. unfold low, sym0. csimp. cbn [m00 m11 m22 m01 m02 m12 fst snd]. lra. Qed.
Lemma TauW_add A B : TauW A -> TauOK B -> TauOK (sym_add A B).
Proof.
  intros [A1 A2] [B1 B2]. split; [cbn; lra|]. intros r s t u H. rewrite low_add.
  specialize (A2 r s t u). specialize (B2 r s t u H). lra.
Qed.
Lemma TauOK_scale k A : 0 < k -> TauOK A -> TauOK (sym_scale k A).
Proof.
  intros Hk [A1 A2]. split; [cbn; nra|]. intros r s t u H. rewrite low_scale. apply Rmult_lt_0_compat; auto.
Qed.

Lemma tau_sum_ok Rt samples acc :
  orthonormal Rt -> (forall e, In e samples -> PD e) -> TauW acc -> samples <> [] ->
  exists t, tau_sum Rt acc samples = Val t /\ TauOK t.
Proof.
  intros HR. revert acc. induction samples as [|e l IH]; intros acc HP HA Hne; [congruence|].
  cbn [tau_sum]. assert (HPe : PD (rotate e Rt)) by (apply rotate_PD; [exact HR|apply HP; left; reflexivity]).
  pose proof (PD_m00 _ HPe) as Ha.
  rewrite tau_of_form by lra. cbn [bind].
  assert (OK : TauOK (sym_add acc (tau_form (rotate e Rt)))) by (apply TauW_add; [exact HA|apply tau_form_OK; exact HPe]).
  destruct l as [|e2 l].
  - exists (sym_add acc (tau_form (rotate e Rt))). split; [reflexivity|exact OK].
  - apply IH; [intros e' He'; apply HP; right; exact He'|apply TauOK_W; exact OK|discriminate].
Qed.

Lemma kottke_PD samples k a b c :
  (forall e, In e samples -> PD e) -> samples <> [] -> 0 < k -> (a,b,c) <> (0,0,0) ->
  exists W, kottke samples k a b c = Val W /\ PD W.
Proof.
  intros HP Hne Hk Hn. unfold kottke.
  destruct (normalize_ok a b c Hn) as [Hs Hu]. cbv zeta in Hu. destruct Hu as [_ Hu].
  rewrite fdiv_nz by exact Hs. cbn [bind].
  destruct (rotation_matrix_ok _ _ _ Hu) as (Rt & ER & HR & _). rewrite ER. cbn [bind].
  destruct (tau_sum_ok Rt samples sym0 HR HP TauW0 Hne) as (t & Et & OK). rewrite Et. cbn [bind].
  pose proof (TauOK_scale k t Hk OK) as OK2.
  rewrite tau_inv_of_form by (destruct OK2; lra). cbn [bind].
  destruct (invert_PD (rotate (tau_inv_form (sym_scale k t)) (transpose3 Rt))) as (W & E & HW & _).
  { apply rotate_PD; [apply orth_rows; exact HR|]. apply tau_inv_form_PD. exact OK2. }
  exists W. split; assumption.
Qed.

Lemma q6_add A B p q r s t u : q6 (sym_add A B) p q r s t u = q6 A p q r s t u + q6 B p q r s t u.
Proof. unfold q6, sym_add. csimp. cbn [m00 m11 m22 m01 m02 m12 fst snd]. ring. Qed.
Lemma q6_scale k A p q r s t u : q6 (sym_scale k A) p q r s t u = k * q6 A p q r s t u.
Proof. unfold q6, sym_scale. csimp. cbn [m00 m11 m22 m01 m02 m12 fst snd]. ring. Qed.

Lemma fold_add_q6 l acc p q r s t u :
  q6 (fold_left sym_add l acc) p q r s t u =
  q6 acc p q r s t u + fold_right Rplus 0 (map (fun e => q6 e p q r s t u) l).
Proof.
  revert acc. induction l as [|e l IH]; intros acc; cbn [fold_left map fold_right]; [ring|].
  rewrite IH, q6_add. ring.
Qed.

Lemma average_eps_inv_PD l k :
  (forall e, In e l -> PD e) -> l <> [] -> 0 < k -> PD (average_eps_inv l k).
Proof.
  intros HP Hne Hk. apply PD_PD6. intros p q r s t u Hn. unfold average_eps_inv.
  rewrite q6_scale, fold_add_q6. apply Rmult_lt_0_compat; [exact Hk|].
  assert (E0 : q6 sym0 p q r s t u = 0). { unfold q6, sym0. csimp. cbn [m00 m11 m22 m01 m02 m12 fst snd]. ring. }
  rewrite E0, Rplus_0_l.
  assert (H1 : forall l', (forall e, In e l' -> PD e) -> 0 <= fold_right Rplus 0 (map (fun e => q6 e p q r s t u) l')).
  { induction l' as [|e l' IH]; intros HP'; cbn; [lra|].
    pose proof (proj1 (PD_PD6 e) (HP' e (or_introl eq_refl)) p q r s t u Hn).
    specialize (IH (fun e' H' => HP' e' (or_intror H'))). lra. }
  destruct l as [|e l]; [congruence|]. cbn [map fold_right].
  pose proof (proj1 (PD_PD6 e) (HP e (or_introl eq_refl)) p q r s t u Hn).
  specialize (H1 l (fun e' H' => HP e' (or_intror H'))). lra.
Qed.

Lemma zrange_nonempty n : (1 <= n)%Z -> zrange n <> [].
Proof.
  intros H. unfold zrange. destruct (Z.to_nat n) eqn:E; [lia|]. discriminate.
Qed.

Lemma flat_map_nonempty {A B} (f : A -> list B) l : l <> [] -> (forall a, f a <> []) -> flat_map f l <> [].
Proof.
  intros Hl Hf. destruct l as [|a l]; [congruence|]. cbn. intros E. apply app_eq_nil in E. destruct E as [E _]. exact (Hf a E).
Qed.
Lemma map_nonempty {A B} (f : A -> B) l : l <> [] -> map f l <> [].
Proof. destruct l; [congruence|discriminate]. Qed.

Lemma mesh_points_nonempty a b c s r : (1 <= a -> 1 <= b -> 1 <= c -> mesh_points (a,b,c) s r <> [])%Z.
Proof.
  intros Ha Hb Hc. unfold mesh_points. destruct s as [[s1 s2] s3], r as [[x y] z].
  apply flat_map_nonempty; [apply zrange_nonempty; exact Ha|]. intros i.
  apply flat_map_nonempty; [apply zrange_nonempty; exact Hb|]. intros j.
  apply map_nonempty. apply zrange_nonempty; exact Hc.
Qed.

Lemma voxel_PD ms n mm Rl epsilon mepsilon i :
  mesh_ok ms ->
  (forall q, PD (fst (epsilon q)) /\ PD (snd (epsilon q))) ->
  (forall q e, mepsilon q = MeanTensor e -> PD e) ->
  exists W, voxel_eps_inv ms n mm Rl epsilon mepsilon i = Val W /\ PD W.
Proof.
  intros Hm HE HM.
  pose proof (fun q => proj1 (HE q)) as HE1. pose proof (fun q => proj2 (HE q)) as HE2. clear HE. unfold voxel_eps_inv.
  destruct n as [[n1 n2] n3], i as [[i1 i2] i3]. cbv zeta.
  match goal with |- context [epsilon ?r] => set (r0 := r) end.
  match goal with |- context [detect_interface _ _ _ ?s] => set (s0 := s) end.
  destruct (mesh_prod ms =? 1)%Z; [eexists; split; [reflexivity|apply HE2]|].
  destruct (mepsilon r0) as [|e] eqn:EM.
  - destruct (detect_interface r0 epsilon (rank_of (n1,n2,n3)) s0); [|eexists; split; [reflexivity|apply HE2]].
    destruct (moment mm Rl epsilon r0) as [[v0 v1] v2].
    assert (Hk : 0 < 1 / IZR (mesh_prod ms)).
    { apply Rdiv_lt_0_compat; [lra|]. apply IZR_lt. destruct ms as [[a b] c]. unfold mesh_prod.
      assert (0 < Z.max a 1 * Z.max b 1)%Z by (apply Z.mul_pos_pos; lia). apply Z.mul_pos_pos; lia. }
    assert (Hp : mesh_points ms s0 r0 <> []).
    { destruct ms as [[a b] c]. destruct Hm as (Ha & Hb & Hc). apply mesh_points_nonempty; assumption. }
    destruct (Rltb_spec SMALL (sqrt (v0*v0+v1*v1+v2*v2))) as [Hs|Hs].
    + apply kottke_PD.
      * intros e He. apply in_map_iff in He. destruct He as (q & <- & _). apply HE1.
      * apply map_nonempty. exact Hp.
      * exact Hk.
      * intros [= -> -> ->]. replace (0*0+0*0+0*0) with 0 in Hs by ring. rewrite sqrt_0 in Hs. unfold SMALL in Hs. lra.
    + eexists. split; [reflexivity|]. apply average_eps_inv_PD.
      * intros e He. apply in_map_iff in He. destruct He as (q & <- & _). apply HE2.
      * apply map_nonempty. exact Hp.
      * exact Hk.
  - destruct (invert_PD e (HM _ _ EM)) as (W & E & HW & _). eauto.
Qed.

Lemma set_dielectric_PD ms n mm Rl epsilon mepsilon pts :
  mesh_ok ms ->
  (forall q, PD (fst (epsilon q)) /\ PD (snd (epsilon q))) ->
  (forall q e, mepsilon q = MeanTensor e -> PD e) ->
  exists l, set_dielectric ms n mm Rl epsilon mepsilon pts = Val l /\ length l = length pts /\ Forall PD l /\
    forall req2d, check_dielectric false req2d l <> 1%nat.
Proof.
  intros Hm HE HM. induction pts as [|i pts (l & E & HL & HF & HC)].
  - exists []. cbn. repeat split; [constructor|discriminate].
  - cbn [set_dielectric]. destruct (voxel_PD ms n mm Rl epsilon mepsilon i Hm HE HM) as (W & EW & HW).
    rewrite EW. cbn [bind]. rewrite E. cbn [bind]. exists (W :: l). split; [reflexivity|].
    split; [cbn; congruence|]. split; [constructor; assumption|].
    intros req. cbn [check_dielectric negb andb].
    rewrite (proj2 (positive_definite_iff W) HW). cbn [negb].
    match goal with |- (if ?b then _ else _) <> _ => destruct b; [discriminate|apply HC] end.
Qed.

Lemma check_dielectric_1 req2d l : check_dielectric false req2d l = 1%nat -> exists e, In e l /\ ~ PD e.
Proof.
  induction l as [|e l IH]; cbn [check_dielectric negb andb]; [discriminate|].
  destruct (positive_definite e) eqn:E; cbn [negb].
  - match goal with |- (if ?b then _ else _) = _ -> _ => destruct b; [discriminate|] end.
    intros H. destruct (IH H) as (e' & H1 & H2). exists e'. split; [right; exact H1|exact H2].
  - intros _. exists e. split; [left; reflexivity|]. rewrite <- positive_definite_iff. congruence.
Qed.

Lemma mean_eps_two_PD e1 e2 fill a b c :
  PD e1 -> PD e2 -> 0 <= fill <= 1 -> (a,b,c) <> (0,0,0) ->
  exists T, mean_eps_two e1 e2 fill a b c = Val (Some T) /\ PD T.
Proof.
  intros H1 H2 Hf Hn. unfold mean_eps_two.
  destruct (normalize_ok a b c Hn) as [Hs Hu]. cbv zeta in Hu. destruct Hu as [_ Hu].
  destruct (Reqb_spec (sqrt (a*a+b*b+c*c)) 0) as [E|_]; [contradiction|].
  rewrite fdiv_nz by exact Hs. cbn [bind].
  destruct (rotation_matrix_ok _ _ _ Hu) as (Rt & ER & HR & _). rewrite ER. cbn [bind].
  assert (P1 : PD (rotate e1 Rt)) by (apply rotate_PD; assumption).
  assert (P2 : PD (rotate e2 Rt)) by (apply rotate_PD; assumption).
  rewrite !tau_of_form by (pose proof (PD_m00 _ P1); pose proof (PD_m00 _ P2); lra). cbn [bind].
  set (t1 := tau_form (rotate e1 Rt)). set (t2 := tau_form (rotate e2 Rt)).
  match goal with |- context [tau_inv ?d] => set (dl := d) end.
  pose proof (tau_form_OK _ P1) as [A1 A2]. pose proof (tau_form_OK _ P2) as [B1 B2].
  fold t1 in A1, A2. fold t2 in B1, B2.
  assert (OK : TauOK dl).
  { split.
    - unfold dl. cbn [m00]. destruct (Req_dec fill 0) as [->|]; [lra|]. assert (0 < fill) by lra. nra.
    - intros r s t u Hr. specialize (A2 r s t u Hr). specialize (B2 r s t u Hr).
      assert (E : low dl r s t u = fill * low t1 r s t u + (1 - fill) * low t2 r s t u).
      { unfold dl, low. csimp. cbn [m00 m11 m22 m01 m02 m12 fst snd]. ring. }
      rewrite E. destruct (Req_dec fill 0) as [->|]; [lra|]. assert (0 < fill) by lra. nra. }
  rewrite tau_inv_of_form by (destruct OK; lra). cbn [bind]. eexists. split; [reflexivity|].
  apply rotate_PD; [apply orth_rows; exact HR|]. apply tau_inv_form_PD. exact OK.
Qed.

(* --------------------------------------------------- C05: uniform *)

Lemma tau_sum_repeat Rt e k acc : m00 (rotate e Rt) <> 0 ->
  exists t, tau_sum Rt acc (repeat e k) = Val t /\
   t = sym_add acc (sym_scale (INR k) (tau_form (rotate e Rt))).
Proof.
  intros H. revert acc. induction k as [|k IH]; intros acc.
  - cbn. exists acc. split; [reflexivity|].
    destruct acc as [a b c [x1 x2] [y1 y2] [z1 z2]]. destruct (tau_form (rotate e Rt)) as [a' b' c' [x1' x2'] [y1' y2'] [z1' z2']].
    unfold sym_add, sym_scale. cbn [m00 m11 m22 m01 m02 m12]. f_equal; try apply C_eq; csimp; ring.
  - cbn [repeat tau_sum]. rewrite tau_of_form by exact H. cbn [bind].
    destruct (IH (sym_add acc (tau_form (rotate e Rt)))) as (t & E & Et). exists t. split; [exact E|].
    rewrite Et, S_INR. destruct acc as [a b c [x1 x2] [y1 y2] [z1 z2]].
    destruct (tau_form (rotate e Rt)) as [a' b' c' [x1' x2'] [y1' y2'] [z1' z2']].
    unfold sym_add, sym_scale. cbn [m00 m11 m22 m01 m02 m12]. f_equal; try apply C_eq; csimp; ring.
Qed.

Lemma kottke_uniform e k a b c : PD e -> (0 < k)%nat -> (a,b,c) <> (0,0,0) ->
  kottke (repeat e k) (1 / INR k) a b c = invert e.
Proof.
  intros HP Hk Hn. unfold kottke.
  destruct (normalize_ok a b c Hn) as [Hs Hu]. cbv zeta in Hu. destruct Hu as [_ Hu].
  rewrite fdiv_nz by exact Hs. cbn [bind].
  destruct (rotation_matrix_ok _ _ _ Hu) as (Rt & ER & HR & _). rewrite ER. cbn [bind].
  assert (H0 : m00 (rotate e Rt) <> 0). { pose proof (PD_m00 _ (rotate_PD e Rt HR HP)). lra. }
  destruct (tau_sum_repeat Rt e k sym0 H0) as (t & Et & Ev). rewrite Et. cbn [bind].
  assert (Hk' : INR k <> 0) by (apply not_0_INR; lia).
  assert (Es : sym_scale (1 / INR k) t = tau_form (rotate e Rt)).
  { rewrite Ev. destruct (tau_form (rotate e Rt)) as [a' b' c' [x1' x2'] [y1' y2'] [z1' z2']].
    unfold sym_add, sym_scale, sym0. cbn [m00 m11 m22 m01 m02 m12]. f_equal; try apply C_eq; csimp; field; exact Hk'. }
  rewrite Es, tau_inv_of_form.
  2:{ pose proof (tau_form_OK _ (rotate_PD e Rt HR HP)) as [A _]. lra. }
  cbn [bind]. rewrite tau_roundtrip by exact H0. rewrite rotate_back by exact HR. reflexivity.
Qed.

Lemma mean_eps_two_uniform e fill a b c : PD e -> (a,b,c) <> (0,0,0) ->
  mean_eps_two e e fill a b c = Val (Some e).
Proof.
  intros HP Hn. unfold mean_eps_two.
  destruct (normalize_ok a b c Hn) as [Hs Hu]. cbv zeta in Hu. destruct Hu as [_ Hu].
  destruct (Reqb_spec (sqrt (a*a+b*b+c*c)) 0) as [E|_]; [contradiction|].
  rewrite fdiv_nz by exact Hs. cbn [bind].
  destruct (rotation_matrix_ok _ _ _ Hu) as (Rt & ER & HR & _). rewrite ER. cbn [bind].
  assert (H0 : m00 (rotate e Rt) <> 0). { pose proof (PD_m00 _ (rotate_PD e Rt HR HP)). lra. }
  rewrite !tau_of_form by exact H0. cbn [bind].
  match goal with |- context [tau_inv ?d] => assert (Ed : d = tau_form (rotate e Rt)) end.
  { destruct (tau_form (rotate e Rt)) as [a' b' c' [x1' x2'] [y1' y2'] [z1' z2']].
    cbn [m00 m11 m22 m01 m02 m12]. f_equal; try apply C_eq; csimp; ring. }
  rewrite Ed, tau_inv_of_form.
  2:{ pose proof (tau_form_OK _ (rotate_PD e Rt HR HP)) as [A _]. lra. }
  cbn [bind]. rewrite tau_roundtrip by exact H0. rewrite rotate_back by exact HR. reflexivity.
Qed.

Lemma fold_add_repeat e k acc : fold_left sym_add (repeat e k) acc = sym_add acc (sym_scale (INR k) e).
Proof.
  revert acc. induction k as [|k IH]; intros acc.
  - cbn. destruct acc as [a b c [x1 x2] [y1 y2] [z1 z2]], e as [a' b' c' [x1' x2'] [y1' y2'] [z1' z2']].
    unfold sym_add, sym_scale. cbn [m00 m11 m22 m01 m02 m12]. f_equal; try apply C_eq; csimp; ring.
  - cbn [repeat fold_left]. rewrite IH, S_INR.
    destruct acc as [a b c [x1 x2] [y1 y2] [z1 z2]], e as [a' b' c' [x1' x2'] [y1' y2'] [z1' z2']].
    unfold sym_add, sym_scale. cbn [m00 m11 m22 m01 m02 m12]. f_equal; try apply C_eq; csimp; ring.
Qed.

Lemma average_uniform e k : (0 < k)%nat -> average_eps_inv (repeat e k) (1 / INR k) = e.
Proof.
  intros Hk. unfold average_eps_inv. rewrite fold_add_repeat.
  assert (Hk' : INR k <> 0) by (apply not_0_INR; lia).
  destruct e as [a' b' c' [x1' x2'] [y1' y2'] [z1' z2']].
  unfold sym_add, sym_scale, sym0. cbn [m00 m11 m22 m01 m02 m12]. f_equal; try apply C_eq; csimp; field; exact Hk'.
Qed.

(** a uniform medium yields its own inverse everywhere, whichever branch is taken *)
Lemma length_flat_map_const {A B} (f : A -> list B) l n : (forall a, length (f a) = n) -> length (flat_map f l) = (length l * n)%nat.
Proof. intros H. induction l as [|a l IH]; cbn; [reflexivity|]. rewrite app_length, IH, H. reflexivity. Qed.

Lemma zrange_length n : length (zrange n) = Z.to_nat n.
Proof. unfold zrange. rewrite map_length, seq_length. reflexivity. Qed.

Lemma mesh_points_length a b c s r : length (mesh_points (a,b,c) s r) = (Z.to_nat a * (Z.to_nat b * Z.to_nat c))%nat.
Proof.
  unfold mesh_points. destruct s as [[s1 s2] s3], r as [[x y] z].
  rewrite (length_flat_map_const _ _ (Z.to_nat b * Z.to_nat c)).
  - rewrite zrange_length. reflexivity.
  - intros i. rewrite (length_flat_map_const _ _ (Z.to_nat c)).
    + rewrite zrange_length. reflexivity.
    + intros j. rewrite map_length, zrange_length. reflexivity.
Qed.

Lemma map_const_repeat {A B} (b : B) (l : list A) : map (fun _ => b) l = repeat b (length l).
Proof. induction l; cbn; congruence. Qed.

Lemma voxel_uniform ms n mm Rl e ei mepsilon i :
  mesh_ok ms -> PD e -> invert e = Val ei -> (forall q e', mepsilon q = MeanTensor e' -> e' = e) ->
  voxel_eps_inv ms n mm Rl (fun _ => (e, ei)) mepsilon i = Val ei.
Proof.
  intros Hm HP HI HM. unfold voxel_eps_inv.
  destruct n as [[n1 n2] n3], i as [[i1 i2] i3]. cbv zeta. cbn [fst snd].
  destruct (mesh_prod ms =? 1)%Z; [reflexivity|].
  match goal with |- context [mepsilon ?r] => set (r0 := r) end.
  destruct (mepsilon r0) as [|e'] eqn:EM.
  - match goal with |- (if ?b then _ else _) = _ => destruct b; [|reflexivity] end.
    destruct (moment mm Rl (fun _ => (e, ei)) r0) as [[v0 v1] v2].
    rewrite !map_const_repeat. destruct ms as [[a b] c]. destruct Hm as (Ha & Hb & Hc).
    rewrite !mesh_points_length.
    assert (Hinv : 1 / IZR (mesh_prod (a,b,c)) = 1 / INR (Z.to_nat a * (Z.to_nat b * Z.to_nat c))).
    { f_equal. rewrite INR_IZR_INZ. f_equal. unfold mesh_prod. rewrite !Nat2Z.inj_mul, !Z2Nat.id by lia.
      rewrite !Z.max_l by lia. ring. }
    rewrite Hinv.
    assert (Hpos : (0 < Z.to_nat a * (Z.to_nat b * Z.to_nat c))%nat) by (repeat apply Nat.mul_pos_pos; lia).
    destruct (Rltb_spec SMALL (sqrt (v0*v0+v1*v1+v2*v2))) as [Hs|Hs].
    + rewrite kottke_uniform; [exact HI|exact HP|exact Hpos|].
      intros [= -> -> ->]. replace (0*0+0*0+0*0) with 0 in Hs by ring. rewrite sqrt_0 in Hs. unfold SMALL in Hs. lra.
    + rewrite average_uniform by exact Hpos. reflexivity.
  - rewrite (HM _ _ EM). exact HI.
Qed.

(* --------------------------------------------------- C05: isotropic *)

Lemma rotate_iso e Rt : orthonormal Rt -> rotate (iso e) Rt = iso e.
Proof.
  intros H. apply sym_ext. intros i j Hi Hj. rewrite rotate_entry by assumption.
  transitivity (RtoC (e * rsum 3 (fun k => Rt k i * Rt k j))).
  { unfold iso. cbn [csum rsum entry m00 m11 m22 m01 m02 m12]. apply C_eq; csimp; ring. }
  rewrite (H i j Hi Hj). unfold iso. case3 i; case3 j; cbn [Nat.eqb entry m00 m11 m22 m01 m02 m12]; apply C_eq; csimp; ring.
Qed.

Definition diag1 (p q : R) : sym := mkSym p q q C0 C0 C0.

Lemma tau_form_iso e : e <> 0 -> tau_form (iso e) = diag1 (-1/e) e.
Proof. intros He. unfold tau_form, iso, diag1. f_equal; try apply C_eq; csimp; field; exact He. Qed.

Lemma tau_inv_form_diag p q : p <> 0 -> tau_inv_form (diag1 p q) = diag1 (-1/p) q.
Proof. intros He. unfold tau_inv_form, diag1. f_equal; try apply C_eq; csimp; field; exact He. Qed.

Lemma tau_sum_iso Rt es p q : orthonormal Rt -> (forall e, In e es -> 0 < e) ->
  tau_sum Rt (diag1 p q) (map iso es) = Val (diag1 (p - sumR (map Rinv es)) (q + sumR es)).
Proof.
  intros HR. revert p q. induction es as [|e es IH]; intros p q HP; cbn [map tau_sum sumR fold_right].
  - f_equal. f_equal; ring.
  - rewrite rotate_iso by exact HR.
    pose proof (HP e (or_introl eq_refl)) as He.
    rewrite tau_of_form by (cbn; lra). cbn [bind]. rewrite tau_form_iso by lra.
    replace (sym_add (diag1 p q) (diag1 (-1/e) e)) with (diag1 (p + -1/e) (q + e)).
    2:{ unfold sym_add, diag1. cbn [m00 m11 m22 m01 m02 m12]. f_equal; try apply C_eq; csimp; ring. }
    rewrite IH by (intros e' H'; apply HP; right; exact H').
    f_equal. f_equal; unfold sumR; cbn [fold_right]; [field; lra|ring].
Qed.

Lemma RtoC_sub x y : RtoC (x - y) = (RtoC x - RtoC y)%C. Proof. cring. Qed.

Lemma apply_rot_diag Rt p q (v : nat -> R) i : orthonormal Rt -> (i < 3)%nat ->
  (forall j, (j < 3)%nat -> v j = Rt j 0%nat) ->
  apply3 (rotate (diag1 p q) (transpose3 Rt)) v i = RtoC (p * v i).
Proof.
  intros H Hi Hv. unfold apply3.
  transitivity (RtoC (rsum 3 (fun k => Rt i k * (match k with O => p | _ => q end) * rsum 3 (fun j => Rt j k * v j)))).
  { cbn [csum rsum]. rewrite !rotate_entry by lia. unfold transpose3, diag1. cbn [csum entry m00 m11 m22 m01 m02 m12].
    clear. repeat rewrite ?RtoC_add, ?RtoC_mul, ?RtoC_sub. replace (Cconj C0) with C0 by cring. change (RtoC 0) with C0. ring. }
  assert (E : forall k, (k < 3)%nat -> rsum 3 (fun j => Rt j k * v j) = if Nat.eqb k 0 then 1 else 0).
  { intros k Hk. rewrite <- (H k 0%nat Hk ltac:(lia)). cbn [rsum]. rewrite !Hv by lia. reflexivity. }
  cbn [rsum]. cbn [rsum] in E. rewrite !E by lia. rewrite (Hv i Hi). cbn [Nat.eqb]. f_equal. ring.
Qed.

Lemma apply_rot_diag_perp Rt p q (v : nat -> R) i : orthonormal Rt -> (i < 3)%nat ->
  rsum 3 (fun j => Rt j 0%nat * v j) = 0 ->
  apply3 (rotate (diag1 p q) (transpose3 Rt)) v i = RtoC (q * v i).
Proof.
  intros H Hi Hv. unfold apply3.
  transitivity (RtoC (q * rsum 3 (fun k => Rt i k * rsum 3 (fun j => Rt j k * v j))
                      + (p - q) * Rt i 0%nat * rsum 3 (fun j => Rt j 0%nat * v j))).
  { cbn [csum rsum]. rewrite !rotate_entry by lia. unfold transpose3, diag1. cbn [csum entry m00 m11 m22 m01 m02 m12].
    clear. repeat rewrite ?RtoC_add, ?RtoC_mul, ?RtoC_sub. replace (Cconj C0) with C0 by cring. change (RtoC 0) with C0. ring. }
  rewrite Hv, (orth_apply Rt v i H Hi). f_equal. ring.
Qed.

Lemma apply3_inverse V W (v : nat -> R) lam i : is_inverse V W -> lam <> 0 -> (i < 3)%nat ->
  (forall j, (j < 3)%nat -> apply3 V v j = RtoC (lam * v j)) -> apply3 W v i = RtoC (/ lam * v i).
Proof.
  intros H Hl Hi Hv.
  assert (E : applyC W (applyC V (fun j => RtoC (v j))) i = RtoC (v i)).
  { apply (inverse_applyC W V); [apply is_inverse_sym; exact H|exact Hi]. }
  unfold applyC at 1 in E. change (applyC V (fun j => RtoC (v j))) with (apply3 V v) in E.
  cbn [csum] in E. rewrite !Hv in E by lia.
  unfold apply3. cbn [csum].
  transitivity (Cscal (/ lam) (RtoC (v i))); [rewrite <- E|]; apply C_eq; csimp; field; exact Hl.
Qed.

Lemma sumR_pos es : (forall e, In e es -> 0 < e) -> es <> [] -> 0 < sumR es.
Proof.
  intros HP. assert (G : 0 <= sumR es). { induction es as [|e es IH]; cbn; [lra|]. pose proof (HP e (or_introl eq_refl)).
    specialize (IH (fun e' H' => HP e' (or_intror H'))). unfold sumR in IH. lra. }
  destruct es as [|e es]; [congruence|]. intros _. pose proof (HP e (or_introl eq_refl)). cbn.
  assert (0 <= sumR es). { clear G H. assert (HP' : forall e', In e' es -> 0 < e') by (intros; apply HP; right; assumption). clear HP.
    induction es as [|e2 es IH]; cbn; [lra|]. pose proof (HP' e2 (or_introl eq_refl)).
    specialize (IH (fun e' H' => HP' e' (or_intror H'))). unfold sumR in IH. lra. }
  unfold sumR in H0. lra.
Qed.

Lemma kottke_iso es k a b c :
  (forall e, In e es -> 0 < e) -> es <> [] -> 0 < k -> (a,b,c) <> (0,0,0) ->
  exists W, kottke (map iso es) k a b c = Val W /\
    (forall i, (i < 3)%nat -> apply3 W (nvec a b c) i = RtoC (k * sumR (map Rinv es) * nvec a b c i)) /\
    (forall t i, a * t 0%nat + b * t 1%nat + c * t 2%nat = 0 -> (i < 3)%nat ->
        apply3 W t i = RtoC (/ (k * sumR es) * t i)).
Proof.
  intros HP Hne Hk Hn. unfold kottke.
  destruct (normalize_ok a b c Hn) as [Hs Hu]. cbv zeta in Hu.
  set (s := 1 / sqrt (a*a+b*b+c*c)) in *. destruct Hu as [Hspos Hu].
  rewrite fdiv_nz by exact Hs. cbn [bind]. fold s.
  destruct (rotation_matrix_ok _ _ _ Hu) as (Rt & ER & HR & _ & R0 & R1 & R2). rewrite ER. cbn [bind].
  change sym0 with (diag1 0 0). rewrite tau_sum_iso by assumption. cbn [bind].
  rewrite Rminus_0_l, Rplus_0_l.
  assert (P1 : 0 < sumR es) by (apply sumR_pos; assumption).
  assert (P2 : 0 < sumR (map Rinv es)).
  { apply sumR_pos; [|apply map_nonempty; exact Hne]. intros e He. apply in_map_iff in He. destruct He as (x & <- & Hx).
    apply Rinv_0_lt_compat. auto. }
  set (S1 := sumR es) in *. set (S2 := sumR (map Rinv es)) in *.
  replace (sym_scale k (diag1 (- S2) S1)) with (diag1 (-(k*S2)) (k*S1)).
  2:{ unfold sym_scale, diag1. cbn [m00 m11 m22 m01 m02 m12]. f_equal; try apply C_eq; csimp; ring. }
  assert (P3 : 0 < k*S2) by (apply Rmult_lt_0_compat; assumption).
  assert (P4 : 0 < k*S1) by (apply Rmult_lt_0_compat; assumption).
  rewrite tau_inv_of_form by (cbn; lra). cbn [bind]. rewrite tau_inv_form_diag by lra.
  replace (-1 / - (k*S2)) with (/ (k*S2)) by (field; split; lra).
  set (D := diag1 (/ (k*S2)) (k*S1)).
  assert (PDD : PD D).
  { apply PD_PD6. intros p q r s0 t u Hpq. unfold q6, D, diag1. csimp. cbn [m00 m11 m22 m01 m02 m12 fst snd].
    assert (0 < / (k*S2)) by (apply Rinv_0_lt_compat; exact P3).
    pose proof (sq2 p q) as Z1. pose proof (sq2 r s0) as Z2. pose proof (sq2 t u) as Z3.
    assert (0 <= /(k*S2)*(p*p+q*q)) by (apply Rmult_le_pos; lra).
    assert (0 <= (k*S1)*(r*r+s0*s0)) by (apply Rmult_le_pos; lra).
    assert (0 <= (k*S1)*(t*t+u*u)) by (apply Rmult_le_pos; lra).
    destruct (Rlt_dec 0 (p*p+q*q)); [assert (0 < /(k*S2)*(p*p+q*q)) by (apply Rmult_lt_0_compat; assumption); lra|].
    destruct (Rlt_dec 0 (r*r+s0*s0)); [assert (0 < (k*S1)*(r*r+s0*s0)) by (apply Rmult_lt_0_compat; assumption); lra|].
    assert (0 < t*t+u*u) by lra.
    assert (0 < (k*S1)*(t*t+u*u)) by (apply Rmult_lt_0_compat; assumption). lra. }
  destruct (invert_PD (rotate D (transpose3 Rt))) as (W & EW & _ & HI).
  { apply rotate_PD; [apply orth_rows; exact HR|exact PDD]. }
  exists W. split; [exact EW|].
  assert (Hs' : s <> 0) by lra.
  split.
  - intros i Hi.
    replace (k * S2) with (/ / (k*S2)) by (field; lra).
    apply (apply3_inverse (rotate D (transpose3 Rt)) W); [exact HI|apply Rinv_neq_0_compat; lra|exact Hi|].
    intros j Hj.
    assert (E : apply3 (rotate D (transpose3 Rt)) (fun j => Rt j 0%nat) j = RtoC (/ (k*S2) * Rt j 0%nat)).
    { exact (apply_rot_diag Rt (/ (k*S2)) (k*S1) (fun j => Rt j 0%nat) j HR Hj (fun j _ => eq_refl)). }
    assert (Ev : forall m, (m < 3)%nat -> Rt m 0%nat = nvec a b c m * s).
    { intros m Hm. case3 m; cbn [nvec]; assumption. }
    unfold apply3 in *. cbn [csum] in *. rewrite !Ev in E by lia.
    assert (E' : Cscal (/ s) (C0 + entry (rotate D (transpose3 Rt)) j 0 * RtoC (nvec a b c 0 * s)%R +
      entry (rotate D (transpose3 Rt)) j 1 * RtoC (nvec a b c 1 * s)%R +
      entry (rotate D (transpose3 Rt)) j 2 * RtoC (nvec a b c 2 * s)%R)%C = Cscal (/ s) (RtoC (/ (k * S2) * (nvec a b c j * s)))) by (rewrite E; reflexivity).
    transitivity (Cscal (/ s) (RtoC (/ (k * S2) * (nvec a b c j * s)))); [rewrite <- E'|]; apply C_eq; csimp; field; repeat split; lra.
  - intros t i Ht Hi.
    apply (apply3_inverse (rotate D (transpose3 Rt)) W); [exact HI|lra|exact Hi|].
    intros j Hj. apply apply_rot_diag_perp; [exact HR|exact Hj|].
    cbn [rsum]. rewrite R0, R1, R2. transitivity (s * (a * t 0%nat + b * t 1%nat + c * t 2%nat)); [ring|rewrite Ht; ring].
Qed.

Lemma mean_eps_two_iso e1 e2 fill a b c :
  0 < e1 -> 0 < e2 -> 0 <= fill <= 1 -> (a,b,c) <> (0,0,0) ->
  exists T, mean_eps_two (iso e1) (iso e2) fill a b c = Val (Some T) /\
    (forall i, (i < 3)%nat -> apply3 T (nvec a b c) i = RtoC (/ (fill / e1 + (1 - fill) / e2) * nvec a b c i)) /\
    (forall t i, a * t 0%nat + b * t 1%nat + c * t 2%nat = 0 -> (i < 3)%nat ->
        apply3 T t i = RtoC ((fill * e1 + (1 - fill) * e2) * t i)).
Proof.
  intros H1 H2 Hf Hn. unfold mean_eps_two.
  destruct (normalize_ok a b c Hn) as [Hs Hu]. cbv zeta in Hu.
  destruct (Reqb_spec (sqrt (a*a+b*b+c*c)) 0) as [E|_]; [contradiction|].
  set (s := 1 / sqrt (a*a+b*b+c*c)) in *. destruct Hu as [Hspos Hu].
  rewrite fdiv_nz by exact Hs. cbn [bind]. fold s.
  destruct (rotation_matrix_ok _ _ _ Hu) as (Rt & ER & HR & _ & R0 & R1 & R2). rewrite ER. cbn [bind].
  rewrite !rotate_iso by exact HR. rewrite !tau_of_form by (cbn; lra). cbn [bind].
  rewrite !tau_form_iso by lra.
  assert (P : 0 < fill / e1 + (1 - fill) / e2).
  { assert (0 < / e1) by (apply Rinv_0_lt_compat; lra). assert (0 < / e2) by (apply Rinv_0_lt_compat; lra).
    unfold Rdiv. destruct (Req_dec fill 0) as [->|]; [lra|]. assert (0 < fill) by lra. nra. }
  match goal with |- context [tau_inv ?d] => replace d with (diag1 (-(fill / e1 + (1 - fill) / e2)) (fill * e1 + (1-fill)*e2)) end.
  2:{ unfold diag1. cbn [m00 m11 m22 m01 m02 m12]. f_equal; try apply C_eq; csimp; field; split; lra. }
  set (h := fill / e1 + (1 - fill) / e2) in *.
  rewrite tau_inv_of_form by (cbn; lra). cbn [bind]. rewrite tau_inv_form_diag by lra.
  replace (-1 / - h) with (/ h) by (field; lra).
  eexists. split; [reflexivity|]. split.
  - intros i Hi.
    set (D := diag1 (/ h) (fill * e1 + (1-fill)*e2)).
    assert (E : apply3 (rotate D (transpose3 Rt)) (fun j => Rt j 0%nat) i = RtoC (/ h * Rt i 0%nat)).
    { exact (apply_rot_diag Rt (/ h) (fill * e1 + (1-fill)*e2) (fun j => Rt j 0%nat) i HR Hi (fun j _ => eq_refl)). }
    assert (Ev : forall m, (m < 3)%nat -> Rt m 0%nat = nvec a b c m * s).
    { intros m Hm. case3 m; cbn [nvec]; assumption. }
    unfold apply3 in *. cbn [csum] in *. rewrite !Ev in E by lia.
    assert (E' : Cscal (/ s) (C0 + entry (rotate D (transpose3 Rt)) i 0 * RtoC (nvec a b c 0 * s)%R +
      entry (rotate D (transpose3 Rt)) i 1 * RtoC (nvec a b c 1 * s)%R +
      entry (rotate D (transpose3 Rt)) i 2 * RtoC (nvec a b c 2 * s)%R)%C = Cscal (/ s) (RtoC (/ h * (nvec a b c i * s)))) by (rewrite E; reflexivity).
    transitivity (Cscal (/ s) (RtoC (/ h * (nvec a b c i * s)))); [rewrite <- E'|]; apply C_eq; csimp; field; repeat split; lra.
  - intros t i Ht Hi. apply apply_rot_diag_perp; [exact HR|exact Hi|].
    cbn [rsum]. rewrite R0, R1, R2. transitivity (s * (a * t 0%nat + b * t 1%nat + c * t 2%nat)); [ring|rewrite Ht; ring].
Qed.

(* ------------------------------------------------ witnesses and examples *)

Definition ex_eps : eps_fun := fun r => let '(x, _, _) := r in
  if Rltb x (1/8) then (iso 1, iso 1) else (iso 2, iso (1/2)).

Lemma iso_PD e : 0 < e -> PD (iso e).
Proof.
  intros He. apply positive_definite_iff. unfold positive_definite, iso. rewrite !andb_true_iff.
  assert (0 < e*e) by (apply Rmult_lt_0_compat; lra).
  assert (0 < e*e*e) by (apply Rmult_lt_0_compat; lra).
  repeat split.
  - destruct (Rltb_spec 0 e); [reflexivity|lra].
  - match goal with |- Rltb 0 ?d = true => destruct (Rltb_spec 0 d) as [|N]; [reflexivity|exfalso; apply N; csimp; lra] end.
  - match goal with |- Rltb 0 ?d = true => destruct (Rltb_spec 0 d) as [|N]; [reflexivity|exfalso; apply N; csimp; lra] end.
Qed.

Lemma ex_eps_PD q : PD (fst (ex_eps q)) /\ PD (snd (ex_eps q)).
Proof.
  destruct q as [[x y] z]. unfold ex_eps. destruct (Rltb x (1/8)); cbn [fst snd]; split; apply iso_PD; lra.
Qed.

Lemma ex_eps_inv q : invert (fst (ex_eps q)) = Val (snd (ex_eps q)).
Proof.
  destruct q as [[x y] z]. unfold ex_eps.
  assert (E : Reqb 0 0 = true) by (destruct (Reqb_spec 0 0); congruence).
  destruct (Rltb x (1/8)); cbn [fst snd]; unfold invert, iso; csimp; rewrite E; cbn [andb];
    rewrite !fdiv_nz by lra; cbn [bind]; unfold C0; repeat f_equal; lra.
Qed.

Lemma ex_eps_detect : detect_interface (0,0,0) ex_eps 1 (1/2, 1, 1) = true.
Proof.
  unfold detect_interface, corners. cbn [existsb].
  assert (D : tensor_differs (fst (ex_eps (0,0,0))) (fst (ex_eps (0 + 1/2 * (1/2), 0 + 0*1, 0 + 0*1))) = true).
  { unfold ex_eps. destruct (Rltb_spec 0 (1/8)) as [_|]; [|lra].
    destruct (Rltb_spec (0 + 1/2 * (1/2)) (1/8)) as [|_]; [lra|]. cbn [fst].
    unfold tensor_differs, iso. cbn [m00 m11 m22 m01 m02 m12].
    assert (E : differs 1 2 = true).
    { unfold differs. destruct (Rltb_spec SMALL (Rabs (1 - 2))) as [|N]; [reflexivity|].
      exfalso. apply N. unfold SMALL. rewrite Rabs_left by lra. lra. }
    rewrite E. reflexivity. }
  rewrite D. rewrite orb_true_r. reflexivity.
Qed.

Lemma voxel_bad_mesh mm Rl :
  ~ exists W, voxel_eps_inv (0,2,1)%Z (2,1,1)%Z mm Rl ex_eps (fun _ => MeanNone) (0,0,0)%Z = Val W /\ PD W.
Proof.
  intros (W & E & HW). unfold voxel_eps_inv in E.
  change (mesh_prod (0,2,1)%Z =? 1)%Z with false in E. cbv iota zeta in E. cbn [fst snd] in E.
  replace (IZR 0 * (1 / IZR 2)) with 0 in E by lra. replace (IZR 0 * (1/IZR 1)) with 0 in E by lra.
  replace (1 / IZR 1) with 1 in E by lra.
  change (rank_of (2,1,1)%Z) with 1%nat in E. rewrite ex_eps_detect in E.
  destruct (moment mm Rl ex_eps (0,0,0)) as [[v0 v1] v2].
  change (mesh_points (0,2,1)%Z (1/2,1,1) (0,0,0)) with (@nil vec) in E. cbn [map] in E.
  destruct (Rltb_spec SMALL (sqrt (v0*v0+v1*v1+v2*v2))) as [Hs|Hs].
  - unfold kottke in E. assert (Hq : sqrt (v0*v0+v1*v1+v2*v2) <> 0) by (unfold SMALL in Hs; lra).
    rewrite fdiv_nz in E by exact Hq. cbn [bind] in E.
    destruct (rotation_matrix _ _ _); cbn [bind tau_sum] in E; try discriminate.
    assert (T : tau_inv (sym_scale (1 / IZR (mesh_prod (0, 2, 1)%Z)) sym0) = NonFin).
    { unfold tau_inv, sym_scale, sym0. cbn [m00 m11 m22 m01 m02 m12]. unfold fdiv.
      match goal with |- context [Req_EM_T ?d 0] => destruct (Req_EM_T d 0) as [|N]; [reflexivity|exfalso; apply N; ring] end. }
    rewrite T in E. discriminate.
  - injection E as <-. apply PD_m00 in HW. unfold average_eps_inv in HW. cbn in HW. lra.
Qed.
