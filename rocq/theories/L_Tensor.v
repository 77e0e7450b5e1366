(** Proofs about the tensor model. *)
From Coq Require Import Reals Lra Lia List Bool ZArith.
From Verif Require Import Base RC M_Tensor S_Tensor.
Import ListNotations.
Local Open Scope R_scope.

Lemma Rsq_pos x : x <> 0 -> 0 < x * x.
Proof. intros H. destruct (Rtotal_order x 0) as [|[|]]; try nra; contradiction. Qed.

Lemma sq2 x y : 0 <= x*x + y*y. Proof. nra. Qed.

Ltac case3 i := destruct i as [|[|[|i]]]; [ | | |exfalso; lia].

(** det of the code = Leibniz determinant *)
Definition det_of (V : sym) : R :=
  m00 V*m11 V*m22 V - m11 V * normsqr (m02 V) - normsqr (m01 V) * m22 V - normsqr (m12 V) * m00 V +
               2 * ((re (m01 V) * re (m12 V) - im (m01 V) * im (m12 V)) * re (m02 V) +
                    (re (m01 V) * im (m12 V) + im (m01 V) * re (m12 V)) * im (m02 V)).

Lemma cdet_det V : cdet V = RtoC (det_of V).
Proof.
  destruct V as [a b c [x1 x2] [y1 y2] [z1 z2]]. unfold cdet, det_of, entry. cbn [m00 m11 m22 m01 m02 m12].
  apply C_eq; csimp; ring.
Qed.

(** Adjugate formula shared by both branches *)
Definition adj_scaled (V : sym) (d : R) : sym :=
  let '(mkSym a b c x y z) := V in
  mkSym (d * (b*c - normsqr z)) (d * (a*c - normsqr y)) (d * (b*a - normsqr x))
           (d * (re z * re y + im z * im y - c * re x),
            - d * (im z * re y - re z * im y + c * im x))
           (d * (re x * re z - im x * im z - b * re y),
            - d * (- re x * im z - im x * re z + b * im y))
           (d * (re x * re y + im x * im y - a * re z),
            - d * (im x * re y - re x * im y + a * im z)).

Lemma adj_inverse V : det_of V <> 0 -> is_inverse V (adj_scaled V (/ det_of V)).
Proof.
  intros Hd i j Hi Hj.
  destruct V as [a b c [x1 x2] [y1 y2] [z1 z2]].
  unfold det_of in *. cbn [m00 m11 m22 m01 m02 m12] in *.
  unfold prod3, adj_scaled, delta.
  case3 i; case3 j; cbn [csum entry m00 m11 m22 m01 m02 m12 Nat.eqb];
    split; apply C_eq; csimp; field; exact Hd.
Qed.

Lemma invert_cases V :
  (exists W, invert V = Val W /\ det_of V <> 0 /\ W = adj_scaled V (/ det_of V)) \/
  (invert V = Abort /\ det_of V = 0 /\ ~ (m01 V = C0 /\ m02 V = C0 /\ m12 V = C0)) \/
  (invert V = NonFin /\ det_of V = 0 /\ (m01 V = C0 /\ m02 V = C0 /\ m12 V = C0)).
Proof.
  destruct V as [a b c x y z]. unfold invert.
  destruct (Reqb_spec (re x) 0) as [Hx1|Hx1]; cbn [andb];
  [destruct (Reqb_spec (im x) 0) as [Hx2|Hx2]; cbn [andb];
   [destruct (Reqb_spec (re y) 0) as [Hy1|Hy1]; cbn [andb];
    [destruct (Reqb_spec (im y) 0) as [Hy2|Hy2]; cbn [andb];
     [destruct (Reqb_spec (re z) 0) as [Hz1|Hz1]; cbn [andb];
      [destruct (Reqb_spec (im z) 0) as [Hz2|Hz2]|]|]|]|]|].
  1:{ (* diagonal *)
    assert (x = C0) by (apply C_eq; assumption).
    assert (y = C0) by (apply C_eq; assumption).
    assert (z = C0) by (apply C_eq; assumption). subst.
    unfold det_of; cbn [m00 m11 m22 m01 m02 m12].
    unfold fdiv.
    destruct (Req_EM_T a 0) as [->|Ha].
    { right. right. split; [reflexivity|]. split; [csimp; ring|auto]. }
    cbn [bind]. destruct (Req_EM_T b 0) as [->|Hb].
    { right. right. split; [reflexivity|]. split; [csimp; ring|auto]. }
    cbn [bind]. destruct (Req_EM_T c 0) as [->|Hc].
    { right. right. split; [reflexivity|]. split; [csimp; ring|auto]. }
    cbn [bind]. left. eexists. split; [reflexivity|].
    assert (Hd : a * b * c - b * normsqr C0 - normsqr C0 * c - normsqr C0 * a +
      2 * ((re C0 * re C0 - im C0 * im C0) * re C0 + (re C0 * im C0 + im C0 * re C0) * im C0) = a*b*c)
      by (csimp; ring).
    rewrite Hd. split. { repeat apply Rmult_integral_contrapositive_currified; assumption. }
    unfold adj_scaled. f_equal; try (apply C_eq); csimp; field; auto. }
  all: match goal with |- context [bind (check (negb (Reqb ?d 0)))] => set (det := d) end;
    change det with (det_of (mkSym a b c x y z)); clear det.
  all: destruct (Reqb_spec (det_of (mkSym a b c x y z)) 0) as [Hd|Hd]; cbn [negb check bind];
    [right; left; split; [reflexivity|]; split; [exact Hd|];
     cbn; intros (Ex & Ey & Ez); subst; csimp; congruence
    |left; rewrite fdiv_nz by exact Hd; cbn [bind]; eexists; split; [reflexivity|]; split; [exact Hd|];
     unfold adj_scaled; f_equal; try apply C_eq; csimp; field; exact Hd].
Qed.

Lemma invert_val V W : invert V = Val W -> is_inverse V W.
Proof.
  intros H. destruct (invert_cases V) as [(W' & E & Hd & ->)|[(E & _)|(E & _)]]; try congruence.
  rewrite H in E. injection E as ->. apply adj_inverse. exact Hd.
Qed.

Lemma RtoC_inj0 x : RtoC x = C0 <-> x = 0.
Proof. split; [intros [= ->]; reflexivity|intros ->; reflexivity]. Qed.

Lemma invert_total V : cdet V <> C0 <-> exists W, invert V = Val W.
Proof.
  rewrite cdet_det. destruct (invert_cases V) as [(W' & E & Hd & _)|[(E & Hd & _)|(E & Hd & _)]].
  - split; [eauto|]. intros _. rewrite RtoC_inj0. exact Hd.
  - split; [rewrite Hd; intros H; contradiction|]. intros (W & E2). congruence.
  - split; [rewrite Hd; intros H; contradiction|]. intros (W & E2). congruence.
Qed.

Lemma invert_singular_abort V :
  cdet V = C0 -> ~ (m01 V = C0 /\ m02 V = C0 /\ m12 V = C0) -> invert V = Abort.
Proof.
  rewrite cdet_det, RtoC_inj0. intros Hd Hn.
  destruct (invert_cases V) as [(W' & E & Hd' & _)|[(E & _)|(E & _ & Hz)]]; [contradiction|exact E|contradiction].
Qed.

(** Real build agrees with the Hermitian build on real tensors *)
Lemma rinvert_embed V :
  match rinvert V with
  | Val W => invert (embed V) = Val (embed W)
  | Abort => invert (embed V) = Abort
  | UB => False
  | NonFin => invert (embed V) = NonFin
  end.
Proof.
  destruct V as [a b c x y z]. unfold rinvert, invert, embed. cbn [r00 r11 r22 r01 r02 r12].
  assert (H0 : Reqb (im (RtoC x)) 0 = true) by (unfold Reqb; cbn; destruct (Req_EM_T 0 0); congruence).
  change (im (RtoC x)) with 0 in *. change (im (RtoC y)) with 0. change (im (RtoC z)) with 0.
  change (re (RtoC x)) with x. change (re (RtoC y)) with y. change (re (RtoC z)) with z.
  rewrite !H0, !andb_true_r.
  destruct (Reqb x 0 && Reqb y 0 && Reqb z 0) eqn:E.
  - unfold fdiv. destruct (Req_EM_T a 0); cbn [bind]; [reflexivity|].
    destruct (Req_EM_T b 0); cbn [bind]; [reflexivity|].
    destruct (Req_EM_T c 0); cbn [bind]; reflexivity.
  - match goal with |- context [check (negb (Reqb ?d 0))] => set (d1 := d) end.
    match goal with |- context [a * b * c - b * normsqr ?q - ?r] => idtac end.
    assert (Hd : a * b * c - b * normsqr (RtoC y) - normsqr (RtoC x) * c - normsqr (RtoC z) * a +
        2 * ((x * z - 0 * 0) * y + (x * 0 + 0 * z) * 0) = d1) by (unfold d1; csimp; ring).
    rewrite Hd. destruct (negb (Reqb d1 0)); cbn [check bind]; [|reflexivity].
    unfold fdiv. destruct (Req_EM_T d1 0); cbn [bind]; [reflexivity|].
    f_equal. f_equal; cbn [r00 r11 r22 r01 r02 r12]; try apply C_eq; csimp; ring.
Qed.

Lemma rpd_embed V : rpositive_definite V = positive_definite (embed V).
Proof.
  destruct V as [a b c x y z]. unfold rpositive_definite, positive_definite, embed. cbn [r00 r11 r22 r01 r02 r12].
  f_equal; [f_equal|]; f_equal; csimp; ring.
Qed.

(* ---------------------------------------------------------------- *)
(** Quadratic form in real coordinates *)

Definition q6 (V : sym) (p q r s t u : R) : R :=
  m00 V * (p*p+q*q) + m11 V * (r*r+s*s) + m22 V * (t*t+u*u)
  + 2 * ((p * re (m01 V) + q * im (m01 V)) * r + (q * re (m01 V) - p * im (m01 V)) * s)
  + 2 * ((p * re (m02 V) + q * im (m02 V)) * t + (q * re (m02 V) - p * im (m02 V)) * u)
  + 2 * ((r * re (m12 V) + s * im (m12 V)) * t + (s * re (m12 V) - r * im (m12 V)) * u).

Lemma quad_q6 V x :
  quad V x = RtoC (q6 V (re (x 0%nat)) (im (x 0%nat)) (re (x 1%nat)) (im (x 1%nat)) (re (x 2%nat)) (im (x 2%nat))).
Proof.
  destruct V as [a b c [x1 x2] [y1 y2] [z1 z2]]. unfold quad, q6. cbn [csum entry m00 m11 m22 m01 m02 m12].
  apply C_eq; csimp; ring.
Qed.

Definition PD6 (V : sym) : Prop :=
  forall p q r s t u, 0 < p*p+q*q+r*r+s*s+t*t+u*u -> 0 < q6 V p q r s t u.

Lemma nonzero3 (x : nat -> C) :
  (exists i, (i < 3)%nat /\ x i <> C0) <->
  0 < re (x 0%nat)*re (x 0%nat)+im (x 0%nat)*im (x 0%nat)+re (x 1%nat)*re (x 1%nat)
      +im (x 1%nat)*im (x 1%nat)+re (x 2%nat)*re (x 2%nat)+im (x 2%nat)*im (x 2%nat).
Proof.
  pose proof (normsqr_nonneg (x 0%nat)) as P0.
  pose proof (normsqr_nonneg (x 1%nat)) as P1.
  pose proof (normsqr_nonneg (x 2%nat)) as P2.
  split.
  - intros (i & Hi & Hx). apply normsqr_pos in Hx. unfold normsqr in *. case3 i; lra.
  - intros H.
    destruct (Ceqb_spec (x 0%nat) C0) as [E0|]; [|exists 0%nat; split; [lia|assumption]].
    destruct (Ceqb_spec (x 1%nat) C0) as [E1|]; [|exists 1%nat; split; [lia|assumption]].
    destruct (Ceqb_spec (x 2%nat) C0) as [E2|]; [|exists 2%nat; split; [lia|assumption]].
    rewrite E0, E1, E2 in H. csimp. lra.
Qed.

Lemma PD_PD6 V : PD V <-> PD6 V.
Proof.
  split.
  - intros H p q r s t u Hn.
    destruct (H (fun i => match i with O => (p,q) | S O => (r,s) | _ => (t,u) end)) as [_ Hp].
    { apply nonzero3. exact Hn. }
    rewrite quad_q6 in Hp. exact Hp.
  - intros H x Hx. rewrite quad_q6. split; [reflexivity|].
    apply nonzero3 in Hx. apply H. exact Hx.
Qed.

(** Sylvester's criterion *)
Lemma positive_definite_PD6 V : positive_definite V = true -> PD6 V.
Proof.
  destruct V as [a b c [x1 x2] [y1 y2] [z1 z2]]. unfold positive_definite.
  rewrite !andb_true_iff. intros [[Ha Hb] Hc].
  destruct (Rltb_spec 0 a) as [Ha'|]; [|discriminate].
  match type of Hb with Rltb 0 ?d = true => destruct (Rltb_spec 0 d) as [Hb'|]; [|discriminate] end.
  match type of Hc with Rltb 0 ?d = true => destruct (Rltb_spec 0 d) as [Hc'|]; [|discriminate] end.
  clear Ha Hb Hc. csimp.
  intros p q r s t u Hn. unfold q6. cbn [m00 m11 m22 m01 m02 m12 re im fst snd].
  set (B := a*b - (x1*x1+x2*x2)) in *.
  set (D := a*c - (y1*y1+y2*y2)).
  set (Z1 := a*z1 - (x1*y1 + x2*y2)).
  set (Z2 := a*z2 - (x1*y2 - x2*y1)).
  set (det := _ - _ + 2 * _) in Hc'.
  match goal with |- 0 < ?e => set (Q := e) end.
  assert (E1 : a * Q = (a*p + x1*r - x2*s + y1*t - y2*u)*(a*p + x1*r - x2*s + y1*t - y2*u)
      + (a*q + x1*s + x2*r + y1*u + y2*t)*(a*q + x1*s + x2*r + y1*u + y2*t)
      + (B*(r*r+s*s) + D*(t*t+u*u) + 2*((r*Z1+s*Z2)*t + (s*Z1-r*Z2)*u))).
  { unfold Q, B, D, Z1, Z2. ring. }
  set (Q2 := B*(r*r+s*s) + D*(t*t+u*u) + 2*((r*Z1+s*Z2)*t + (s*Z1-r*Z2)*u)) in *.
  assert (E2 : B * Q2 = (B*r + Z1*t - Z2*u)*(B*r + Z1*t - Z2*u) + (B*s + Z1*u + Z2*t)*(B*s + Z1*u + Z2*t)
       + (B*D - (Z1*Z1+Z2*Z2))*(t*t+u*u)).
  { unfold Q2. ring. }
  assert (E3 : B*D - (Z1*Z1+Z2*Z2) = a * det).
  { unfold det, B, D, Z1, Z2. ring. }
  assert (Hdet : 0 < a * det) by (apply Rmult_lt_0_compat; assumption).
  rewrite E3 in E2.
  assert (HQ2 : 0 <= Q2).
  { apply Rmult_le_reg_l with B; [exact Hb'|]. rewrite Rmult_0_r, E2.
    assert (0 <= a*det*(t*t+u*u)) by (apply Rmult_le_pos; [lra|apply sq2]).
    pose proof (sq2 (B*r + Z1*t - Z2*u) (B*s + Z1*u + Z2*t)). lra. }
  pose proof (sq2 (a*p + x1*r - x2*s + y1*t - y2*u) (a*q + x1*s + x2*r + y1*u + y2*t)) as Hsq1.
  pose proof (sq2 (B*r + Z1*t - Z2*u) (B*s + Z1*u + Z2*t)) as Hsq2.
  apply Rmult_lt_reg_l with a; [exact Ha'|]. rewrite Rmult_0_r, E1.
  destruct (Rlt_dec 0 (t*t+u*u)) as [Ht|Ht].
  - assert (0 < a*det*(t*t+u*u)) by (apply Rmult_lt_0_compat; assumption).
    assert (0 < Q2). { apply Rmult_lt_reg_l with B; [exact Hb'|]. rewrite Rmult_0_r, E2. lra. }
    lra.
  - assert (t = 0) by (clear -Ht; nra). assert (u = 0) by (clear -Ht; nra). subst t u.
    destruct (Rlt_dec 0 (r*r+s*s)) as [Hr|Hr].
    + assert (0 < Q2). { unfold Q2. assert (0 < B*(r*r+s*s)) by (apply Rmult_lt_0_compat; assumption). lra. }
      lra.
    + assert (r = 0) by (clear -Hr; nra). assert (s = 0) by (clear -Hr; nra). subst r s.
      assert (0 < p*p+q*q) by lra. assert (0 < a*a) by (clear -Ha'; nra).
      assert (0 < a*a*(p*p+q*q)) by (apply Rmult_lt_0_compat; assumption).
      replace ((a*p + x1*0 - x2*0 + y1*0 - y2*0)*(a*p + x1*0 - x2*0 + y1*0 - y2*0)
      + (a*q + x1*0 + x2*0 + y1*0 + y2*0)*(a*q + x1*0 + x2*0 + y1*0 + y2*0)) with (a*a*(p*p+q*q)) by ring.
      lra.
Qed.

Lemma PD6_positive_definite V : PD6 V -> positive_definite V = true.
Proof.
  destruct V as [a b c [x1 x2] [y1 y2] [z1 z2]]. intros H. unfold positive_definite.
  assert (Ha : 0 < a). { specialize (H 1 0 0 0 0 0). unfold q6 in H. cbn in H. lra. }
  set (B := a*b - normsqr (x1,x2)).
  assert (HB : 0 < B).
  { specialize (H (-x1) (-x2) a 0 0 0). unfold q6 in H. cbn [m00 m11 m22 m01 m02 m12 re im fst snd] in H.
    assert (Ha2 : 0 < a*a) by nra.
    specialize (H ltac:(pose proof (sq2 x1 x2); lra)).
    apply Rmult_lt_reg_l with a; [exact Ha|]. rewrite Rmult_0_r. unfold B. csimp.
    match type of H with 0 < ?e => replace (a * (a*b - (x1*x1+x2*x2))) with e by ring end. exact H. }
  set (det := B*c - b*normsqr (y1,y2) - normsqr (z1,z2) * a + _).
  assert (Hd : 0 < det).
  { specialize (H (x1*z1 - x2*z2 - b*y1) (x1*z2+x2*z1 - b*y2)
                  (x1*y1+x2*y2 - a*z1) (x1*y2-x2*y1 - a*z2) B 0).
    unfold q6 in H. cbn [m00 m11 m22 m01 m02 m12 re im fst snd] in H.
    assert (HB2 : 0 < B*B) by nra.
    specialize (H ltac:(match goal with |- 0 < ?a*?a+?b*?b+?c*?c+?d*?d+_+_ => pose proof (sq2 a b); pose proof (sq2 c d); lra end)).
    apply Rmult_lt_reg_l with B; [exact HB|]. rewrite Rmult_0_r.
    match type of H with 0 < ?e => replace (B * det) with e by (unfold det, B; csimp; ring) end. exact H. }
  rewrite !andb_true_iff. repeat split.
  - destruct (Rltb_spec 0 a); [reflexivity|contradiction].
  - destruct (Rltb_spec 0 B); [reflexivity|contradiction].
  - destruct (Rltb_spec 0 det); [reflexivity|contradiction].
Qed.

Lemma positive_definite_iff V : positive_definite V = true <-> PD V.
Proof.
  rewrite PD_PD6. split; [apply positive_definite_PD6|apply PD6_positive_definite].
Qed.
