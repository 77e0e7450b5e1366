(** The inverse operation. *)
From Coq Require Import List ZArith Reals Bool Lia Lra.
From Verif Require Import Base RC M_Tensor S_Tensor M_Evect S_Evect M_Grid S_Grid M_Op S_Op M_Fld S_Fld M_Interp S_Interp M_Data M_Trans S_Trans.
From Verif Require Import L_Op L_Op3 L_Fld L_Fld3 L_Trans L_Trans2.
Import ListNotations.
Local Open Scope R_scope.

Lemma turned_parts A x a : (a < 3)%nat ->
  re (turned A x a) = axis (act A (re (x 0%nat), re (x 1%nat), re (x 2%nat))) a /\ im (turned A x a) = axis (act A (im (x 0%nat), im (x 1%nat), im (x 2%nat))) a.
Proof.
  intros Ha. unfold turned. rewrite csum3. destruct A as [[[[a0 a1] a2] [[b0 b1] b2]] [[c0 c1] c2]]. rewrite !act_vec.
  destruct a as [|[|[|a]]]; [| | |lia]; cbn [elem axis m_vec]; clear; split; csimp; ring.
Qed.
Lemma turned_inv A B x a : (forall v, act A (act B v) = v) -> (a < 3)%nat -> turned A (turned B x) a = x a.
Proof.
  intros H Ha. destruct (turned_parts A (turned B x) a Ha) as (E1 & E2).
  assert (Q : forall h : C -> R, (h = re \/ h = im) -> (h (turned B x 0%nat), h (turned B x 1%nat), h (turned B x 2%nat)) = act B (h (x 0%nat), h (x 1%nat), h (x 2%nat))).
  { intros h Hh. destruct (turned_parts B x 0 ltac:(lia)) as (P0 & Q0), (turned_parts B x 1 ltac:(lia)) as (P1 & Q1), (turned_parts B x 2 ltac:(lia)) as (P2 & Q2).
    destruct Hh as [-> | ->].
    - rewrite P0, P1, P2. destruct (act B (re (x 0%nat), re (x 1%nat), re (x 2%nat))) as [[p q] r]. reflexivity.
    - rewrite Q0, Q1, Q2. destruct (act B (im (x 0%nat), im (x 1%nat), im (x 2%nat))) as [[p q] r]. reflexivity. }
  rewrite (Q re (or_introl eq_refl)), H in E1. rewrite (Q im (or_intror eq_refl)), H in E2.
  apply C_eq; [rewrite E1|rewrite E2]; destruct a as [|[|[|a]]]; try reflexivity; lia.
Qed.
Lemma turned_sub A x y c a : turned A (fun i => x i - c * y i)%C a = (turned A x a - c * turned A y a)%C.
Proof. unfold turned. rewrite !csum3. ring. Qed.
Lemma quad_ext V x y : (forall i, (i < 3)%nat -> x i = y i) -> quad V x = quad V y.
Proof. intros H. exact (form_ext V x y x y H H). Qed.

Lemma polar V V' A x y : (forall x, quad V (turned A x) = quad V' x) -> form V (turned A x) (turned A y) = form V' x y.
Proof.
  intros H.
  assert (K : forall c, (c * form V (turned A x) (turned A y) + Cconj c * form V (turned A y) (turned A x) = c * form V' x y + Cconj c * form V' y x)%C).
  { intros c. pose proof (H (fun i => x i - c * y i)%C) as E. rewrite (quad_ext V _ (fun i => turned A x i - c * turned A y i)%C) in E by (intros; apply turned_sub).
    change (form V (fun i => turned A x i - c * turned A y i)%C (fun i => turned A x i - c * turned A y i)%C = form V' (fun i => x i - c * y i)%C (fun i => x i - c * y i)%C) in E.
    rewrite !form_sub in E. pose proof (H x) as Hx. pose proof (H y) as Hy. change (form V (turned A x) (turned A x) = form V' x x) in Hx. change (form V (turned A y) (turned A y) = form V' y y) in Hy.
    rewrite Hx, Hy in E. clear - E.
    generalize dependent (form V (turned A x) (turned A y)). generalize dependent (form V (turned A y) (turned A x)). generalize (form V' x y) (form V' y x) (form V' x x) (form V' y y).
    intros p q r s u v E. replace (c * v + Cconj c * u)%C with (r + Cconj c * c * s - (r - c * v - Cconj c * u + Cconj c * c * s))%C by ring. rewrite E. ring. }
  pose proof (K C1) as K1. pose proof (K Ci) as K2. clear K. rewrite (form_conj V (turned A y)), (form_conj V' y) in K1. rewrite (form_conj V (turned A y)), (form_conj V' y) in K2.
  generalize dependent (form V (turned A x) (turned A y)). generalize (form V' x y). clear. intros p q K1 K2.
  apply (f_equal re) in K1. apply (f_equal re) in K2. apply C_eq; csimp; lra.
Qed.

Lemma whole_turns x q : cos (x + 2 * IZR q * PI) = cos x /\ sin (x + 2 * IZR q * PI) = sin x.
Proof.
  destruct (Z.le_gt_cases 0 q) as [H|H].
  - replace (IZR q) with (INR (Z.to_nat q)) by (rewrite INR_IZR_INZ, Z2Nat.id by exact H; reflexivity). split; [apply cos_period|apply sin_period].
  - assert (E : IZR q = - INR (Z.to_nat (- q))) by (rewrite INR_IZR_INZ, Z2Nat.id by lia; rewrite opp_IZR; ring).
    set (y := x + 2 * IZR q * PI). assert (X : x = y + 2 * INR (Z.to_nat (- q)) * PI) by (unfold y; rewrite E; ring). rewrite X. rewrite cos_period, sin_period. auto.
Qed.

Section Inverse.
Variables (t : ftype) (d : mdata) (f : list C) (sx sy sz : R) (k : vec) (W W' Wc Wc' : m33) (w w' : vec) (sg tau : nat -> nat) (m m' : nat -> Z * Z * Z).
Notation size := (sx, sy, sz).
Notation n := (Z.to_nat (d_out d)).
Hypothesis G : on_grid d f.
Hypothesis Hs : has_size size.
Hypothesis K : keeps_lattice size W.
Hypothesis Inv : inverse_ops W w W' w'.
Hypothesis Hc : carries d size W w sg m.
Hypothesis Hc' : carries d size W' w' tau m'.
Hypothesis Kk : keeps_k size k W.
Hypothesis Ic : forall v, act Wc (act Wc' v) = v.
Hypothesis Km : keeps_medium t d Wc sg.

Lemma back i : (i < n)%nat -> tau (sg i) = i /\ act W (move (0, 0, 0) size (fst (fst (m i))) (snd (fst (m i))) (snd (m i))) =
  move (0, 0, 0) size (- fst (fst (m' (sg i)))) (- snd (fst (m' (sg i)))) (- snd (m' (sg i))).
Proof.
  intros Hi. destruct (Hc i Hi) as (Hsg & Ei). destruct (Hc' (sg i) Hsg) as (Hta & Ej). destruct Inv as (I1 & I2 & I3).
  assert (E1 : plus3 (act W (spot d size (sg i))) w = spot_at d size (tau (sg i)) (m' (sg i))).
  { rewrite <- Ej. rewrite act_plus, I1. assert (Q : act W w' = (let '(x, y, z) := w in (- x, - y, - z))).
    { assert (Z0 : act W (plus3 (act W' w) w') = (0, 0, 0)). { rewrite I3, act_vec. destruct W as [[[[a0 a1] a2] [[b0 b1] b2]] [[c0 c1] c2]]. cbn. apply triple; ring. }
      rewrite act_plus, I1 in Z0. destruct w as [[x y] z], (act W w') as [[p q] r]. cbn in Z0. injection Z0 as A B C. apply triple; lra. }
    rewrite Q. clear. destruct (spot_at d size (tau (sg i)) (m' (sg i))) as [[p q] r], w as [[x y] z]. cbn. apply triple; ring. }
  destruct (m i) as [[a b] c]. destruct (m' (sg i)) as [[a' b'] c']. cbn [fst snd]. unfold spot_at in *.
  rewrite move_plus, act_plus in Ei. destruct (K a b c) as (x & y & z & Ex). rewrite Ex in *.
  assert (T : tau (sg i) = i).
  { symmetry. apply (spot_apart d f sx sy sz i (tau (sg i)) (a' + x) (b' + y) (c' + z) G Hs Hi Hta). rewrite <- Ei. rewrite !plus_IZR || idtac.
    destruct (act W (spot d size (sg i))) as [[u0 u1] u2], w as [[w0 w1] w2], (spot d size (tau (sg i))) as [[p0 p1] p2]. cbn in E1 |- *. injection E1 as A B C.
    rewrite !plus_IZR. apply triple; lra. }
  split; [exact T|]. rewrite T in E1. clear - Ei E1.
  destruct (act W (spot d size (sg i))) as [[u0 u1] u2], w as [[w0 w1] w2], (spot d size i) as [[p0 p1] p2]. cbn in E1, Ei |- *. injection E1 as A B C. injection Ei as A' B' C'.
  rewrite !opp_IZR. apply triple; lra.
Qed.

Lemma phase_back i : (i < n)%nat ->
  phase_between k size (spot d size (sg i)) (spot_at d size (tau (sg i)) (m' (sg i))) = Cconj (phase_between k size (spot d size i) (spot_at d size (sg i) (m i))).
Proof.
  intros Hi. destruct (back i Hi) as (T & E). rewrite T. destruct (m i) as [[a b] c]. destruct (m' (sg i)) as [[a' b'] c']. cbn [fst snd] in E.
  destruct (Kk _ _ _ _ _ _ E) as (q & Q). unfold phase_between, spot_at, Cconj, re, im. cbn [fst snd].
  destruct (spot d size (sg i)) as [[u0 u1] u2], (spot d size i) as [[p0 p1] p2]. destruct k as [[k0 k1] k2]. cbn [move rsum axis] in *.
  destruct Hs as (S1 & S2 & S3).
  set (phi := 2 * PI * (0 + k0 * (u0 + IZR a * sx - p0) / sx + k1 * (u1 + IZR b * sy - p1) / sy + k2 * (u2 + IZR c * sz - p2) / sz)).
  replace (2 * PI * (0 + k0 * (p0 + IZR a' * sx - u0) / sx + k1 * (p1 + IZR b' * sy - u1) / sy + k2 * (p2 + IZR c' * sz - u2) / sz)) with (- phi + 2 * IZR q * PI).
  - destruct (whole_turns (- phi) q) as (-> & ->). rewrite cos_neg, sin_neg. reflexivity.
  - rewrite <- Q. unfold phi. rewrite !minus_IZR, !opp_IZR. field. auto.
Qed.

Lemma overlap_inverse : overlap t d size k f Wc' tau m' = Cconj (overlap t d size k f Wc sg m).
Proof.
  unfold overlap. rewrite csum_conj.
  rewrite <- (csum_perm n sg (fun j => phase_between k size (spot d size j) (spot_at d size (tau j) (m' j)) * form (medium t d j) (at_point f j) (turned Wc' (at_point f (tau j))))%C).
  2:{ intros i Hi. apply (Hc i Hi). }
  2:{ exact (carries_inj d f size W w sg m G Hs K Hc). }
  apply csum_ext. intros i Hi. rewrite Cconj_mul. rewrite phase_back by exact Hi. f_equal. rewrite (proj1 (back i Hi)). rewrite <- form_conj.
  rewrite <- (polar (medium t d i) (medium t d (sg i)) Wc (at_point f (sg i)) (turned Wc' (at_point f i))) by (intros x; apply Km; exact Hi).
  apply form_ext; [reflexivity|]. intros a Ha. apply turned_inv; [exact Ic|exact Ha].
Qed.
End Inverse.

(* ------------------------------------------------------------------ *)
Lemma quad_iso e x : quad (iso e) x = RtoC (e * (rsum 3 (fun a => re (x a) * re (x a)) + rsum 3 (fun a => im (x a) * im (x a)))).
Proof. unfold quad. rewrite !csum3. cbn [entry iso m00 m11 m22 m01 m02 m12 rsum]. clear. apply C_eq; csimp; ring. Qed.
Lemma form_iso e x y : form (iso e) x y = (RtoC e * (Cconj (x 0%nat) * y 0%nat + Cconj (x 1%nat) * y 1%nat + Cconj (x 2%nat) * y 2%nat))%C.
Proof. unfold form. rewrite !csum3. cbn [entry iso m00 m11 m22 m01 m02 m12]. clear. apply C_eq; csimp; ring. Qed.
Lemma iso_keeps t d Wc sg e : isotropic t d e -> isometry Wc -> (forall i, (i < Z.to_nat (d_out d))%nat -> (sg i < Z.to_nat (d_out d))%nat /\ e (sg i) = e i) -> keeps_medium t d Wc sg.
Proof.
  intros Hi Hw He i x Hn. destruct (He i Hn) as (Hn' & E). rewrite (Hi i Hn), (Hi (sg i) Hn'), !quad_iso, E. f_equal. f_equal. f_equal.
  - rewrite (rsum_ext 3 (fun a => re (turned Wc x a) * re (turned Wc x a)) (fun a => axis (act Wc (re (x 0%nat), re (x 1%nat), re (x 2%nat))) a * axis (act Wc (re (x 0%nat), re (x 1%nat), re (x 2%nat))) a)).
    + rewrite (Hw (re (x 0%nat), re (x 1%nat), re (x 2%nat))). apply rsum_ext. intros a Ha. destruct a as [|[|[|a]]]; try reflexivity; lia.
    + intros a Ha. rewrite (proj1 (turned_parts Wc x a Ha)). reflexivity.
  - rewrite (rsum_ext 3 (fun a => im (turned Wc x a) * im (turned Wc x a)) (fun a => axis (act Wc (im (x 0%nat), im (x 1%nat), im (x 2%nat))) a * axis (act Wc (im (x 0%nat), im (x 1%nat), im (x 2%nat))) a)).
    + rewrite (Hw (im (x 0%nat), im (x 1%nat), im (x 2%nat))). apply rsum_ext. intros a Ha. destruct a as [|[|[|a]]]; try reflexivity; lia.
    + intros a Ha. rewrite (proj2 (turned_parts Wc x a Ha)). reflexivity.
Qed.
Lemma iso_psd e : 0 <= e -> PSD (iso e).
Proof.
  intros He x. rewrite quad_iso. cbn [re im RtoC fst snd]. split; [reflexivity|]. apply Rmult_le_pos; [exact He|].
  cbn [rsum]. assert (Q : forall r, 0 <= r * r) by (intros r; apply Rle_0_sqr). pose proof (Q (re (x 0%nat))). pose proof (Q (re (x 1%nat))). pose proof (Q (re (x 2%nat))).
  pose proof (Q (im (x 0%nat))). pose proof (Q (im (x 1%nat))). pose proof (Q (im (x 2%nat))). lra.
Qed.

Lemma unit_act v : act unit_matrix v = v.
Proof. destruct v as [[x y] z]. rewrite act_vec. cbn. apply triple; ring. Qed.
Lemma unit_turned x a : (a < 3)%nat -> turned unit_matrix x a = x a.
Proof. intros Ha. unfold turned. rewrite csum3. destruct a as [|[|[|a]]]; [| | |lia]; cbn [elem axis unit_matrix]; clear; apply C_eq; csimp; ring. Qed.
Lemma unit_carries d f size : on_grid d f -> carries d size unit_matrix (0, 0, 0) (fun i => i) (fun _ => (0, 0, 0)%Z).
Proof.
  intros G i Hi. split; [exact Hi|]. unfold spot_at. rewrite unit_act. destruct (spot d size i) as [[x y] z], size as [[sx sy] sz]. cbn. apply triple; ring.
Qed.
Lemma unit_overlap t d size k f : (forall i, (i < Z.to_nat (d_out d))%nat -> im (quad (medium t d i) (at_point f i)) = 0) ->
  overlap t d size k f unit_matrix (fun i => i) (fun _ => (0, 0, 0)%Z) = RtoC (rsum (Z.to_nat (d_out d)) (density t d f)).
Proof.
  intros H. unfold overlap. rewrite <- csum_RtoC. apply csum_ext. intros i Hi.
  rewrite (form_ext _ _ (at_point f i) _ (at_point f i)) by (intros; try reflexivity; apply unit_turned; assumption).
  change (form (medium t d i) (at_point f i) (at_point f i)) with (quad (medium t d i) (at_point f i)).
  assert (E : phase_between k size (spot d size i) (spot_at d size i (0, 0, 0)%Z) = C1).
  { unfold phase_between. replace (rsum 3 _) with 0; [rewrite Rmult_0_r, cos_0, sin_0; reflexivity|].
    unfold spot_at. destruct (spot d size i) as [[x y] z], size as [[sx sy] sz], k as [[k0 k1] k2]. cbn. unfold Rdiv. ring. }
  rewrite E. specialize (H i Hi). unfold density. destruct (quad (medium t d i) (at_point f i)) as (p, q). cbn [im snd] in H. subst q. clear. apply C_eq; csimp; ring.
Qed.
Lemma quad_real V x : im (quad V x) = 0.
Proof. unfold quad. rewrite !csum3. cbn [entry]. clear. csimp. ring. Qed.
Lemma overlap_eigen t d size k f Wc sg m lam : (forall i a, (i < Z.to_nat (d_out d))%nat -> (a < 3)%nat ->
    (phase_between k size (spot d size i) (spot_at d size (sg i) (m i)) * turned Wc (at_point f (sg i)) a = lam * at_point f i a)%C) ->
  overlap t d size k f Wc sg m = (lam * RtoC (rsum (Z.to_nat (d_out d)) (density t d f)))%C.
Proof.
  intros H. unfold overlap. rewrite <- csum_RtoC, <- csum_scal. apply csum_ext. intros i Hi.
  assert (L : forall V x y c, (c * form V x y)%C = form V x (fun a => c * y a)%C) by (intros; unfold form; rewrite !csum3; ring).
  rewrite L. rewrite (form_ext _ _ (at_point f i) _ (fun a => lam * at_point f i a)%C) by (intros a Ha; try reflexivity; apply H; assumption). rewrite <- L. f_equal.
  unfold density. change (form (medium t d i) (at_point f i) (at_point f i)) with (quad (medium t d i) (at_point f i)). pose proof (quad_real (medium t d i) (at_point f i)) as Q.
  destruct (quad (medium t d i) (at_point f i)) as (p, q). cbn [im snd] in Q. subst q. reflexivity.
Qed.

Lemma det_mult A B : determinant (m_mult A B) = determinant A * determinant B.
Proof. destruct A as [[[[a0 a1] a2] [[b0 b1] b2]] [[c0 c1] c2]], B as [[[[d0 d1] d2] [[e0 e1] e2]] [[f0 f1] f2]]. unfold determinant, m_mult, m_vec. cbn [elem axis]. ring. Qed.
Lemma det_inverse W W' : (forall v, act W (act W' v) = v) -> Rabs (determinant W) = 1 -> determinant W' = determinant W.
Proof.
  intros H D. assert (E : m_mult W W' = unit_matrix) by (apply act_ext; intros v; rewrite mult_act, H, unit_act; reflexivity).
  apply (f_equal determinant) in E. rewrite det_mult in E. assert (U : determinant unit_matrix = 1) by (unfold determinant; cbn [elem axis unit_matrix]; ring). rewrite U in E.
  unfold Rabs in D. destruct (Rcase_abs (determinant W)) in D; [assert (Q : determinant W = - 1) by lra|assert (Q : determinant W = 1) by lra]; rewrite Q in *; lra.
Qed.
