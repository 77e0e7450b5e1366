(** The line search ends: the two cases. *)
From Coq Require Import List ZArith Reals Bool Lia Lra Psatz.
From Verif Require Import Base RC M_Lin S_Lin L_Lin L_Lin2 L_Lin3.
Import ListNotations.
Local Open Scope R_scope.

(** Any function, with a positive lower bound for the step. *)
Lemma halts_any F p x v : dcsrch_start p x = Some v -> 0 < xtol p -> 0 < stpmin p -> ftol p <= gtol p -> exists fuel, search fuel F p 0 v x <> None.
Proof.
  intros E Xp Sp Tol. destruct (start_inv _ _ _ E) as (V & I & Sx & _). assert (B : brackt v = false) by (unfold dcsrch_start in E; destruct (_ || _) in E; [discriminate|]; injection E as <-; reflexivity).
  pose proof I as (_ & _ & If). rewrite B in If. destruct If as (_ & _ & _ & _ & Hb & _). unfold in_bounds in Hb.
  apply (halts_free F p V (fun _ _ _ => True)); try auto; [| |lra].
  - intros n u y _ Iu Bu Wu. apply (halts_bracketed F p V (fun _ _ _ => True) (xtol p * stpmin p)); auto; [nra|]. intros m w z _ Iw Bw Nw. left. destruct (inside p V _ _ Iw Bw Nw) as (_ & Hw & _ & Hm & _). nra.
  - intros n f g _ Fl Gt Gl. rewrite Rabs_left by exact Gl. unfold gtest in Gt. destruct V as (V1 & V2 & V3 & _). nra.
Qed.

(** A function that decreases at first, with lower bound zero. *)
Section Smooth.
Variable F : nat -> R -> R * R.
Variable p : lpar.
Variable delta : R.
Hypothesis Hd : 0 < delta.
Hypothesis Near : forall n x, 0 < x < delta -> fst (F n x) <= ftest p x /\ snd (F n x) < 0.
Hypothesis Z0 : stpmin p = 0.

Inductive run : nat -> lsave -> R -> Prop :=
| run_start x v : dcsrch_start p x = Some v -> 0 < x -> run 0 v x
| run_next n v x f g v' x' : run n v x -> F n x = (f, g) -> dcsrch p v x f g = Val (FG, v', x') -> run (S n) v' x'.
Lemma run_reach n v x : run n v x -> reach F p n v x.
Proof. induction 1 as [x v E Hx|n v x f g v' x' R IH Ef E]; [exact (reach_start F p x v E)|exact (reach_next F p n v x f g v' x' IH Ef E)]. Qed.
Lemma run_pos n v x : run n v x -> (0 < x \/ (brackt v = true /\ x = stx v)) /\ (brackt v = false -> 0 < x).
Proof.
  induction 1 as [x v E Hx|n v x f g v' x' R IH Ef E].
  - split; auto.
  - pose proof (reach_inv F p _ _ _ (run_reach _ _ _ R)) as I. pose proof (reach_valid F p _ _ _ (run_reach _ _ _ R)) as V. pose proof (step_inv _ _ _ _ _ _ _ V I E) as (I' & _).
    destruct (brackt v') eqn:B'.
    + split; [|discriminate]. destruct (Req_dec x' (stx v')) as [->|Ne]; [right; auto|left]. destruct (inside p V _ _ I' B' Ne) as (_ & _ & Hi & _ & _ & Hc). destruct I' as (I1 & I2 & _). unfold in_bounds in *. rewrite Z0 in *. lra.
    + assert (P : 0 < x').
      { unfold dcsrch in E. cbv zeta in E. destruct (verdict p v x f g) eqn:Hv; try discriminate.
        set (st := if (stage v =? 1)%Z && Rleb f (ftest p x) && Rleb 0 g then 2%Z else stage v) in *.
        destruct (update p v st x f g) as [[[[x1 y1] s] b]| | |] eqn:U; cbn [bind] in E; try discriminate. destruct (next_step p v st x1 y1 s b) as [v2 x2] eqn:N. injection E as <- <-. destruct b.
        - destruct x1 as ((sx, fx1), gx1), y1 as ((sy, fy1), gy1). destruct (next_br _ _ _ _ _ _ _ _ _ _ _ _ N) as (-> & _). discriminate.
        - destruct (step_free p v x f g st x1 y1 s v2 x2 V I eq_refl Hv U N) as (B & _ & _ & -> & _ & _ & Ls & _). destruct IH as (_ & IH). specialize (IH B). destruct y1 as ((sy, fy1), gy1). destruct (next_free _ _ _ _ _ _ _ _ _ _ _ _ N) as (_ & ->).
          destruct I as (_ & _ & I). rewrite B in I. destruct I as (_ & _ & _ & _ & Hb & _). unfold in_bounds in Hb. rewrite Z0.
          destruct (MAX_spec s 0) as [(-> & A)|(-> & A)]; [destruct (MIN_spec s (stpmax p)) as [(-> & A2)|(-> & A2)]; lra|lra]. }
      split; [left; exact P|auto].
Qed.
Lemma run_from n v x : run n v x -> stx v = 0 -> fx v = finit p /\ (brackt v = true -> ftest p (sty v) < fy v).
Proof.
  induction 1 as [x v E Hx|n v x f g v' x' R IH Ef E]; intros S0.
  - destruct (start_inv _ _ _ E) as (_ & _ & _ & Fx & _). split; [exact Fx|]. unfold dcsrch_start in E; destruct (_ || _) in E; [discriminate|]; injection E as <-. discriminate.
  - pose proof (reach_inv F p _ _ _ (run_reach _ _ _ R)) as I. pose proof (reach_valid F p _ _ _ (run_reach _ _ _ R)) as V. pose proof (step_points _ _ _ _ _ _ _ E V I) as P. cbv zeta in P.
    assert (Xn : x <> 0).
    { destruct (run_pos _ _ _ R) as ([H|(B & ->)] & _); [lra|]. exfalso. unfold dcsrch in E. cbv zeta in E. destruct (verdict p v (stx v) f g) eqn:Hv; try discriminate.
      destruct (verdict_FG _ _ _ _ _ Hv) as (_ & _ & _ & Hb). destruct (Hb B) as (_ & Hi). destruct I as (_ & _ & I). rewrite B in I. destruct I as (_ & B2 & B3 & _). rewrite B2, B3 in Hi.
      destruct (MIN_spec (stx v) (sty v)) as [(E1 & ?)|(E1 & ?)], (MAX_spec (stx v) (sty v)) as [(E' & ?)|(E' & ?)]; rewrite E1, E' in Hi; lra. }
    destruct P as [(P1 & P2 & P3)|[(P1 & P2)|(P1 & P2)]]; injection P1 as P1 P1f _; [|congruence|congruence]. injection P2 as P2 P2f _. rewrite P1 in S0. destruct (IH S0) as (Fx & _). rewrite P1f, P2, P2f. split; [exact Fx|]. intros _.
    destruct P3 as [P3|P3]; [exact P3|]. rewrite Fx in P3. eapply Rle_lt_trans; [|exact P3]. pose proof (gtest_neg p V).
    assert (0 < x) by (destruct (run_pos _ _ _ R) as ([H0|(B & H0)] & _); [exact H0|congruence]). unfold ftest. nra.
Qed.

(** Intervals that contain zero are not short. *)
Lemma run_long n v x : run n v x -> brackt v = true -> x <> stx v -> stmin v <= 0 -> delta <= len v.
Proof.
  intros R B Ne Hm. pose proof (reach_inv F p _ _ _ (run_reach _ _ _ R)) as I. pose proof (reach_valid F p _ _ _ (run_reach _ _ _ R)) as V. destruct (inside p V _ _ I B Ne) as (L & _ & Hi & _ & _ & Hc).
  destruct (reach_known F p _ _ _ (run_reach _ _ _ R)) as (Ka & Kb). pose proof I as (I1 & I2 & I3). rewrite B in I3. destruct I3 as (J & _). unfold in_bounds in *. rewrite Z0 in *.
  destruct (Rle_lt_dec delta (len v)) as [|Sh]; [assumption|exfalso]. rewrite L in Sh. destruct Hc as [(C1 & C2)|(C1 & C2)].
  - assert (S0 : stx v = 0) by lra. destruct (run_from _ _ _ R S0) as (_ & H). specialize (H B). destruct Kb as [Kb|(m & w & s & _ & _ & Kb)]; injection Kb as K1 K2 _; [lra|].
    destruct (Near m s) as (H1 & _); [lra|]. rewrite <- K2, <- K1 in H1. lra.
  - assert (S0 : sty v = 0) by lra. destruct Ka as [Ka|(m & w & s & _ & _ & Ka)]; injection Ka as K1 K2 K3; [lra|].
    destruct (Near m s) as (_ & H1); [lra|]. rewrite <- K3 in H1. nra.
Qed.
Lemma halts_smooth x v : dcsrch_start p x = Some v -> 0 < x -> 0 < xtol p ->
  (forall n f g, F n (stpmax p) = (f, g) -> f <= ftest p (stpmax p) -> gtest p < g -> g < 0 -> Rabs g <= gtol p * - ginit p) -> exists fuel, search fuel F p 0 v x <> None.
Proof.
  intros E Hx Xp Top. destruct (start_inv _ _ _ E) as (V & I & Sx & _). assert (B : brackt v = false) by (unfold dcsrch_start in E; destruct (_ || _) in E; [discriminate|]; injection E as <-; reflexivity).
  apply (halts_free F p V run); try assumption; [| |exact (run_start x v E Hx)|lra].
  - intros n u y f g u' y' R Ef D. exact (run_next n u y f g u' y' R Ef D).
  - intros n u y R Iu Bu Wu. apply (halts_bracketed F p V (fun n u y => run n u y /\ width u = len u) (delta / 2)); auto; [lra| |].
    + intros m w z f g w' z' (Rw & Ww) Iw Bw Nw Ef D. split; [exact (run_next m w z f g w' z' Rw Ef D)|]. destruct (br_step p V _ _ _ _ _ _ Iw Bw Nw D) as (_ & _ & Q & _). exact Q.
    + intros m w z (Rw & Ww) Iw Bw Nw. destruct (Rlt_le_dec 0 (stmin w)) as [H|H]; [right; exact (halts_above F p V m w z Xp H Iw Bw Ww)|left]. pose proof (run_long _ _ _ Rw Bw Nw H). lra.
Qed.
End Smooth.

(** A differentiable function with a slope below the test line decreases at first. *)
Lemma smooth_near f g tol f0 : 0 <= tol < 1 -> f 0 = f0 -> g 0 < 0 -> (forall x, derivable_pt_lim f x (g x)) -> continuity_pt g 0 ->
  exists delta, 0 < delta /\ forall x, 0 < x < delta -> f x <= f0 + x * (tol * g 0) /\ g x < 0.
Proof.
  intros Ht F0 G0 D C.
  destruct (C (- g 0 / 2) ltac:(lra)) as (d1 & Hd1 & H1).
  assert (N1 : forall x, 0 < x < d1 -> g x < 0).
  { intros x Hx. specialize (H1 x). unfold D_x, no_cond, R_dist in H1. cbn in H1. unfold R_dist in H1. specialize (H1 ltac:(split; [split; [exact I|lra]|rewrite Rabs_right; lra])). unfold Rabs in H1. destruct (Rcase_abs _); lra. }
  destruct (Req_dec tol 1) as [|]; [lra|]. destruct (D 0 (- g 0 * (1 - tol)) ltac:(nra)) as (d2 & H2).
  exists (Rmin d1 d2). split; [apply Rmin_pos; [exact Hd1|apply cond_pos]|]. intros x (Hx & Hm). assert (x < d1 /\ x < d2) as (X1 & X2) by (split; eapply Rlt_le_trans; [exact Hm|apply Rmin_l|exact Hm|apply Rmin_r]). split; [|apply N1; lra].
  specialize (H2 x ltac:(lra) ltac:(rewrite Rabs_right; lra)). rewrite Rplus_0_l, F0 in H2. unfold Rabs in H2.
  assert (Q : (f x - f0) / x - g 0 < - g 0 * (1 - tol)) by (destruct (Rcase_abs _); [nra|lra]). assert (Q' : (f x - f0) / x < g 0 * tol) by lra. apply Rmult_lt_compat_r with (r := x) in Q'; [|exact Hx].
  replace ((f x - f0) / x * x) with (f x - f0) in Q' by (field; lra). lra.
Qed.
