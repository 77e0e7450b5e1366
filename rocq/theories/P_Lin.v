(** Properties C21, C22, C68, C69: the line search. *)
From Coq Require Import List ZArith Reals Bool Lia Lra Psatz.
From Verif Require Import Base RC M_Lin S_Lin L_Lin L_Lin2 L_Lin3 L_Lin4.
Import ListNotations.
Local Open Scope R_scope.

(** Decide the comparisons of numbers in the goal. *)
Ltac proj := cbn [andb orb negb brackt stage gx gy fx fy stx sty stmin stmax width width1 finit ftol gtol xtol ginit stpmin stpmax Z.eqb Pos.eqb].
Ltac clamp p := unfold p; proj; match goal with |- context [MAX ?a ?b] => destruct (MAX_spec a b) as [(-> & ?)|(-> & ?)] end;
  match goal with |- context [MIN ?a ?b] => destruct (MIN_spec a b) as [(-> & ?)|(-> & ?)] end; lra.
Ltac dec := repeat (proj; match goal with
  | |- context [Rltb ?a ?b] => destruct (Rltb_spec a b); try lra
  | |- context [Rleb ?a ?b] => destruct (Rleb_spec a b); try lra
  | |- context [Reqb ?a ?b] => destruct (Reqb_spec a b); try lra
  end); proj.

(* ------------------------------------------------------------------ *)
(** * C21: success means both conditions hold *)

Theorem C21_success : forall fuel F x_guess f_0 df_0 f_tol df_tol x_tol x_min x_max r,
  linmin fuel F x_guess f_0 df_0 f_tol df_tol x_tol x_min x_max = Some (Val r) -> r_task r = Conv ->
  sufficient f_tol f_0 df_0 (r_x r) (r_f r) /\ curvature df_tol df_0 (r_df r) /\
  ((exists n, F n (r_x r) = (r_f r, r_df r)) \/ (df_0 = 0 /\ r_x r = 0 /\ r_f r = f_0 /\ r_df r = df_0)).
Proof.
  intros fuel F xg f0 g0 ft gt xt lo hi r E T. unfold linmin in E. unfold sufficient, curvature.
  assert (K : forall F p x r, linmin_down fuel F x p = Some (Val r) -> r_task r = Conv -> ginit p < 0 /\ r_f r <= finit p + ftol p * r_x r * ginit p /\ Rabs (r_df r) <= gtol p * - ginit p /\ exists n, F n (r_x r) = (r_f r, r_df r)).
  { clear. intros F p x r E T. unfold linmin_down in E. destruct (dcsrch_start p x) as [v|] eqn:S; [|discriminate]. destruct (start_inv _ _ _ S) as (V & _). destruct (search_end F p fuel 0 v x r (reach_start F p x v S) E) as (m & v' & _ & Ef & Hv & _).
    rewrite T in Hv. split; [apply V|]. unfold verdict in Hv. destruct (Rleb_spec (r_f r) (ftest p (r_x r))) as [A|A], (Rleb_spec (Rabs (r_df r)) (gtol p * - ginit p)) as [B|B]; cbn [andb] in Hv.
    - unfold ftest, gtest in A. split; [lra|]. split; [exact B|]. exists m. exact Ef.
    - exfalso. repeat match type of Hv with (if ?b then _ else _) = _ => destruct b end; discriminate.
    - exfalso. repeat match type of Hv with (if ?b then _ else _) = _ => destruct b end; discriminate.
    - exfalso. repeat match type of Hv with (if ?b then _ else _) = _ => destruct b end; discriminate. }
  destruct (Rltb_spec 0 g0) as [P|P].
  - destruct (linmin_down _ _ _ _) as [[r'| | |]|] eqn:D; try discriminate. injection E as <-. cbn [r_task r_x r_f r_df] in *. destruct (K _ _ _ _ D T) as (_ & A & B & n & En). cbn [finit ftol gtol ginit] in *.
    split; [lra|]. rewrite Rabs_Ropp. rewrite (Rabs_right g0) by lra. split; [lra|]. left. exists n. unfold reverse_func in En. destruct (F n (- r_x r')) as [a b]. injection En as <- <-. f_equal. lra.
  - destruct (Reqb_spec g0 0) as [Z|Z].
    + injection E as <-. cbn [r_x r_f r_df]. rewrite Z, Rabs_R0. repeat split; lra.
    + destruct (K _ _ _ _ E T) as (_ & A & B & n & En). cbn [finit ftol gtol ginit] in *. rewrite (Rabs_left g0) by lra. split; [lra|]. split; [lra|]. left. exists n. exact En.
Qed.
Print Assumptions C21_success.
(** A first step of 1 along f(x) = x^2 - 2x ends at the minimum. *)
Definition parabola (n : nat) (x : R) : R * R := (x * x - 2 * x, 2 * x - 2).
Example C21_example : linmin 1 parabola 1 0 (-2) (1 / 10) (1 / 1000000) (1 / 100) 0 4 = Some (Val {| r_x := 1; r_f := 1 * 1 - 2 * 1; r_df := 2 * 1 - 2; r_task := Conv |}).
Proof.
  unfold linmin. dec. unfold linmin_down, dcsrch_start. cbn [stpmin stpmax ginit ftol gtol xtol finit]. dec. cbn [orb search parabola]. assert (Z : 2 * 1 - 2 = 0) by lra. unfold dcsrch.
  match goal with |- context [verdict ?p ?v ?x ?f ?g] => assert (E : verdict p v x f g = Conv) end.
  { rewrite Z. unfold verdict, ftest, gtest. rewrite Rabs_R0. dec. reflexivity. }
  rewrite E. reflexivity.
Qed.

(* ------------------------------------------------------------------ *)
(** * C22: the best point and the bounds *)

(** Every step offered is within the bounds or the remembered one; that one is within the bounds
    or the start. *)
Theorem C22_bounds : forall F p n v x, reach F p n v x -> (in_bounds p x \/ x = stx v) /\ (in_bounds p (stx v) \/ stx v = 0).
Proof.
  intros F p n v x R. destruct (reach_inv F p n v x R) as (I1 & _ & I). split; [|tauto]. destruct (brackt v); [destruct I as (_ & _ & _ & [->|(_ & _ & H)] & _); auto|]. left. apply I.
Qed.
Print Assumptions C22_bounds.
(** The remembered step has the value and slope found there; it is replaced only by the last
    point and only if the function is not larger there. *)
Theorem C22_best : forall F p n v x f g v' x', reach F p n v x -> F n x = (f, g) -> dcsrch p v x f g = Val (FG, v', x') ->
  known F p n (stx v, fx v, gx v) /\ fx v' <= fx v /\ fx v' <= finit p /\ ((stx v', fx v', gx v') = (stx v, fx v, gx v) \/ (stx v', fx v', gx v') = (x, f, g)).
Proof.
  intros F p n v x f g v' x' R Ef E. pose proof (reach_valid F p n v x R) as V. pose proof (reach_inv F p n v x R) as I. destruct (step_inv _ _ _ _ _ _ _ V I E) as (I' & L). split; [exact (proj1 (reach_known F p n v x R))|]. split; [exact L|]. split.
  - assert (Fs : forall u y, Inv p u y -> fx u <= finit p).
    { intros u y (J1 & J2 & J). assert (S0 : 0 <= stx u) by (destruct J1 as [->|(A & _)]; [lra|destruct V as (_ & _ & _ & _ & V5); lra]). assert (Q : fx u <= ftest p (stx u)).
      { destruct (brackt u); [destruct J as (B1 & B2 & B3 & B4 & B5 & B6)|apply J]. destruct (Z.eq_dec (stage u) 1) as [Q|Q]; [auto|]. eapply Rle_trans; [apply B6, Q|]. apply ftest_anti; [exact V|]. destruct (MAX_spec (stx u) (sty u)) as [(-> & ?)|(-> & ?)]; lra. }
      pose proof (gtest_neg p V). unfold ftest in Q. nra. }
    exact (Fs _ _ I').
  - pose proof (step_points _ _ _ _ _ _ _ E V I) as P. cbv zeta in P. tauto.
Qed.
Print Assumptions C22_best.
(** Once the minimum is bracketed every step offered lies inside the interval or is the
    remembered end. *)
Theorem C22_interval : forall F p n v x, reach F p n v x -> brackt v = true -> x = stx v \/ (stx v < x < sty v \/ sty v < x < stx v).
Proof.
  intros F p n v x R B. pose proof (reach_inv F p n v x R) as I. destruct (Req_dec x (stx v)) as [|Ne]; [auto|right]. destruct (inside p (reach_valid F p n v x R) v x I B Ne) as (_ & _ & Hi & _ & _ & [(A & C)|(A & C)]); lra.
Qed.
Print Assumptions C22_interval.
Example C22_example : exists v, reach parabola {| ftol := 1 / 10; gtol := 1 / 1000; xtol := 1 / 100; stpmin := 0; stpmax := 4; finit := 0; ginit := -2 |} 0 v 3.
Proof. eexists. apply reach_start. unfold dcsrch_start. cbn [stpmin stpmax ginit ftol gtol xtol finit]. dec. reflexivity. Qed.

(* ------------------------------------------------------------------ *)
(** * C68: a line search never returns a worse point *)

(** With lower bound zero, as the eigensolver calls it: also after warnings, and also if df_0 is not
    the slope at 0 (as happens when the eigensolver gives up an approximate line minimization). *)
Theorem C68_any_slope_partial : forall fuel F f x_guess f_0 df_0 f_tol df_tol x_tol x_max r, (forall n x, F n x = f x) -> fst (f 0) = f_0 ->
  linmin fuel F x_guess f_0 df_0 f_tol df_tol x_tol 0 x_max = Some (Val r) ->
  sufficient f_tol f_0 df_0 (r_x r) (r_f r) /\ (f (r_x r) = (r_f r, r_df r) \/ r_x r = 0 /\ r_f r = f_0 /\ r_df r = df_0) /\ r_f r <= f_0 /\ Rabs (r_x r) <= Rabs x_max.
Proof.
  intros fuel F f xg f0 g0 ft gt xt hi r HF H0 E. unfold linmin in E. unfold sufficient.
  assert (K : forall F f p x r, (forall n x, F n x = f x) -> fst (f 0) = finit p -> stpmin p = 0 -> linmin_down fuel F x p = Some (Val r) ->
     r_f r <= finit p + ftol p * r_x r * ginit p /\ f (r_x r) = (r_f r, r_df r) /\ r_f r <= finit p /\ 0 <= r_x r <= stpmax p).
  { clear. intros F f p x r HF H0 Z0 E. unfold linmin_down in E. destruct (dcsrch_start p x) as [v|] eqn:S; [|discriminate]. destruct (start_inv _ _ _ S) as (V & _). destruct (search_end F p fuel 0 v x r (reach_start F p x v S) E) as (m & v' & R & Ef & Hv & Nf).
    pose proof (reach_inv F p _ _ _ R) as I. pose proof (gtest_neg p V) as Gn.
    assert (Xb : 0 <= r_x r <= stpmax p).
    { destruct (C22_bounds F p _ _ _ R) as ([A|A] & B); unfold in_bounds in *; rewrite Z0 in *; [exact A|rewrite A]. destruct V as (_ & _ & _ & _ & V5). destruct B; lra. }
    assert (Sd : r_f r <= ftest p (r_x r)).
    { destruct (Rle_lt_dec (r_f r) (ftest p (r_x r))) as [|B]; [assumption|exfalso]. unfold verdict in Hv. destruct (Rleb_spec (r_f r) (ftest p (r_x r))); [lra|]. cbn [andb] in Hv. rewrite ?andb_false_r in Hv. cbn [andb] in Hv.
      assert (At : r_x r <> 0). { intros Q. rewrite HF, Q in Ef. rewrite Ef in H0. cbn [fst] in H0. rewrite Q in B. unfold ftest in B. lra. }
      destruct (Reqb_spec (r_x r) (stpmin p)); [lra|]. cbn [andb] in Hv.
      assert (Bt : brackt v' = true) by (destruct (brackt v'); [reflexivity|cbn in Hv; congruence]). rewrite Bt in Hv. cbn [andb] in Hv.
      assert (X : r_x r = stx v').
      { destruct I as (_ & _ & I). rewrite Bt in I. destruct I as (_ & _ & _ & [X|(X1 & X2 & _)] & _); [exact X|exfalso]. destruct (Rleb_spec (stmax v' - stmin v') (xtol p * stmax v')); [lra|]. destruct (Rleb_spec (r_x r) (stmin v')); [lra|]. destruct (Rleb_spec (stmax v') (r_x r)); [lra|]. cbn in Hv. congruence. }
      assert (Fx : fx v' = r_f r).
      { destruct (reach_known F p _ _ _ R) as ([Q|(k & u & s & _ & _ & Q)] & _); injection Q as Q1 Q2 Q3; [lra|]. rewrite HF, X, Q1 in Ef. rewrite HF in Q2. rewrite Ef in Q2. exact Q2. }
      assert (Fs : fx v' <= ftest p (stx v')).
      { destruct I as (_ & _ & I). rewrite Bt in I. destruct I as (_ & _ & _ & _ & B5 & B6). destruct (Z.eq_dec (stage v') 1) as [Q|Q]; [auto|]. eapply Rle_trans; [apply B6, Q|]. apply ftest_anti; [exact V|]. destruct (MAX_spec (stx v') (sty v')) as [(-> & ?)|(-> & ?)]; lra. }
      rewrite Fx, <- X in Fs. lra. }
    unfold ftest, gtest in *. split; [lra|]. split; [rewrite <- (HF m); exact Ef|]. split; [|exact Xb]. destruct V as (V1 & V2 & _). nra. }
  destruct (Rltb_spec 0 g0) as [P|P].
  - destruct (linmin_down _ _ _ _) as [[r'| | |]|] eqn:D; try discriminate. injection E as <-. cbn [r_task r_x r_f r_df] in *.
    assert (Q1 : forall n x, reverse_func F n x = (fun x => let '(a, b) := f (- x) in (a, - b)) x) by (intros n x; unfold reverse_func; rewrite HF; reflexivity).
    assert (Q2 : fst ((fun x => let '(a, b) := f (- x) in (a, - b)) 0) = f0) by (cbv beta; rewrite Ropp_0; destruct (f 0); exact H0).
    destruct (K _ _ {| ftol := ft; gtol := gt; xtol := xt; stpmin := - 0; stpmax := - hi; finit := f0; ginit := - g0 |} _ _ Q1 Q2 Ropp_0 D) as (A & B & C & (X1 & X2)).
    cbn [finit ftol ginit stpmax] in *. split; [lra|]. split; [|split; [exact C|]].
    + left. destruct (f (- r_x r')) as [a b]. injection B as <- <-. f_equal. lra.
    + rewrite Rabs_Ropp, (Rabs_right (r_x r')), (Rabs_left1 hi) by lra. lra.
  - destruct (Reqb_spec g0 0) as [Z|Z].
    + injection E as <-. cbn [r_x r_f r_df]. rewrite Rabs_R0. pose proof (Rabs_pos hi). split; [lra|]. split; [right; auto|]. split; lra.
    + destruct (K _ f {| ftol := ft; gtol := gt; xtol := xt; stpmin := 0; stpmax := hi; finit := f0; ginit := g0 |} _ _ HF H0 eq_refl E) as (A & B & C & (X1 & X2)). cbn [finit ftol ginit stpmax] in *. split; [lra|]. split; [left; exact B|]. split; [exact C|]. rewrite !Rabs_right by lra. lra.
Qed.
Print Assumptions C68_any_slope_partial.
(** With the slope itself the values returned are those at the point returned. *)
Theorem C68_decrease_partial : forall fuel F f x_guess f_0 df_0 f_tol df_tol x_tol x_max r, consistent F f f_0 df_0 ->
  linmin fuel F x_guess f_0 df_0 f_tol df_tol x_tol 0 x_max = Some (Val r) ->
  sufficient f_tol f_0 df_0 (r_x r) (r_f r) /\ f (r_x r) = (r_f r, r_df r) /\ r_f r <= f_0 /\ Rabs (r_x r) <= Rabs x_max.
Proof.
  intros fuel F f xg f0 g0 ft gt xt hi r (HF & H0) E. assert (H1 : fst (f 0) = f0) by (rewrite H0; reflexivity).
  destruct (C68_any_slope_partial fuel F f xg f0 g0 ft gt xt hi r HF H1 E) as (A & [B|(B1 & B2 & B3)] & K); [auto|]. split; [exact A|]. split; [rewrite B1, B2, B3; exact H0|exact K].
Qed.
Print Assumptions C68_decrease_partial.
(** With a positive lower bound a warning can return a point above the start. *)
Definition uphill (x : R) : R * R := if Reqb x 0 then (0, -1) else (5, 0).
Theorem C68_refuted : exists r, consistent (fun _ => uphill) uphill 0 (-1) /\ linmin 1 (fun _ => uphill) 1 0 (-1) (1 / 10) (1 / 1000000) (1 / 100) 1 5 = Some (Val r) /\ 0 < r_f r.
Proof.
  exists {| r_x := 1; r_f := 5; r_df := 0; r_task := Warn StpMin |}. split; [split; [reflexivity|unfold uphill; dec; reflexivity]|]. split; [|cbn; lra].
  unfold linmin. dec. unfold linmin_down, dcsrch_start. cbn [stpmin stpmax ginit ftol gtol xtol finit]. dec. cbn [orb search]. assert (U : uphill 1 = (5, 0)) by (unfold uphill; dec; reflexivity). rewrite U.
  unfold dcsrch, verdict, ftest, gtest. cbn [finit ftol ginit gtol stpmin stpmax xtol brackt]. dec. reflexivity.
Qed.
Print Assumptions C68_refuted.
(** The comment (240-242) that after a warning the step is the best point found is wrong at the
    largest step: here 1 gave -10, but 5 with -1 is returned. *)
Definition valley (n : nat) (x : R) : R * R := if Reqb x 1 then (-10, -1) else (-1, -1).
Theorem C68_best_refuted : exists r, linmin 2 valley 1 0 (-1) (1 / 10) (1 / 1000000) (1 / 100) 0 5 = Some (Val r) /\ r_task r = Warn StpMax /\ r_f r = -1 /\ fst (valley 0 1) < r_f r.
Proof.
  exists {| r_x := 5; r_f := -1; r_df := -1; r_task := Warn StpMax |}. split; [|split; [reflexivity|split; [reflexivity|]]].
  2:{ unfold valley. cbn [r_f]. dec. cbn [fst]. lra. }
  unfold linmin. dec. unfold linmin_down, dcsrch_start. dec. cbn [search]. assert (V1 : forall k, valley k 1 = (-10, -1)) by (intros k; unfold valley; dec; reflexivity). rewrite V1.
  assert (A1 : Rabs (-1) = 1) by (rewrite Rabs_left; lra).
  set (p := {| ftol := 1 / 10; gtol := 1 / 1000000; xtol := 1 / 100; stpmin := 0; stpmax := 5; finit := 0; ginit := -1 |}).
  match goal with |- context [dcsrch p ?v 1 (-10) (-1)] => assert (S1 : exists v', dcsrch p v 1 (-10) (-1) = Val (FG, v', 5) /\ brackt v' = false) end.
  { clear. unfold dcsrch. match goal with |- context [verdict p ?v 1 (-10) (-1)] => assert (E : verdict p v 1 (-10) (-1) = FG) end.
    { unfold verdict, ftest, gtest, p. rewrite (Rabs_left (-1)) by lra. dec. reflexivity. }
    rewrite E. clear E. unfold update, ftest, gtest, p. dec. unfold dcstep. replace (Rabs (-1)) with 1 by (rewrite Rabs_left; lra). rewrite fdiv_nz by lra. unfold bind, case4. dec. unfold next_step, MIN, MAX. proj. eexists. split; [apply (f_equal (@Val _)); apply (f_equal2 pair); [reflexivity|dec]|reflexivity]. }
  destruct S1 as (v' & E & B). rewrite E. assert (V5 : forall k, valley k 5 = (-1, -1)) by (intros k; unfold valley; dec; reflexivity). rewrite V5.
  unfold dcsrch. assert (E' : verdict p v' 5 (-1) (-1) = Warn StpMax) by (unfold verdict, ftest, gtest, p; rewrite B, A1; dec; reflexivity). rewrite E'. reflexivity.
Qed.
Print Assumptions C68_best_refuted.
Example C68_example : consistent parabola (parabola 0) 0 (-2).
Proof. split; [reflexivity|]. unfold parabola. f_equal; lra. Qed.

(* ------------------------------------------------------------------ *)
(** * C69: the line search ends *)

(** With a lower bound other than zero, a positive tolerance for the step and f_tol <= df_tol:
    for whatever values the function gives. *)
Theorem C69_any_partial : forall F x_guess f_0 df_0 f_tol df_tol x_tol x_min x_max, 0 < x_tol -> f_tol <= df_tol -> (df_0 < 0 -> 0 < x_min) -> (0 < df_0 -> x_min < 0) ->
  exists fuel, linmin fuel F x_guess f_0 df_0 f_tol df_tol x_tol x_min x_max <> None.
Proof.
  intros F xg f0 g0 ft gt xt lo hi Hx Ht H1 H2. unfold linmin. destruct (Rltb_spec 0 g0) as [P|P].
  - unfold linmin_down. destruct (dcsrch_start _ _) as [v|] eqn:S; [|exists O; discriminate]. destruct (halts_any (reverse_func F) _ _ _ S Hx ltac:(cbn [stpmin]; specialize (H2 P); lra) Ht) as (k & Hk). exists k. destruct (search _ _ _ _ _ _) as [[r| | |]|]; congruence.
  - destruct (Reqb_spec g0 0) as [Z|Z]; [exists O; discriminate|]. unfold linmin_down. destruct (dcsrch_start _ _) as [v|] eqn:S; [|exists O; discriminate]. exact (halts_any F _ _ _ S Hx ltac:(cbn [stpmin]; apply H1; lra) Ht).
Qed.
Print Assumptions C69_any_partial.
(** As the eigensolver calls it, with lower bound zero: for differentiable functions with
    continuous slope at zero, from a first guess other than zero, if the slope at the largest
    step is that at zero (as for a function with that period). *)
Theorem C69_smooth_partial : forall f g x_guess f_tol df_tol x_tol x_max, (forall x, derivable_pt_lim f x (g x)) -> continuity_pt g 0 -> g x_max = g 0 ->
  0 <= f_tol < 1 -> 0 < x_tol -> (g 0 < 0 -> 0 < x_guess) -> (0 < g 0 -> x_guess < 0) ->
  exists fuel, linmin fuel (fun _ x => (f x, g x)) x_guess (f 0) (g 0) f_tol df_tol x_tol 0 x_max <> None.
Proof.
  intros f g xg ft gt xt hi D C Per Ht Hx H1 H2. unfold linmin. destruct (Rltb_spec 0 (g 0)) as [P|P].
  - unfold linmin_down. destruct (dcsrch_start _ _) as [v|] eqn:S; [|exists O; discriminate].
    destruct (smooth_near (fun x => f (- x)) (fun x => - g (- x)) ft (f 0)) as (d & Hd & Near); try lra.
    { rewrite Ropp_0. reflexivity. } { rewrite Ropp_0. lra. }
    { intros x. replace (- g (- x)) with (g (- x) * -1) by ring. apply (derivable_pt_lim_comp Ropp f x (-1) (g (- x))); [|apply D]. apply (derivable_pt_lim_opp (fun y => y) x 1), derivable_pt_lim_id. }
    { apply (continuity_pt_opp (fun x => g (- x))). apply (continuity_pt_comp Ropp g); [apply (continuity_pt_opp (fun y => y)), derivable_continuous_pt, derivable_pt_id|rewrite Ropp_0; exact C]. }
    rewrite Ropp_0 in Near.
    destruct (halts_smooth (reverse_func (fun _ x => (f x, g x))) {| ftol := ft; gtol := gt; xtol := xt; stpmin := - 0; stpmax := - hi; finit := f 0; ginit := - g 0 |} d Hd) with (x := - xg) (v := v) as (k & Hk); try assumption.
    + intros n x Hxd. unfold reverse_func, ftest, gtest. cbn [fst snd finit ftol ginit]. exact (Near x Hxd).
    + cbn. apply Ropp_0.
    + specialize (H2 P). lra.
    + intros n a b E _ Gt _. cbn [stpmax] in E. unfold reverse_func in E. rewrite Ropp_involutive in E. injection E as <- <-. exfalso. unfold gtest in Gt. cbn [ftol ginit] in Gt. rewrite Per in Gt. nra.
    + exists k. destruct (search _ _ _ _ _ _) as [[r| | |]|]; congruence.
  - destruct (Reqb_spec (g 0) 0) as [Z|Z]; [exists O; discriminate|]. unfold linmin_down. destruct (dcsrch_start _ _) as [v|] eqn:S; [|exists O; discriminate].
    destruct (smooth_near f g ft (f 0) Ht eq_refl ltac:(lra) D C) as (d & Hd & Near).
    apply (halts_smooth (fun _ x => (f x, g x)) {| ftol := ft; gtol := gt; xtol := xt; stpmin := 0; stpmax := hi; finit := f 0; ginit := g 0 |} d Hd) with (x := xg); try assumption.
    + intros n x Hxd. unfold ftest, gtest. cbn [fst snd finit ftol ginit]. exact (Near x Hxd).
    + reflexivity.
    + apply H1. lra.
    + intros n a b E _ Gt _. cbn [stpmax] in E. injection E as <- <-. exfalso. unfold gtest in Gt. cbn [ftol ginit] in Gt. rewrite Per in Gt. nra.
Qed.
Print Assumptions C69_smooth_partial.
Example C69_example : (forall x, derivable_pt_lim (fun x => - sin (2 * x)) x (- (cos (2 * x) * 2))) /\ - (cos (2 * PI) * 2) = - (cos (2 * 0) * 2).
Proof.
  split.
  - intros x. apply (derivable_pt_lim_opp (fun x => sin (2 * x))). apply (derivable_pt_lim_comp (fun x => 2 * x) sin x 2 (cos (2 * x))); [|apply derivable_pt_lim_sin]. pose proof (derivable_pt_lim_scal (fun x => x) 2 x 1 (derivable_pt_lim_id x)) as H. rewrite Rmult_1_r in H. exact H.
  - rewrite Rmult_0_r, cos_2PI, cos_0. reflexivity.
Qed.
(** From the guess zero it never ends. *)
Theorem C69_zero_refuted : forall fuel F f f_0 df_0 f_tol df_tol x_tol x_max, consistent F f f_0 df_0 -> df_0 < 0 -> 0 <= f_tol < 1 -> 0 <= df_tol < 1 -> 0 <= x_tol -> 0 < x_max ->
  linmin fuel F 0 f_0 df_0 f_tol df_tol x_tol 0 x_max = None.
Proof.
  intros fuel F f f0 g0 ft gt xt hi (HF & H0) Hg Hft Hgt Hxt Hhi. unfold linmin. dec. unfold linmin_down, dcsrch_start. cbn [stpmin stpmax ginit ftol gtol xtol finit]. dec. cbn [orb].
  set (p := {| ftol := ft; gtol := gt; xtol := xt; stpmin := 0; stpmax := hi; finit := f0; ginit := g0 |}).
  match goal with |- search _ _ _ _ ?v _ = None => assert (Hv : brackt v = false /\ stage v = 1%Z /\ gx v = g0 /\ fx v = f0 /\ stx v = 0 /\ stmin v = 0) by (cbn; auto 8); generalize v, Hv; clear Hv end.
  generalize 0%nat. induction fuel as [|k IH]; intros n_1 v (Hb & Hs & Hgx & Hfx & Hx & Hm); [reflexivity|]. cbn [search]. rewrite HF, H0.
  unfold dcsrch, verdict, update, ftest, gtest. cbn [finit ftol ginit gtol stpmin stpmax xtol p]. rewrite Hb, Hs, Hgx, Hfx, Hx, Hm. cbn [Z.eqb Pos.eqb andb].
  assert (A : Rabs g0 = - g0) by (apply Rabs_left; lra). rewrite A. assert (0 < - g0 * (1 - gt)) by (apply Rmult_lt_0_compat; lra). assert (0 < - g0 * (1 - ft)) by (apply Rmult_lt_0_compat; lra).
  destruct (Rleb_spec f0 (f0 + 0 * (ft * g0))); [|lra]. destruct (Rleb_spec (- g0) (gt * - g0)); [lra|]. cbn [andb].
  destruct (Reqb_spec 0 0); [|lra]. destruct (Rltb_spec (f0 + 0 * (ft * g0)) f0); [lra|]. destruct (Rleb_spec (ft * g0) g0); [lra|]. cbn [orb andb]. destruct (Reqb_spec 0 hi); [lra|]. cbn [andb]. destruct (Rleb_spec 0 g0); [lra|]. cbn [andb Z.eqb Pos.eqb].
  rewrite andb_false_r. unfold dcstep, fdiv. rewrite A. destruct (Req_EM_T (- g0) 0); [lra|]. cbn [bind]. destruct (Rltb_spec f0 f0); [lra|]. replace (g0 * (g0 / - g0)) with (- g0) by (field; lra). destruct (Rltb_spec (- g0) 0); [lra|].
  destruct (Rltb_spec (- g0) (- g0)); [lra|]. cbn [case4]. destruct (Rltb_spec 0 0); [lra|]. cbn [bind]. unfold next_step. cbn [andb orb].
  replace (MIN (MAX 0 (stpmin p)) (stpmax p)) with 0 by (clamp p). apply IH. cbn. repeat split; auto. lra.
Qed.
Print Assumptions C69_zero_refuted.
(** With f_tol > df_tol, as the eigensolver's 0.1 and 1e-6 at most, it can stay at the largest
    step for ever. *)
Definition slope (x : R) : R * R := if Reqb x 0 then (0, -1) else (-7 / 20, -1 / 20).
Theorem C69_order_refuted : forall fuel, consistent (fun _ => slope) slope 0 (-1) /\ linmin fuel (fun _ => slope) 1 0 (-1) (1 / 10) (1 / 1000000) (1 / 100) (1 / 2) 1 = None.
Proof.
  intros fuel. split; [split; [reflexivity|unfold slope; dec; reflexivity]|]. unfold linmin. dec. unfold linmin_down, dcsrch_start. cbn [stpmin stpmax ginit ftol gtol xtol finit]. dec. cbn [orb].
  set (p := {| ftol := 1 / 10; gtol := 1 / 1000000; xtol := 1 / 100; stpmin := 1 / 2; stpmax := 1; finit := 0; ginit := -1 |}).
  assert (S1 : slope 1 = (-7 / 20, -1 / 20)) by (unfold slope; dec; reflexivity). assert (A1 : Rabs (-1 / 20) = 1 / 20) by (rewrite Rabs_left; lra). assert (A2 : Rabs (-1) = 1) by (rewrite Rabs_left; lra).
  assert (Vd : forall v, brackt v = false -> verdict p v 1 (-7 / 20) (-1 / 20) = FG).
  { intros v Hb. unfold verdict, ftest, gtest. cbn [finit ftol ginit gtol stpmin stpmax xtol p]. rewrite Hb, A1. dec. reflexivity. }
  assert (Stay : forall k n v, brackt v = false -> stage v = 1%Z -> gx v = -1 / 20 -> fx v = -7 / 20 -> stx v = 1 -> 1 <= stmin v -> search k (fun _ => slope) p n v 1 = None).
  { induction k as [|k IH]; intros m v Hb Hs Hg Hf Hx Hm; [reflexivity|]. cbn [search]. rewrite S1. unfold dcsrch. rewrite (Vd v Hb), Hs. cbn [Z.eqb Pos.eqb andb]. unfold update, ftest, gtest. cbn [finit ftol ginit p]. rewrite Hb, Hg, Hf, Hx.
    destruct (Rleb_spec 0 (-1 / 20)); [lra|]. rewrite andb_false_r. cbn [Z.eqb Pos.eqb andb]. destruct (Rltb_spec (0 + 1 * (1 / 10 * -1)) (-7 / 20)); [lra|]. rewrite andb_false_r. unfold dcstep, fdiv. rewrite A1. destruct (Req_EM_T (1 / 20) 0); [lra|]. cbn [bind].
    destruct (Rltb_spec (-7 / 20) (-7 / 20)); [lra|]. destruct (Rltb_spec (-1 / 20 * (-1 / 20 / (1 / 20))) 0); [lra|]. destruct (Rltb_spec (1 / 20) (1 / 20)); [lra|]. cbn [case4]. destruct (Rltb_spec 1 1); [lra|]. cbn [bind]. unfold next_step. cbn [andb orb].
    replace (MIN (MAX (stmin v) (stpmin p)) (stpmax p)) with 1 by (clamp p). apply IH; cbn; auto. lra. }
  destruct fuel as [|k]; [reflexivity|]. cbn [search]. rewrite S1. unfold dcsrch. rewrite Vd by reflexivity. cbn [stage]. unfold update, ftest, gtest. cbn [finit ftol ginit p fx gx stx sty fy gy brackt stmin stmax].
  destruct (Rleb_spec 0 (-1 / 20)); [lra|]. rewrite andb_false_r. cbn [Z.eqb Pos.eqb andb]. destruct (Rltb_spec (0 + 1 * (1 / 10 * -1)) (-7 / 20)); [lra|]. rewrite andb_false_r. unfold dcstep. rewrite A2, fdiv_nz by lra. cbn [bind].
  destruct (Rltb_spec 0 (-7 / 20)); [lra|]. destruct (Rltb_spec (-1 / 20 * (-1 / 1)) 0); [lra|]. rewrite A1. destruct (Rltb_spec (1 / 20) 1); [|lra]. unfold case3, cubic_theta. rewrite fdiv_nz by lra. cbn [bind].
  replace ((0 - -7 / 20) * 3 / (1 - 0) + -1 + -1 / 20) with 0 by field. assert (Cs : cubic_s 0 (-1) (-1 / 20) = 1) by (unfold cubic_s; rewrite Rabs_R0, A1, A2; destruct (MAX_spec 0 1) as [(-> & ?)|(-> & ?)]; try lra; destruct (MAX_spec 1 (1 / 20)) as [(-> & ?)|(-> & ?)]; lra). rewrite Cs, !fdiv_nz by lra. cbn [bind].
  assert (M0 : MAX 0 (0 / 1 * (0 / 1) - -1 / 1 * (-1 / 20 / 1)) = 0) by (unfold MAX; dec; lra). rewrite M0, sqrt_0, Rmult_0_r. destruct (Rltb_spec 0 1); [|lra]. rewrite Ropp_0. rewrite fdiv_nz by lra. cbn [bind]. destruct (Reqb_spec 0 0); [|lra]. cbn [negb]. rewrite andb_false_r.
  cbn [bind]. unfold next_step. cbn [andb orb].
  match goal with |- context [MIN (MAX ?s (stpmin p)) (stpmax p)] => assert (Hs : s = 5) end.
  { rewrite (Rabs_right (1 + 1 * 4 - 1)) by lra. replace (-1 / 20 / (-1 / 20 - -1)) with (-1 / 19) by field. rewrite (Rabs_right (1 + -1 / 19 * (0 - 1) - 1)) by lra. destruct (Rltb_spec (1 + -1 / 19 * (0 - 1) - 1) (1 + 1 * 4 - 1)); [|lra].
    match goal with |- context [MIN ?a ?b] => destruct (MIN_spec a b) as [(-> & ?)|(-> & ?)] end; match goal with |- context [MAX ?a ?b] => destruct (MAX_spec a b) as [(-> & ?)|(-> & ?)] end; lra. }
  rewrite Hs. replace (MIN (MAX 5 (stpmin p)) (stpmax p)) with 1 by (clamp p). apply Stay; cbn; auto. lra.
Qed.
Print Assumptions C69_order_refuted.
