(** The approximate line minimization: its parts. *)
From Coq Require Import List ZArith Reals Bool Arith Lia Lra.
From Verif Require Import Base RC Loops M_Evect M_Lin M_Eig M_Apx S_Evect S_Lin S_Eig S_Apx L_Evect L_Evect3 L_Lin P_Lin L_Mat L_Eig L_Eig2 L_Eig3 L_Eig4 L_Eig5 L_Eig6 L_Eig7 L_Eig8 L_Eig9 L_Eig10.
Import ListNotations.
Local Open Scope R_scope.
Add Ring Cring_a1 : C_ring_theory.

(** The slope computed with N' in the place of the inverse N of Y^+ B Y. *)
Definition dE_with (n p : nat) (A B Y D N N' : mat) : R :=
  2 * (re (mtr p (mmul p N' (msym (form n A Y D)))) - re (mtr p (mmul p (mmul p N (mmul p (form n A Y Y) N')) (msym (form n B Y D))))).
Lemma dE_with_same n p A B Y D N : dE_with n p A B Y D N N = dE_of n p A B Y D N.
Proof. reflexivity. Qed.

Section Solver.
Variables (n p : nat) (potr : Z -> list C -> option (list C)) (heev : Z -> list C -> list C * list R).
Variables (opA : emat C -> outcome (emat C)) (opB : option (emat C -> outcome (emat C))).
Variables (opK : option (emat C -> emat C -> smat C -> outcome (emat C))) (constraint : option (emat C -> outcome (emat C))).
Variables (cg pr project reorth : bool) (reset : Z -> bool) (tolerance : R) (HA HB HP : mat).
Hypothesis Ok : solver_ok n p potr heev opA opB opK constraint project HA HB HP.
Let Hp := ok_p _ _ _ _ _ _ _ _ _ _ _ _ Ok. Let Pok := ok_potr _ _ _ _ _ _ _ _ _ _ _ _ Ok. Let Eok := ok_heev _ _ _ _ _ _ _ _ _ _ _ _ Ok.
Let DA := ok_dimA _ _ _ _ _ _ _ _ _ _ _ _ Ok. Let DB := ok_dimB _ _ _ _ _ _ _ _ _ _ _ _ Ok. Let HhA := ok_hermA _ _ _ _ _ _ _ _ _ _ _ _ Ok. Let HhB := ok_hermB _ _ _ _ _ _ _ _ _ _ _ _ Ok.
Let OA := ok_A _ _ _ _ _ _ _ _ _ _ _ _ Ok. Let OB := ok_B _ _ _ _ _ _ _ _ _ _ _ _ Ok. Let KOK := ok_K _ _ _ _ _ _ _ _ _ _ _ _ Ok.
Let OP := ok_P _ _ _ _ _ _ _ _ _ _ _ _ Ok. Let PP := ok_idem _ _ _ _ _ _ _ _ _ _ _ _ Ok. Let PB := ok_comm _ _ _ _ _ _ _ _ _ _ _ _ Ok.

Lemma aim_ok it s M MD : state_ok n p HP s M MD ->
  match aim potr heev opA opB opK constraint cg pr project reorth reset tolerance it s with
  | Val ARestart => ~ independent n p HB M
  | Val (AConverged E h) => independent n p HB M /\ Rabs (E - s_prev_E s) < tolerance * / 2 * (E + s_prev_E s + / 10000000) /\ exists MY N, respan p M MY /\ headed_ok n p HB h MY N /\ E = value n p HA MY N
  | Val (AAimed E h YA D t Q) => independent n p HB M /\ exists MY N MD', respan p M MY /\ headed_ok n p HB h MY N /\ satisfies n HP MY /\ E = value n p HA MY N /\
      square p YA (mmul p (form n HA MY MY) N) /\ fields n p D MD' /\ satisfies n HP MD' /\ fields n p Q (gradm n p HA HB MY N) /\
      ((0 < it)%Z -> tolerance * / 2 * (E + s_prev_E s + / 10000000) <= Rabs (E - s_prev_E s))
  | NonFin => True
  | _ => False
  end.
Proof.
  intros St. pose proof St as (HY & KY & _). unfold aim. pose proof (head_ok n p potr heev opB HB Hp Pok Eok DB HhB OB reorth (s_Y s) M HY) as Hd.
  destruct (head potr heev opB reorth (s_Y s)) as [[h|]| | |]; try contradiction; cbn [bind]; auto. destruct Hd as (Ind & MY & N & Sp & Hh).
  assert (KM : kept n HP MY) by (apply (kept_span n p HP M); auto).
  destruct (energy_ok n p opA HA HB Hp DB HhB OA h MY N Hh) as (G & S & -> & HG & HS). cbn [bind]. fold (value n p HA MY N).
  destruct ((0 <? it)%Z && Rltb (Rabs (value n p HA MY N - s_prev_E s)) (tolerance * / 2 * (value n p HA MY N + s_prev_E s + / 10000000))) eqn:Cv.
  { split; [exact Ind|]. apply andb_true_iff in Cv. destruct Cv as (_ & Cv). destruct (Rltb_spec (Rabs (value n p HA MY N - s_prev_E s)) (tolerance * / 2 * (value n p HA MY N + s_prev_E s + / 10000000))); [|discriminate]. split; [assumption|]. exists MY, N. auto. }
  destruct (gradient_ok n p HA HB Hp DB HhA HhB h MY N G S Hh HG HS) as (G' & -> & HG'). cbn [bind].
  destruct (precondition_ok n p HB Hp opK constraint project HP KOK OP PP PB h MY N G' _ Hh KM HG') as (X & MX & -> & HX & KX). cbn [bind].
  destruct (direction_ok n p cg pr reset HP it s h M MD G' _ X MX St HG' HX KX) as (D & t & Q & MD' & -> & HD & KD & HQ). cbn [bind].
  split; [exact Ind|]. exists MY, N, MD'. repeat (split; [first [assumption|reflexivity]|]).
  intros Hit. apply andb_false_iff in Cv. destruct Cv as [Cv|Cv]; [apply Z.ltb_ge in Cv; lia|]. destruct (Rltb_spec (Rabs (value n p HA MY N - s_prev_E s)) (tolerance * / 2 * (value n p HA MY N + s_prev_E s + / 10000000))); [discriminate|lra].
Qed.

(** The matrices of the exact line minimization when U holds something else. *)
Lemma line_data_with h MY N N' Yr U re_ S D MD : headed_ok n p HB h MY N -> fields n p Yr MY -> square p U N' -> hermitian N' -> square p S (mmul p (form n HA MY MY) N) -> fields n p D MD ->
  if Rlt_dec 0 (re (mtr p (form n HB MD MD))) then
    exists a D' tf ds d2E, 0 < a /\ line_data opA opB {| h_Y := Yr; h_BY := h_BY h; h_YtBY := h_YtBY h; h_U := U; h_re := re_ |} S D = Val (D', tf, ds, dE_with n p HA HB MY (mscal a MD) N N', d2E) /\
      fields n p D' (mscal a MD) /\ line_of n p HA HB MY (mscal a MD) tf /\ nolag tf /\ a * a * re (mtr p (form n HB MD MD)) = IZR (Z.of_nat p)
  else line_data opA opB {| h_Y := Yr; h_BY := h_BY h; h_YtBY := h_YtBY h; h_U := U; h_re := re_ |} S D = NonFin.
Proof.
  intros (HY0 & HBY & HF & Ind & _ & Inv) HY HU HhN' HS HD. pose proof (fields_dim _ _ _ _ HY) as DM. pose proof (form_dim n p HB MY MY DB DM DM) as DF.
  destruct (inv_both p _ N DF (form_herm n HB MY HhB) Inv) as (HhN & NF). unfold line_data. cbn [h_Y h_U h_YtBY]. rewrite (proj1 (proj2 HY)), (proj1 HY). pose proof (create_square p) as HW. set (W := create_sq (Z.of_nat p)) in *.
  destruct (apply_B_ok n p opB HB OB D MD HD) as (BD & -> & HBD). cbn [bind]. rewrite (traceXtY_ok n p BD _ D _ HBD HD). cbn [bind].
  replace (mmul n (madj (mmul n HB MD)) MD) with (form n HB MD MD) by (unfold form; rewrite madj_mul, HhB, mmul_assoc; reflexivity).
  pose proof (IZR_p p Hp) as Hz. rewrite fdiv_nz by lra. cbn [bind]. set (t := re (mtr p (form n HB MD MD))). destruct (Rlt_dec 0 t) as [Ht|Ht].
  2: { unfold fsqrt. destruct (Rltb_spec (t / IZR (Z.of_nat p)) 0) as [|Nn]; [reflexivity|]. cbn [bind].
    assert (t / IZR (Z.of_nat p) = 0).
    { assert (t / IZR (Z.of_nat p) <= 0); [|lra]. unfold Rdiv. assert (0 < / IZR (Z.of_nat p)) by (apply Rinv_0_lt_compat; exact Hz). nra. }
    rewrite H, sqrt_0. unfold fdiv. destruct (Req_EM_T 0 0); [reflexivity|contradiction]. }
  assert (Hq : 0 < t / IZR (Z.of_nat p)) by (apply Rdiv_lt_0_compat; auto). unfold fsqrt. destruct (Rltb_spec (t / IZR (Z.of_nat p)) 0); [lra|]. cbn [bind].
  assert (Hs : 0 < sqrt (t / IZR (Z.of_nat p))) by (apply sqrt_lt_R0; exact Hq). set (r := sqrt (t / IZR (Z.of_nat p))) in *.
  rewrite fdiv_nz by lra. cbn [bind]. destruct (escal_ok n p (1 / r) D MD HD) as (x & -> & Lx & HD1). cbn [bind]. set (a := 1 / r) in *. set (M1 := mscal a MD) in *.
  assert (B' : exists BD', (match opB with Some _ => let! b := blas_rscal (Z.of_nat p * Z.of_nat n) a (edata BD) in Val (set_data BD b) | None => Val (set_data D x) end) = Val BD' /\ fields n p BD' (mmul n HB M1)).
  { unfold applies_opt in OB. clear - OB HBD HD HD1 M1. destruct opB as [f|].
    - destruct (escal_ok n p a BD _ HBD) as (b & -> & Lb & Hb). cbn [bind]. eexists. split; [reflexivity|]. unfold M1. rewrite mmul_scal_r. exact Hb.
    - eexists. split; [reflexivity|]. rewrite OB, (mid_l n p) by (apply mdim_scal; apply (fields_dim _ _ _ _ HD)). exact HD1. }
  destruct B' as (BD1 & -> & HBD1). cbn [bind]. destruct (OA _ _ HD1) as (G & -> & HG). cbn [bind].
  destruct (gram_ok n p opB HB OB _ M1 BD1 HD1 HBD1) as (DtBD & -> & HDB). cbn [bind].
  destruct (XtY_ok n p _ _ _ M1 G _ _ _ HW HW HD1 HG) as (DtAD & -> & HDA). cbn [bind].
  destruct (XtY_ok n p _ _ _ MY BD1 _ _ _ HW HW HY HBD1) as (S1 & -> & HS1). cbn [bind].
  destruct (symmetrize_ok p _ _ S1 _ HW HS1) as (SB & -> & HSB). cbn [bind]. clear S1 HS1.
  destruct (XtY_ok n p _ _ _ MY G _ _ _ HW HW HY HG) as (S1 & -> & HS1). cbn [bind].
  destruct (symmetrize_ok p _ _ S1 _ HW HS1) as (SA & -> & HSA). cbn [bind]. clear S1 HS1.
  fold (form n HB MY M1) in HSB. fold (form n HA MY M1) in HSA. fold (form n HA M1 M1) in HDA.
  destruct (AeBC_ok p _ _ U N' false SB _ true HW HU HSB) as (S1 & -> & HS1). cbn [bind opm] in *. rewrite (msym_herm (form n HB MY M1)) in HS1.
  rewrite (traceAtB_ok p _ _ _ _ HU HSA). cbn [bind]. rewrite (traceAtB_ok p _ _ _ _ HS HS1). cbn [bind].
  destruct (copy_ok p _ _ DtBD _ HW HDB) as (S2 & -> & HS2). cbn [bind].
  destruct (ApaBC_ok p S2 _ (-4) SB _ false S1 _ false Hp HS2 HSB HS1) as (S3 & -> & HS3). cbn [bind opm] in *.
  destruct (AeBC_ok p _ _ SA _ false S1 _ false HW HSA HS1) as (S4 & -> & HS4). cbn [bind opm] in *.
  destruct (AeBC_ok p _ _ U N' false S3 _ true HW HU HS3) as (S5 & -> & HS5). cbn [bind opm] in *.
  rewrite (traceAtB_ok p _ _ _ _ HU HDA). cbn [bind]. rewrite (traceAtB_ok p _ _ _ _ HS HS5). cbn [bind]. rewrite (traceAtB_ok p _ _ _ _ HU HS4). cbn [bind].
  destruct (AeBC_ok p _ _ S _ false (h_YtBY h) _ true HW HS HF) as (S6 & -> & HS6). cbn [bind opm] in *.
  rewrite (form_herm n HB MY HhB) in HS6. rewrite mmul_assoc, NF in HS6. rewrite (mid_r p p) in HS6 by (apply form_dim; auto).
  rewrite !madj_mul, HhN, HhN', (form_herm n HA MY HhA).
  exists a. eexists _, _, r, _. split; [apply Rdiv_lt_0_compat; lra|]. split.
  { apply (f_equal (@Val _)). apply (f_equal2 pair); [apply (f_equal2 pair); [reflexivity|]|reflexivity]; unfold dE_with; rewrite !mmul_assoc; reflexivity. }
  split; [exact HD1|]. split; [unfold line_of; fold M1; rewrite <- (form_adj n HA MY M1 HhA), <- (form_adj n HB MY M1 HhB); fold (msym (form n HA MY M1)) (msym (form n HB MY M1)); cbn; repeat (split; [assumption|]); assumption|]. split; [cbn; repeat split|]. fold t. assert (Sq : r * r = t / IZR (Z.of_nat p)) by (apply sqrt_sqrt; lra). unfold a. replace (1 / r * (1 / r) * t) with (t / (r * r)) by (field; lra). rewrite Sq. field. lra.
Qed.

Lemma shifted_dim x Y D : mdim n p Y -> mdim n p D -> mdim n p (shifted x Y D).
Proof. intros. apply mdim_add; [|apply mdim_scal]; auto. Qed.
Lemma eshift_ok x Y MY D MD : fields n p Y MY -> fields n p D MD -> exists Y', evectmatrix_aXpbY 1 Y x D = Val Y' /\ fields n p Y' (shifted x MY MD).
Proof. intros H1 H2. destruct (eaXpbY_ok n p 1 Y MY x D MD H1 H2) as (Y' & E & F). exists Y'. split; [exact E|]. rewrite mscal_1 in F. exact F. Qed.

Lemma try_ok h MY N D MD Q th : headed_ok n p HB h MY N -> fields n p D MD -> fields n p Q (gradm n p HA HB MY N) ->
  match try_shift potr opA opB (h_Y h) D Q th with
  | Val tr => exists N', 0 < tr_norm tr /\ tr_norm tr * tr_norm tr = re (mtr p (form n HB MD MD)) / IZR (Z.of_nat p) /\ tr_dE tr = dE_of n p HA HB MY MD N / tr_norm tr /\
      tr_t tr = (if Rltb (tr_dE tr) 0 then - Rabs th else Rabs th) /\ fields n p (tr_Y tr) (shifted (tr_t tr / tr_norm tr) MY MD) /\ independent n p HB (shifted (tr_t tr / tr_norm tr) MY MD) /\
      square p (tr_U tr) N' /\ inverse_of p (form n HB (shifted (tr_t tr / tr_norm tr) MY MD) (shifted (tr_t tr / tr_norm tr) MY MD)) N' /\
      tr_E2 tr = value n p HA (shifted (tr_t tr / tr_norm tr) MY MD) N'
  | Abort => exists x, ~ independent n p HB (shifted x MY MD)
  | NonFin => ~ 0 < re (mtr p (form n HB MD MD))
  | UB => False
  end.
Proof.
  intros (HY & HBY & HF & Ind & HU & Inv) HD HQ. pose proof (fields_dim _ _ _ _ HY) as DM. pose proof (fields_dim _ _ _ _ HD) as DD. unfold try_shift. rewrite (proj1 (proj2 HY)). pose proof (create_square p) as HW. set (W := create_sq (Z.of_nat p)) in *.
  destruct (apply_B_ok n p opB HB OB D MD HD) as (BD & -> & HBD). cbn [bind]. rewrite (traceXtY_ok n p BD _ D _ HBD HD). cbn [bind].
  replace (mmul n (madj (mmul n HB MD)) MD) with (form n HB MD MD) by (unfold form; rewrite madj_mul, HhB, mmul_assoc; reflexivity).
  pose proof (IZR_p p Hp) as Hz. rewrite fdiv_nz by lra. cbn [bind]. set (t := re (mtr p (form n HB MD MD))). 
  rewrite (traceXtY_ok n p Q _ D _ HQ HD). unfold fsqrt. destruct (Rlt_dec 0 t) as [Ht|Ht].
  2: { destruct (Rltb_spec (t / IZR (Z.of_nat p)) 0) as [|Nn]; [exact Ht|]. cbn [bind].
    assert (t / IZR (Z.of_nat p) = 0).
    { assert (t / IZR (Z.of_nat p) <= 0); [|lra]. unfold Rdiv. assert (0 < / IZR (Z.of_nat p)) by (apply Rinv_0_lt_compat; exact Hz). nra. }
    rewrite H, sqrt_0. unfold fdiv. destruct (Req_EM_T 0 0); [exact Ht|contradiction]. }
  assert (Hq : 0 < t / IZR (Z.of_nat p)) by (apply Rdiv_lt_0_compat; auto). destruct (Rltb_spec (t / IZR (Z.of_nat p)) 0); [lra|]. cbn [bind].
  assert (Hs : 0 < sqrt (t / IZR (Z.of_nat p))) by (apply sqrt_lt_R0; exact Hq). assert (Sq : sqrt (t / IZR (Z.of_nat p)) * sqrt (t / IZR (Z.of_nat p)) = t / IZR (Z.of_nat p)) by (apply sqrt_sqrt; lra). set (r := sqrt (t / IZR (Z.of_nat p))) in *.
  rewrite fdiv_nz by lra. cbn [bind]. set (dE := 2 * re (mtr p (mmul n (madj (gradm n p HA HB MY N)) MD)) / r). rewrite fdiv_nz by lra. cbn [bind]. set (x := if Rltb dE 0 then - Rabs th else Rabs th).
  destruct (eshift_ok (x / r) (h_Y h) MY D MD HY HD) as (Y1 & -> & HY1). cbn [bind]. set (M1 := shifted (x / r) MY MD) in *.
  destruct (apply_B_ok n p opB HB OB Y1 M1 HY1) as (BY1 & -> & HBY1). cbn [bind]. destruct (gram_ok n p opB HB OB Y1 M1 BY1 HY1 HBY1) as (U1 & -> & HU1). cbn [bind].
  pose proof (invert_ok p potr U1 _ Pok HU1 (form_herm n HB M1 HhB)) as Iv. destruct (invert potr U1) as [[U2|]| | |]; try contradiction; cbn [bind].
  2: { exists (x / r). exact Iv. }
  destruct Iv as (Pd & N' & HU2 & Inv'). destruct (OA _ _ HY1) as (G & -> & HG). cbn [bind]. destruct (XtY_ok n p _ _ _ M1 G _ _ _ HW HW HY1 HG) as (S1 & -> & HS1). cbn [bind]. fold (form n HA M1 M1) in HS1.
  rewrite (traceAtB_ok p _ _ _ _ HS1 HU2). cbn [bind tr_norm tr_dE tr_t tr_Y tr_U tr_E2]. exists N'. split; [exact Hs|]. split; [exact Sq|]. split; [unfold dE; rewrite (dE_grad n p HA HB MY MD HhA HhB DB DM N Inv); reflexivity|].
  split; [reflexivity|]. split; [exact HY1|]. split; [exact Pd|]. split; [exact HU2|]. split; [exact Inv'|]. unfold value. rewrite (form_herm n HA M1 HhA). reflexivity.
Qed.
End Solver.
