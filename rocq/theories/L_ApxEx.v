(** The instance of L_EigEx with the approximate line minimization. *)
From Coq Require Import List ZArith Reals Bool Arith Lia Lra.
From Verif Require Import Base RC Loops M_Evect M_Lin M_Eig M_Apx S_Evect S_Lin S_Eig S_Apx L_Evect L_Evect3 L_Lin P_Lin L_Mat L_Eig L_Eig2 L_Eig3 L_Eig4 L_Eig5 L_Eig6 L_Eig7 L_Eig8 L_Eig9 L_Eig10 L_Eig11 L_Eig12 L_Eig13 L_EigEx L_Apx1 L_Apx2 L_Apx3.
Import ListNotations.
Local Open Scope R_scope.
Add Ring Cring_ae : C_ring_theory.

Lemma head_plain n p potr heev opB HB Y M h : (1 <= p)%nat -> potr_ok p potr -> heev_ok p heev -> mdim n n HB -> hermitian HB -> applies_opt n p opB HB -> fields n p Y M -> head potr heev opB false Y = Val (Some h) ->
  exists a N, 0 < a /\ a * a * re (mtr p (form n HB M M)) = IZR (Z.of_nat p) /\ headed_ok n p HB h (mscal a M) N.
Proof.
  intros Hp Pok Eok DB HhB OB HY. pose proof (fields_dim _ _ _ _ HY) as DM. unfold head. rewrite (proj1 (proj2 HY)). pose proof (create_square p) as HW. set (W := create_sq (Z.of_nat p)) in *.
  destruct (apply_B_ok n p opB HB OB Y M HY) as (BY & -> & HBY). cbn [bind]. destruct (gram_ok n p opB HB OB Y M BY HY HBY) as (U & -> & HU). cbn [bind].
  pose proof (normalize_ok n p opB HB Hp OB Y M BY U HY HBY HU) as Nm. destruct (Rlt_dec 0 (re (mtr p (form n HB M M)))) as [Ht|Ht]; [|rewrite Nm; discriminate].
  destruct Nm as (a & Y1 & BY1 & U1 & Ha & -> & HY1 & HBY1 & HU1 & Tr). cbn [bind].
  assert (Hh1 : hermitian (form n HB (mscal a M) (mscal a M))) by (apply form_herm; exact HhB).
  destruct (copy_ok p W _ U1 _ HW HU1) as (V & -> & HV). cbn [bind].
  pose proof (invert_ok p potr V _ Pok HV Hh1) as Iv. destruct (invert potr V) as [[V'|]| | |]; try contradiction; cbn [bind]; try discriminate.
  destruct Iv as (Pd1 & N & HN & Inv). rewrite (trace_ok p V' N HN). cbn [bind andb]. intros [= <-]. exists a, N. split; [exact Ha|]. split; [exact Tr|].
  repeat split; cbn; auto; try apply HY1; try apply HBY1; try apply HU1; try apply HN; try apply Inv.
Qed.

Definition col (a b : R) : mat := fun i j => if (j =? 0)%nat then if (i =? 0)%nat then RtoC a else if (i =? 1)%nat then RtoC b else C0 else C0.
Definition num1 (x : R) : mat := mscal x (mid 1).
Lemma col_dim a b : mdim 2 1 (col a b).
Proof. intros i j H. unfold col. destruct j as [|j]; [|reflexivity]. destruct i as [|[|i]]; [lia|lia|reflexivity]. Qed.
Lemma num1_dim x : mdim 1 1 (num1 x).
Proof. apply mdim_scal, mdim_id. Qed.
Lemma num1_00 x : num1 x O O = RtoC x.
Proof. unfold num1, mscal, mid. cbn. apply C_eq; csimp; ring. Qed.
Lemma col_scal x a b : mscal x (col a b) = col (x * a) (x * b).
Proof. apply mext; intros i j. unfold mscal, col. destruct j as [|j]; [destruct i as [|[|i]]|]; cbn [Nat.eqb]; apply C_eq; csimp; ring. Qed.
Lemma col_add a b c d : madd (col a b) (col c d) = col (a + c) (b + d).
Proof. apply mext; intros i j. unfold madd, col. destruct j as [|j]; [destruct i as [|[|i]]|]; cbn [Nat.eqb]; apply C_eq; csimp; ring. Qed.
Lemma col_shift x a b c d : shifted x (col a b) (col c d) = col (a + x * c) (b + x * d).
Proof. unfold shifted. rewrite col_scal, col_add. reflexivity. Qed.
Lemma formB a b c d : form 2 (mid 2) (col a b) (col c d) = num1 (a * c + b * d).
Proof.
  apply dim1; [apply form_dim; auto using mdim_id, col_dim|apply num1_dim|]. rewrite num1_00. unfold form, mmul, madj, mid, col. cbn [csum Nat.eqb Nat.ltb Nat.leb andb]. apply C_eq; csimp; ring.
Qed.
Lemma formA a b c d : form 2 exA (col a b) (col c d) = num1 (a * c + 3 * (b * d)).
Proof.
  apply dim1; [apply form_dim; auto using exA_dim, col_dim|apply num1_dim|]. rewrite num1_00. unfold form, mmul, madj, exA, mdiag, col. cbn [csum Nat.eqb Nat.ltb Nat.leb andb]. apply C_eq; csimp; ring.
Qed.
Lemma num1_mul x y : mmul 1 (num1 x) (num1 y) = num1 (x * y).
Proof. unfold num1. rewrite mmul_scal_l, mmul_scal_r, mscal_mscal. rewrite (mid_l 1 1) by apply mdim_id. reflexivity. Qed.
Lemma num1_tr x : re (mtr 1 (num1 x)) = x.
Proof. unfold mtr. cbn [csum]. rewrite num1_00. csimp. ring. Qed.
Lemma num1_sym x : msym (num1 x) = num1 x.
Proof. apply mext; intros i j. unfold msym, madd, mscal, madj, num1, mid, mscal. rewrite (Nat.eqb_sym j i). destruct (Nat.eqb_spec i j) as [->|]; [destruct (j <? 1)%nat|rewrite !andb_false_r]; cbn [andb]; apply C_eq; csimp; field. Qed.
Lemma inv1 x : x <> 0 -> inverse_of 1 (num1 x) (num1 (/ x)).
Proof. intros H. split; [apply num1_dim|]. rewrite num1_mul, Rinv_r by exact H. unfold num1. apply mscal_1. Qed.
Lemma num1_herm x : hermitian (num1 x).
Proof. unfold hermitian, num1. rewrite madj_scal, mid_herm. reflexivity. Qed.
Lemma inv1_unique x N : x <> 0 -> inverse_of 1 (num1 x) N -> N = num1 (/ x).
Proof. intros H I. apply (inv_unique 1 (num1 x)); auto using num1_dim, num1_herm, inv1. Qed.
Lemma pos1 x : 0 < x -> posdef 1 (num1 x).
Proof. intros H. apply posdef1. rewrite num1_00. exact H. Qed.
Lemma value1 a b x : value 2 1 exA (col a b) (num1 x) = (a * a + 3 * (b * b)) * x.
Proof. unfold value. rewrite formA, num1_mul, num1_tr. reflexivity. Qed.
Lemma mulA a b x : mmul 2 exA (mmul 1 (col a b) (num1 x)) = col (a * x) (3 * (b * x)).
Proof.
  apply mext; intros i j. destruct j as [|j]; [|rewrite (mdim_mul 2 2 1 exA _ exA_dim (mdim_mul 2 1 1 _ _ (col_dim a b) (num1_dim x))) by lia; reflexivity].
  unfold mmul, exA, mdiag. cbn [csum]. rewrite !num1_00. unfold col. destruct i as [|[|i]]; cbn [Nat.eqb Nat.ltb Nat.leb andb]; apply C_eq; csimp; ring.
Qed.
Lemma mulB a b x : mmul 1 (mmul 2 (mid 2) (col a b)) (num1 x) = col (a * x) (b * x).
Proof.
  rewrite (mid_l 2 1) by apply col_dim. apply mext; intros i j. destruct j as [|j]; [|rewrite (mdim_mul 2 1 1 _ _ (col_dim a b) (num1_dim x)) by lia; reflexivity].
  unfold mmul. cbn [csum]. rewrite !num1_00. unfold col. destruct i as [|[|i]]; cbn [Nat.eqb]; apply C_eq; csimp; ring.
Qed.
Lemma grad1 a b x : gradm 2 1 exA (mid 2) (col a b) (num1 x) = col (a * x - a * (x * ((a * a + 3 * (b * b)) * x))) (3 * (b * x) - b * (x * ((a * a + 3 * (b * b)) * x))).
Proof. unfold gradm. rewrite formA, !num1_mul, mulA, mulB, col_scal, col_add. f_equal; ring. Qed.

(** The start (4/5, 3/5). *)
Definition up_Y : emat C := {| en := 2; ep := 1; ealloc := 1; edata := [RtoC (4 / 5); RtoC (3 / 5)] |}.
Definition up : mat := col (4 / 5) (3 / 5).
Lemma up_fields : fields 2 1 up_Y up.
Proof. split; [reflexivity|]. split; [reflexivity|]. split; [unfold wf; cbn; lia|]. apply rep21_of; [apply col_dim|reflexivity..]. Qed.
Lemma up_form : form 2 (mid 2) up up = num1 1.
Proof. unfold up. rewrite formB. f_equal. field. Qed.
Lemma col_ind a b : 0 < a * a + b * b -> independent 2 1 (mid 2) (col a b).
Proof. intros H. unfold independent. rewrite formB. apply pos1, H. Qed.

Lemma plain a b Y : 0 < a * a + b * b -> fields 2 1 Y (col a b) -> exists h c, head ex_potr ex_heev None false Y = Val (Some h) /\ 0 < c /\ c * c * (a * a + b * b) = 1 /\ headed_ok 2 1 (mid 2) h (col (c * a) (c * b)) (num1 1).
Proof.
  intros Hl HY. pose proof (ex_ok None (or_introl eq_refl)) as [Hp Pok Eok DA DB HhA HhB OA OB KOK OP PP PB].
  pose proof (head_ok 2 1 ex_potr ex_heev None (mid 2) Hp Pok Eok DB HhB OB false Y _ HY) as Hd. pose proof (col_ind a b Hl) as Ind.
  destruct (head ex_potr ex_heev None false Y) as [[h|]| | |] eqn:Eh; try contradiction.
  destruct (head_plain 2 1 ex_potr ex_heev None (mid 2) Y _ h Hp Pok Eok DB HhB OB HY Eh) as (c & N & Hc & Tr & Hh). rewrite formB, num1_tr in Tr. change (IZR (Z.of_nat 1)) with 1 in Tr. exists h, c. split; [reflexivity|]. split; [exact Hc|]. split; [exact Tr|].
  rewrite col_scal in Hh. replace (num1 1) with N; [exact Hh|]. destruct Hh as (_ & _ & _ & _ & _ & Inv). rewrite formB in Inv. replace (c * a * (c * a) + c * b * (c * b)) with 1 in Inv by (rewrite <- Tr; ring). rewrite (inv1_unique 1 N); [rewrite Rinv_1; reflexivity|lra|exact Inv].
Qed.

(** The first iteration aims along (-3/5, 4/5), uphill. *)
Definition upD : mat := col (- (72 / 125)) (96 / 125).
Lemma up_aim it s reset tol : (it <= 0)%Z -> fields 2 1 (s_Y s) up ->
  exists h YA D t Q, aim ex_potr ex_heev ex_opA None None None false false false false reset tol it s = Val (AAimed (43 / 25) h YA D t Q) /\
    headed_ok 2 1 (mid 2) h up (num1 1) /\ square 1 YA (mmul 1 (form 2 exA up up) (num1 1)) /\ fields 2 1 D upD /\ fields 2 1 Q (gradm 2 1 exA (mid 2) up (num1 1)).
Proof.
  intros Hit HY. pose proof (ex_ok None (or_introl eq_refl)) as [Hp Pok Eok DA DB HhA HhB OA OB KOK OP PP PB]. unfold aim.
  destruct (plain (4 / 5) (3 / 5) (s_Y s)) as (h & c & -> & Hc & Ec & Hh); [lra|exact HY|]. cbn [bind]. assert (c = 1) by nra. subst c. rewrite !Rmult_1_l in Hh. fold up in Hh.
  destruct (energy_ok 2 1 ex_opA exA (mid 2) Hp DB HhB OA h up _ Hh) as (G & S & -> & HG & HS). cbn [bind]. destruct (Z.ltb_spec 0 it); [lia|]. cbn [andb].
  destruct (gradient_ok 2 1 exA (mid 2) Hp DB HhA HhB h up _ G S Hh HG HS) as (G' & -> & HG'). cbn [bind].
  destruct (precondition_ok 2 1 (mid 2) Hp None None false (mid 2) I OP PP PB h up _ G' _ Hh ltac:(apply (mid_l 2 1), col_dim) HG') as (X & MX & EX & HX & _).
  assert (EMX : MX = gradm 2 1 exA (mid 2) up (num1 1)).
  { unfold precondition in EX. destruct (evectmatrix_copy G' G') as [X'| | |] eqn:Ecp; try discriminate. cbn [bind constrain] in EX. injection EX as ->.
    destruct (ecopy_ok 2 1 G' _ G' _ HG' HG') as (X2 & E2 & H2). rewrite E2 in Ecp. injection Ecp as ->. apply (rep_fun 2 1 (edata X)); [apply HX|apply H2]. }
  rewrite EX. cbn [bind]. subst MX. unfold direction. rewrite (traceXtY_ok 2 1 G' _ X _ HG' HX). cbn [bind].
  assert (Ev : value 2 1 exA up (num1 1) = 43 / 25) by (unfold up; rewrite value1; field). unfold value in Ev. rewrite Ev. exists h, S, X. eexists _, _. split; [reflexivity|]. split; [exact Hh|]. split; [exact HS|]. split; [|exact HG'].
  replace upD with (gradm 2 1 exA (mid 2) up (num1 1)); [exact HX|]. unfold up, upD. rewrite grad1. f_equal; field.
Qed.
(** The trial there. *)
Lemma up_try h D Q : headed_ok 2 1 (mid 2) h up (num1 1) -> fields 2 1 D upD -> fields 2 1 Q (gradm 2 1 exA (mid 2) up (num1 1)) ->
  exists tr, try_shift ex_potr ex_opA None (h_Y h) D Q (/ 2) = Val tr /\ tr_norm tr = 24 / 25 /\ tr_dE tr = 48 / 25 /\ tr_t tr = / 2 /\ tr_E2 tr = 13 / 5 /\ fields 2 1 (tr_Y tr) (col (/ 2) 1) /\ square 1 (tr_U tr) (num1 (4 / 5)).
Proof.
  intros Hh HD HQ. pose proof (ex_ok None (or_introl eq_refl)) as Ok.
  assert (Sx : forall x, shifted x up upD = col (4 / 5 + x * - (72 / 125)) (3 / 5 + x * (96 / 125))) by (intros x; unfold up, upD; apply col_shift).
  pose proof (try_ok 2 1 ex_potr ex_heev ex_opA None None None false exA (mid 2) (mid 2) Ok h up (num1 1) D upD Q (/ 2) Hh HD HQ) as Tr.
  destruct (try_shift _ _ _ _ _ _ _) as [tr| | |]; try contradiction.
  - destruct Tr as (N' & Hn & Nn & EdE & Et & HY1 & Ind1 & HU & Inv1 & E2). exists tr. split; [reflexivity|]. unfold upD in Nn. rewrite formB, num1_tr in Nn. change (IZR (Z.of_nat 1)) with 1 in Nn.
    assert (En : tr_norm tr = 24 / 25) by nra. split; [exact En|].
    assert (Ed : tr_dE tr = 48 / 25). { rewrite EdE, En. unfold dE_of, up, upD. rewrite !formB, !formA, !num1_sym, !num1_mul, !num1_tr. field. }
    split; [exact Ed|]. assert (Eth : tr_t tr = / 2). { rewrite Et, Ed. destruct (Rltb_spec (48 / 25) 0); [lra|]. apply Rabs_right. lra. }
    split; [exact Eth|]. rewrite Eth, En, Sx in *. replace (4 / 5 + / 2 / (24 / 25) * - (72 / 125)) with (/ 2) in * by field. replace (3 / 5 + / 2 / (24 / 25) * (96 / 125)) with 1 in * by field.
    rewrite formB in Inv1. assert (EN : N' = num1 (4 / 5)). { rewrite (inv1_unique _ N') with (2 := Inv1); [f_equal; field|lra]. } subst N'. rewrite value1 in E2. split; [rewrite E2; field|]. auto.
  - exfalso. destruct Tr as (x & Nx). apply Nx. rewrite Sx. apply col_ind. nra.
  - exfalso. apply Tr. unfold upD. rewrite formB, num1_tr. lra.
Qed.
Lemma up_judge force : judge force (43 / 25) 0 (48 / 25) (/ 2) (13 / 5) = Val (if force then Keep 3 else GiveUp).
Proof.
  unfold judge. rewrite fdiv_nz by lra. cbn [bind]. replace ((13 / 5 - 43 / 25 - 48 / 25 * / 2) / (/ 2 * / 2 * / 2)) with (- (16 / 25)) by field. destruct (Reqb_spec (- (16 / 25)) 0); [lra|].
  destruct (Rltb_spec (- (16 / 25)) 0); [|lra]. cbn [orb]. destruct force; [|reflexivity]. do 2 f_equal. field.
Qed.

(** The run: the shift uphill is kept, and the next iteration finds the trace converged. *)
Lemma up_run only quick reset fuel : exists Y e, full_solver ex_potr ex_heev ex_opA None None None false false false false reset (/ 2) true only quick 2 fuel up_Y = Some (Val (Some ([13 / 5; 43 / 25], Y, e))).
Proof.
  pose proof (ex_ok None (or_introl eq_refl)) as Ok. pose proof Ok as [Hp Pok Eok DA DB HhA HhB OA OB KOK OP PP PB]. unfold full_solver.
  unfold start. cbn [constrain bind]. set (s := {| s_Y := up_Y |}). cbn [moves]. unfold move at 1. cbn [a_s a_linmin andb negb].
  destruct (up_aim 0 s reset (/ 2) (Z.le_refl 0) up_fields) as (h & YA & D & t & Q & -> & Hh & HYA & HD & HQ). unfold approximate. cbn [a_s s_prev_theta s s_prev_E].
  destruct (up_try h D Q Hh HD HQ) as (tr & -> & En & Ed & Et & E2 & HY & HU). rewrite Ed, Et, E2, up_judge. cbn [bind constrain a_only a_impr].
  set (s' := {| s_Y := tr_Y tr |}). assert (Ec : choose true quick 0 s' false only 0 3 = {| a_s := s'; a_linmin := false; a_only := only; a_impr := 0 |}).
  { unfold choose. destruct (Rltb_spec 0 0); [lra|]. rewrite andb_false_r. reflexivity. }
  rewrite Ec. unfold move. cbn [a_s]. unfold aim. cbn [s_Y s'].
  destruct (plain (/ 2) 1 (tr_Y tr)) as (h' & c & -> & Hc & Ecc & Hh'); [lra|exact HY|]. cbn [bind].
  destruct (energy_ok 2 1 ex_opA exA (mid 2) Hp DB HhB OA h' _ _ Hh') as (G & S & -> & HG & HS). cbn [bind].
  assert (Ev : value 2 1 exA (col (c * / 2) (c * 1)) (num1 1) = 13 / 5) by (rewrite value1; nra). unfold value in Ev. rewrite Ev. change (s_prev_E s') with (43 / 25). change ((0 <? 0 + 1)%Z) with true. cbn [andb].
  destruct (Rltb_spec (Rabs (13 / 5 - 43 / 25)) (/ 2 * / 2 * (13 / 5 + 43 / 25 + / 10000000))) as [_|Hn]; [|exfalso; apply Hn; rewrite Rabs_right; lra]. cbn [bind].
  destruct (finish_ok 2 1 ex_potr ex_heev ex_opA None None None false exA (mid 2) (mid 2) Ok h' _ _ Hh') as (Y & e & M1 & -> & _). cbn [bind]. exists Y, e. reflexivity.
Qed.

(** The slope the exact line minimization is given after the approximate one has given up. *)
Lemma up_slope h YA D Q : headed_ok 2 1 (mid 2) h up (num1 1) -> square 1 YA (mmul 1 (form 2 exA up up) (num1 1)) -> fields 2 1 D upD -> fields 2 1 Q (gradm 2 1 exA (mid 2) up (num1 1)) ->
  exists tr Yr D' tf ds d2E, try_shift ex_potr ex_opA None (h_Y h) D Q (/ 2) = Val tr /\ judge false (43 / 25) 0 (tr_dE tr) (tr_t tr) (tr_E2 tr) = Val GiveUp /\
    evectmatrix_aXpbY 1 (tr_Y tr) (- tr_t tr / tr_norm tr) D = Val Yr /\ fields 2 1 Yr up /\
    line_data ex_opA None {| h_Y := Yr; h_BY := h_BY h; h_YtBY := h_YtBY h; h_U := tr_U tr; h_re := h_re h |} YA D = Val (D', tf, ds, 192 / 125, d2E) /\ fields 2 1 D' (col (- (3 / 5)) (4 / 5)).
Proof.
  intros Hh HYA HD HQ. pose proof (ex_ok None (or_introl eq_refl)) as Ok. destruct (up_try h D Q Hh HD HQ) as (tr & Etr & En & Ed & Et & E2 & HY & HU).
  destruct (eshift_ok 2 1 (- tr_t tr / tr_norm tr) (tr_Y tr) _ D upD HY HD) as (Yr & EY & HYr).
  assert (ES : shifted (- tr_t tr / tr_norm tr) (col (/ 2) 1) upD = up) by (rewrite Et, En; unfold upD, up; rewrite col_shift; f_equal; field). rewrite ES in HYr.
  pose proof (line_data_with 2 1 ex_potr ex_heev ex_opA None None None false exA (mid 2) (mid 2) Ok h up (num1 1) (num1 (4 / 5)) Yr (tr_U tr) (h_re h) YA D upD Hh HYr HU (num1_herm _) HYA HD) as Ld.
  assert (Tr : re (mtr 1 (form 2 (mid 2) upD upD)) = 576 / 625) by (unfold upD; rewrite formB, num1_tr; field). rewrite Tr in Ld. destruct (Rlt_dec 0 (576 / 625)) as [_|Hn]; [|exfalso; apply Hn; lra].
  destruct Ld as (a & D' & tf & ds & d2E & Ha & El & HD' & Ln & _ & Ha2).
  exists tr, Yr, D', tf, ds, d2E. split; [exact Etr|]. split; [rewrite Ed, Et, E2; apply (up_judge false)|]. split; [exact EY|]. split; [exact HYr|].
  change (IZR (Z.of_nat 1)) with 1 in Ha2. assert (a = 25 / 24) by nra. subst a. unfold upD in HD', El. rewrite col_scal in HD', El.
  replace (25 / 24 * - (72 / 125)) with (- (3 / 5)) in HD', El by field. replace (25 / 24 * (96 / 125)) with (4 / 5) in HD', El by field. split; [|exact HD']. rewrite El. unfold dE_with, up. rewrite !formB, !formA, !num1_sym, !num1_mul, !num1_tr. do 3 f_equal. field.
Qed.
Lemma up_true : trace_slope 2 1 exA (mid 2) up (col (- (3 / 5)) (4 / 5)) (48 / 25).
Proof.
  pose proof (ex_ok None (or_introl eq_refl)) as Ok. replace (48 / 25) with (dE_of 2 1 exA (mid 2) up (col (- (3 / 5)) (4 / 5)) (num1 1)).
  - apply (slope_ok 2 1 ex_potr ex_heev ex_opA None None None false exA (mid 2) (mid 2) Ok); try apply col_dim.
    + apply col_ind. lra.
    + rewrite up_form. replace 1 with (/ 1) at 2 by field. apply inv1. lra.
  - unfold dE_of, up. rewrite !formB, !formA, !num1_sym, !num1_mul, !num1_tr. field.
Qed.
Lemma up_wrong : ~ trace_slope 2 1 exA (mid 2) up (col (- (3 / 5)) (4 / 5)) (192 / 125).
Proof.
  intros W. set (q := fun t : R => (4 / 5 + t * - (3 / 5)) * (4 / 5 + t * - (3 / 5)) + (3 / 5 + t * (4 / 5)) * (3 / 5 + t * (4 / 5))).
  set (f := fun t : R => ((4 / 5 + t * - (3 / 5)) * (4 / 5 + t * - (3 / 5)) + 3 * ((3 / 5 + t * (4 / 5)) * (3 / 5 + t * (4 / 5)))) * / q t).
  assert (Hf : forall t e, rayleigh 2 1 exA (mid 2) (shifted t up (col (- (3 / 5)) (4 / 5))) e -> f t = e).
  { intros t e (N & DN & FN & ->). unfold up in FN |- *. rewrite col_shift in FN |- *. rewrite formB in FN. rewrite formA. fold (q t) in FN. assert (Hq : 0 < q t) by (unfold q; nra).
    rewrite (inv1_unique (q t) N); [|lra|split; assumption]. rewrite num1_mul, num1_tr. reflexivity. }
  pose proof (uniqueness_limite _ _ _ _ (W f Hf) (up_true f Hf)). lra.
Qed.
