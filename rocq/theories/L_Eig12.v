(** The whole eigensolver, and what happens at an exact solution. *)
From Coq Require Import List ZArith Reals Bool Arith Lia Lra.
From Verif Require Import Base RC Loops M_Evect M_Lin M_Eig S_Evect S_Lin S_Eig L_Evect L_Evect3 L_Lin P_Lin L_Mat L_Eig L_Eig2 L_Eig3 L_Eig4 L_Eig5 L_Eig6 L_Eig7 L_Eig8 L_Eig9 L_Eig10 L_Eig11.
Import ListNotations.
Local Open Scope R_scope.

Lemma mzero_mul k M : mmul k M mzero = mzero.
Proof. apply mmul_zero_r. Qed.
Lemma mscal_zero a : mscal a mzero = mzero.
Proof. apply mext; intros i j. unfold mscal, mzero. cring. Qed.
Lemma madd_zero_r M : madd M mzero = M.
Proof. apply mext; intros i j. unfold madd, mzero. cring. Qed.
Lemma mscal_0 M : mscal 0 M = mzero.
Proof. apply mext; intros i j. unfold mscal, mzero. cring. Qed.
Lemma madd_opp M : madd M (mscal (-1) M) = mzero.
Proof. apply mext; intros i j. unfold madd, mscal, mzero. cring. Qed.
Lemma line_exists n p A B Y D : mdim n n A -> mdim n n B -> mdim n p Y -> mdim n p D -> exists d, line_of n p A B Y D d /\ nolag d.
Proof.
  intros DA DB DY DD.
  assert (Sq : forall M, mdim p p M -> exists S, square p S M).
  { intros M DM. destruct (rep_exists p p M DM) as (l & Ll & _ & Hl). exists {| sp := Z.of_nat p; salloc := Z.of_nat p; sdata := firstn (p * p) l |}. split; [reflexivity|]. cbn [sdata]. split; [unfold wfs; cbn [sp salloc sdata]; rewrite firstn_length; lia|].
    split; [rewrite firstn_length; lia|]. split; [exact DM|]. intros i j Hi Hj. rewrite <- (Hl i j Hi Hj). pose proof (flat_lt p p i j Hi Hj) as Lt. transitivity (nth (i * p + j) (firstn (p * p) l ++ skipn (p * p) l) C0); [symmetry; apply app_nth1; rewrite firstn_length; lia|rewrite firstn_skipn; reflexivity]. }
  assert (Hs : forall A, mdim n n A -> mdim p p (mscal (/ 2) (madd (form n A Y D) (form n A D Y)))) by (intros; apply mdim_scal, mdim_add; apply form_dim; auto).
  destruct (Sq (form n A Y Y)) as (s1 & H1); [apply form_dim; auto|]. destruct (Sq (form n A D D)) as (s2 & H2); [apply form_dim; auto|]. destruct (Sq _ (Hs A DA)) as (s3 & H3).
  destruct (Sq (form n B Y Y)) as (s4 & H4); [apply form_dim; auto|]. destruct (Sq (form n B D D)) as (s5 & H5); [apply form_dim; auto|]. destruct (Sq _ (Hs B DB)) as (s6 & H6).
  exists {| t_YtAY := s1; t_DtAD := s2; t_symYtAD := s3; t_YtBY := s4; t_DtBD := s5; t_symYtBD := s6; t_lag := 0; t_d_lag := 0; t_YtLY := 0; t_DtLD := 0; t_YtLD := 0 |}.
  split; [unfold line_of; cbn; auto 8|repeat split].
Qed.

Section Solver.
Variables (n p : nat) (potr : Z -> list C -> option (list C)) (heev : Z -> list C -> list C * list R).
Variables (opA : emat C -> outcome (emat C)) (opB : option (emat C -> outcome (emat C))).
Variables (opK : option (emat C -> emat C -> smat C -> outcome (emat C))) (constraint : option (emat C -> outcome (emat C))).
Variables (cg pr project reorth : bool) (reset : Z -> bool) (tolerance : R) (HA HB HP : mat).
Hypothesis Ok : solver_ok n p potr heev opA opB opK constraint project HA HB HP.
Let Hp := ok_p _ _ _ _ _ _ _ _ _ _ _ _ Ok. Let Pok := ok_potr _ _ _ _ _ _ _ _ _ _ _ _ Ok. Let Eok := ok_heev _ _ _ _ _ _ _ _ _ _ _ _ Ok.
Let DA := ok_dimA _ _ _ _ _ _ _ _ _ _ _ _ Ok. Let DB := ok_dimB _ _ _ _ _ _ _ _ _ _ _ _ Ok. Let HhA := ok_hermA _ _ _ _ _ _ _ _ _ _ _ _ Ok. Let HhB := ok_hermB _ _ _ _ _ _ _ _ _ _ _ _ Ok.
Let OA := ok_A _ _ _ _ _ _ _ _ _ _ _ _ Ok. Let OB := ok_B _ _ _ _ _ _ _ _ _ _ _ _ Ok.
Let OP := ok_P _ _ _ _ _ _ _ _ _ _ _ _ Ok. Let PP := ok_idem _ _ _ _ _ _ _ _ _ _ _ _ Ok.

Lemma start_ok Y M : fields n p Y M -> exists s, start constraint Y = Val s /\ state_ok n p HP s (mmul n HP M) mzero /\ s_prev_theta s = / 2 /\ s_prev_traceGtX s = 0.
Proof.
  intros HY. unfold start. destruct (constrain_ok n p constraint HP OP Y M HY) as (Y' & -> & HY'). cbn [bind]. eexists. split; [reflexivity|]. cbn [s_prev_theta s_prev_traceGtX]. split; [|split; reflexivity].
  assert (Hz : fields n p (set_data Y (map (fun _ => C0) (edata Y))) mzero).
  { apply (fields_set n p Y M); auto; [apply map_length|]. destruct HY as (_ & _ & _ & L & _). split; [rewrite map_length; exact L|]. split; [intros i j _; reflexivity|]. intros i j _ _. unfold mzero. generalize (i * p + j)%nat (edata Y). clear. intros k l. revert k. induction l as [|a l IH]; intros [|k]; cbn; auto. }
  split; [exact HY'|]. split; [apply kept_proj; exact PP|]. split; [exact Hz|]. split; [apply mzero_mul|]. exists mzero. exact Hz.
Qed.

(** ** A stationary start *)
Lemma stationary_grad h MY N T : headed_ok n p HB h MY N -> mdim p p T -> mmul n HA MY = mmul p (mmul n HB MY) T -> gradm n p HA HB MY N = mzero.
Proof.
  intros (HY & _ & _ & _ & _ & Inv) DT E. pose proof (fields_dim _ _ _ _ HY) as DM. destruct (inv_both p (form n HB MY MY) N) as (_ & NF); [apply form_dim; auto|apply form_herm; exact HhB|exact Inv|].
  unfold gradm. assert (EF : mmul p N (form n HA MY MY) = T).
  { unfold form. rewrite E, <- (mmul_assoc n p (madj MY)), <- mmul_assoc. change (mmul n (madj MY) (mmul n HB MY)) with (form n HB MY MY). rewrite NF. apply (mid_l p p). exact DT. }
  rewrite <- (mmul_assoc p p N (form n HA MY MY)), EF, <- (mmul_assoc n p HA), E, (mmul_assoc p p). apply madd_opp.
Qed.
Lemma precondition_zero h MY N G : opK = None -> headed_ok n p HB h MY N -> fields n p G mzero -> exists X, precondition opK constraint project h G = Val X /\ fields n p X mzero.
Proof.
  intros -> (HY & HBY & HF & Ind & HU & Inv) HG. unfold precondition. rewrite (proj1 (proj2 HY)). pose proof (create_square p) as HW.
  destruct (ecopy_ok n p G _ G _ HG HG) as (X & -> & HX). cbn [bind]. destruct (constrain_ok n p constraint HP OP X _ HX) as (X1 & -> & HX1). cbn [bind]. rewrite mzero_mul in HX1. destruct project; [|exists X1; auto].
  destruct (XtY_ok n p _ _ (h_Y h) MY X1 _ _ _ HW HW HY HX1) as (S1 & -> & HS1). cbn [bind].
  destruct (AeBC_ok p _ _ (h_U h) N false S1 _ false HW HU HS1) as (S2 & -> & HS2). cbn [bind opm] in *.
  destruct (XpaYS_ok n p X1 _ (-1) (h_BY h) _ S2 _ false Hp HX1 HBY HS2) as (X2 & E & HX2). exists X2. split; [exact E|]. cbn [opm] in HX2. rewrite !mzero_mul, mscal_zero, madd_zero_r in HX2. exact HX2.
Qed.
Lemma direction_zero it s h MY MD G MG X : s_prev_traceGtX s = 0 -> state_ok n p HP s MY MD -> fields n p G MG -> fields n p X mzero ->
  exists D t Q, direction cg pr reset it s h G X = Val (D, t, Q) /\ fields n p D mzero.
Proof.
  intros Z (HY & KY & HD & KD & MQ0 & HQ0) HG HX. unfold direction. rewrite (traceXtY_ok n p G MG X mzero HG HX). cbn [bind]. destruct cg.
  - set (num := if pr then _ else _).
    assert (Nm : exists x, num = Val (x, G)).
    { unfold num. destruct pr; [|eauto]. destruct (diff_ok n p G MG _ _ HG HQ0) as (G' & -> & HG'). cbn [bind]. rewrite (traceXtY_ok n p G' _ X mzero HG' HX). cbn [bind]. eauto. }
    destruct Nm as (x & ->). cbn [bind]. rewrite Z. replace (if h_re h then 0 else 0) with 0 by (destruct (h_re h); reflexivity). destruct (Reqb_spec 0 0) as [_|]; [|lra]. cbn [bind].
    replace (if reset it then 0 else 0) with 0 by (destruct (reset it); reflexivity).
    destruct (eaXpbY_ok n p (0 * s_d_scale s) (s_D s) MD 1 X mzero HD HX) as (D & -> & HD'). cbn [bind]. exists D, (re (mtr p (mmul n (madj MG) mzero))), G. split; [reflexivity|]. rewrite Rmult_0_l, mscal_0, mscal_zero, madd_zero_r in HD'. exact HD'.
  - eexists X, _, G. split; [reflexivity|exact HX].
Qed.
Lemma stationary_step it s M MD T : opK = None -> (it <= 0)%Z -> state_ok n p HP s M MD -> s_prev_traceGtX s = 0 -> independent n p HB M -> mdim p p T -> mmul n HA M = mmul p (mmul n HB M) T ->
  prepare potr heev opA opB opK constraint cg pr project reorth reset tolerance it s = NonFin.
Proof.
  intros EK Hit St Z Ind DT E. pose proof St as (HY & KY & _). unfold prepare, aim. pose proof (head_ok n p potr heev opB HB Hp Pok Eok DB HhB OB reorth (s_Y s) M HY) as Hd.
  destruct (head potr heev opB reorth (s_Y s)) as [[h|]| | |]; try contradiction; cbn [bind]. destruct Hd as (_ & MY & N & Sp & Hh).
  destruct (energy_ok n p opA HA HB Hp DB HhB OA h MY N Hh) as (G & S & -> & HG & HS). cbn [bind]. destruct (Z.ltb_spec 0 it); [lia|]. cbn [andb].
  destruct (gradient_ok n p HA HB Hp DB HhA HhB h MY N G S Hh HG HS) as (G' & -> & HG'). cbn [bind].
  assert (EG : gradm n p HA HB MY N = mzero).
  { destruct Sp as (U & U' & DU & DU' & U1 & U2 & ->). apply (stationary_grad h _ N (mmul p U' (mmul p T U)) Hh); [repeat (apply (mdim_mul p p p); auto)|].
    rewrite <- (mmul_assoc n p HA), E, !mmul_assoc. rewrite <- (mmul_assoc p p U U'), U1. rewrite (mid_l p p) by (apply (mdim_mul p p p); auto). reflexivity. }
  rewrite EG in HG'. destruct (precondition_zero h MY N G' EK Hh HG') as (X & -> & HX). cbn [bind].
  destruct (direction_zero it s h M MD G' _ X Z St HG' HX) as (D & t & Q & -> & HD). cbn [bind].
  pose proof (line_data_ok n p opA opB HA HB Hp DA DB HhA HhB OA OB h MY N S D _ Hh HS HD) as Ld. destruct (Rlt_dec 0 (re (mtr p (form n HB mzero mzero)))) as [Hl|Hl]; [|rewrite Ld; reflexivity].
  exfalso. unfold form in Hl. rewrite !mzero_mul in Hl. unfold mtr, mzero in Hl. rewrite csum_0 in Hl. cbn in Hl. lra.
Qed.
End Solver.
