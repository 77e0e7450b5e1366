(** Property C81: the eigensolver with both kinds of line minimization (src/matrices/eigensolver.c). *)
From Coq Require Import List ZArith Reals Bool Arith Lia Lra.
From Verif Require Import Base RC Loops M_Evect M_Lin M_Eig M_Apx S_Evect S_Lin S_Eig S_Apx L_Mat L_Eig2 L_Eig5 L_Eig6 L_Eig7 L_Eig8 L_Eig9 L_Eig10 L_Eig11 L_Eig12 L_Eig13 L_EigEx L_Apx1 L_Apx2 L_Apx3 L_Apx4 L_ApxEx P_Eig.
Import ListNotations.
Local Open Scope R_scope.

(** With EIGS_FORCE_EXACT_LINMIN, or if the approximate line minimization never seems worth while,
    the run is that of C70 to C73. *)
Theorem C81_exact : forall potr heev opA opB opK constraint cg pr project reorth reset tol only quick k fuel Y, (only = true \/ forall i, quick i = false) ->
  full_solver potr heev opA opB opK constraint cg pr project reorth reset tol false only quick k fuel Y = eigensolver potr heev opA opB opK constraint cg pr project reorth reset tol k fuel Y.
Proof.
  intros potr heev opA opB opK constraint cg pr project reorth reset tol only quick k fuel Y On. unfold full_solver, eigensolver. destruct (start constraint Y) as [s| | |]; try reflexivity. rewrite moves_loop by (auto; reflexivity). reflexivity.
Qed.
Print Assumptions C81_exact.
Example C81_exact_example : exists Y e, full_solver ex_potr ex_heev ex_opA None (Some ex_K) None false false false false (fun _ => false) (/ 10) false true (fun _ => true) 2 0 ex_Y = Some (Val (Some ([1; 1], Y, e))).
Proof. destruct ex_run as (Y & e & E). exists Y, e. rewrite C81_exact by auto. exact E. Qed.

(** What a run returns, whichever line minimizations it used. *)
Theorem C81_result : forall n p potr heev opA opB opK constraint cg pr project reorth reset tol force only quick A B P k fuel Y M Es Y' e,
  solver_ok n p potr heev opA opB opK constraint project A B P -> fields n p Y M ->
  full_solver potr heev opA opB opK constraint cg pr project reorth reset tol force only quick k fuel Y = Some (Val (Some (Es, Y', e))) ->
  rayleigh n p A B (mmul n P M) (last Es 0) /\
  exists M', fields n p Y' M' /\ satisfies n P M' /\ form n B M' M' = mid p /\ form n A M' M' = mdiag p (fun i => nth i e 0) /\
    length e = p /\ (forall i j, (i <= j < p)%nat -> nth i e 0 <= nth j e 0) /\
    exists E r, Es = E :: r /\ rsum p (fun i => nth i e 0) = E /\ (r <> [] -> Rabs (E - hd 0 r) < tol * / 2 * (E + hd 0 r + / 10000000)).
Proof.
  intros n p potr heev opA opB opK constraint cg pr project reorth reset tol force only quick A B P k fuel Y M Es Y' e Ok HY. unfold full_solver.
  destruct (start_ok n p potr heev opA opB opK constraint project A B P Ok Y M HY) as (s & -> & St & Ht & _). set (w := {| a_s := s |}).
  assert (An : angle_ok force w) by (intros _; cbn; rewrite Ht, Rabs_right by lra; pose proof PI2_1; lra).
  destruct (moves _ _ _ _ _ _ _ _ _ _ _ _ _ _ _ _ _ _ _) as [[(Es' & [h|])| | |]|] eqn:L; try discriminate; cbn [bind].
  destruct (moves_ok n p potr heev opA opB opK constraint cg pr project reorth reset tol force quick A B P Ok k fuel 0 w [] _ _ _ _ St An ltac:(discriminate) L) as ((l & El & _ & Hl) & E0 & r & MY & N & EE & Hh & KM & EV & Cv).
  destruct (finish_ok n p potr heev opA opB opK constraint project A B P Ok h MY N Hh) as (Y1 & e1 & M1 & -> & Le & HY1 & Sp & FB & FA & Asc). cbn [bind]. intros [= <- <- <-]. rewrite app_nil_r in El. subst l.
  split; [apply Hl; rewrite EE; discriminate|]. exists M1. split; [exact HY1|]. split; [apply (kept_span n p P MY); auto|]. repeat (split; [assumption|]). exists E0, r. split; [exact EE|]. split; [|exact Cv].
  rewrite EV. symmetry. apply (finish_sum n p potr heev opA opB opK constraint project A B P Ok h MY N M1 _ Hh Sp FB FA).
Qed.
Print Assumptions C81_result.
(** Nothing returned lies below the exact values. *)
Theorem C81_above : forall n p potr heev opA opB opK constraint cg pr project reorth reset tol force only quick A B P k fuel Y M Es Y' e m V lam,
  solver_ok n p potr heev opA opB opK constraint project A B P -> fields n p Y M -> modes n m P A B V lam ->
  full_solver potr heev opA opB opK constraint cg pr project reorth reset tol force only quick k fuel Y = Some (Val (Some (Es, Y', e))) ->
  (forall i, (i < p)%nat -> (i < m)%nat /\ lam i <= nth i e 0) /\ (forall i, (i < length Es)%nat -> rsum p lam <= nth i Es 0).
Proof.
  intros n p potr heev opA opB opK constraint cg pr project reorth reset tol force only quick A B P k fuel Y M Es Y' e m V lam Ok HY Md R. split.
  - destruct (C81_result n p potr heev opA opB opK constraint cg pr project reorth reset tol force only quick A B P k fuel Y M Es Y' e Ok HY R) as (_ & M' & HM & SM & FB & FA & _ & Asc & _).
    destruct Ok as [Hp Pok Eok DA DB HA HB _ _ _ _ _ _]. apply (above n p m P A B V lam M' (fun i => nth i e 0)); auto; apply (fields_dim _ _ _ _ HM).
  - revert R. unfold full_solver. destruct (start_ok n p potr heev opA opB opK constraint project A B P Ok Y M HY) as (s & -> & St & Ht & _). set (w := {| a_s := s |}).
    assert (An : angle_ok force w) by (intros _; cbn; rewrite Ht, Rabs_right by lra; pose proof PI2_1; lra).
    destruct (moves _ _ _ _ _ _ _ _ _ _ _ _ _ _ _ _ _ _ _) as [[(Es' & [h|])| | |]|] eqn:L; try discriminate; cbn [bind].
    destruct (moves_ok n p potr heev opA opB opK constraint cg pr project reorth reset tol force quick A B P Ok k fuel 0 w [] _ _ _ _ St An ltac:(discriminate) L) as ((l & El & Fl & _) & _).
    destruct (finish _ _ _ _ _) as [(Y1 & e1)| | |]; try discriminate; cbn [bind]. intros [= <- _ _]. rewrite app_nil_r in El. subst l. intros i Hi.
    apply (found_above n p potr heev opA opB opK constraint project A B P Ok _ m V lam Md). rewrite Forall_forall in Fl. apply Fl, nth_In, Hi.
Qed.
Print Assumptions C81_above.

(** No access outside the arrays. *)
Theorem C81_safe : forall n p potr heev opA opB opK constraint cg pr project reorth reset tol force only quick A B P k fuel Y M,
  solver_ok n p potr heev opA opB opK constraint project A B P -> fields n p Y M ->
  full_solver potr heev opA opB opK constraint cg pr project reorth reset tol force only quick k fuel Y <> Some UB.
Proof.
  intros n p potr heev opA opB opK constraint cg pr project reorth reset tol force only quick A B P k fuel Y M Ok HY. unfold full_solver.
  destruct (start_ok n p potr heev opA opB opK constraint project A B P Ok Y M HY) as (s & -> & St & Ht & _). set (w := {| a_s := s |}).
  assert (An : angle_ok force w) by (intros _; cbn; rewrite Ht, Rabs_right by lra; pose proof PI2_1; lra).
  pose proof (moves_safe n p potr heev opA opB opK constraint cg pr project reorth reset tol force quick A B P Ok k fuel 0 w [] _ _ St An) as Sf.
  destruct (moves _ _ _ _ _ _ _ _ _ _ _ _ _ _ _ _ _ _ _) as [[(Es' & [h|])| | |]|] eqn:L; try discriminate; try congruence; cbn [bind].
  destruct (moves_ok n p potr heev opA opB opK constraint cg pr project reorth reset tol force quick A B P Ok k fuel 0 w [] _ _ _ _ St An ltac:(discriminate) L) as (_ & E0 & r & MY & N & _ & Hh & _).
  destruct (finish_ok n p potr heev opA opB opK constraint project A B P Ok h MY N Hh) as (Y1 & e1 & M1 & -> & _). discriminate.
Qed.
Print Assumptions C81_safe.
(** The checks in an iteration fail only if the approximate line minimization shifts independent
    fields to dependent ones. *)
Theorem C81_checks : forall n p potr heev opA opB opK constraint cg pr project reorth reset tol force quick A B P fuel it w M MD,
  solver_ok n p potr heev opA opB opK constraint project A B P -> state_ok n p P (a_s w) M MD -> 0 <= tol -> (a_linmin w && negb force = true -> Rabs (s_prev_theta (a_s w)) <= PI) ->
  move potr heev opA opB opK constraint cg pr project reorth reset tol force quick fuel it w = Some Abort ->
  a_linmin w && negb force = false /\ independent n p B M /\ exists Y D x, respan p M Y /\ mdim n p D /\ ~ independent n p B (shifted x Y D).
Proof.
  intros n p potr heev opA opB opK constraint cg pr project reorth reset tol force quick A B P fuel it w M MD Ok St Tol An Mv.
  pose proof (move_ok n p potr heev opA opB opK constraint cg pr project reorth reset tol force quick A B P Ok fuel it w M MD St An) as H. rewrite Mv in H. exact (H Tol).
Qed.
Print Assumptions C81_checks.

(** One iteration from the fields M with the trace E to the fields M'.  The exact line minimization
    does not raise the trace, also when the approximate one has given up before (then it is not used
    again).  The approximate one shifts along a direction D of norm one, with dE the slope of the
    trace there: it evaluates the trace E2 after a shift t of the size of the last one, uphill, and
    shifts to the minimum of the parabola through E and E2 with the slope dE; only if the approximate
    line minimization is forced does it stay at t instead. *)
Theorem C81_step : forall n p potr heev opA opB opK constraint cg pr project reorth reset tol force quick A B P fuel it w M MD E w',
  solver_ok n p potr heev opA opB opK constraint project A B P -> state_ok n p P (a_s w) M MD -> (a_linmin w && negb force = true -> Rabs (s_prev_theta (a_s w)) <= PI) ->
  move potr heev opA opB opK constraint cg pr project reorth reset tol force quick fuel it w = Some (Val (MAgain E w')) ->
  rayleigh n p A B M E /\ s_prev_E (a_s w') = E /\ exists M' MD', state_ok n p P (a_s w') M' MD' /\
    ((forall E', independent n p B M' -> rayleigh n p A B M' E' -> E' <= E) /\
       (if a_linmin w && negb force then a_only w' = a_only w /\ (a_only w = true -> a_linmin w' = true) else force = false /\ a_only w' = true /\ a_linmin w' = true)
     \/ a_linmin w && negb force = false /\ a_only w' = a_only w /\
        exists Y D dE t E2 x, respan p M Y /\ mdim n p D /\ unit_norm n p B D /\ trace_slope n p A B Y D dE /\ Rabs t = Rabs (s_prev_theta (a_s w)) /\ 0 <= dE * t /\ rayleigh n p A B (shifted t Y D) E2 /\
          M' = shifted x Y D /\ (fitted E (s_prev_E (a_s w)) dE t E2 x \/ force = true /\ x = t)).
Proof.
  intros n p potr heev opA opB opK constraint cg pr project reorth reset tol force quick A B P fuel it w M MD E w' Ok St An Mv.
  pose proof (move_ok n p potr heev opA opB opK constraint cg pr project reorth reset tol force quick A B P Ok fuel it w M MD St An) as H. rewrite Mv in H.
  destruct H as (_ & Ry & _ & Pe & _ & M' & MD' & St' & H). split; [exact Ry|]. split; [exact Pe|]. exists M', MD'. split; [exact St'|]. destruct H as [H|(H1 & H2 & Y & Sp & D & dE & t & E2 & x & H3)]; [left; exact H|right].
  split; [exact H1|]. split; [exact H2|]. exists Y, D, dE, t, E2, x. split; [exact Sp|exact H3].
Qed.
Print Assumptions C81_step.
(** Unless it is forced, the approximate line minimization is taken up only after an exact one that
    improved the trace by at most 5%. *)
Theorem C81_switch : forall n p potr heev opA opB opK constraint cg pr project reorth reset tol quick A B P fuel it w M MD E w',
  solver_ok n p potr heev opA opB opK constraint project A B P -> state_ok n p P (a_s w) M MD -> a_linmin w = true ->
  move potr heev opA opB opK constraint cg pr project reorth reset tol false quick fuel it w = Some (Val (MAgain E w')) -> a_linmin w' = false ->
  a_only w' = false /\ quick it = true /\ exists M', fields n p (s_Y (a_s w')) M' /\ forall E', independent n p B M' -> rayleigh n p A B M' E' -> E' < E /\ 40 * (E - E') <= Rabs (E + E').
Proof.
  intros n p potr heev opA opB opK constraint cg pr project reorth reset tol quick A B P fuel it w M MD E w' Ok St Lm Mv. exact (switch_ok n p potr heev opA opB opK constraint cg pr project reorth reset tol quick A B P Ok fuel it w M MD E w' St Lm Mv).
Qed.
Print Assumptions C81_switch.

(** A forced run in which the trace rises, and that ends with a trace above that of the given fields. *)
Example C81_example : solver_ok 2 1 ex_potr ex_heev ex_opA None None None false exA (mid 2) (mid 2) /\ fields 2 1 up_Y up /\ modes 2 2 (mid 2) exA (mid 2) (mid 2) (fun i => if (i =? 0)%nat then 1 else 3) /\
  forall only quick reset fuel, exists Y e, full_solver ex_potr ex_heev ex_opA None None None false false false false reset (/ 2) true only quick 2 fuel up_Y = Some (Val (Some ([13 / 5; 43 / 25], Y, e))).
Proof. split; [apply ex_ok; left; reflexivity|]. split; [apply up_fields|]. split; [apply ex_modes|]. intros. apply up_run. Qed.
Theorem C81_falling_refuted : exists n p potr heev opA opB opK constraint project A B P Y M, solver_ok n p potr heev opA opB opK constraint project A B P /\ fields n p Y M /\ satisfies n P M /\ independent n p B M /\
  exists cg pr reorth tol, forall reset only quick fuel, exists Es Y' e, full_solver potr heev opA opB opK constraint cg pr project reorth reset tol true only quick 2 fuel Y = Some (Val (Some (Es, Y', e))) /\ last Es 0 < hd 0 Es.
Proof.
  exists 2%nat, 1%nat, ex_potr, ex_heev, ex_opA, None, None, None, false, exA, (mid 2), (mid 2), up_Y, up. split; [apply ex_ok; left; reflexivity|]. split; [apply up_fields|]. split; [apply (mid_l 2 1), col_dim|]. split; [apply col_ind; lra|].
  exists false, false, false, (/ 2). intros reset only quick fuel. destruct (up_run only quick reset fuel) as (Y & e & R). exists [13 / 5; 43 / 25], Y, e. split; [exact R|]. cbn [last hd]. lra.
Qed.
Print Assumptions C81_falling_refuted.
(** When the approximate line minimization gives up, U holds the inverse for the shifted fields, and
    the slope given to the exact one is not that of the trace: here 192/125 for 48/25. *)
Theorem C81_slope_refuted : exists n p potr heev opA opB opK constraint project A B P s M,
  solver_ok n p potr heev opA opB opK constraint project A B P /\ fields n p (s_Y s) M /\ satisfies n P M /\ independent n p B M /\
  exists E h YA D t Q tr Yr D' tf ds dE d2E, aim potr heev opA opB opK constraint false false project false (fun _ => false) (/ 2) 0 s = Val (AAimed E h YA D t Q) /\
    try_shift potr opA opB (h_Y h) D Q (s_prev_theta s) = Val tr /\ judge false E (s_prev_E s) (tr_dE tr) (tr_t tr) (tr_E2 tr) = Val GiveUp /\
    evectmatrix_aXpbY 1 (tr_Y tr) (- tr_t tr / tr_norm tr) D = Val Yr /\ fields n p Yr M /\
    line_data opA opB {| h_Y := Yr; h_BY := h_BY h; h_YtBY := h_YtBY h; h_U := tr_U tr; h_re := h_re h |} YA D = Val (D', tf, ds, dE, d2E) /\
    exists MD', fields n p D' MD' /\ ~ trace_slope n p A B M MD' dE /\ exists true_slope, trace_slope n p A B M MD' true_slope.
Proof.
  exists 2%nat, 1%nat, ex_potr, ex_heev, ex_opA, None, None, None, false, exA, (mid 2), (mid 2). set (s := {| s_Y := up_Y; s_D := up_Y; s_prev_G := up_Y; s_d_scale := 1; s_prev_traceGtX := 0; s_prev_theta := / 2; s_prev_E := 0 |}). exists s, up.
  split; [apply ex_ok; left; reflexivity|]. split; [apply up_fields|]. split; [apply (mid_l 2 1), col_dim|]. split; [apply col_ind; lra|].
  destruct (up_aim 0 s (fun _ => false) (/ 2) (Z.le_refl 0) up_fields) as (h & YA & D & t & Q & Ea & Hh & HYA & HD & HQ). destruct (up_slope h YA D Q Hh HYA HD HQ) as (tr & Yr & D' & tf & ds & d2E & E1 & E2 & E3 & HYr & E4 & HD').
  exists (43 / 25), h, YA, D, t, Q, tr, Yr, D', tf, ds, (192 / 125), d2E. repeat (split; [assumption|]). eexists. split; [exact HD'|]. split; [apply up_wrong|]. exists (48 / 25). apply up_true.
Qed.
Print Assumptions C81_slope_refuted.
