(** Properties C70 to C73: the eigensolver (src/matrices/eigensolver.c). *)
From Coq Require Import List ZArith Reals Bool Arith Lia Lra.
From Verif Require Import Base RC Loops M_Evect M_Lin M_Eig S_Evect S_Lin S_Eig L_Mat L_Eig2 L_Eig5 L_Eig6 L_Eig7 L_Eig8 L_Eig9 L_Eig10 L_Eig11 L_Eig12 L_Eig13 L_Eig14 L_Eig15 L_EigEx.
Import ListNotations.
Local Open Scope R_scope.

(* ------------------------------------------------------------------ *)
(** * C70: the trace along a line and its derivatives *)

(** trace_func at the angle x is the trace for the fields turned by x, with the Lagrange term, and
    its second result is the derivative with respect to the angle. *)
Theorem C70_trace : forall n p potr d A B L Y D x, potr_ok p potr -> mdim n n A -> mdim n n B -> hermitian A -> hermitian B -> hermitian L -> mdim n p Y -> mdim n p D ->
  line_of n p A B Y D d -> lagrange_of n p L Y D d -> independent n p B (turned x Y D) ->
  exists E dE, trace_func potr d x = Val (E + lagrange n p L Y D d x, dE) /\ rayleigh n p A B (turned x Y D) E /\
    forall f, (forall t e, rayleigh n p A B (turned t Y D) e -> f t = e + lagrange n p L Y D d t) -> derivable_pt_lim f x dE.
Proof.
  intros n p potr d A B L Y D x Pok DA DB HA HB HL DY DD Ln Lg Ind. destruct (tf_value n p potr d A B Y D Pok HA HB Ln x Ind) as (N & Inv & E).
  rewrite (lagrange_eq n p L Y D d x HL Lg) in E. eexists _, _. split; [exact E|]. split; [exists N; split; [apply Inv|split; [apply Inv|reflexivity]]|].
  intros f Hf. apply (f_der n p potr d A B Y D Pok HA HB DB DY DD Ln f); auto. intros t e _ Ry. rewrite (lagrange_eq n p L Y D d t HL Lg). apply Hf. exact Ry.
Qed.
Print Assumptions C70_trace.
Example C70_trace_example : mdim 2 2 exA /\ hermitian exA /\ hermitian (mid 2) /\ mdim 2 1 e1 /\ mdim 2 1 e2 /\ potr_ok 1 ex_potr /\ (exists d, line_of 2 1 exA (mid 2) e1 e2 d) /\
  forall x, independent 2 1 (mid 2) (turned x e1 e2) /\ rayleigh 2 1 exA (mid 2) (turned x e1 e2) (cos x * cos x + 3 * (sin x * sin x)).
Proof.
  split; [apply exA_dim|]. split; [apply exA_herm|]. split; [apply mid_herm|]. split; [apply e1_dim|]. split; [apply e2_dim|]. split; [apply ex_potr_ok|]. split; [|apply ex_line].
  destruct (line_exists 2 1 exA (mid 2) e1 e2 exA_dim (mdim_id 2) e1_dim e2_dim) as (d & H & _). exists d. exact H.
Qed.

(** In an iteration the direction D is followed from the fields Y with the span of the previous
    ones: E is their trace, dE and d2E the first and the second derivative with respect to the angle
    at the start, and tf holds the matrices for trace_func. *)
Theorem C70_slope : forall n p potr heev opA opB opK constraint cg pr project reorth reset tol A B P it s M MD E h D t Q tf ds dE d2E,
  solver_ok n p potr heev opA opB opK constraint project A B P -> state_ok n p P s M MD ->
  prepare potr heev opA opB opK constraint cg pr project reorth reset tol it s = Val (PLine E h D t Q tf ds dE d2E) ->
  exists Y D', fields n p (h_Y h) Y /\ respan p M Y /\ fields n p D D' /\ satisfies n P D' /\ rayleigh n p A B Y E /\ line_of n p A B Y D' tf /\ lagrange_of n p (fun _ _ => C0) Y D' tf /\
    forall f g, (forall t e, rayleigh n p A B (turned t Y D') e -> f t = e) ->
      derivable_pt_lim f 0 dE /\ ((exists r, 0 < r /\ forall t, Rabs t < r -> derivable_pt_lim f t (g t)) -> derivable_pt_lim g 0 d2E).
Proof.
  intros n p potr heev opA opB opK constraint cg pr project reorth reset tol A B P it s M MD E h D t Q tf ds dE d2E Ok St Pr.
  pose proof (prepare_ok n p potr heev opA opB opK constraint cg pr project reorth reset tol A B P Ok it s M MD St) as H. rewrite Pr in H.
  destruct H as (Ind & MY & N & MD1 & Sp & Hh & KY & EE & HD & KD & HQ & Ln & Lz & E1 & E2 & _). pose proof Hh as (HY & _ & _ & Iy & _ & Inv). pose proof Ok as [Hp Pok Eok DA DB HA HB OA OB _ _ _ _].
  exists MY, MD1. repeat (split; [assumption|]). split; [rewrite EE; exists N; split; [apply Inv|split; [apply Inv|reflexivity]]|]. split; [exact Ln|]. split.
  { destruct Lz as (_ & _ & Z1 & Z2 & Z3). unfold lagrange_of. rewrite Z1, Z2, Z3. assert (F0 : forall X Z, re (mtr p (form n (fun _ _ => C0) X Z)) = 0).
    { intros X Z. assert (Fz : form n (fun _ _ => C0) X Z = fun _ _ => C0). { unfold form. change (fun _ _ : nat => C0) with L_Eig4.mzero. rewrite L_Eig4.mmul_zero_l. apply L_Eig4.mmul_zero_r. } rewrite Fz. unfold mtr. rewrite csum_0. reflexivity. }
    rewrite !F0. auto. }
  intros f g Hf. assert (DY : mdim n p MY) by apply (fields_dim _ _ _ _ HY). assert (DD : mdim n p MD1) by apply (fields_dim _ _ _ _ HD).
  assert (Hf' : forall t e, rayleigh n p A B (turned t MY MD1) e -> f t = e + lagt tf t) by (intros u e Ry; rewrite (proj1 (nolag_t tf u Lz)), Rplus_0_r; apply Hf; exact Ry). split.
  - assert (K := f_der n p potr tf A B MY MD1 Pok HA HB DB DY DD Ln f (fun t e _ => Hf' t e) 0 N ltac:(rewrite turned_0; exact Iy) ltac:(rewrite turned_0; exact Inv)). rewrite tder_0, (proj2 (nolag_t tf 0 Lz)), Rplus_0_r in K by auto. rewrite E1. exact K.
  - intros Hg. rewrite E2. apply (f_der2 n p potr tf A B MY MD1 Pok HA HB DB DY DD Ln f (fun t e _ => Hf' t e) N g); auto. intros u. apply (proj2 (nolag_t tf u Lz)).
Qed.
Print Assumptions C70_slope.

(** The gradient kept in prev_G gives the slope of the trace in every direction. *)
Theorem C70_gradient : forall n p potr heev opA opB opK constraint cg pr project reorth reset tol A B P it s M MD E h D t Q tf ds dE d2E,
  solver_ok n p potr heev opA opB opK constraint project A B P -> state_ok n p P s M MD ->
  prepare potr heev opA opB opK constraint cg pr project reorth reset tol it s = Val (PLine E h D t Q tf ds dE d2E) ->
  exists Y G, fields n p (h_Y h) Y /\ fields n p Q G /\
    forall X f, mdim n p X -> (forall t e, rayleigh n p A B (turned t Y X) e -> f t = e) -> derivable_pt_lim f 0 (2 * re (mtr p (mmul n (madj G) X))).
Proof.
  intros n p potr heev opA opB opK constraint cg pr project reorth reset tol A B P it s M MD E h D t Q tf ds dE d2E Ok St Pr.
  pose proof (prepare_ok n p potr heev opA opB opK constraint cg pr project reorth reset tol A B P Ok it s M MD St) as H. rewrite Pr in H.
  destruct H as (Ind & MY & N & MD1 & Sp & Hh & KY & EE & HD & KD & HQ & Ln & Lz & E1 & E2 & _). pose proof Hh as (HY & _ & _ & Iy & _ & Inv). pose proof Ok as [Hp Pok Eok DA DB HA HB OA OB _ _ _ _].
  exists MY, (gradm n p A B MY N). split; [exact HY|]. split; [exact HQ|]. intros X f DX Hf. assert (DY : mdim n p MY) by apply (fields_dim _ _ _ _ HY).
  destruct (line_exists n p A B MY X DA DB DY DX) as (d & Lx & Lxz). rewrite <- (dE_grad n p A B MY X HA HB DB DY N Inv).
  assert (Hf' : forall t e, rayleigh n p A B (turned t MY X) e -> f t = e + lagt d t) by (intros u e Ry; rewrite (proj1 (nolag_t d u Lxz)), Rplus_0_r; apply Hf; exact Ry).
  assert (K := f_der n p potr d A B MY X Pok HA HB DB DY DX Lx f (fun t e _ => Hf' t e) 0 N ltac:(rewrite turned_0; exact Iy) ltac:(rewrite turned_0; exact Inv)). rewrite tder_0, (proj2 (nolag_t d 0 Lxz)), Rplus_0_r in K by auto. exact K.
Qed.
Print Assumptions C70_gradient.
(** Fields e1 and the direction e2 given by the preconditioner: the slope is zero, the second
    derivative is positive. *)
Example C70_prepare_example : solver_ok 2 1 ex_potr ex_heev ex_opA None (Some ex_K) None false exA (mid 2) (mid 2) /\ state_ok 2 1 (mid 2) ex_state e1 e1 /\
  exists E h D t Q tf ds dE d2E, prepare ex_potr ex_heev ex_opA None (Some ex_K) None false false false false (fun _ => false) (/ 10) 0 ex_state = Val (PLine E h D t Q tf ds dE d2E).
Proof.
  split; [apply ex_ok; right; reflexivity|]. split; [apply ex_state_ok|].
  destruct (ex_prepare 0 ex_state e1 e1 ex_state_ok (respan_refl 1 2 e1 e1_dim) (Z.le_refl 0)) as (h & D & t & Q & tf & ds & d2E & _ & _ & _ & H & _). exists 1, h, D, t, Q, tf, ds, 0, d2E. exact H.
Qed.

(* ------------------------------------------------------------------ *)
(** * C71: the trace never increases *)

(** Every trace in the history, the latest first, is at most the one before; the oldest is that of
    the given fields after the constraint. *)
Theorem C71_falling : forall n p potr heev opA opB opK constraint cg pr project reorth reset tol A B P k fuel Y M Es Y' e,
  solver_ok n p potr heev opA opB opK constraint project A B P -> fields n p Y M ->
  eigensolver potr heev opA opB opK constraint cg pr project reorth reset tol k fuel Y = Some (Val (Some (Es, Y', e))) ->
  (forall i, (S i < length Es)%nat -> nth i Es 0 <= nth (S i) Es 0) /\ rayleigh n p A B (mmul n P M) (last Es 0).
Proof.
  intros n p potr heev opA opB opK constraint cg pr project reorth reset tol A B P k fuel Y M Es Y' e Ok HY. unfold eigensolver.
  destruct (start_ok n p potr heev opA opB opK constraint project A B P Ok Y M HY) as (s & -> & St & _).
  destruct (loop _ _ _ _ _ _ _ _ _ _ _ _ _ _ _ _ _) as [[(Es' & [h|])| | |]|] eqn:L; try discriminate; cbn [bind]. destruct (finish _ _ _ _ _) as [(Y1 & e1)| | |]; try discriminate; cbn [bind]. intros [= <- <- <-].
  destruct (loop_ok n p potr heev opA opB opK constraint cg pr project reorth reset tol A B P Ok k fuel 0 s [] _ _ _ _ St I ltac:(discriminate) L) as (Fl & (l & El & Hl) & E0 & r & MY & N & EE & _).
  rewrite app_nil_r in El. subst l. split; [|apply Hl; rewrite EE; discriminate]. clear - Fl. induction Es' as [|a [|b l] IH]; cbn [length] in *; intros i Hi; [lia|lia|]. destruct Fl as (F1 & F2). destruct i as [|i]; [exact F1|]. apply (IH F2 i). cbn [length]. lia.
Qed.
Print Assumptions C71_falling.

(** One iteration: the new trace (if the new fields are independent, as otherwise the next
    iteration does not get this far) has decreased by at least a tenth of what the slope promises. *)
Theorem C71_decrease : forall n p potr heev opA opB opK constraint cg pr project reorth reset tol A B P fuel it s M MD E h D t Q tf ds dE d2E r,
  solver_ok n p potr heev opA opB opK constraint project A B P -> state_ok n p P s M MD ->
  prepare potr heev opA opB opK constraint cg pr project reorth reset tol it s = Val (PLine E h D t Q tf ds dE d2E) ->
  line_min potr tol fuel tf E dE (first_theta dE d2E (s_prev_theta s)) = Some (Val r) ->
  exists Y D', fields n p (h_Y h) Y /\ fields n p D D' /\ rayleigh n p A B Y E /\
    forall E', independent n p B (turned (r_x r) Y D') -> rayleigh n p A B (turned (r_x r) Y D') E' -> E' <= E /\ E' <= E + / 10 * r_x r * dE.
Proof.
  intros n p potr heev opA opB opK constraint cg pr project reorth reset tol A B P fuel it s M MD E h D t Q tf ds dE d2E r Ok St Pr L.
  pose proof (prepare_ok n p potr heev opA opB opK constraint cg pr project reorth reset tol A B P Ok it s M MD St) as H. rewrite Pr in H.
  destruct H as (Ind & MY & N & MD1 & Sp & Hh & KY & EE & HD & KD & HQ & Ln & Lz & E1 & E2 & _). pose proof Hh as (HY & _ & _ & _ & _ & Inv).
  exists MY, MD1. split; [exact HY|]. split; [exact HD|]. split; [rewrite EE; exists N; split; [apply Inv|split; [apply Inv|reflexivity]]|].
  subst E dE. destruct (line_min_ok potr tol fuel tf _ _ _ r (line_first n p potr heev opA opB opK constraint project A B P Ok h MY N MD1 tf Hh Ln Lz) L) as (L1 & L2).
  intros E' Ind' Ry. rewrite <- (line_end n p potr heev opA opB opK constraint project A B P Ok tf MY MD1 (r_x r) E'); auto; [apply (fields_dim _ _ _ _ HY)|apply (fields_dim _ _ _ _ HD)].
Qed.
Print Assumptions C71_decrease.

(** No access outside the arrays; the checks in the code fail at most because the number of
    iterations is exhausted (see C73_iterations). *)
Theorem C71_safe : forall n p potr heev opA opB opK constraint cg pr project reorth reset tol A B P k fuel Y M,
  solver_ok n p potr heev opA opB opK constraint project A B P -> 0 <= tol -> fields n p Y M ->
  eigensolver potr heev opA opB opK constraint cg pr project reorth reset tol k fuel Y <> Some UB.
Proof.
  intros n p potr heev opA opB opK constraint cg pr project reorth reset tol A B P k fuel Y M Ok Tol HY. unfold eigensolver.
  destruct (start_ok n p potr heev opA opB opK constraint project A B P Ok Y M HY) as (s & -> & St & Ht & _).
  assert (K : forall k it s Es M MD, state_ok n p P s M MD -> Rabs (s_prev_theta s) <= PI -> loop potr heev opA opB opK constraint cg pr project reorth reset tol k fuel it s Es <> Some UB).
  { clear - Ok Tol. induction k as [|k IH]; intros it s Es M MD St Ht; [discriminate|]. cbn [loop].
    pose proof (step_mild n p potr heev opA opB opK constraint cg pr project reorth reset tol A B P Ok Tol fuel it s M MD St Ht) as Mi.
    destruct (step _ _ _ _ _ _ _ _ _ _ _ _ _ _ _) as [[[E h|E s'|]| | |]|] eqn:Sp; try discriminate; try (destruct Mi; congruence).
    destruct (step_ok n p potr heev opA opB opK constraint cg pr project reorth reset tol A B P Ok _ _ _ _ _ _ _ St Sp) as (_ & _ & _ & _ & M' & MD' & St' & _). apply (IH _ _ _ M' MD'); auto. }
  assert (Ht' : Rabs (s_prev_theta s) <= PI) by (rewrite Ht, Rabs_right by lra; pose proof PI2_1; lra).
  specialize (K k 0%Z s [] _ _ St Ht'). destruct (loop _ _ _ _ _ _ _ _ _ _ _ _ _ _ _ _ _) as [[(Es' & [h|])| | |]|] eqn:L; try discriminate; try congruence. cbn [bind].
  destruct (loop_ok n p potr heev opA opB opK constraint cg pr project reorth reset tol A B P Ok k fuel 0 s [] _ _ _ _ St I ltac:(discriminate) L) as (_ & _ & E0 & r & MY & N & _ & Hh & _).
  destruct (finish_ok n p potr heev opA opB opK constraint project A B P Ok h MY N Hh) as (Y1 & e1 & M1 & -> & _). cbn [bind]. discriminate.
Qed.
Print Assumptions C71_safe.
Example C71_example : solver_ok 2 1 ex_potr ex_heev ex_opA None (Some ex_K) None false exA (mid 2) (mid 2) /\ fields 2 1 ex_Y e1 /\
  exists Y e, eigensolver ex_potr ex_heev ex_opA None (Some ex_K) None false false false false (fun _ => false) (/ 10) 2 0 ex_Y = Some (Val (Some ([1; 1], Y, e))).
Proof. split; [apply ex_ok; right; reflexivity|]. split; [apply ex_fields|]. exact ex_run. Qed.

(** If the fields are already exact and there is no preconditioner, the gradient is zero and the
    first iteration divides by the norm of the direction, zero. *)
Theorem C71_exact_start : forall n p potr heev opA opB constraint cg pr project reorth reset tol A B P k fuel Y M T,
  solver_ok n p potr heev opA opB None constraint project A B P -> fields n p Y M -> satisfies n P M -> independent n p B M -> mdim p p T -> mmul n A M = mmul p (mmul n B M) T ->
  eigensolver potr heev opA opB None constraint cg pr project reorth reset tol (S k) fuel Y = Some NonFin.
Proof.
  intros n p potr heev opA opB constraint cg pr project reorth reset tol A B P k fuel Y M T Ok HY Sat Ind DT E. unfold eigensolver.
  destruct (start_ok n p potr heev opA opB None constraint project A B P Ok Y M HY) as (s & -> & St & _ & Z). rewrite Sat in St. cbn [loop]. unfold step.
  rewrite (stationary_step n p potr heev opA opB None constraint cg pr project reorth reset tol A B P Ok 0 s M _ T eq_refl (Z.le_refl 0) St Z Ind DT E). reflexivity.
Qed.
Print Assumptions C71_exact_start.
Example C71_exact_start_example : solver_ok 2 1 ex_potr ex_heev ex_opA None None None false exA (mid 2) (mid 2) /\ fields 2 1 ex_Y e1 /\ satisfies 2 (mid 2) e1 /\ independent 2 1 (mid 2) e1 /\
  mmul 2 exA e1 = mmul 1 (mmul 2 (mid 2) e1) (mid 1).
Proof. split; [apply ex_ok; left; reflexivity|]. split; [apply ex_fields|]. split; [apply (mid_l 2 1), e1_dim|]. split; [apply ex_span, (respan_refl 1 2), e1_dim|]. apply exA_e1. Qed.
(** So a run with independent fields within the constraint can end without a result: not a number. *)
Theorem C71_finite_refuted : exists n p potr heev opA opB opK constraint project A B P Y M, solver_ok n p potr heev opA opB opK constraint project A B P /\ fields n p Y M /\ satisfies n P M /\ independent n p B M /\
  forall cg pr reorth reset tol k fuel, eigensolver potr heev opA opB opK constraint cg pr project reorth reset tol (S k) fuel Y = Some NonFin.
Proof.
  destruct C71_exact_start_example as (Ok & HY & Sat & Ind & E). exists 2%nat, 1%nat, ex_potr, ex_heev, ex_opA, None, None, None, false, exA, (mid 2), (mid 2), ex_Y, e1. repeat (split; [assumption|]). intros.
  apply (C71_exact_start 2 1 ex_potr ex_heev ex_opA None None cg pr false reorth reset tol exA (mid 2) (mid 2) k fuel ex_Y e1 (mid 1)); auto. apply mdim_id.
Qed.
Print Assumptions C71_finite_refuted.


(* ------------------------------------------------------------------ *)
(** * C72: what the solver returns *)

Theorem C72_result : forall n p potr heev opA opB opK constraint cg pr project reorth reset tol A B P k fuel Y M Es Y' e,
  solver_ok n p potr heev opA opB opK constraint project A B P -> fields n p Y M ->
  eigensolver potr heev opA opB opK constraint cg pr project reorth reset tol k fuel Y = Some (Val (Some (Es, Y', e))) ->
  exists M', fields n p Y' M' /\ satisfies n P M' /\ form n B M' M' = mid p /\ form n A M' M' = mdiag p (fun i => nth i e 0) /\
    length e = p /\ (forall i j, (i <= j < p)%nat -> nth i e 0 <= nth j e 0) /\
    exists E r, Es = E :: r /\ rsum p (fun i => nth i e 0) = E /\ (r <> [] -> Rabs (E - hd 0 r) < tol * / 2 * (E + hd 0 r + / 10000000)).
Proof.
  intros n p potr heev opA opB opK constraint cg pr project reorth reset tol A B P k fuel Y M Es Y' e Ok HY. unfold eigensolver.
  destruct (start_ok n p potr heev opA opB opK constraint project A B P Ok Y M HY) as (s & -> & St & _).
  destruct (loop _ _ _ _ _ _ _ _ _ _ _ _ _ _ _ _ _) as [[(Es' & [h|])| | |]|] eqn:L; try discriminate; cbn [bind].
  destruct (loop_ok n p potr heev opA opB opK constraint cg pr project reorth reset tol A B P Ok k fuel 0 s [] _ _ _ _ St I ltac:(discriminate) L) as (_ & _ & E0 & r & MY & N & EE & Hh & KM & EV & Cv).
  destruct (finish_ok n p potr heev opA opB opK constraint project A B P Ok h MY N Hh) as (Y1 & e1 & M1 & -> & Le & HY1 & Sp & FB & FA & Asc). cbn [bind]. intros [= <- <- <-].
  exists M1. split; [exact HY1|]. split; [apply (kept_span n p P MY); auto|]. repeat (split; [assumption|]). exists E0, r. split; [exact EE|]. split; [|exact Cv].
  rewrite EV. symmetry. apply (finish_sum n p potr heev opA opB opK constraint project A B P Ok h MY N M1 _ Hh Sp FB FA).
Qed.
Print Assumptions C72_result.
(** If the trace is stationary at the fields returned, they are exact. *)
Theorem C72_exact : forall n p potr heev opA opB opK constraint cg pr project reorth reset tol A B P k fuel Y M Es Y' e,
  solver_ok n p potr heev opA opB opK constraint project A B P -> fields n p Y M ->
  eigensolver potr heev opA opB opK constraint cg pr project reorth reset tol k fuel Y = Some (Val (Some (Es, Y', e))) ->
  exists M', fields n p Y' M' /\ (stationary n p A B M' -> mmul n A M' = mmul p (mmul n B M') (mdiag p (fun i => nth i e 0))).
Proof.
  intros n p potr heev opA opB opK constraint cg pr project reorth reset tol A B P k fuel Y M Es Y' e Ok HY R.
  destruct (C72_result n p potr heev opA opB opK constraint cg pr project reorth reset tol A B P k fuel Y M Es Y' e Ok HY R) as (M' & HM & _ & FB & FA & _). destruct Ok as [Hp Pok Eok DA DB HA HB _ _ _ _ _ _].
  exists M'. split; [exact HM|]. intros St. apply (stationary_exact n p potr); auto. apply (fields_dim _ _ _ _ HM).
Qed.
Print Assumptions C72_exact.
(** Each value returned is at least the exact one with the same number, and no trace is below the
    sum of the lowest exact values. *)
Theorem C72_above : forall n p potr heev opA opB opK constraint cg pr project reorth reset tol A B P k fuel Y M Es Y' e m V lam,
  solver_ok n p potr heev opA opB opK constraint project A B P -> fields n p Y M -> modes n m P A B V lam ->
  eigensolver potr heev opA opB opK constraint cg pr project reorth reset tol k fuel Y = Some (Val (Some (Es, Y', e))) ->
  (forall i, (i < p)%nat -> (i < m)%nat /\ lam i <= nth i e 0) /\ (forall i, (i < length Es)%nat -> rsum p lam <= nth i Es 0).
Proof.
  intros n p potr heev opA opB opK constraint cg pr project reorth reset tol A B P k fuel Y M Es Y' e m V lam Ok HY Md R.
  destruct (C72_result n p potr heev opA opB opK constraint cg pr project reorth reset tol A B P k fuel Y M Es Y' e Ok HY R) as (M' & HM & SM & FB & FA & _ & Asc & E & r & EE & Sum & _).
  destruct (C71_falling n p potr heev opA opB opK constraint cg pr project reorth reset tol A B P k fuel Y M Es Y' e Ok HY R) as (Fl & _). destruct Ok as [Hp Pok Eok DA DB HA HB _ _ _ _ _ _].
  assert (Ab : forall i, (i < p)%nat -> (i < m)%nat /\ lam i <= nth i e 0) by (apply (above n p m P A B V lam M' (fun i => nth i e 0)); auto; apply (fields_dim _ _ _ _ HM)).
  split; [exact Ab|]. assert (H0 : rsum p lam <= nth 0 Es 0) by (rewrite EE; cbn [nth]; rewrite <- Sum; apply rsum_le; intros i Hi; apply Ab; exact Hi).
  induction i as [|i IH]; intros Hi; [exact H0|]. eapply Rle_trans; [apply IH; lia|apply Fl; exact Hi].
Qed.
Print Assumptions C72_above.
Example C72_example : modes 2 2 (mid 2) exA (mid 2) (mid 2) (fun i => if (i =? 0)%nat then 1 else 3) /\ exists Y e, eigensolver ex_potr ex_heev ex_opA None (Some ex_K) None false false false false (fun _ => false) (/ 10) 2 0 ex_Y = Some (Val (Some ([1; 1], Y, e))).
Proof. split; [apply ex_modes|exact ex_run]. Qed.

(* ------------------------------------------------------------------ *)
(** * C73: the iterations end *)

(** If the fields stay independent along the line and the previous angle was not zero, the line
    minimization ends. *)
Theorem C73_line_partial : forall n p potr heev opA opB opK constraint cg pr project reorth reset tol A B P it s M MD E h D t Q tf ds dE d2E,
  solver_ok n p potr heev opA opB opK constraint project A B P -> state_ok n p P s M MD -> s_prev_theta s <> 0 ->
  prepare potr heev opA opB opK constraint cg pr project reorth reset tol it s = Val (PLine E h D t Q tf ds dE d2E) ->
  exists Y D', fields n p (h_Y h) Y /\ fields n p D D' /\ ((forall x, independent n p B (turned x Y D')) ->
    exists fuel, line_min potr tol fuel tf E dE (first_theta dE d2E (s_prev_theta s)) <> None).
Proof.
  intros n p potr heev opA opB opK constraint cg pr project reorth reset tol A B P it s M MD E h D t Q tf ds dE d2E Ok St Ht Pr.
  pose proof (prepare_ok n p potr heev opA opB opK constraint cg pr project reorth reset tol A B P Ok it s M MD St) as H. rewrite Pr in H.
  destruct H as (Ind & MY & N & MD1 & Sp & Hh & KY & -> & HD & KD & HQ & Ln & Lz & -> & -> & _). exists MY, MD1. split; [apply Hh|]. split; [exact HD|]. intros Hi.
  apply (line_min_ends n p potr heev opA opB opK constraint project tol A B P Ok tf h MY MD1 N); auto. apply (fields_dim _ _ _ _ HD).
Qed.
Print Assumptions C73_line_partial.
(** With A semidefinite and a positive tolerance no run takes more iterations than the trace at
    the start divided by tolerance * 0.5e-7, plus two. *)
Theorem C73_iterations : forall n p potr heev opA opB opK constraint cg pr project reorth reset tol A B P k fuel Y M E0,
  solver_ok n p potr heev opA opB opK constraint project A B P -> semidef n A -> 0 < tol -> fields n p Y M -> rayleigh n p A B (mmul n P M) E0 -> E0 < INR k * (tol * / 20000000) ->
  eigensolver potr heev opA opB opK constraint cg pr project reorth reset tol (S k) fuel Y <> Some Abort.
Proof.
  intros n p potr heev opA opB opK constraint cg pr project reorth reset tol A B P k fuel Y M E0 Ok Sd Tol HY Ry Hk. unfold eigensolver.
  destruct (start_ok n p potr heev opA opB opK constraint project A B P Ok Y M HY) as (s & -> & St & Ht & _).
  assert (Ht' : Rabs (s_prev_theta s) <= PI) by (rewrite Ht, Rabs_right by lra; pose proof PI2_1; lra).
  pose proof (loop_bound n p potr heev opA opB opK constraint cg pr project reorth reset tol A B P Ok Tol fuel k s _ _ E0 Sd St Ht' Ry Hk) as K.
  destruct (loop _ _ _ _ _ _ _ _ _ _ _ _ _ _ _ _ _) as [[(Es' & [h|])| | |]|] eqn:L; try discriminate; try congruence. cbn [bind].
  destruct (loop_ok n p potr heev opA opB opK constraint cg pr project reorth reset tol A B P Ok (S k) fuel 0 s [] _ _ _ _ St I ltac:(discriminate) L) as (_ & _ & E1 & r & MY & N & _ & Hh & _).
  destruct (finish_ok n p potr heev opA opB opK constraint project A B P Ok h MY N Hh) as (Y1 & e1 & M1 & -> & _). cbn [bind]. discriminate.
Qed.
Print Assumptions C73_iterations.
(** If in addition the fields stay independent along every line followed, every line minimization
    ends, and with them the run: a first angle of zero does not occur, as the test for convergence
    succeeds after a step of zero. *)
Theorem C73_ends_partial : forall n p potr heev opA opB opK constraint cg pr project reorth reset tol A B P Y M k,
  solver_ok n p potr heev opA opB opK constraint project A B P -> semidef n A -> 0 < tol -> fields n p Y M ->
  (forall it s E h D t Q tf ds dE d2E, reached potr heev opA opB opK constraint cg pr project reorth reset tol Y it s ->
     prepare potr heev opA opB opK constraint cg pr project reorth reset tol it s = Val (PLine E h D t Q tf ds dE d2E) ->
     forall Y' D', fields n p (h_Y h) Y' -> fields n p D D' -> forall x, independent n p B (turned x Y' D')) ->
  exists fuel, eigensolver potr heev opA opB opK constraint cg pr project reorth reset tol k fuel Y <> None.
Proof.
  intros n p potr heev opA opB opK constraint cg pr project reorth reset tol A B P Y M k Ok Sd Tol HY Li. unfold eigensolver.
  destruct (start_ok n p potr heev opA opB opK constraint project A B P Ok Y M HY) as (s & Es & St & Ht & _). rewrite Es.
  destruct (loop_ends n p potr heev opA opB opK constraint cg pr project reorth reset tol A B P Ok Sd Tol Y Li k 0 s [] _ _ (Z.le_refl 0) (reached_0 _ _ _ _ _ _ _ _ _ _ _ _ _ s Es) St) as (fuel & L).
  - intros Z. rewrite Ht in Z. lra.
  - exists fuel. destruct (loop _ _ _ _ _ _ _ _ _ _ _ _ _ _ _ _ _); [discriminate|congruence].
Qed.
Print Assumptions C73_ends_partial.
Example C73_ends_example : forall it s E h D t Q tf ds dE d2E, reached ex_potr ex_heev ex_opA None (Some ex_K) None false false false false (fun _ => false) (/ 10) ex_Y it s ->
  prepare ex_potr ex_heev ex_opA None (Some ex_K) None false false false false (fun _ => false) (/ 10) it s = Val (PLine E h D t Q tf ds dE d2E) ->
  forall Y' D', fields 2 1 (h_Y h) Y' -> fields 2 1 D D' -> forall x, independent 2 1 (mid 2) (turned x Y' D').
Proof. exact ex_lines. Qed.
Example C73_example : semidef 2 exA /\ rayleigh 2 1 exA (mid 2) (mmul 2 (mid 2) e1) 1.
Proof. split; [apply exA_semidef|]. rewrite (mid_l 2 1) by apply e1_dim. pose proof (proj2 (ex_line 0)) as H. rewrite turned_0, cos_0, sin_0 in H. replace (1 * 1 + 3 * (0 * 0)) with 1 in H by ring. exact H. Qed.
