(** The iterations with both kinds of line minimization. *)
From Coq Require Import List ZArith Reals Bool Arith Lia Lra.
From Verif Require Import Base RC Loops M_Evect M_Lin M_Eig M_Apx S_Evect S_Lin S_Eig S_Apx L_Evect L_Evect3 L_Lin P_Lin L_Mat L_Eig L_Eig2 L_Eig3 L_Eig4 L_Eig5 L_Eig6 L_Eig7 L_Eig8 L_Eig9 L_Eig10 L_Eig11 L_Eig12 L_Apx1.
Import ListNotations.
Local Open Scope R_scope.
Add Ring Cring_a2 : C_ring_theory.

Lemma shifted_twice x y Y D : shifted y (shifted x Y D) D = shifted (x + y) Y D.
Proof. apply mext; intros i j. unfold shifted, madd, mscal. apply C_eq; csimp; ring. Qed.
Lemma shifted_0 Y D : shifted 0 Y D = Y.
Proof. apply mext; intros i j. unfold shifted, madd, mscal. apply C_eq; csimp; ring. Qed.

Section Solver.
Variables (n p : nat) (potr : Z -> list C -> option (list C)) (heev : Z -> list C -> list C * list R).
Variables (opA : emat C -> outcome (emat C)) (opB : option (emat C -> outcome (emat C))).
Variables (opK : option (emat C -> emat C -> smat C -> outcome (emat C))) (constraint : option (emat C -> outcome (emat C))).
Variables (cg pr project reorth : bool) (reset : Z -> bool) (tolerance : R) (force : bool) (quick : Z -> bool) (HA HB HP : mat).
Hypothesis Ok : solver_ok n p potr heev opA opB opK constraint project HA HB HP.
Let Hp := ok_p _ _ _ _ _ _ _ _ _ _ _ _ Ok. Let Pok := ok_potr _ _ _ _ _ _ _ _ _ _ _ _ Ok. Let Eok := ok_heev _ _ _ _ _ _ _ _ _ _ _ _ Ok.
Let DA := ok_dimA _ _ _ _ _ _ _ _ _ _ _ _ Ok. Let DB := ok_dimB _ _ _ _ _ _ _ _ _ _ _ _ Ok. Let HhA := ok_hermA _ _ _ _ _ _ _ _ _ _ _ _ Ok. Let HhB := ok_hermB _ _ _ _ _ _ _ _ _ _ _ _ Ok.
Let OP := ok_P _ _ _ _ _ _ _ _ _ _ _ _ Ok.

(** The exact line minimization may be entered. *)
Definition angle_ok (w : ast) : Prop := a_linmin w && negb force = true -> Rabs (s_prev_theta (a_s w)) <= PI.
Lemma choose_state it s lm on im th : (exists th', a_s (choose force quick it s lm on im th) = {| s_Y := s_Y s; s_D := s_D s; s_prev_G := s_prev_G s; s_d_scale := s_d_scale s; s_prev_traceGtX := s_prev_traceGtX s; s_prev_theta := th'; s_prev_E := s_prev_E s |}) /\ angle_ok (choose force quick it s lm on im th).
Proof.
  unfold choose, angle_ok. destruct (_ && _ && _ && _); cbn [a_s a_linmin]; [split; [exists (s_prev_theta s); destruct s; reflexivity|discriminate]|].
  destruct force; cbn [negb a_s a_linmin]; [split; [exists (s_prev_theta s); destruct s; reflexivity|rewrite andb_false_r; discriminate]|]. split; [eexists; reflexivity|]. intros _. cbn [s_prev_theta].
  destruct (atan_bound th) as (A1 & A2). pose proof PI_RGT_0. apply Rabs_le. lra.
Qed.
Lemma choose_ok it s lm on im th M MD : state_ok n p HP s M MD -> state_ok n p HP (a_s (choose force quick it s lm on im th)) M MD /\ angle_ok (choose force quick it s lm on im th) /\ s_prev_E (a_s (choose force quick it s lm on im th)) = s_prev_E s.
Proof. intros St. destruct (choose_state it s lm on im th) as ((th' & E) & An). split; [|split; [exact An|rewrite E; reflexivity]]. rewrite E. exact St. Qed.

(** The exact line minimization with U as it is: the trace does not rise. *)
Lemma exact_ok fuel it on h MY N N' Yr U re_ YA D MD t Q MG th : headed_ok n p HB h MY N -> fields n p Yr MY -> satisfies n HP MY -> square p U N' -> hermitian N' -> square p YA (mmul p (form n HA MY MY) N) ->
  fields n p D MD -> satisfies n HP MD -> fields n p Q MG ->
  match exact potr opA opB constraint tolerance force quick fuel it on (value n p HA MY N) {| h_Y := Yr; h_BY := h_BY h; h_YtBY := h_YtBY h; h_U := U; h_re := re_ |} YA D t Q th with
  | Some (Val (MAgain E w)) => E = value n p HA MY N /\ s_prev_E (a_s w) = E /\ angle_ok w /\ exists M' MD', state_ok n p HP (a_s w) M' MD' /\ forall E', independent n p HB M' -> rayleigh n p HA HB M' E' -> E' <= E
  | Some (Val _) => False
  | Some UB => False
  | Some Abort => ~ (0 <= tolerance /\ Rabs th <= PI)
  | Some NonFin => True
  | None => True end.
Proof.
  intros Hh HYr KY HU HhN HYA HD KD HQ. unfold exact. pose proof (line_data_with n p potr heev opA opB opK constraint project HA HB HP Ok h MY N N' Yr U re_ YA D MD Hh HYr HU HhN HYA HD) as Ld.
  destruct (Rlt_dec 0 (re (mtr p (form n HB MD MD)))) as [Hl|Hl]; [|rewrite Ld; exact I]. destruct Ld as (a & D' & tf & ds & d2E & Ha & -> & HD1 & Ln & Lz & _).
  pose proof (line_first n p potr heev opA opB opK constraint project HA HB HP Ok h MY N (mscal a MD) tf Hh Ln Lz) as L0.
  pose proof (fun T => line_min_mild potr tolerance T fuel tf (value n p HA MY N) (dE_with n p HA HB MY (mscal a MD) N N') d2E th L0) as Mi.
  destruct (line_min _ _ _ _ _ _ _) as [[r| | |]|] eqn:L; cbn [bind]; auto.
  - destruct (line_min_ok potr tolerance _ _ _ _ _ _ L0 L) as (Le & _). cbn [h_Y].
    destruct (eaXpbY_ok n p (cos (r_x r)) Yr MY (sin (r_x r)) D' _ HYr HD1) as (Y1 & -> & HY1). cbn [bind]. destruct (constrain_ok n p constraint HP OP Y1 _ HY1) as (Y2 & -> & HY2). cbn [bind].
    assert (KD1 : satisfies n HP (mscal a MD)) by (apply kept_scal; exact KD).
    assert (K : satisfies n HP (turned (r_x r) MY (mscal a MD))) by (apply kept_add; apply kept_scal; assumption). unfold turned, satisfies in K. rewrite K in HY2.
    set (s' := {| s_Y := Y2; s_D := D'; s_prev_G := Q; s_d_scale := ds; s_prev_traceGtX := t; s_prev_theta := r_x r; s_prev_E := value n p HA MY N |}).
    assert (St : state_ok n p HP s' (turned (r_x r) MY (mscal a MD)) (mscal a MD)) by (repeat split; cbn; auto; try apply HY2; try apply HD1; eexists; apply HQ).
    match goal with |- context [choose force quick it s' true on ?im (r_x r)] => destruct (choose_ok it s' true on im (r_x r) _ _ St) as (St' & An & Pe) end. split; [reflexivity|]. split; [exact Pe|]. split; [exact An|].
    exists (turned (r_x r) MY (mscal a MD)), (mscal a MD). split; [exact St'|]. intros E' Ind' Ry.
    rewrite <- (line_end n p potr heev opA opB opK constraint project HA HB HP Ok tf MY (mscal a MD) (r_x r) E'); auto; [apply (fields_dim _ _ _ _ HYr)|apply (fields_dim _ _ _ _ HD1)].
  - intros (T & Ht). destruct (Mi T Ht) as (M1 & _). congruence.
  - unfold line_min in L. assert (L' : forall a b c d e f g h i j, linmin a b c d e f g h i j <> Some UB).
    { clear. intros. unfold linmin, linmin_down. pose proof (fun F p k v x => search_mild a F p k v x) as Sm.
      repeat match goal with |- context [match dcsrch_start ?q ?x with _ => _ end] => destruct (dcsrch_start q x) | |- context [if ?b then _ else _] => destruct b end; try discriminate;
      match goal with |- context [search ?a ?b ?c ?d ?e ?g] => pose proof (Sm b c d e g) as M; destruct (search a b c d e g) as [[r| | |]|] end; try discriminate; destruct M; congruence. }
    destruct (linmin _ _ _ _ _ _ _ _ _ _) as [[r| | |]|] eqn:Q0; try discriminate; try (exact (L' _ _ _ _ _ _ _ _ _ _ Q0)). destruct (Rleb _ _); discriminate.
Qed.


Lemma IZR_INR : IZR (Z.of_nat p) = INR p. Proof. symmetry. apply INR_IZR_INZ. Qed.
Lemma scaled_back (d : R) (D : mat) : d <> 0 -> D = mscal d (mscal (/ d) D).
Proof. intros Hd. apply mext; intros i j. unfold mscal. apply C_eq; csimp; rewrite <- Rmult_assoc, Rinv_r, Rmult_1_l by exact Hd; reflexivity. Qed.
Lemma unit_of d D : 0 < d -> d * d = re (mtr p (form n HB D D)) / IZR (Z.of_nat p) -> unit_norm n p HB (mscal (/ d) D).
Proof.
  intros Hd E. unfold unit_norm. rewrite form_scal_l, form_scal_r, !mtr_scal. csimp. pose proof (IZR_p p Hp) as Hz. assert (E' : re (mtr p (form n HB D D)) = d * d * IZR (Z.of_nat p)) by (rewrite E; unfold Rdiv; rewrite Rmult_assoc, Rinv_l, Rmult_1_r by lra; reflexivity).
  unfold re in E'. rewrite E', <- IZR_INR. field. lra.
Qed.
Lemma dE_scal Y D N a : hermitian HA -> mdim n p Y -> inverse_of p (form n HB Y Y) N -> dE_of n p HA HB Y (mscal a D) N = a * dE_of n p HA HB Y D N.
Proof. intros H DY Inv. rewrite !(dE_grad n p HA HB Y _ HhA HhB DB DY N Inv), mmul_scal_r, mtr_scal. csimp. ring. Qed.


(** The turned fields are multiples of the shifted ones. *)
Lemma turned_shifted x Y D : cos x <> 0 -> turned x Y D = mscal (cos x) (shifted (tan x) Y D).
Proof. intros Hc. apply mext; intros i j. unfold turned, shifted, madd, mscal, tan. apply C_eq; csimp; field; exact Hc. Qed.
Lemma turned_ray x Y D E : mdim n p Y -> mdim n p D -> cos x <> 0 -> rayleigh n p HA HB (turned x Y D) E -> rayleigh n p HA HB (shifted (tan x) Y D) E.
Proof.
  intros DY DD Hc Ry. apply (respan_rayleigh n p HA HB (turned x Y D)); auto; [apply turned_dim; auto|]. rewrite (turned_shifted x Y D Hc). apply (respan_sym p n); [apply shifted_dim; auto|].
  apply (respan_scal p n); [exact Hc|apply shifted_dim; auto].
Qed.
Lemma slope_ok Y D N : mdim n p Y -> mdim n p D -> independent n p HB Y -> inverse_of p (form n HB Y Y) N -> trace_slope n p HA HB Y D (dE_of n p HA HB Y D N).
Proof.
  intros DY DD Ind Inv f Hf. destruct (line_exists n p HA HB Y D DA DB DY DD) as (d & Ln & Lz).
  assert (Ind0 : independent n p HB (turned 0 Y D)) by (rewrite turned_0; exact Ind). destruct (near_ind n p potr d HA HB Y D Pok HhA HhB Ln 0 Ind0) as (e & He & K).
  set (F := fun x => fst (line_func potr d 0 x)).
  assert (HF : forall x, independent n p HB (turned x Y D) -> rayleigh n p HA HB (turned x Y D) (F x)).
  { intros x Ix. destruct (tf_value n p potr d HA HB Y D Pok HhA HhB Ln x Ix) as (N' & Inv' & E). unfold F, line_func. rewrite E. cbn [fst]. rewrite (proj1 (nolag_t d x Lz)), Rplus_0_r. exists N'. split; [apply Inv'|split; [apply Inv'|reflexivity]]. }
  assert (HF' : forall t e, independent n p HB (turned t Y D) -> rayleigh n p HA HB (turned t Y D) e -> F t = e + lagt d t).
  { intros t x Ix Ry. rewrite (proj1 (nolag_t d t Lz)), Rplus_0_r. apply (rayleigh_unique n p HA HB (turned t Y D)); auto. apply turned_dim; auto. }
  set (G := fun t => F (atan t)).
  assert (E1 : exists r, 0 < r /\ forall t, Rabs (t - 0) < r -> f t = G t).
  { exists (tan (Rmin e 1)). assert (P1 : 0 < Rmin e 1) by (apply Rmin_pos; lra). assert (P2 : Rmin e 1 <= 1) by apply Rmin_r. pose proof PI2_1 as Hpi. split; [apply tan_gt_0; lra|].
    intros t Ht. rewrite Rminus_0_r in Ht. assert (At : Rabs (atan t - 0) < e).
    { rewrite Rminus_0_r. apply Rlt_le_trans with (Rmin e 1); [|apply Rmin_l]. apply Rabs_def2 in Ht. destruct Ht as (H1 & H2). apply Rabs_def1.
      - replace (Rmin e 1) with (atan (tan (Rmin e 1))) by (apply atan_tan; lra). apply atan_increasing. exact H1.
      - replace (Rmin e 1) with (atan (tan (Rmin e 1))) by (apply atan_tan; lra). rewrite <- atan_opp. apply atan_increasing. exact H2. }
    destruct (K _ At) as (Ix & _). apply Hf. destruct (atan_bound t) as (B1 & B2). assert (Hc : cos (atan t) <> 0) by (apply Rgt_not_eq, cos_gt_0; lra).
    pose proof (turned_ray (atan t) Y D _ DY DD Hc (HF _ Ix)) as Q. rewrite atan_right_inv in Q. exact Q. }
  apply (der_local f G 0 _ E1). unfold G.
  assert (DF : derivable_pt_lim F 0 (dE_of n p HA HB Y D N)).
  { assert (Kd := f_der n p potr d HA HB Y D Pok HhA HhB DB DY DD Ln F HF' 0 N Ind0 ltac:(rewrite turned_0; exact Inv)). rewrite tder_0, (proj2 (nolag_t d 0 Lz)), Rplus_0_r in Kd by auto. exact Kd. }
  replace (dE_of n p HA HB Y D N) with (dE_of n p HA HB Y D N * / (1 + 0 ^ 2)) by (simpl; field). apply (derivable_pt_lim_comp atan F); [apply derivable_pt_lim_atan|rewrite atan_0; exact DF].
Qed.
End Solver.
