(** Runs of the whole solver: those without the approximate line minimization, and the switch to it. *)
From Coq Require Import List ZArith Reals Bool Arith Lia Lra.
From Verif Require Import Base RC Loops M_Evect M_Lin M_Eig M_Apx S_Evect S_Lin S_Eig S_Apx L_Evect L_Evect3 L_Lin P_Lin L_Mat L_Eig L_Eig2 L_Eig3 L_Eig4 L_Eig5 L_Eig6 L_Eig7 L_Eig8 L_Eig9 L_Eig10 L_Eig11 L_Eig12 L_Eig13 L_Apx1 L_Apx2 L_Apx3.
Import ListNotations.
Local Open Scope R_scope.
Add Ring Cring_a4 : C_ring_theory.

Section Solver.
Variables (n p : nat) (potr : Z -> list C -> option (list C)) (heev : Z -> list C -> list C * list R).
Variables (opA : emat C -> outcome (emat C)) (opB : option (emat C -> outcome (emat C))).
Variables (opK : option (emat C -> emat C -> smat C -> outcome (emat C))) (constraint : option (emat C -> outcome (emat C))).
Variables (cg pr project reorth : bool) (reset : Z -> bool) (tolerance : R) (quick : Z -> bool) (HA HB HP : mat).

Lemma choose_exact it s lm on im th : (on = true \/ forall i, quick i = false) ->
  choose false quick it s lm on im th = {| a_s := {| s_Y := s_Y s; s_D := s_D s; s_prev_G := s_prev_G s; s_d_scale := s_d_scale s; s_prev_traceGtX := s_prev_traceGtX s; s_prev_theta := atan th; s_prev_E := s_prev_E s |}; a_linmin := true; a_only := on; a_impr := im |}.
Proof. intros H. unfold choose. replace (negb on && Rltb 0 im && Rleb im (/ 20) && quick it) with false; [reflexivity|]. destruct H as [->|H]; [reflexivity|rewrite H, andb_false_r; reflexivity]. Qed.
Lemma moves_loop k fuel : forall it w Es, a_linmin w = true -> (a_only w = true \/ forall i, quick i = false) ->
  moves potr heev opA opB opK constraint cg pr project reorth reset tolerance false quick k fuel it w Es = loop potr heev opA opB opK constraint cg pr project reorth reset tolerance k fuel it (a_s w) Es.
Proof.
  induction k as [|k IH]; intros it w Es Lm On; [reflexivity|]. cbn [moves loop]. unfold move, step, prepare. rewrite Lm. cbn [negb andb].
  destruct (aim _ _ _ _ _ _ _ _ _ _ _ _ _ _) as [[E h|E h YA D t Q|]| | |]; try reflexivity. cbn [bind]. unfold exact.
  destruct (line_data _ _ _ _ _) as [((((D1 & tf) & ds) & dE) & d2E)| | |]; try reflexivity. cbn [bind]. destruct (line_min _ _ _ _ _ _ _) as [[r| | |]|]; try reflexivity. cbn [bind].
  destruct (evectmatrix_aXpbY _ _ _ _) as [Y1| | |]; try reflexivity. cbn [bind]. destruct (constrain _ _) as [Y2| | |]; try reflexivity. cbn [bind]. rewrite choose_exact by exact On. rewrite IH by auto. reflexivity.
Qed.

Hypothesis Ok : solver_ok n p potr heev opA opB opK constraint project HA HB HP.
Let OP := ok_P _ _ _ _ _ _ _ _ _ _ _ _ Ok.
(** The approximate line minimization is entered only after a small improvement. *)
Lemma switch_ok fuel it w M MD E w' : state_ok n p HP (a_s w) M MD -> a_linmin w = true ->
  move potr heev opA opB opK constraint cg pr project reorth reset tolerance false quick fuel it w = Some (Val (MAgain E w')) -> a_linmin w' = false ->
  a_only w' = false /\ quick it = true /\ exists M', fields n p (s_Y (a_s w')) M' /\ forall E', independent n p HB M' -> rayleigh n p HA HB M' E' -> E' < E /\ 40 * (E - E') <= Rabs (E + E').
Proof.
  intros St Lm. pose proof (aim_ok n p potr heev opA opB opK constraint cg pr project reorth reset tolerance HA HB HP Ok it (a_s w) M MD St) as Am. unfold move. rewrite Lm. cbn [negb andb].
  destruct (aim _ _ _ _ _ _ _ _ _ _ _ _ _ _) as [[E0 h|E0 h YA D t Q|]| | |]; try discriminate. destruct Am as (Ind & MY & N & MD1 & Sp & Hh & KY & -> & HYA & HD & KD & HQ & _).
  unfold exact. pose proof Hh as (HY & _ & _ & _ & HU & Inv). pose proof (fields_dim _ _ _ _ HY) as DY. pose proof (fields_dim _ _ _ _ HD) as DD.
  assert (HhN : hermitian N) by (apply (inv_both p (form n HB MY MY) N); [apply form_dim; auto; apply Ok|apply form_herm; apply Ok|exact Inv]).
  pose proof (line_data_with n p potr heev opA opB opK constraint project HA HB HP Ok h MY N N (h_Y h) (h_U h) (h_re h) YA D MD1 Hh HY HU HhN HYA HD) as Ld.
  replace {| h_Y := h_Y h; h_BY := h_BY h; h_YtBY := h_YtBY h; h_U := h_U h; h_re := h_re h |} with h in Ld by (destruct h; reflexivity).
  destruct (Rlt_dec 0 (re (mtr p (form n HB MD1 MD1)))) as [Hl|Hl]; [|rewrite Ld; discriminate]. destruct Ld as (a & D' & tf & ds & d2E & Ha & -> & HD1 & Ln & Lz & _).
  pose proof (line_first n p potr heev opA opB opK constraint project HA HB HP Ok h MY N (mscal a MD1) tf Hh Ln Lz) as L0.
  destruct (line_min _ _ _ _ _ _ _) as [[r| | |]|] eqn:L; try discriminate; cbn [bind].
  assert (Vr : fst (line_func potr tf 0 (r_x r)) = r_f r /\ r_f r <= value n p HA MY N).
  { unfold line_min in L. destruct (linmin _ _ _ _ _ _ _ _ _ _) as [[r'| | |]|] eqn:L'; try discriminate. destruct (Rleb (Rabs (r_x r')) PI); [|discriminate]. injection L as <-.
    destruct (C68_any_slope_partial _ _ (line_func potr tf 0) _ _ _ _ _ _ _ _ (fun _ _ => eq_refl) L0 L') as (_ & [Ef|(E1 & E2 & _)] & Le & _); [rewrite Ef; auto|]. rewrite E1, E2, L0. split; [reflexivity|lra]. }
  destruct Vr as (Vr & Le). destruct (eaXpbY_ok n p (cos (r_x r)) (h_Y h) MY (sin (r_x r)) D' _ HY HD1) as (Y1 & -> & HY1). cbn [bind]. destruct (constrain_ok n p constraint HP OP Y1 _ HY1) as (Y2 & -> & HY2). cbn [bind].
  fold (turned (r_x r) MY (mscal a MD1)) in HY2. assert (K : satisfies n HP (turned (r_x r) MY (mscal a MD1))) by (apply kept_add; apply kept_scal; [exact KY|apply kept_scal; exact KD]). unfold satisfies in K. rewrite K in HY2.
  intros [= <- <-]. unfold choose. set (im := if Reqb _ 0 then 0 else _). destruct (negb (a_only w) && Rltb 0 im && Rleb im (/ 20) && quick it) eqn:Q1; [|discriminate]. intros _. cbn [a_only a_s s_Y].
  apply andb_true_iff in Q1. destruct Q1 as (Q1 & Qq). apply andb_true_iff in Q1. destruct Q1 as (Q1 & Q2). apply andb_true_iff in Q1. destruct Q1 as (Q3 & Q4).
  destruct (Rltb_spec 0 im) as [I0|]; [|discriminate]. destruct (Rleb_spec im (/ 20)) as [I1|]; [|discriminate]. split; [destruct (a_only w); [discriminate|reflexivity]|]. split; [exact Qq|].
  exists (turned (r_x r) MY (mscal a MD1)). split; [exact HY2|]. intros E' Ind' Ry.
  rewrite (line_end n p potr heev opA opB opK constraint project HA HB HP Ok tf MY (mscal a MD1) (r_x r) E' Ln Lz DY (mdim_scal _ _ _ _ DD) Ind' Ry) in Vr. unfold im in I0, I1. clear im. rewrite <- Vr in I0, I1, Le.
  destruct (Reqb_spec (value n p HA MY N + E') 0) as [|Nz]; [lra|]. assert (Hs : 0 < Rabs (value n p HA MY N + E')) by (apply Rabs_pos_lt; exact Nz).
  rewrite (Rabs_right (value n p HA MY N - E')) in * by lra. set (q := Rabs (value n p HA MY N + E')) in *. set (d := value n p HA MY N - E') in *.
  assert (Pd : d * 2 = d * 2 / q * q) by (field; lra). set (z := d * 2 / q) in *. pose proof (Rmult_lt_0_compat _ _ I0 Hs) as P1. pose proof (Rmult_le_compat_r q _ _ (Rlt_le _ _ Hs) I1) as P2. clearbody z. split; [unfold d in *; lra|lra].
Qed.
End Solver.
