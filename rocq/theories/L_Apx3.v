(** Iterations with the approximate line minimization; whole runs. *)
From Coq Require Import List ZArith Reals Bool Arith Lia Lra.
From Verif Require Import Base RC Loops M_Evect M_Lin M_Eig M_Apx S_Evect S_Lin S_Eig S_Apx L_Evect L_Evect3 L_Lin P_Lin L_Mat L_Eig L_Eig2 L_Eig3 L_Eig4 L_Eig5 L_Eig6 L_Eig7 L_Eig8 L_Eig9 L_Eig10 L_Eig11 L_Eig12 L_Eig13 L_Apx1 L_Apx2.
Import ListNotations.
Local Open Scope R_scope.
Add Ring Cring_a3 : C_ring_theory.

Lemma judge_back force E pE dE t E2 : t <> 0 -> judge force E pE dE t E2 = Val GiveUp -> force = false.
Proof. unfold judge. intros Ht. rewrite fdiv_nz by nra. cbn [bind]. destruct (Reqb _ 0); [destruct (Reqb dE 0), force; cbn; congruence|]. destruct (_ || _); destruct force; congruence. Qed.
Lemma judge_zero force E pE dE E2 : judge force E pE dE 0 E2 = NonFin.
Proof. unfold judge, fdiv. destruct (Req_EM_T (/ 2 * 0 * 0) 0) as [|H]; [reflexivity|exfalso; apply H; ring]. Qed.
Lemma judge_nonzero force E pE dE t E2 j : judge force E pE dE t E2 = Val j -> t <> 0.
Proof. intros H Z. subst t. rewrite judge_zero in H. discriminate. Qed.
Lemma judge_shift force E pE dE t E2 th : judge force E pE dE t E2 = Val (Shift th) -> fitted E pE dE t E2 th.
Proof.
  intros H. pose proof (judge_nonzero _ _ _ _ _ _ _ H) as Ht. unfold judge in H. rewrite fdiv_nz in H by nra. cbn [bind] in H. set (c := (E2 - E - dE * t) / (/ 2 * t * t)) in *.
  destruct (Reqb_spec c 0) as [|Hc]; [destruct (_ || _); discriminate|]. destruct (Rltb_spec c 0) as [|Hn]; [destruct force; discriminate|]. cbn [orb] in H.
  destruct (Rltb_spec (20 * Rabs (E - pE)) (- / 2 * dE * (- dE / c))) as [|Hb]; [destruct force; discriminate|]. injection H as <-. exists c. assert (0 < c) by lra. split; [assumption|]. split; [exact Ht|].
  split; [unfold c; field; exact Ht|]. split; [field; lra|]. replace (E - (E + dE * (- dE / c) + c * (- dE / c * (- dE / c)) / 2)) with (- / 2 * dE * (- dE / c)) by (field; lra). lra.
Qed.
Lemma judge_keep force E pE dE t E2 th : judge force E pE dE t E2 = Val (Keep th) -> force = true.
Proof.
  unfold judge. destruct (fdiv _ _) as [c| | |]; try discriminate; cbn [bind]. destruct (Reqb c 0); [destruct (_ || _); discriminate|]. destruct (_ || _); [|discriminate]. destruct force; [reflexivity|discriminate].
Qed.
Lemma judge_mild force E pE dE t E2 : match judge force E pE dE t E2 with Abort | UB => False | _ => True end.
Proof. unfold judge, fdiv. destruct (Req_EM_T _ 0); cbn [bind]; auto. destruct (Reqb _ 0); [destruct (_ || _); exact I|]. destruct (_ || _); exact I. Qed.

Section Solver.
Variables (n p : nat) (potr : Z -> list C -> option (list C)) (heev : Z -> list C -> list C * list R).
Variables (opA : emat C -> outcome (emat C)) (opB : option (emat C -> outcome (emat C))).
Variables (opK : option (emat C -> emat C -> smat C -> outcome (emat C))) (constraint : option (emat C -> outcome (emat C))).
Variables (cg pr project reorth : bool) (reset : Z -> bool) (tolerance : R) (force : bool) (quick : Z -> bool) (HA HB HP : mat).
Hypothesis Ok : solver_ok n p potr heev opA opB opK constraint project HA HB HP.
Let Hp := ok_p _ _ _ _ _ _ _ _ _ _ _ _ Ok. Let Pok := ok_potr _ _ _ _ _ _ _ _ _ _ _ _ Ok. Let Eok := ok_heev _ _ _ _ _ _ _ _ _ _ _ _ Ok.
Let DA := ok_dimA _ _ _ _ _ _ _ _ _ _ _ _ Ok. Let DB := ok_dimB _ _ _ _ _ _ _ _ _ _ _ _ Ok. Let HhA := ok_hermA _ _ _ _ _ _ _ _ _ _ _ _ Ok. Let HhB := ok_hermB _ _ _ _ _ _ _ _ _ _ _ _ Ok.
Let OP := ok_P _ _ _ _ _ _ _ _ _ _ _ _ Ok.

Lemma exact_only fuel it on E h YA D t Q th E' w' : exact potr opA opB constraint tolerance force quick fuel it on E h YA D t Q th = Some (Val (MAgain E' w')) -> a_only w' = on /\ (on = true -> force = false -> a_linmin w' = true).
Proof.
  unfold exact. destruct (line_data _ _ _ _ _) as [((((D1 & tf) & ds) & dE) & d2E)| | |]; try discriminate. destruct (line_min _ _ _ _ _ _ _) as [[r| | |]|]; try discriminate; cbn [bind].
  destruct (evectmatrix_aXpbY _ _ _ _); try discriminate; cbn [bind]. destruct (constrain _ _); try discriminate; cbn [bind]. intros [= _ <-]. unfold choose. destruct (negb on && _ && _ && _) eqn:Q1.
  - cbn. split; [reflexivity|]. intros ->. discriminate.
  - destruct force; cbn; split; auto; discriminate.
Qed.
Lemma choose_only it s lm on im th : a_only (choose force quick it s lm on im th) = on.
Proof. unfold choose. destruct (_ && _ && _ && _); [reflexivity|]. destruct force; reflexivity. Qed.
(** The step the approximate line minimization takes from Y to M'. *)
Definition approx_step (Y M' : mat) (E prev_E prev_theta : R) : Prop :=
  exists D dE t E2 x, mdim n p D /\ unit_norm n p HB D /\ trace_slope n p HA HB Y D dE /\ Rabs t = Rabs prev_theta /\ 0 <= dE * t /\ rayleigh n p HA HB (shifted t Y D) E2 /\ M' = shifted x Y D /\
    (fitted E prev_E dE t E2 x \/ force = true /\ x = t).
Definition no_rise (M' : mat) (E : R) : Prop := forall E', independent n p HB M' -> rayleigh n p HA HB M' E' -> E' <= E.

Lemma approximate_ok fuel it w h MY N YA D MD t Q : headed_ok n p HB h MY N -> satisfies n HP MY -> square p YA (mmul p (form n HA MY MY) N) ->
  fields n p D MD -> satisfies n HP MD -> fields n p Q (gradm n p HA HB MY N) ->
  match approximate potr opA opB constraint tolerance force quick fuel it w (value n p HA MY N) h YA D t Q with
  | Some (Val (MAgain E w')) => E = value n p HA MY N /\ s_prev_E (a_s w') = E /\ angle_ok force w' /\ exists M' MD', state_ok n p HP (a_s w') M' MD' /\
      (no_rise M' E /\ force = false /\ a_only w' = true /\ a_linmin w' = true \/ approx_step MY M' E (s_prev_E (a_s w)) (s_prev_theta (a_s w)) /\ a_only w' = a_only w)
  | Some (Val _) => False
  | Some UB => False
  | Some Abort => 0 <= tolerance -> exists x, ~ independent n p HB (shifted x MY MD)
  | Some NonFin => True
  | None => True end.
Proof.
  intros Hh KY HYA HD KD HQ. pose proof Hh as (HY & _ & _ & Ind & _ & Inv). pose proof (fields_dim _ _ _ _ HY) as DM. pose proof (fields_dim _ _ _ _ HD) as DD. unfold approximate.
  pose proof (try_ok n p potr heev opA opB opK constraint project HA HB HP Ok h MY N D MD Q (s_prev_theta (a_s w)) Hh HD HQ) as Tr.
  destruct (try_shift _ _ _ _ _ _ _) as [tr| | |]; try contradiction; auto. destruct Tr as (N' & Hn & Nn & EdE & Et & HY1 & Ind1 & HU & Inv1 & E2).
  set (d := tr_norm tr) in *. set (Dn := mscal (/ d) MD). assert (Un : unit_norm n p HB Dn) by (apply (unit_of n p potr heev opA opB opK constraint project HA HB HP Ok); assumption).
  assert (Sh : forall x, shifted (x / d) MY MD = shifted x MY Dn). { intros x. apply mext; intros i j. unfold shifted, Dn, madd, mscal, Rdiv. apply C_eq; csimp; ring. }
  assert (DDn : mdim n p Dn) by (apply mdim_scal; exact DD). assert (KDn : satisfies n HP Dn) by (apply kept_scal; exact KD).
  assert (Sl : trace_slope n p HA HB MY Dn (tr_dE tr)).
  { rewrite EdE. replace (dE_of n p HA HB MY MD N / d) with (dE_of n p HA HB MY Dn N). 2: { unfold Dn. rewrite (dE_scal n p potr heev opA opB opK constraint project HA HB HP Ok MY MD N (/ d) HhA DM Inv). unfold Rdiv. ring. }
    apply (slope_ok n p potr heev opA opB opK constraint project HA HB HP Ok); assumption. }
  assert (At : Rabs (tr_t tr) = Rabs (s_prev_theta (a_s w))) by (rewrite Et; destruct (Rltb _ 0); [rewrite Rabs_Ropp|]; apply Rabs_Rabsolu).
  assert (Up : 0 <= tr_dE tr * tr_t tr) by (rewrite Et; pose proof (Rabs_pos (s_prev_theta (a_s w))); destruct (Rltb_spec (tr_dE tr) 0); nra).
  assert (R2 : rayleigh n p HA HB (shifted (tr_t tr) MY Dn) (tr_E2 tr)) by (rewrite <- Sh, E2; exists N'; split; [apply Inv1|split; [apply Inv1|reflexivity]]).
  assert (Lv : forall Y' x th, fields n p Y' (shifted x MY Dn) -> (fitted (value n p HA MY N) (s_prev_E (a_s w)) (tr_dE tr) (tr_t tr) (tr_E2 tr) x \/ force = true /\ x = tr_t tr) ->
    match (let! Y := constrain constraint Y' in Val (MAgain (value n p HA MY N) (choose force quick it {| s_Y := Y; s_D := D; s_prev_G := Q; s_d_scale := 1; s_prev_traceGtX := t; s_prev_theta := th; s_prev_E := value n p HA MY N |} false (a_only w) (a_impr w) th))) with
    | Val (MAgain E w') => E = value n p HA MY N /\ s_prev_E (a_s w') = E /\ angle_ok force w' /\ exists M' MD', state_ok n p HP (a_s w') M' MD' /\ (no_rise M' E /\ force = false /\ a_only w' = true /\ a_linmin w' = true \/ approx_step MY M' E (s_prev_E (a_s w)) (s_prev_theta (a_s w)) /\ a_only w' = a_only w)
    | _ => False end).
  { intros Y' x th HY' Fx. destruct (constrain_ok n p constraint HP OP Y' _ HY') as (Y2 & -> & HY2). cbn [bind].
    assert (K : satisfies n HP (shifted x MY Dn)) by (apply kept_add; [exact KY|apply kept_scal; exact KDn]). unfold satisfies in K. rewrite K in HY2.
    set (s' := {| s_Y := Y2; s_D := D; s_prev_G := Q; s_d_scale := 1; s_prev_traceGtX := t; s_prev_theta := th; s_prev_E := value n p HA MY N |}).
    assert (St : state_ok n p HP s' (shifted x MY Dn) MD) by (repeat split; cbn; auto; try apply HY2; try apply HD; eexists; apply HQ).
    destruct (choose_ok n p force quick HP it s' false (a_only w) (a_impr w) th _ _ St) as (St' & An & Pe). split; [reflexivity|]. split; [exact Pe|]. split; [exact An|].
    exists (shifted x MY Dn), MD. split; [exact St'|]. right. split; [|apply choose_only]. exists Dn, (tr_dE tr), (tr_t tr), (tr_E2 tr), x. auto 10. }
  pose proof (judge_mild force (value n p HA MY N) (s_prev_E (a_s w)) (tr_dE tr) (tr_t tr) (tr_E2 tr)) as Jm.
  destruct (judge _ _ _ _ _ _) as [[th|th|]| | |] eqn:J; try contradiction; auto.
  - rewrite fdiv_nz by lra. cbn [bind]. destruct (eshift_ok n p ((th - tr_t tr) / d) (tr_Y tr) _ D MD HY1 HD) as (Y3 & -> & HY3). cbn [bind].
    assert (E3 : shifted ((th - tr_t tr) / d) (shifted (tr_t tr / d) MY MD) MD = shifted th MY Dn) by (rewrite shifted_twice, <- Sh; replace (tr_t tr / d + (th - tr_t tr) / d) with (th / d) by (field; lra); reflexivity). rewrite E3 in HY3.
    pose proof (Lv Y3 th th HY3 (or_introl (judge_shift _ _ _ _ _ _ _ J))) as R. clear - R. destruct (bind _ _) as [[]| | |]; auto; contradiction.
  - rewrite Sh in HY1. pose proof (Lv (tr_Y tr) (tr_t tr) th HY1 (or_intror (conj (judge_keep _ _ _ _ _ _ _ J) eq_refl))) as R. clear - R. destruct (bind _ _) as [[]| | |]; auto; contradiction.
  - rewrite fdiv_nz by lra. cbn [bind]. destruct (eshift_ok n p (- tr_t tr / d) (tr_Y tr) _ D MD HY1 HD) as (Y3 & -> & HY3).
    assert (E3 : shifted (- tr_t tr / d) (shifted (tr_t tr / d) MY MD) MD = MY) by (rewrite shifted_twice; replace (tr_t tr / d + - tr_t tr / d) with 0 by (field; lra); apply shifted_0). rewrite E3 in HY3.
    assert (HhN : hermitian N'). { apply (inv_both p (form n HB (shifted (tr_t tr / d) MY MD) (shifted (tr_t tr / d) MY MD)) N'); [apply form_dim; auto; apply shifted_dim; auto|apply form_herm; exact HhB|exact Inv1]. }
    pose proof (exact_ok n p potr heev opA opB opK constraint project tolerance force quick HA HB HP Ok fuel it true h MY N N' Y3 (tr_U tr) (h_re h) YA D MD t Q _ (atan (s_prev_theta (a_s w))) Hh HY3 KY HU HhN HYA HD KD HQ) as Ex.
    destruct (exact _ _ _ _ _ _ _ _ _ _ _ _ _ _ _ _ _) as [[[E0 h0|E0 w'|]| | |]|] eqn:Xe; auto.
    + destruct Ex as (X1 & X2 & X3 & M' & MD' & X4 & X5). split; [exact X1|]. split; [exact X2|]. split; [exact X3|]. exists M', MD'. split; [exact X4|left]. split; [exact X5|]. pose proof (judge_back _ _ _ _ _ _ (judge_nonzero _ _ _ _ _ _ _ J) J) as Hf. destruct (exact_only _ _ _ _ _ _ _ _ _ _ _ _ Xe) as (O1 & O2). auto.
    + intros Tol. exfalso. apply Ex. split; [exact Tol|]. destruct (atan_bound (s_prev_theta (a_s w))) as (A1 & A2). pose proof PI_RGT_0. apply Rabs_le. lra.
Qed.

(** A trace is that of independent fields within the constraint. *)
Definition found (E : R) : Prop := exists h MY N, headed_ok n p HB h MY N /\ satisfies n HP MY /\ E = value n p HA MY N.

Lemma move_ok fuel it w M MD : state_ok n p HP (a_s w) M MD -> angle_ok force w ->
  match move potr heev opA opB opK constraint cg pr project reorth reset tolerance force quick fuel it w with
  | Some (Val (MAgain E w')) => independent n p HB M /\ rayleigh n p HA HB M E /\ found E /\ s_prev_E (a_s w') = E /\ angle_ok force w' /\ exists M' MD', state_ok n p HP (a_s w') M' MD' /\
      (no_rise M' E /\ (if a_linmin w && negb force then a_only w' = a_only w /\ (a_only w = true -> a_linmin w' = true) else force = false /\ a_only w' = true /\ a_linmin w' = true) \/
       a_linmin w && negb force = false /\ a_only w' = a_only w /\ exists Y, respan p M Y /\ approx_step Y M' E (s_prev_E (a_s w)) (s_prev_theta (a_s w)))
  | Some (Val (MConverged E h)) => independent n p HB M /\ rayleigh n p HA HB M E /\ Rabs (E - s_prev_E (a_s w)) < tolerance * / 2 * (E + s_prev_E (a_s w) + / 10000000) /\ exists MY N, respan p M MY /\ headed_ok n p HB h MY N /\ E = value n p HA MY N
  | Some (Val MRestarted) => ~ independent n p HB M
  | Some UB => False
  | Some Abort => 0 <= tolerance -> a_linmin w && negb force = false /\ independent n p HB M /\ exists Y D x, respan p M Y /\ mdim n p D /\ ~ independent n p HB (shifted x Y D)
  | Some NonFin => True
  | None => True end.
Proof.
  intros St An. pose proof (aim_ok n p potr heev opA opB opK constraint cg pr project reorth reset tolerance HA HB HP Ok it (a_s w) M MD St) as Am. pose proof (fields_dim _ _ _ _ (proj1 St)) as DM0. unfold move.
  destruct (aim _ _ _ _ _ _ _ _ _ _ _ _ _ _) as [[E0 h|E0 h YA D t Q|]| | |]; try contradiction; auto.
  - destruct Am as (Ind & Cv & MY & N & Sp & Hh & EE). split; [exact Ind|]. split; [|split; [exact Cv|exists MY, N; auto]]. rewrite EE. apply (value_rayleigh n p potr heev opA opB opK constraint project HA HB HP Ok h); auto.
  - destruct Am as (Ind & MY & N & MD1 & Sp & Hh & KY & -> & HYA & HD & KD & HQ & _).
    assert (Ry : rayleigh n p HA HB M (value n p HA MY N)) by (apply (value_rayleigh n p potr heev opA opB opK constraint project HA HB HP Ok h); auto).
    assert (Fd : found (value n p HA MY N)) by (exists h, MY, N; auto).
    destruct (a_linmin w && negb force) eqn:Lm.
    + pose proof Hh as (HY & _ & _ & _ & HU & Inv). pose proof (fields_dim _ _ _ _ HY) as DY.
      assert (HhN : hermitian N) by (apply (inv_both p (form n HB MY MY) N); [apply form_dim; auto|apply form_herm; exact HhB|exact Inv]).
      pose proof (exact_ok n p potr heev opA opB opK constraint project tolerance force quick HA HB HP Ok fuel it (a_only w) h MY N N (h_Y h) (h_U h) (h_re h) YA D MD1 t Q _ (s_prev_theta (a_s w)) Hh HY KY HU HhN HYA HD KD HQ) as Ex.
      replace {| h_Y := h_Y h; h_BY := h_BY h; h_YtBY := h_YtBY h; h_U := h_U h; h_re := h_re h |} with h in Ex by (destruct h; reflexivity).
      destruct (exact _ _ _ _ _ _ _ _ _ _ _ _ _ _ _ _ _) as [[[E0 h0|E0 w'|]| | |]|] eqn:Xe; auto; try contradiction.
      * destruct Ex as (-> & X2 & X3 & M' & MD' & X4 & X5). split; [exact Ind|]. split; [exact Ry|]. split; [exact Fd|]. split; [exact X2|]. split; [exact X3|]. exists M', MD'. split; [exact X4|left]. split; [exact X5|]. destruct (exact_only _ _ _ _ _ _ _ _ _ _ _ _ Xe) as (O1 & O2). split; [exact O1|]. intros On. apply O2; [exact On|]. apply andb_true_iff in Lm. destruct force; [destruct Lm; discriminate|reflexivity].
      * intros Tol. exfalso. apply Ex. split; [exact Tol|apply An; exact Lm].
    + pose proof (approximate_ok fuel it w h MY N YA D MD1 t Q Hh KY HYA HD KD HQ) as Ap. destruct (approximate _ _ _ _ _ _ _ _ _ _ _ _ _ _ _ _) as [[[E0 h0|E0 w'|]| | |]|]; auto; try contradiction.
      * destruct Ap as (-> & X2 & X3 & M' & MD' & X4 & X5). split; [exact Ind|]. split; [exact Ry|]. split; [exact Fd|]. split; [exact X2|]. split; [exact X3|]. exists M', MD'. split; [exact X4|]. destruct X5 as [X5|(X5 & X6)]; [left; exact X5|right]. split; [reflexivity|]. split; [exact X6|]. exists MY. auto.
      * intros Tol. destruct (Ap Tol) as (x & Nx). split; [reflexivity|]. split; [exact Ind|]. exists MY, MD1, x. split; [exact Sp|]. split; [apply (fields_dim _ _ _ _ HD)|exact Nx].
Qed.

Lemma moves_ok k fuel : forall it w Es M MD Es' o, state_ok n p HP (a_s w) M MD -> angle_ok force w -> (forall E0 r, Es = E0 :: r -> s_prev_E (a_s w) = E0) ->
  moves potr heev opA opB opK constraint cg pr project reorth reset tolerance force quick k fuel it w Es = Some (Val (Es', o)) ->
  (exists l, Es' = l ++ Es /\ Forall found l /\ (l <> [] -> rayleigh n p HA HB M (last l 0) /\ independent n p HB M)) /\
  match o with
  | Some h => exists E r MY N, Es' = E :: r /\ headed_ok n p HB h MY N /\ satisfies n HP MY /\ E = value n p HA MY N /\ (r <> [] -> Rabs (E - hd 0 r) < tolerance * / 2 * (E + hd 0 r + / 10000000))
  | None => True end.
Proof.
  induction k as [|k IH]; intros it w Es M MD Es' o St An Pv; [discriminate|]. cbn [moves]. pose proof (move_ok fuel it w M MD St An) as Mv.
  destruct (move _ _ _ _ _ _ _ _ _ _ _ _ _ _ _ _ _) as [[[E h|E w'|]| | |]|]; try discriminate.
  - intros [= <- <-]. destruct Mv as (Ind & Ry & Cv & MY & N & Rs & Hh & EE). assert (KM : satisfies n HP MY) by (apply (kept_span n p HP M); [apply St|exact Rs]). split.
    + exists [E]. split; [reflexivity|]. split; [constructor; [exists h, MY, N; auto|constructor]|]. intros _. auto.
    + exists E, Es, MY, N. split; [reflexivity|]. split; [exact Hh|]. split; [exact KM|]. split; [exact EE|]. intros Ne. destruct Es as [|E0 r]; [congruence|]. cbn [hd]. rewrite <- (Pv E0 r eq_refl). exact Cv.
  - intros L. destruct Mv as (Ind & Ry & Fd & Pe & An' & M' & MD' & St' & _).
    destruct (IH (it + 1)%Z w' (E :: Es) M' MD' Es' o St' An') as ((l & -> & Fl & El) & Q); [|exact L|].
    + intros E0 r [= <- <-]. exact Pe.
    + split; [|exact Q]. exists (l ++ [E]). split; [rewrite <- app_assoc; reflexivity|]. split; [apply Forall_app; split; [exact Fl|constructor; [exact Fd|constructor]]|]. intros _. rewrite last_last. auto.
  - intros [= <- <-]. split; [|exact I]. exists []. split; [reflexivity|]. split; [constructor|]. congruence.
Qed.
Lemma moves_safe k fuel : forall it w Es M MD, state_ok n p HP (a_s w) M MD -> angle_ok force w -> moves potr heev opA opB opK constraint cg pr project reorth reset tolerance force quick k fuel it w Es <> Some UB.
Proof.
  induction k as [|k IH]; intros it w Es M MD St An; [discriminate|]. cbn [moves]. pose proof (move_ok fuel it w M MD St An) as Mv.
  destruct (move _ _ _ _ _ _ _ _ _ _ _ _ _ _ _ _ _) as [[[E h|E w'|]| | |]|]; try discriminate; try contradiction. destruct Mv as (_ & _ & _ & _ & An' & M' & MD' & St' & _). apply (IH _ _ _ M' MD'); assumption.
Qed.
(** The traces are at least the sum of the lowest exact values. *)
Lemma found_above E m V lam : modes n m HP HA HB V lam -> found E -> rsum p lam <= E.
Proof.
  intros Md (h & MY & N & Hh & KY & ->). destruct (finish_ok n p potr heev opA opB opK constraint project HA HB HP Ok h MY N Hh) as (Y1 & e1 & M1 & _ & Le & HY1 & Sp & FB & FA & Asc).
  rewrite (finish_sum n p potr heev opA opB opK constraint project HA HB HP Ok h MY N M1 _ Hh Sp FB FA). apply rsum_le. intros i Hi.
  apply (above n p m HP HA HB V lam M1 (fun i => nth i e1 0)); auto; [apply (fields_dim _ _ _ _ HY1)|apply (kept_span n p HP MY); auto].
Qed.
End Solver.
