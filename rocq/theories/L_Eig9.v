(** Iterations of the eigensolver. *)
From Coq Require Import List ZArith Reals Bool Arith Lia Lra.
From Verif Require Import Base RC Loops M_Evect M_Lin M_Eig S_Evect S_Lin S_Eig L_Evect L_Evect3 L_Lin P_Lin L_Mat L_Eig L_Eig2 L_Eig3 L_Eig4 L_Eig5 L_Eig6 L_Eig7 L_Eig8.
Import ListNotations.
Local Open Scope R_scope.
Add Ring Cring_e9 : C_ring_theory.

Section Solver.
Variables (n p : nat) (potr : Z -> list C -> option (list C)) (heev : Z -> list C -> list C * list R).
Variables (opA : emat C -> outcome (emat C)) (opB : option (emat C -> outcome (emat C))).
Variables (opK : option (emat C -> emat C -> smat C -> outcome (emat C))) (constraint : option (emat C -> outcome (emat C))).
Variables (cg pr project reorth : bool) (reset : Z -> bool) (tolerance : R) (HA HB HP : mat).
Hypothesis Ok : solver_ok n p potr heev opA opB opK constraint project HA HB HP.
Let Hp := ok_p _ _ _ _ _ _ _ _ _ _ _ _ Ok. Let Pok := ok_potr _ _ _ _ _ _ _ _ _ _ _ _ Ok. Let Eok := ok_heev _ _ _ _ _ _ _ _ _ _ _ _ Ok.
Let DA := ok_dimA _ _ _ _ _ _ _ _ _ _ _ _ Ok. Let DB := ok_dimB _ _ _ _ _ _ _ _ _ _ _ _ Ok. Let HhA := ok_hermA _ _ _ _ _ _ _ _ _ _ _ _ Ok. Let HhB := ok_hermB _ _ _ _ _ _ _ _ _ _ _ _ Ok.
Let OA := ok_A _ _ _ _ _ _ _ _ _ _ _ _ Ok. Let OB := ok_B _ _ _ _ _ _ _ _ _ _ _ _ Ok. Let KOK := ok_K _ _ _ _ _ _ _ _ _ _ _ _ Ok.
Let OP := ok_P _ _ _ _ _ _ _ _ _ _ _ _ Ok. Let PP := ok_idem _ _ _ _ _ _ _ _ _ _ _ _ Ok. Let PB := ok_comm _ _ _ _ _ _ _ _ _ _ _ _ Ok.

Definition value (MY N : mat) : R := re (mtr p (mmul p (form n HA MY MY) N)).
Definition nolag (d : tfd) : Prop := t_lag d = 0 /\ t_d_lag d = 0 /\ t_YtLY d = 0 /\ t_DtLD d = 0 /\ t_YtLD d = 0.
Lemma nolag_t d x : nolag d -> lagt d x = 0 /\ lagd d x = 0.
Proof. intros (E1 & E2 & E3 & E4 & E5). unfold lagt, lagd. rewrite E1, E2, E3, E4, E5. split; ring. Qed.
Lemma value_rayleigh h M MY N : mdim n p M -> respan p M MY -> headed_ok n p HB h MY N -> rayleigh n p HA HB M (value MY N).
Proof.
  intros DM Sp (HY & _ & _ & _ & _ & Inv). apply (respan_rayleigh n p HA HB MY M); auto; [apply (fields_dim _ _ _ _ HY)|apply (respan_sym p n); auto|]. exists N. split; [apply Inv|]. split; [apply Inv|reflexivity].
Qed.

Lemma prepare_ok it s M MD : state_ok n p HP s M MD ->
  match prepare potr heev opA opB opK constraint cg pr project reorth reset tolerance it s with
  | Val PRestart => ~ independent n p HB M
  | Val (PConverged E h) => independent n p HB M /\ Rabs (E - s_prev_E s) < tolerance * / 2 * (E + s_prev_E s + / 10000000) /\ exists MY N, respan p M MY /\ headed_ok n p HB h MY N /\ E = value MY N
  | Val (PLine E h D t Q tf ds dE d2E) => independent n p HB M /\ exists MY N MD', respan p M MY /\ headed_ok n p HB h MY N /\ satisfies n HP MY /\ E = value MY N /\
      fields n p D MD' /\ satisfies n HP MD' /\ fields n p Q (gradm n p HA HB MY N) /\ line_of n p HA HB MY MD' tf /\ nolag tf /\ dE = dE_of n p HA HB MY MD' N /\ d2E = d2E_of n p HA HB MY MD' N /\
      ((0 < it)%Z -> tolerance * / 2 * (E + s_prev_E s + / 10000000) <= Rabs (E - s_prev_E s))
  | NonFin => True
  | _ => False
  end.
Proof.
  intros St. pose proof St as (HY & KY & _). unfold prepare, aim. pose proof (head_ok n p potr heev opB HB Hp Pok Eok DB HhB OB reorth (s_Y s) M HY) as Hd.
  destruct (head potr heev opB reorth (s_Y s)) as [[h|]| | |]; try contradiction; cbn [bind]; auto. destruct Hd as (Ind & MY & N & Sp & Hh).
  assert (KM : kept n HP MY) by (apply (kept_span n p HP M); auto).
  destruct (energy_ok n p opA HA HB Hp DB HhB OA h MY N Hh) as (G & S & -> & HG & HS). cbn [bind]. fold (value MY N).
  destruct ((0 <? it)%Z && Rltb (Rabs (value MY N - s_prev_E s)) (tolerance * / 2 * (value MY N + s_prev_E s + / 10000000))) eqn:Cv.
  { split; [exact Ind|]. apply andb_true_iff in Cv. destruct Cv as (_ & Cv). destruct (Rltb_spec (Rabs (value MY N - s_prev_E s)) (tolerance * / 2 * (value MY N + s_prev_E s + / 10000000))); [|discriminate]. split; [assumption|]. exists MY, N. auto. }
  destruct (gradient_ok n p HA HB Hp DB HhA HhB h MY N G S Hh HG HS) as (G' & -> & HG'). cbn [bind].
  destruct (precondition_ok n p HB Hp opK constraint project HP KOK OP PP PB h MY N G' _ Hh KM HG') as (X & MX & -> & HX & KX). cbn [bind].
  destruct (direction_ok n p cg pr reset HP it s h M MD G' _ X MX St HG' HX KX) as (D & t & Q & MD' & -> & HD & KD & HQ). cbn [bind].
  pose proof (line_data_ok n p opA opB HA HB Hp DA DB HhA HhB OA OB h MY N S D MD' Hh HS HD) as Ld.
  destruct (Rlt_dec 0 (re (mtr p (form n HB MD' MD')))) as [Hl|Hl]; [|rewrite Ld; exact I]. destruct Ld as (a & D' & tf & ds & Ha & -> & HD1 & Ln & Lz). cbn [bind].
  split; [exact Ind|]. exists MY, N, (mscal a MD'). repeat (split; [first [assumption|reflexivity|apply kept_scal; assumption]|]).
  intros Hit. apply andb_false_iff in Cv. destruct Cv as [Cv|Cv]; [apply Z.ltb_ge in Cv; lia|]. destruct (Rltb_spec (Rabs (value MY N - s_prev_E s)) (tolerance * / 2 * (value MY N + s_prev_E s + / 10000000))); [discriminate|lra].
Qed.

(** The line search starts from the energy and its slope. *)
Lemma line_start h MY N MD tf : headed_ok n p HB h MY N -> line_of n p HA HB MY MD tf -> nolag tf ->
  consistent (line_func potr tf) (line_func potr tf 0) (value MY N) (dE_of n p HA HB MY MD N).
Proof.
  intros Hh Ln Lz. split; [reflexivity|]. pose proof Hh as (HY & _ & _ & Ind & _ & Inv). unfold line_func. destruct (nolag_t tf 0 Lz) as (Z1 & Z2).
  destruct (tf_value n p potr tf HA HB MY MD Pok HhA HhB Ln 0) as (N' & Inv' & ->); [rewrite turned_0; exact Ind|]. rewrite turned_0 in *. rewrite Z1, Z2, tder_0, !Rplus_0_r by auto.
  assert (E : N' = N) by (apply (inv_unique p (form n HB MY MY)); auto; [apply form_dim; auto; apply (fields_dim _ _ _ _ HY)|apply form_herm; exact HhB]). rewrite E. reflexivity.
Qed.
Lemma line_first h MY N MD tf : headed_ok n p HB h MY N -> line_of n p HA HB MY MD tf -> nolag tf -> fst (line_func potr tf 0 0) = value MY N.
Proof. intros Hh Ln Lz. destruct (line_start h MY N MD tf Hh Ln Lz) as (_ & ->). reflexivity. Qed.
Lemma line_end tf MY MD x E : line_of n p HA HB MY MD tf -> nolag tf -> mdim n p MY -> mdim n p MD -> independent n p HB (turned x MY MD) -> rayleigh n p HA HB (turned x MY MD) E -> fst (line_func potr tf 0 x) = E.
Proof.
  intros Ln Lz DY DD Ind Ry. unfold line_func. destruct (nolag_t tf x Lz) as (Z1 & Z2). destruct (tf_value n p potr tf HA HB MY MD Pok HhA HhB Ln x Ind) as (N' & Inv' & ->). cbn [fst]. rewrite Z1, Rplus_0_r.
  apply (rayleigh_unique n p HA HB (turned x MY MD)); auto; [apply turned_dim; auto|]. exists N'. split; [apply Inv'|]. split; [apply Inv'|reflexivity].
Qed.

Lemma line_min_ok fuel tf E dE th r : fst (line_func potr tf 0 0) = E -> line_min potr tolerance fuel tf E dE th = Some (Val r) -> fst (line_func potr tf 0 (r_x r)) <= E /\ fst (line_func potr tf 0 (r_x r)) <= E + / 10 * r_x r * dE.
Proof.
  intros Co. unfold line_min. destruct (linmin _ _ _ _ _ _ _ _ _ _) as [[r'| | |]|] eqn:L; try discriminate. destruct (Rleb (Rabs (r_x r')) PI); [|discriminate]. intros [= <-].
  destruct (C68_any_slope_partial _ _ (line_func potr tf 0) _ _ _ _ _ _ _ _ (fun _ _ => eq_refl) Co L) as (S1 & [Ef|(E1 & E2 & _)] & Le & _); [rewrite Ef; cbn [fst]; split; [exact Le|exact S1]|].
  unfold S_Lin.sufficient in S1. rewrite E2 in *. rewrite E1, Co in *. split; lra.
Qed.

(** One iteration: the new fields, if they are independent, have no larger trace. *)
Lemma step_ok fuel it s M MD E s' : state_ok n p HP s M MD ->
  step potr heev opA opB opK constraint cg pr project reorth reset tolerance fuel it s = Some (Val (Again E s')) ->
  independent n p HB M /\ rayleigh n p HA HB M E /\ s_prev_E s' = E /\ ((0 < it)%Z -> tolerance * / 2 * (E + s_prev_E s + / 10000000) <= Rabs (E - s_prev_E s)) /\ exists M' MD', state_ok n p HP s' M' MD' /\ forall E', independent n p HB M' -> rayleigh n p HA HB M' E' -> E' <= E.
Proof.
  intros St. pose proof (prepare_ok it s M MD St) as Pr. unfold step. destruct (prepare _ _ _ _ _ _ _ _ _ _ _ _ _ _) as [[E0 h|E0 h D t Q tf ds dE d2E|]| | |]; try discriminate.
  destruct Pr as (Ind & MY & N & MD1 & Sp & Hh & KY & -> & HD & KD & HQ & Ln & Lz & -> & -> & Nc). pose proof Hh as (HY & _). pose proof St as (HY0 & _).
  destruct (line_min _ _ _ _ _ _ _) as [[r| | |]|] eqn:L; try discriminate; cbn [bind].
  destruct (line_min_ok _ _ _ _ _ _ (line_first h MY N MD1 tf Hh Ln Lz) L) as (Le & _).
  destruct (eaXpbY_ok n p (cos (r_x r)) (h_Y h) MY (sin (r_x r)) D MD1 HY HD) as (Y1 & -> & HY1). cbn [bind]. destruct (constrain_ok n p constraint HP OP Y1 _ HY1) as (Y2 & -> & HY2). cbn [bind].
  intros [= <- <-]. split; [exact Ind|]. split; [apply (value_rayleigh h); auto; apply (fields_dim _ _ _ _ HY0)|]. split; [reflexivity|]. split; [exact Nc|].
  assert (K : satisfies n HP (turned (r_x r) MY MD1)) by (apply kept_add; apply kept_scal; assumption). unfold turned in K. unfold satisfies in K. rewrite K in HY2.
  exists (turned (r_x r) MY MD1), MD1. split; [repeat split; cbn; auto; try apply HY2; try apply HD; eexists; apply HQ|].
  intros E' Ind' Ry. rewrite <- (line_end tf MY MD1 (r_x r) E'); auto; [apply (fields_dim _ _ _ _ HY)|apply (fields_dim _ _ _ _ HD)].
Qed.
Lemma step_conv fuel it s M MD E h : state_ok n p HP s M MD ->
  step potr heev opA opB opK constraint cg pr project reorth reset tolerance fuel it s = Some (Val (Converged E h)) ->
  independent n p HB M /\ rayleigh n p HA HB M E /\ Rabs (E - s_prev_E s) < tolerance * / 2 * (E + s_prev_E s + / 10000000) /\ exists MY N, respan p M MY /\ headed_ok n p HB h MY N /\ E = value MY N.
Proof.
  intros St. pose proof (prepare_ok it s M MD St) as Pr. unfold step. destruct (prepare _ _ _ _ _ _ _ _ _ _ _ _ _ _) as [[E0 h0|E0 h0 D t Q tf ds dE d2E|]| | |]; try discriminate.
  - intros [= <- <-]. destruct Pr as (Ind & Cv & MY & N & Sp & Hh & EE). split; [exact Ind|]. split; [|split; [exact Cv|]]. 
    + rewrite EE. apply (value_rayleigh h0); auto. apply (fields_dim _ _ _ _ (proj1 St)).
    + exists MY, N. auto.
  - destruct (line_min _ _ _ _ _ _ _) as [[r| | |]|]; try discriminate; cbn [bind]. destruct (evectmatrix_aXpbY _ _ _ _); try discriminate; cbn [bind]. destruct (constrain _ _); discriminate.
Qed.

(** All iterations. *)
Fixpoint falling (Es : list R) : Prop := match Es with E :: (E0 :: _) as r => E <= E0 /\ falling r | _ => True end.
Lemma loop_ok k fuel : forall it s Es M MD Es' o, state_ok n p HP s M MD -> falling Es -> (forall E0 r, Es = E0 :: r -> s_prev_E s = E0 /\ forall E', independent n p HB M -> rayleigh n p HA HB M E' -> E' <= E0) ->
  loop potr heev opA opB opK constraint cg pr project reorth reset tolerance k fuel it s Es = Some (Val (Es', o)) ->
  falling Es' /\ (exists l, Es' = l ++ Es /\ (l <> [] -> rayleigh n p HA HB M (last l 0) /\ independent n p HB M)) /\
  match o with
  | Some h => exists E r MY N, Es' = E :: r /\ headed_ok n p HB h MY N /\ satisfies n HP MY /\ E = value MY N /\ (r <> [] -> Rabs (E - hd 0 r) < tolerance * / 2 * (E + hd 0 r + / 10000000))
  | None => True end.
Proof.
  induction k as [|k IH]; intros it s Es M MD Es' o St Fl Pv; [discriminate|]. cbn [loop].
  destruct (step _ _ _ _ _ _ _ _ _ _ _ _ _ _ _) as [[[E h|E s'|]| | |]|] eqn:Sp; try discriminate.
  - intros [= <- <-]. destruct (step_conv _ _ _ _ _ _ _ St Sp) as (Ind & Ry & Cv & MY & N & Rs & Hh & EE). split; [|split].
    + destruct Es as [|E0 r]; [exact I|]. split; [|exact Fl]. apply (proj2 (Pv E0 r eq_refl)); auto.
    + exists [E]. split; [reflexivity|]. intros _. auto.
    + exists E, Es, MY, N. split; [reflexivity|]. split; [exact Hh|]. split; [apply (kept_span n p HP M); [apply St|exact Rs]|]. split; [exact EE|]. intros Ne. destruct Es as [|E0 r]; [congruence|]. cbn [hd]. rewrite <- (proj1 (Pv E0 r eq_refl)). exact Cv.
  - intros L. destruct (step_ok _ _ _ _ _ _ _ St Sp) as (Ind & Ry & Pe & _ & M' & MD' & St' & Le).
    destruct (IH (it + 1)%Z s' (E :: Es) M' MD' Es' o St') as (F1 & (l & -> & El) & Q); [| |exact L|].
    + destruct Es as [|E0 r]; [exact I|]. split; [|exact Fl]. apply (proj2 (Pv E0 r eq_refl)); auto.
    + intros E0 r [= <- <-]. split; [exact Pe|]. exact Le.
    + split; [exact F1|]. split; [|exact Q]. exists (l ++ [E]). split; [rewrite <- app_assoc; reflexivity|]. intros _. rewrite last_last. auto.
  - intros [= <- <-]. split; [exact Fl|]. split; [|exact I]. exists []. split; [reflexivity|]. congruence.
Qed.

Lemma finish_ok h MY N : headed_ok n p HB h MY N -> exists Y e MY', finish potr heev opA opB h = Val (Y, e) /\ length e = p /\ fields n p Y MY' /\ respan p MY MY' /\
  form n HB MY' MY' = mid p /\ form n HA MY' MY' = mdiag p (fun i => nth i e 0) /\ (forall i j, (i <= j < p)%nat -> nth i e 0 <= nth j e 0).
Proof.
  intros (HY & _ & _ & Ind & _ & _). pose proof (fields_dim _ _ _ _ HY) as DM. unfold finish, get_eigenvals_aux. rewrite (proj1 (proj2 HY)). pose proof (create_square p) as HW.
  destruct (apply_B_ok n p opB HB OB _ _ HY) as (BY & -> & HBY). cbn [bind]. destruct (gram_ok n p opB HB OB _ _ BY HY HBY) as (U & -> & HU). cbn [bind].
  set (F := form n HB MY MY) in *. assert (HF : hermitian F) by (apply form_herm; exact HhB). assert (DF : mdim p p F) by (apply form_dim; auto).
  pose proof (invert_ok p potr U F Pok HU HF) as Iv. destruct (invert potr U) as [[U'|]| | |]; try contradiction; cbn [bind]. destruct Iv as (Pd & N' & HN & Inv).
  destruct (inv_both p F N' DF HF Inv) as (HhN & NF). destruct Inv as (DN & FN).
  destruct (sqrt_ok p heev Eok _ _ U' N' _ _ HW HN HW HhN (posdef_inverse p F N' DF HF (conj DN FN) Pd)) as (Q & MQ & -> & HQ & HhQ & QQ). cbn [bind].
  destruct (XeYS_ok n p (h_Y h) MY (h_Y h) MY Q MQ true Hp HY HY HQ) as (W1 & -> & HW1). cbn [bind opm] in *. rewrite HhQ in HW1. set (M1 := mmul p MY MQ) in *.
  assert (DQ : mdim p p MQ) by apply (square_dim _ _ _ HQ).
  assert (Comm : mmul p MQ F = mmul p F MQ).
  { rewrite <- (mid_l p p (mmul p MQ F)) by (apply (mdim_mul p p p); auto). rewrite <- FN, <- QQ at 1. rewrite !mmul_assoc.
    rewrite <- (mmul_assoc p p MQ MQ F), QQ, NF. rewrite (mid_r p p) by exact DQ. reflexivity. }
  assert (F2 : form n HB M1 M1 = mid p).
  { unfold M1. rewrite form_span. fold F. rewrite HhQ, <- mmul_assoc, Comm, mmul_assoc, QQ. exact FN. }
  assert (Sp2 : respan p MY M1).
  { exists MQ, (mmul p MQ F). split; [exact DQ|]. split; [apply (mdim_mul p p p); auto|]. split; [rewrite <- mmul_assoc, QQ; exact NF|]. split; [rewrite Comm, mmul_assoc, QQ; exact FN|reflexivity]. }
  destruct (OA _ _ HW1) as (W2 & -> & HW2). cbn [bind]. destruct (XtY_ok n p _ _ W1 M1 W2 _ _ _ HW HW HW1 HW2) as (U2 & -> & HU2). cbn [bind]. fold (form n HA M1 M1) in HU2.
  destruct (eigensolve_ok p heev Eok U2 _ HU2 (form_herm n HA M1 HhA)) as (Vs & e & V & -> & Le & HV & VV & VV' & EM & Asc).
  destruct (XeYS_ok n p (h_Y h) MY W1 M1 Vs V true Hp HY HW1 HV) as (Y' & -> & HY'). cbn [bind opm] in *. assert (DV : mdim p p V) by apply (square_dim _ _ _ HV).
  exists Y', e, (mmul p M1 (madj V)). split; [reflexivity|]. split; [exact Le|]. split; [exact HY'|]. split; [|split; [|split; [|exact Asc]]].
  - apply (respan_trans p MY M1); [exact Sp2|]. exists (madj V), V. split; [apply mdim_adj; exact DV|]. auto.
  - rewrite form_span, F2, madj_adj, (mid_l p p) by (apply mdim_adj; exact DV). exact VV.
  - rewrite form_span, EM, madj_adj, !mmul_assoc, VV, <- (mmul_assoc p p V), VV. rewrite (mid_r p p), (mid_l p p); auto; intros i j Hij; unfold mdiag; destruct (Nat.ltb_spec i p), (Nat.eqb_spec i j); cbn [andb]; auto; lia.
Qed.
End Solver.
