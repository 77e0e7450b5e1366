(** Safety of the iterations and end of the line minimization. *)
From Coq Require Import List ZArith Reals Bool Arith Lia Lra FunctionalExtensionality.
From Verif Require Import Base RC Loops M_Evect M_Lin M_Eig S_Evect S_Lin S_Eig L_Evect L_Evect3 L_Lin P_Lin L_Mat L_Eig L_Eig2 L_Eig3 L_Eig4 L_Eig5 L_Eig6 L_Eig7 L_Eig8 L_Eig9.
Import ListNotations.
Local Open Scope R_scope.

(** ** The search only fails in the arithmetic *)
Definition mild {A} (o : outcome A) : Prop := o <> Abort /\ o <> UB.
Lemma mild_val {A} (a : A) : mild (Val a). Proof. split; discriminate. Qed.
Lemma mild_bind {A B} (o : outcome A) (f : A -> outcome B) : mild o -> (forall a, mild (f a)) -> mild (bind o f).
Proof. intros (H1 & H2) H. destruct o; cbn; auto; try congruence. split; discriminate. Qed.
Lemma mild_fdiv a b : mild (fdiv a b).
Proof. unfold fdiv. destruct (Req_EM_T b 0); split; discriminate. Qed.
Lemma mild_fsqrt a : mild (fsqrt a).
Proof. unfold fsqrt. destruct (Rltb a 0); split; discriminate. Qed.
Ltac mild := repeat first [apply mild_val|apply mild_fdiv|apply mild_fsqrt|apply mild_bind; [|intros]|
  match goal with |- mild (let '(_, _) := ?x in _) => destruct x end|match goal with |- mild (if ?b then _ else _) => destruct b end].
Lemma dcstep_mild x y stp fp dp b lo hi : mild (dcstep x y stp fp dp b lo hi).
Proof.
  unfold dcstep. destruct x as ((? & ?) & ?), y as ((? & ?) & ?). apply mild_bind; [apply mild_fdiv|intros]. apply mild_bind; [|intros (? & ?); apply mild_val].
  unfold case1, case2, case3, case4, cubic_theta, cubic_gamma. mild.
Qed.
Lemma dcsrch_mild p v x f g : mild (dcsrch p v x f g).
Proof.
  unfold dcsrch. destruct (verdict p v x f g); try apply mild_val. apply mild_bind; [|intros (((? & ?) & ?) & ?); destruct (next_step _ _ _ _ _ _ _); apply mild_val].
  unfold update. destruct (_ && _ && _)%bool; [|apply dcstep_mild]. apply mild_bind; [apply dcstep_mild|]. intros (((x1 & y1) & ?) & ?). destruct x1 as ((? & ?) & ?), y1 as ((? & ?) & ?). apply mild_val.
Qed.
Lemma search_mild fuel F p : forall k v x, match search fuel F p k v x with Some o => mild o | None => True end.
Proof.
  induction fuel as [|m IH]; intros k v x; cbn [search]; [exact I|]. destruct (F k x) as (f & g). pose proof (dcsrch_mild p v x f g) as M. destruct (dcsrch p v x f g) as [((t & v') & x')| | |]; try (split; discriminate); try (destruct M; congruence).
  destruct t; try apply mild_val. apply IH.
Qed.
Lemma linmin_mild fuel F xg f0 g0 ft gt xt lo hi : 0 <= ft -> 0 <= gt -> 0 <= xt -> lo = 0 -> (g0 < 0 -> 0 <= xg <= hi) -> (0 < g0 -> hi <= xg <= 0) ->
  match linmin fuel F xg f0 g0 ft gt xt lo hi with Some o => mild o | None => True end.
Proof.
  intros Hf Hg Hx -> H1 H2. unfold linmin, linmin_down, dcsrch_start. cbn [stpmin stpmax ginit ftol gtol xtol finit].
  destruct (Rltb_spec 0 g0) as [P|P].
  - specialize (H2 P). dec. cbn [orb]. match goal with |- context [search ?a ?b ?c ?d ?e ?g] => pose proof (search_mild a b c d e g) as M; destruct (search a b c d e g) as [[r| | |]|] end; try exact I; try (destruct M; congruence); split; discriminate.
  - destruct (Reqb_spec g0 0) as [Z|Z]; [apply mild_val|]. assert (g0 < 0) by lra. specialize (H1 H). dec. cbn [orb]. match goal with |- context [search ?a ?b ?c ?d ?e ?g] => pose proof (search_mild a b c d e g) as M; destruct (search a b c d e g) as [[r| | |]|] end; try exact I; try (destruct M; congruence); split; discriminate.
Qed.

(** ** The first guess *)
Lemma guess_range dE d2E t : Rabs t <= PI -> (dE < 0 -> 0 <= first_theta dE d2E t <= PI) /\ (0 < dE -> - PI <= first_theta dE d2E t <= 0).
Proof.
  intros Ht. pose proof (Rabs_pos t) as Hp. unfold first_theta. split; intros Hd.
  - destruct (Rltb_spec 0 dE); [lra|]. destruct (Reqb_spec d2E 0); [destruct (Reqb_spec dE 0); lra|]. destruct (Rltb_spec d2E 0) as [N|N].
    + destruct (Rleb PI (Rabs (Rabs t))); lra.
    + assert (0 < - dE / d2E) by (apply Rdiv_lt_0_compat; lra). rewrite (Rabs_right (- dE / d2E)) by lra. destruct (Rleb_spec PI (- dE / d2E)); lra.
  - destruct (Rltb_spec 0 dE); [|lra]. destruct (Reqb_spec d2E 0); [destruct (Reqb_spec dE 0); lra|]. destruct (Rltb_spec d2E 0) as [N|N].
    + destruct (Rleb PI (Rabs (- Rabs t))); lra.
    + assert (Q : 0 < dE / d2E) by (apply Rdiv_lt_0_compat; lra). replace (- dE / d2E) with (- (dE / d2E)) by (unfold Rdiv; ring). rewrite Rabs_Ropp, (Rabs_right (dE / d2E)) by lra. destruct (Rleb_spec PI (dE / d2E)); lra.
Qed.
Lemma guess_nonzero dE d2E t : t <> 0 -> (dE < 0 -> 0 < first_theta dE d2E t) /\ (0 < dE -> first_theta dE d2E t < 0).
Proof.
  intros Ht. pose proof (Rabs_pos_lt t Ht) as Hp. unfold first_theta. split; intros Hd.
  - destruct (Rltb_spec 0 dE); [lra|]. destruct (Reqb_spec d2E 0); [destruct (Reqb_spec dE 0); lra|]. destruct (Rltb_spec d2E 0) as [N|N].
    + destruct (Rleb PI (Rabs (Rabs t))); lra.
    + assert (0 < - dE / d2E) by (apply Rdiv_lt_0_compat; lra). destruct (Rleb PI (Rabs (- dE / d2E))); lra.
  - destruct (Rltb_spec 0 dE); [|lra]. destruct (Reqb_spec d2E 0); [destruct (Reqb_spec dE 0); lra|]. destruct (Rltb_spec d2E 0) as [N|N].
    + destruct (Rleb PI (Rabs (- Rabs t))); lra.
    + assert (Q : 0 < dE / d2E) by (apply Rdiv_lt_0_compat; lra). replace (- dE / d2E) with (- (dE / d2E)) by (unfold Rdiv; ring). destruct (Rleb PI (Rabs (- (dE / d2E)))); lra.
Qed.

Section Solver.
Variables (n p : nat) (potr : Z -> list C -> option (list C)) (heev : Z -> list C -> list C * list R).
Variables (opA : emat C -> outcome (emat C)) (opB : option (emat C -> outcome (emat C))).
Variables (opK : option (emat C -> emat C -> smat C -> outcome (emat C))) (constraint : option (emat C -> outcome (emat C))).
Variables (cg pr project reorth : bool) (reset : Z -> bool) (tolerance : R) (HA HB HP : mat).
Hypothesis Ok : solver_ok n p potr heev opA opB opK constraint project HA HB HP.
Hypothesis Tol : 0 <= tolerance.
Let Pok := ok_potr _ _ _ _ _ _ _ _ _ _ _ _ Ok. Let DB := ok_dimB _ _ _ _ _ _ _ _ _ _ _ _ Ok. Let HhA := ok_hermA _ _ _ _ _ _ _ _ _ _ _ _ Ok. Let HhB := ok_hermB _ _ _ _ _ _ _ _ _ _ _ _ Ok.

Lemma bound_sign dE : (dE < 0 -> (if Rltb 0 dE then - PI else PI) = PI) /\ (0 < dE -> (if Rltb 0 dE then - PI else PI) = - PI) /\ Rabs (if Rltb 0 dE then - PI else PI) = PI.
Proof. pose proof PI_RGT_0. destruct (Rltb_spec 0 dE); repeat split; intros; try lra; [rewrite Rabs_Ropp|]; apply Rabs_right; lra. Qed.
Lemma line_min_mild fuel tf E dE d2E t : fst (line_func potr tf 0 0) = E -> Rabs t <= PI ->
  match line_min potr tolerance fuel tf E dE (first_theta dE d2E t) with Some o => mild o | None => True end.
Proof.
  intros Co Ht. unfold line_min. destruct (guess_range dE d2E t Ht) as (G1 & G2). destruct (bound_sign dE) as (B1 & B2 & B3).
  assert (M : match linmin fuel (line_func potr tf) (first_theta dE d2E t) E dE (/ 10) (MIN tolerance (/ 1000000)) (/ 100000000000000) 0 (if Rltb 0 dE then - PI else PI) with Some o => mild o | None => True end).
  { apply linmin_mild; [lra|destruct (MIN_spec tolerance (/ 1000000)) as [(-> & ?)|(-> & ?)]; lra|lra|reflexivity|intros H; rewrite (B1 H); apply G1; exact H|intros H; rewrite (B2 H); apply G2; exact H]. }
  destruct (linmin _ _ _ _ _ _ _ _ _ _) as [[r| | |]|] eqn:L; try exact I; try exact M.
  destruct (C68_any_slope_partial _ _ (line_func potr tf 0) _ _ _ _ _ _ _ _ (fun _ _ => eq_refl) Co L) as (_ & _ & _ & X). rewrite B3 in X. destruct (Rleb_spec (Rabs (r_x r)) PI); [apply mild_val|lra].
Qed.
Lemma step_mild fuel it s M MD : state_ok n p HP s M MD -> Rabs (s_prev_theta s) <= PI ->
  match step potr heev opA opB opK constraint cg pr project reorth reset tolerance fuel it s with
  | Some (Val (Again E s')) => Rabs (s_prev_theta s') <= PI
  | Some o => mild o | None => True end.
Proof.
  intros St Ht. pose proof (prepare_ok n p potr heev opA opB opK constraint cg pr project reorth reset tolerance HA HB HP Ok it s M MD St) as Pr. unfold step.
  destruct (prepare _ _ _ _ _ _ _ _ _ _ _ _ _ _) as [[E0 h0|E0 h0 D t Q tf ds dE d2E|]| | |]; try contradiction; try (split; discriminate).
  destruct Pr as (Ind & MY & N & MD1 & Sp & Hh & KY & -> & HD & KD & HQ & Ln & Lz & -> & -> & _).
  pose proof (line_min_mild fuel tf _ (dE_of n p HA HB MY MD1 N) (d2E_of n p HA HB MY MD1 N) (s_prev_theta s) (line_first n p potr heev opA opB opK constraint project HA HB HP Ok h0 MY N MD1 tf Hh Ln Lz) Ht) as Mi.
  destruct (line_min _ _ _ _ _ _ _) as [[r| | |]|]; try exact I; try (destruct Mi; congruence); try (split; discriminate). cbn [bind].
  destruct (eaXpbY_ok n p (cos (r_x r)) (h_Y h0) MY (sin (r_x r)) D MD1 (proj1 Hh) HD) as (Y1 & -> & HY1). cbn [bind].
  destruct (constrain_ok n p constraint HP (ok_P _ _ _ _ _ _ _ _ _ _ _ _ Ok) Y1 _ HY1) as (Y2 & -> & HY2). cbn [bind s_prev_theta]. destruct (atan_bound (r_x r)) as (A1 & A2). pose proof PI_RGT_0. apply Rabs_le. lra.
Qed.

(** ** End of the line minimization *)
Lemma trace_period tf MY MD x : line_of n p HA HB MY MD tf -> nolag tf -> mdim n p MY -> mdim n p MD -> independent n p HB MY -> x = PI \/ x = - PI ->
  exists N, inverse_of p (form n HB MY MY) N /\ snd (line_func potr tf 0 x) = dE_of n p HA HB MY MD N.
Proof.
  intros Ln Lz DY DD Ind Hx.
  assert (Hc : cos x = -1 /\ sin x = 0) by (destruct Hx as [->| ->]; [rewrite cos_PI, sin_PI|rewrite cos_neg, sin_neg, cos_PI, sin_PI]; split; lra). destruct Hc as (Hc & Hs).
  assert (H2 : cos (2 * x) = 1 /\ sin (2 * x) = 0) by (rewrite cos_2a, sin_2a, Hc, Hs; split; ring). destruct H2 as (Hc2 & Hs2).
  assert (T : turned x MY MD = mscal (-1) MY) by (unfold turned; rewrite Hc, Hs; apply mext; intros i j; unfold madd, mscal; cring).
  assert (Fm : forall A, form n A (turned x MY MD) (turned x MY MD) = form n A MY MY) by (intros A; rewrite T, form_scal_l, form_scal_r, mscal_mscal; replace (-1 * -1) with 1 by ring; apply mscal_1).
  destruct (nolag_t tf x Lz) as (Z1 & Z2).
  destruct (tf_value n p potr tf HA HB MY MD Pok HhA HhB Ln x) as (N & Inv & E). { unfold independent. rewrite Fm. exact Ind. }
  rewrite Fm in Inv, E. exists N. split; [exact Inv|]. unfold line_func. rewrite E. cbn [snd]. rewrite Z2, Rplus_0_r. rewrite <- tder_0 by auto. unfold tder, combm, dcomb. rewrite Hc, Hs, Hc2, Hs2, cos_0, sin_0, (Rmult_0_r 2), cos_0, sin_0.
  replace (-1 * -1) with (1 * 1) by ring. replace (0 * -1) with (0 * 1) by ring. reflexivity.
Qed.
Lemma line_min_ends tf h MY MD N d2E t : headed_ok n p HB h MY N -> mdim n p MD -> line_of n p HA HB MY MD tf -> nolag tf -> (forall x, independent n p HB (turned x MY MD)) -> t <> 0 ->
  exists fuel, line_min potr tolerance fuel tf (value n p HA MY N) (dE_of n p HA HB MY MD N) (first_theta (dE_of n p HA HB MY MD N) d2E t) <> None.
Proof.
  intros Hh DD Ln Lz Ind Ht. pose proof Hh as (HY & _ & _ & Iy & _ & Inv). pose proof (fields_dim _ _ _ _ HY) as DY.
  set (f := fun x => fst (line_func potr tf 0 x)). set (g := fun x => snd (line_func potr tf 0 x)). set (dE := dE_of n p HA HB MY MD N).
  pose proof (line_start n p potr heev opA opB opK constraint project HA HB HP Ok h MY N MD tf Hh Ln Lz) as (_ & L0).
  assert (E0 : f 0 = value n p HA MY N /\ g 0 = dE) by (unfold f, g; rewrite L0; split; reflexivity). destruct E0 as (F0 & G0).
  assert (Hf : forall x e, rayleigh n p HA HB (turned x MY MD) e -> f x = e + lagt tf x).
  { intros x e Ry. rewrite (proj1 (nolag_t tf x Lz)), Rplus_0_r. unfold f. apply (line_end n p potr heev opA opB opK constraint project HA HB HP Ok tf MY MD); auto. }
  assert (Dr : forall x, derivable_pt_lim f x (g x)).
  { intros x. destruct (tf_value n p potr tf HA HB MY MD Pok HhA HhB Ln x (Ind x)) as (N' & Inv' & E). unfold g, line_func at 1. rewrite E. cbn [snd]. apply (f_der n p potr tf HA HB MY MD Pok HhA HhB DB DY DD Ln f (fun t e _ => Hf t e)); auto. }
  assert (Cg : continuity_pt g 0).
  { apply derivable_continuous_pt. exists (d2E_of n p HA HB MY MD N). apply (f_der2 n p potr tf HA HB MY MD Pok HhA HhB DB DY DD Ln f (fun t e _ => Hf t e) N g); auto. { intros x. apply (proj2 (nolag_t tf x Lz)). } exists 1. split; [lra|]. auto. }
  assert (Pd : g (if Rltb 0 dE then - PI else PI) = g 0).
  { rewrite G0. destruct (trace_period tf MY MD (if Rltb 0 dE then - PI else PI) Ln Lz DY DD Iy) as (N' & Inv' & E); [destruct (Rltb 0 dE); auto|]. unfold g. rewrite E. unfold dE.
    replace N' with N; [reflexivity|]. apply (inv_unique p (form n HB MY MY)); auto; [apply form_dim; auto|apply form_herm; exact HhB]. }
  destruct (guess_nonzero dE d2E t Ht) as (G1 & G2).
  destruct (C69_smooth_partial f g (first_theta dE d2E t) (/ 10) (MIN tolerance (/ 1000000)) (/ 100000000000000) (if Rltb 0 dE then - PI else PI)) as (k & Hk); try rewrite G0; try lra; auto.
  exists k. unfold line_min. assert (LF : line_func potr tf = fun _ x => (f x, g x)) by (extensionality m; extensionality x; unfold f, g; change (line_func potr tf 0 x) with (line_func potr tf m x); apply surjective_pairing).
  rewrite LF. rewrite F0, G0 in Hk. destruct (linmin _ _ _ _ _ _ _ _ _ _) as [[r| | |]|]; try congruence. destruct (Rleb _ _); discriminate.
Qed.
End Solver.
