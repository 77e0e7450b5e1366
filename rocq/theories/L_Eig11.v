(** The number of iterations is bounded. *)
From Coq Require Import List ZArith Reals Bool Arith Lia Lra.
From Verif Require Import Base RC Loops M_Evect M_Lin M_Eig S_Evect S_Lin S_Eig L_Evect L_Evect3 L_Lin P_Lin L_Mat L_Eig L_Eig2 L_Eig3 L_Eig4 L_Eig5 L_Eig6 L_Eig7 L_Eig8 L_Eig9 L_Eig10.
Import ListNotations.
Local Open Scope R_scope.

Section Solver.
Variables (n p : nat) (potr : Z -> list C -> option (list C)) (heev : Z -> list C -> list C * list R).
Variables (opA : emat C -> outcome (emat C)) (opB : option (emat C -> outcome (emat C))).
Variables (opK : option (emat C -> emat C -> smat C -> outcome (emat C))) (constraint : option (emat C -> outcome (emat C))).
Variables (cg pr project reorth : bool) (reset : Z -> bool) (tolerance : R) (HA HB HP : mat).
Hypothesis Ok : solver_ok n p potr heev opA opB opK constraint project HA HB HP.
Let Hp := ok_p _ _ _ _ _ _ _ _ _ _ _ _ Ok. Let DA := ok_dimA _ _ _ _ _ _ _ _ _ _ _ _ Ok.
Let DB := ok_dimB _ _ _ _ _ _ _ _ _ _ _ _ Ok. Let HhA := ok_hermA _ _ _ _ _ _ _ _ _ _ _ _ Ok. Let HhB := ok_hermB _ _ _ _ _ _ _ _ _ _ _ _ Ok.

Lemma mtr_diag (e : nat -> R) : re (mtr p (mdiag p e)) = rsum p e.
Proof.
  unfold mtr. rewrite csum_re. apply rsum_ext. intros i Hi. unfold mdiag. destruct (Nat.ltb_spec i p); [|lia]. rewrite Nat.eqb_refl. reflexivity.
Qed.
Lemma finish_sum h MY N MY' e : headed_ok n p HB h MY N -> respan p MY MY' -> form n HB MY' MY' = mid p -> form n HA MY' MY' = mdiag p e -> value n p HA MY N = rsum p e.
Proof.
  intros Hh Sp FB FA. pose proof Hh as (HY & _ & _ & _ & _ & Inv). pose proof (fields_dim _ _ _ _ HY) as DM.
  assert (R1 : rayleigh n p HA HB MY (value n p HA MY N)) by (exists N; split; [apply Inv|split; [apply Inv|reflexivity]]).
  apply (respan_rayleigh n p HA HB MY MY') in R1; auto. apply (rayleigh_unique n p HA HB MY'); auto; [apply (respan_dim p n MY); auto|].
  exists (mid p). split; [apply mdim_id|]. split; [rewrite FB; apply (mid_l p p); apply mdim_id|]. rewrite (mid_r p p) by (apply form_dim; auto; apply (respan_dim p n MY); auto). rewrite FA. symmetry. apply mtr_diag.
Qed.
Lemma form_diag_nonneg Y i : semidef n HA -> 0 <= re (form n HA Y Y i i).
Proof.
  intros Sd. specialize (Sd (fun k => Y k i)). eapply Rle_trans; [exact Sd|]. right. unfold form, mmul, madj. apply f_equal. apply csum_ext. intros k _. rewrite csum_scal. reflexivity.
Qed.
Lemma value_nonneg h MY N : semidef n HA -> headed_ok n p HB h MY N -> 0 <= value n p HA MY N.
Proof.
  intros Sd Hh. destruct (finish_ok n p potr heev opA opB opK constraint project HA HB HP Ok h MY N Hh) as (Y & e & MY' & _ & Le & HY' & Sp & FB & FA & _).
  rewrite (finish_sum h MY N MY' _ Hh Sp FB FA). assert (K : forall i, (i < p)%nat -> 0 <= nth i e 0).
  { intros i Hi. pose proof (form_diag_nonneg MY' i Sd) as Q. rewrite FA in Q. unfold mdiag in Q. destruct (Nat.ltb_spec i p); [|lia]. rewrite Nat.eqb_refl in Q. exact Q. }
  clear - K. induction p as [|q IH]; [cbn; lra|]. cbn [rsum]. assert (0 <= rsum q (fun i => nth i e 0)) by (apply IH; intros; apply K; lia). pose proof (K q ltac:(lia)). lra.
Qed.

Lemma step_again fuel it s M MD E s' : semidef n HA -> state_ok n p HP s M MD ->
  step potr heev opA opB opK constraint cg pr project reorth reset tolerance fuel it s = Some (Val (Again E s')) -> 0 <= E.
Proof.
  intros Sd St. pose proof (prepare_ok n p potr heev opA opB opK constraint cg pr project reorth reset tolerance HA HB HP Ok it s M MD St) as Pr. unfold step.
  destruct (prepare _ _ _ _ _ _ _ _ _ _ _ _ _ _) as [[E0 h0|E0 h0 D t Q tf ds dE d2E|]| | |]; try discriminate.
  destruct Pr as (Ind & MY & N & MD1 & Sp & Hh & KY & -> & _). destruct (line_min _ _ _ _ _ _ _) as [[r| | |]|]; try discriminate; cbn [bind].
  destruct (evectmatrix_aXpbY _ _ _ _); try discriminate; cbn [bind]. destruct (constrain _ _); try discriminate; cbn [bind]. intros [= <- <-]. apply (value_nonneg h0); auto.
Qed.

Hypothesis Tol : 0 < tolerance.
Lemma loop_later fuel : semidef n HA -> forall k it s Es M MD E0, state_ok n p HP s M MD -> Rabs (s_prev_theta s) <= PI -> (0 < it)%Z -> s_prev_E s = E0 -> 0 <= E0 ->
  (forall E', independent n p HB M -> rayleigh n p HA HB M E' -> E' <= E0) -> E0 < INR k * (tolerance * / 20000000) ->
  loop potr heev opA opB opK constraint cg pr project reorth reset tolerance k fuel it s Es <> Some Abort.
Proof.
  intros Sd. induction k as [|k IH]; intros it s Es M MD E0 St Ht Hit Hp0 H0 Le Hk; [cbn in Hk; lra|]. cbn [loop].
  pose proof (step_mild n p potr heev opA opB opK constraint cg pr project reorth reset tolerance HA HB HP Ok (Rlt_le _ _ Tol) fuel it s M MD St Ht) as Mi.
  destruct (step _ _ _ _ _ _ _ _ _ _ _ _ _ _ _) as [[[E h|E s'|]| | |]|] eqn:Sp; try discriminate; try (destruct Mi; congruence).
  pose proof (step_again _ _ _ _ _ _ _ Sd St Sp) as HE.
  destruct (step_ok n p potr heev opA opB opK constraint cg pr project reorth reset tolerance HA HB HP Ok _ _ _ _ _ _ _ St Sp) as (Ind & Ry & Pe & Nc & M' & MD' & St' & Le').
  specialize (Nc Hit). pose proof (Le E Ind Ry) as LE. rewrite Hp0 in Nc. rewrite Rabs_left1 in Nc by lra.
  assert (Q1 : tolerance * / 2 * / 10000000 <= tolerance * / 2 * (E + E0 + / 10000000)) by (apply Rmult_le_compat_l; lra).
  apply (IH (it + 1)%Z s' (E :: Es) M' MD' E St'); auto; [lia|]. rewrite S_INR in Hk. lra.
Qed.
Lemma loop_bound fuel k s M MD E0 : semidef n HA -> state_ok n p HP s M MD -> Rabs (s_prev_theta s) <= PI -> rayleigh n p HA HB M E0 -> E0 < INR k * (tolerance * / 20000000) ->
  loop potr heev opA opB opK constraint cg pr project reorth reset tolerance (S k) fuel 0 s [] <> Some Abort.
Proof.
  intros Sd St Ht R0 Hk. cbn [loop].
  pose proof (step_mild n p potr heev opA opB opK constraint cg pr project reorth reset tolerance HA HB HP Ok (Rlt_le _ _ Tol) fuel 0 s M MD St Ht) as Mi.
  destruct (step _ _ _ _ _ _ _ _ _ _ _ _ _ _ _) as [[[E h|E s'|]| | |]|] eqn:Sp; try discriminate; try (destruct Mi; congruence).
  pose proof (step_again _ _ _ _ _ _ _ Sd St Sp) as HE.
  destruct (step_ok n p potr heev opA opB opK constraint cg pr project reorth reset tolerance HA HB HP Ok _ _ _ _ _ _ _ St Sp) as (Ind & Ry & Pe & _ & M' & MD' & St' & Le').
  assert (EE : E = E0) by (apply (rayleigh_unique n p HA HB M); auto; apply (fields_dim _ _ _ _ (proj1 St))).
  apply (loop_later fuel Sd k (0 + 1)%Z s' [E] M' MD' E St'); auto; [lia|]. rewrite EE. exact Hk.
Qed.
End Solver.
