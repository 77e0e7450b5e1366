(** The run ends if the fields stay independent along the lines followed. *)
From Coq Require Import List ZArith Reals Bool Arith Lia Lra.
From Verif Require Import Base RC Loops M_Evect M_Lin M_Eig S_Evect S_Lin S_Eig L_Lin P_Lin L_Mat L_Eig L_Eig2 L_Eig3 L_Eig4 L_Eig5 L_Eig6 L_Eig7 L_Eig8 L_Eig9 L_Eig10 L_Eig11 L_Eig12.
Import ListNotations.
Local Open Scope R_scope.

Lemma search_more F p g fuel : forall n v x r, search fuel F p n v x = Some r -> search (fuel + g) F p n v x = Some r.
Proof.
  induction fuel as [|k IH]; intros n v x r; [discriminate|]. cbn [search Nat.add]. destruct (F n x) as (f, df). destruct (dcsrch p v x f df) as [[[[] v'] x']| | |]; auto.
Qed.
Lemma linmin_more fuel g F x f0 d0 a b c lo hi r : linmin fuel F x f0 d0 a b c lo hi = Some r -> linmin (fuel + g) F x f0 d0 a b c lo hi = Some r.
Proof.
  unfold linmin, linmin_down. destruct (Rltb 0 d0); [|destruct (Reqb d0 0); auto].
  - destruct (dcsrch_start _ _) as [v|]; auto. destruct (search fuel _ _ _ _ _) as [q|] eqn:E; [|discriminate]. rewrite (search_more _ _ g _ _ _ _ _ E). auto.
  - destruct (dcsrch_start _ _) as [v|]; auto. apply search_more.
Qed.
Lemma line_min_more potr tol fuel g t E dE th r : line_min potr tol fuel t E dE th = Some r -> line_min potr tol (fuel + g) t E dE th = Some r.
Proof. unfold line_min. destruct (linmin fuel _ _ _ _ _ _ _ _ _) as [q|] eqn:L; [|discriminate]. rewrite (linmin_more _ g _ _ _ _ _ _ _ _ _ _ L). auto. Qed.

Section Ends.
Variables (n p : nat) (potr : Z -> list C -> option (list C)) (heev : Z -> list C -> list C * list R)
  (opA : emat C -> outcome (emat C)) (opB : option (emat C -> outcome (emat C))) (opK : option (emat C -> emat C -> smat C -> outcome (emat C))) (constraint : option (emat C -> outcome (emat C)))
  (cg pr project reorth : bool) (reset : Z -> bool) (tolerance : R) (HA HB HP : mat).
Hypothesis Ok : solver_ok n p potr heev opA opB opK constraint project HA HB HP.
Hypothesis Sd : semidef n HA.
Hypothesis Tol : 0 < tolerance.
Let prep := prepare potr heev opA opB opK constraint cg pr project reorth reset tolerance.
Let stp := step potr heev opA opB opK constraint cg pr project reorth reset tolerance.
Let lp := loop potr heev opA opB opK constraint cg pr project reorth reset tolerance.

Lemma step_more fuel g it s r : stp fuel it s = Some r -> stp (fuel + g) it s = Some r.
Proof.
  unfold stp, step. destruct (prepare _ _ _ _ _ _ _ _ _ _ _ _ _ _) as [[E h|E h D t Q tf ds dE d2E|]| | |]; auto.
  destruct (line_min potr tolerance fuel tf E dE _) as [q|] eqn:L; [|discriminate]. rewrite (line_min_more _ _ _ g _ _ _ _ _ L). auto.
Qed.
Lemma loop_more g fuel k : forall it s Es r, lp k fuel it s Es = Some r -> lp k (fuel + g) it s Es = Some r.
Proof.
  unfold lp. induction k as [|k IH]; intros it s Es r; [auto|]. cbn [loop]. destruct (step _ _ _ _ _ _ _ _ _ _ _ _ fuel it s) as [q|] eqn:Sp; [|discriminate]. pose proof (step_more _ g _ _ _ Sp) as Sm. unfold stp in Sm. rewrite Sm. destruct q as [[E h|E s'|]| | |]; auto.
Qed.

Definition remembers (it : Z) (s : est) (M : mat) : Prop := s_prev_theta s = 0 -> (0 < it)%Z /\ forall E, rayleigh n p HA HB M E -> E = s_prev_E s.
Lemma step_zero fuel it s M MD E s' M' : (0 <= it)%Z -> state_ok n p HP s M MD -> stp fuel it s = Some (Val (Again E s')) -> fields n p (s_Y s') M' -> remembers (it + 1) s' M'.
Proof.
  intros Hit St. pose proof (prepare_ok n p potr heev opA opB opK constraint cg pr project reorth reset tolerance HA HB HP Ok it s M MD St) as Pr. unfold stp, step.
  destruct (prepare _ _ _ _ _ _ _ _ _ _ _ _ _ _) as [[E0 h|E0 h D t Q tf ds dE d2E|]| | |]; try discriminate.
  destruct Pr as (Ind & MY & N & MD1 & Sp & Hh & KY & -> & HD & KD & HQ & Ln & Lz & _). pose proof Hh as (HY & _ & _ & _ & _ & Inv). destruct Ok as [Hp Pok Eok DA DB HhA HhB OA OB KOK OP PP PB].
  destruct (line_min _ _ _ _ _ _ _) as [[r| | |]|] eqn:L; try discriminate; cbn [bind].
  destruct (eaXpbY_ok n p (cos (r_x r)) (h_Y h) MY (sin (r_x r)) D MD1 HY HD) as (Y1 & -> & HY1). cbn [bind]. destruct (constrain_ok n p constraint HP OP Y1 _ HY1) as (Y2 & -> & HY2). cbn [bind]. intros [= <- <-] HM' Z. cbn [s_prev_theta s_prev_E s_Y] in *.
  assert (Z0 : r_x r = 0) by (rewrite <- (tan_atan (r_x r)), Z; apply tan_0). split; [lia|]. intros E Ry.
  change (madd (mscal (cos (r_x r)) MY) (mscal (sin (r_x r)) MD1)) with (turned (r_x r) MY MD1) in HY2. rewrite Z0, turned_0, KY in HY2.
  assert (EM : M' = MY) by (apply (rep_fun n p (edata Y2)); [apply HM'|apply HY2]). subst M'.
  apply (rayleigh_unique n p HA HB MY); auto; [apply (fields_dim _ _ _ _ HY)|]. exists N. split; [apply Inv|]. split; [apply Inv|reflexivity].
Qed.
Lemma step_ends it s M MD : state_ok n p HP s M MD -> remembers it s M ->
  (forall E h D t Q tf ds dE d2E, prep it s = Val (PLine E h D t Q tf ds dE d2E) -> forall Y' D', fields n p (h_Y h) Y' -> fields n p D D' -> forall x, independent n p HB (turned x Y' D')) ->
  exists fuel, stp fuel it s <> None.
Proof.
  intros St Rm Li. pose proof (prepare_ok n p potr heev opA opB opK constraint cg pr project reorth reset tolerance HA HB HP Ok it s M MD St) as Pr. unfold stp, step. unfold prep in Li.
  destruct (prepare _ _ _ _ _ _ _ _ _ _ _ _ _ _) as [[E0 h|E0 h D t Q tf ds dE d2E|]| | |]; try (exists O; discriminate).
  destruct Pr as (Ind & MY & N & MD1 & Sp & Hh & KY & EE & HD & KD & HQ & Ln & Lz & -> & -> & Nc). pose proof Hh as (HY & _). specialize (Li _ _ _ _ _ _ _ _ _ eq_refl MY MD1 HY HD).
  destruct (Req_dec (s_prev_theta s) 0) as [Z|Nz].
  - exfalso. destruct (Rm Z) as (Hit & Pe). specialize (Nc Hit). assert (Q0 : E0 = s_prev_E s).
    { apply Pe. rewrite EE. apply (value_rayleigh n p potr heev opA opB opK constraint project HA HB HP Ok h M MY N); auto. apply (fields_dim _ _ _ _ (proj1 St)). }
    rewrite <- Q0 in Nc. replace (E0 - E0) with 0 in Nc by ring. rewrite Rabs_R0 in Nc.
    assert (0 <= E0) by (rewrite EE; apply (value_nonneg n p potr heev opA opB opK constraint project HA HB HP Ok h MY N Sd Hh)).
    assert (0 < tolerance * / 2 * (E0 + E0 + / 10000000)) by (apply Rmult_lt_0_compat; lra). lra.
  - subst E0. destruct (line_min_ends n p potr heev opA opB opK constraint project tolerance HA HB HP Ok tf h MY MD1 N (d2E_of n p HA HB MY MD1 N) (s_prev_theta s) Hh (fields_dim _ _ _ _ HD) Ln Lz Li Nz) as (fuel & L).
    exists fuel. destruct (line_min _ _ _ _ _ _ _); [discriminate|congruence].
Qed.
Variable Y0 : emat C.
Hypothesis Lines : forall it s E h D t Q tf ds dE d2E, reached potr heev opA opB opK constraint cg pr project reorth reset tolerance Y0 it s -> prep it s = Val (PLine E h D t Q tf ds dE d2E) ->
  forall Y' D', fields n p (h_Y h) Y' -> fields n p D D' -> forall x, independent n p HB (turned x Y' D').
Lemma loop_ends k : forall it s Es M MD, (0 <= it)%Z -> reached potr heev opA opB opK constraint cg pr project reorth reset tolerance Y0 it s -> state_ok n p HP s M MD -> remembers it s M ->
  exists fuel, lp k fuel it s Es <> None.
Proof.
  induction k as [|k IH]; intros it s Es M MD Hit Rc St Rm; [exists O; discriminate|].
  destruct (step_ends it s M MD St Rm) as (f0 & Sp); [intros E h D t Q tf ds dE d2E Pr; apply (Lines it s E h D t Q tf ds dE d2E Rc Pr)|].
  destruct (stp f0 it s) as [q|] eqn:Es0; [|congruence]. unfold lp. cbn [loop]. unfold stp in Es0.
  destruct q as [[E h|E s'|]| | |]; try (exists f0; rewrite Es0; discriminate).
  destruct (step_ok n p potr heev opA opB opK constraint cg pr project reorth reset tolerance HA HB HP Ok _ _ _ _ _ _ _ St Es0) as (_ & _ & _ & _ & M' & MD' & St' & _).
  destruct (IH (it + 1)%Z s' (E :: Es) M' MD' ltac:(lia) (reached_S _ _ _ _ _ _ _ _ _ _ _ _ _ it s f0 E s' Rc Es0) St' (step_zero f0 it s M MD E s' M' Hit St Es0 (proj1 St'))) as (f1 & L1).
  exists (f0 + f1)%nat. pose proof (step_more _ f1 _ _ _ Es0) as Sm. unfold stp in Sm. rewrite Sm. destruct (lp k f1 (it + 1) s' (E :: Es)) as [r|] eqn:L; [|congruence]. apply (loop_more f0) in L. unfold lp in L. rewrite Nat.add_comm, L. discriminate.
Qed.
End Ends.
