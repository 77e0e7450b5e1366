(** The loop over the blocks, and the constant bands at k = 0. *)
From Coq Require Import List ZArith Reals Bool Arith Lia Lra.
From Verif Require Import Base RC Loops M_Evect M_Lin M_Eig M_Kpt S_Evect S_Eig S_Kpt L_Evect L_Evect2 L_Evect3 L_Mat L_Eig L_Eig2 L_Eig4 L_Kpt1 L_Kpt2.
Import ListNotations.
Local Open Scope R_scope.
Local Open Scope Z_scope.
Add Ring Cring_k3 : C_ring_theory.

Section Loop.
Variables (n num bs b0 : nat) (parity_c : emat C -> outcome (emat C)) (zero_k same : bool) (muinv : emat C -> emat C -> outcome (emat C)).
Variable solver : (emat C -> outcome (emat C)) -> emat C -> option (outcome (emat C * list R)).
Variables (A B P0 : mat) (S2 : list C) (good : nat -> mat -> mat -> (nat -> R) -> Prop).
Hypothesis Ok : kpoint_ok n num parity_c zero_k muinv A B P0.
Hypothesis Hb0 : (b0 <= num)%nat.
Hypothesis Hbs : (1 <= bs <= num)%nat.
Hypothesis HS2 : ((num - b0) * bs <= length S2)%nat.
Hypothesis Hsame : same = true <-> bs = num.
Hypothesis Fin : solver_finds good n bs solver.
Let m := (num - b0)%nat.
Variable Inv : nat -> mat -> (nat -> R) -> Prop.
Hypothesis Inv_orth : forall d M w, Inv d M w -> satisfies n P0 (slice 0 d M) /\ form n B (slice 0 d M) (slice 0 d M) = mid d.
Hypothesis Inv_step : forall k q M w M' e w', let d := (k * bs)%nat in (1 <= q <= bs)%nat -> (d + q <= m)%nat -> mdim n m M -> mdim n m M' -> Inv d M w -> slice 0 d M' = slice 0 d M ->
  good q (dproj n d B P0 (slice 0 d M)) (slice d q M') e -> (forall j, (j < q)%nat -> w' (d + j)%nat = e j) -> (forall i, (i < d)%nat -> w' i = w i) -> Inv (d + q) M' w'.

Lemma loop_ok fuel : forall k s M l r, let d := (k * bs)%nat in st_ok n num bs b0 same B s M -> (d <= m)%nat -> Inv d M (fun i => nth (b0 + i) (k_ev s) 0%R) ->
  solver_blocks fuel (Z.of_nat (b0 + d)) (Z.of_nat bs) (Z.of_nat num) (Z.of_nat bs) = Some l ->
  solve_loop parity_c muinv solver same zero_k (Z.of_nat b0) S2 l s = Some r ->
  (exists s' M', r = Val s' /\ st_ok n num bs b0 same B s' M' /\ Inv m M' (fun i => nth (b0 + i) (k_ev s') 0%R)) \/
  ((forall s', r <> Val s') /\ (solver_safe n bs solver -> r <> UB)).
Proof.
  induction fuel as [|fuel IH]; intros k s M l r d St Hd HI; cbn [solver_blocks].
  { destruct (Z.ltb_spec (Z.of_nat (b0 + d)) (Z.of_nat num)); [discriminate|]. intros [= <-]. cbn [solve_loop]. intros [= <-]. left. exists s, M. split; [reflexivity|]. split; [exact St|].
    assert (Em : d = m) by lia. rewrite <- Em. exact HI. }
  destruct (Z.ltb_spec (Z.of_nat (b0 + d)) (Z.of_nat num)) as [Hlt|Hge].
  2: { intros [= <-]. cbn [solve_loop]. intros [= <-]. left. exists s, M. split; [reflexivity|]. split; [exact St|]. assert (Em : d = m) by lia. rewrite <- Em. exact HI. }
  set (nb' := if Z.of_nat (b0 + d) + Z.of_nat bs >? Z.of_nat num then _ else _). destruct (solver_blocks fuel _ nb' _ _) as [l'|] eqn:El; [|discriminate]. cbn [option_map]. intros [= <-].
  set (q := Nat.min bs (m - d)). assert (Eq : nb' = Z.of_nat q). { unfold nb', q. rewrite Z.gtb_ltb. destruct (Z.ltb_spec (Z.of_nat num) (Z.of_nat (b0 + d) + Z.of_nat bs)); lia. }
  cbn [solve_loop]. rewrite Eq.
  assert (Hq : (1 <= q <= bs)%nat) by lia. assert (Hdq : (d + q <= m)%nat) by lia.
  assert (Hs : same = true -> d = 0%nat /\ q = m).
  { intros E. apply Hsame in E. assert (d = 0%nat) by (unfold d in *; destruct k; [reflexivity|cbn in *; lia]). split; [assumption|]. lia. }
  destruct (Inv_orth _ _ _ HI) as (SY & OY). destruct (solve_block _ _ _ _ _ _ _ _ _) as [r1|] eqn:Eb; [|discriminate].
  pose proof Ok as [DA DB DP HA HB Base Id HP Cm Mu].
  assert (DM : mdim n m M) by apply (fields_dim _ _ _ _ (proj1 St)).
  destruct (block_step n num bs b0 parity_c zero_k same muinv solver A B P0 S2 good Ok Hb0 Hbs HS2 Hsame Fin s M d q r1 St Hq Hdq Hs SY OY Eb) as [(s' & M' & Mq & e & -> & St' & E0 & E1 & G & V1 & V2)|(l0 & X & r0 & Ap & FX & Er & K)].
  - intros R. assert (HI' : Inv (d + q) M' (fun i => nth (b0 + i) (k_ev s') 0%R)).
    { apply (Inv_step k q M (fun i => nth (b0 + i) (k_ev s) 0%R) M' e); fold d; auto; [apply (fields_dim _ _ _ _ (proj1 St'))|rewrite E1; exact G| |].
      - intros j Hj. rewrite Nat.add_assoc. apply V1. exact Hj.
      - intros i Hi. apply V2. lia. }
    destruct (Nat.le_gt_cases (d + bs) m) as [Hle|Hgt].
    + assert (q = bs) by lia. assert (Ed : (d + q)%nat = (S k * bs)%nat) by (cbn; lia). rewrite Ed in HI'.
      apply (IH (S k) s' M' l' r); auto; [cbn; lia|]. replace (b0 + S k * bs)%nat with (b0 + d + bs)%nat by (cbn; lia). rewrite Nat2Z.inj_add. rewrite <- El. f_equal. rewrite Eq. congruence.
    + assert (Em : (d + q)%nat = m) by lia. assert (l' = []). { destruct fuel; cbn [solver_blocks] in El; destruct (Z.ltb_spec (Z.of_nat (b0 + d) + Z.of_nat bs) (Z.of_nat num)); try lia; congruence. }
      subst l'. cbn [solve_loop] in R. injection R as <-. left. exists s', M'. split; [reflexivity|]. split; [exact St'|]. rewrite <- Em. exact HI'.
  - intros R. right. assert (DY : mdim n d (slice 0 d M)) by (apply (slice_dim n m); exact DM).
    assert (Nu : solver_safe n bs solver -> r0 <> UB).
    { intros Sf E. subst r0. apply (Sf q (chain_func l0) _ X (slice d q M) Hq Ap); auto; [apply dproj_dim; auto|apply dproj_idem; auto]. }
    destruct r0, r1; try contradiction; injection R as <-; (split; [intros s' E; discriminate|]; intros Sf E; try discriminate; apply (Nu Sf eq_refl)).
Qed.
End Loop.

(** * The two invariants *)

Section Invs.
Variables (n num bs b0 : nat) (parity_c : emat C -> outcome (emat C)) (zero_k : bool) (muinv : emat C -> emat C -> outcome (emat C)) (A B P0 : mat).
Hypothesis Ok : kpoint_ok n num parity_c zero_k muinv A B P0.
Hypothesis Hbs : (1 <= bs)%nat.

Definition inv_ritz (d : nat) (M : mat) (w : nat -> R) : Prop :=
  satisfies n P0 (slice 0 d M) /\ form n B (slice 0 d M) (slice 0 d M) = mid d /\
  (forall i j, (i < d)%nat -> (j < d)%nat -> (i / bs = j / bs)%nat -> form n A M M i j = (if (i =? j)%nat then RtoC (w i) else C0) /\ ((i <= j)%nat -> (w i <= w j)%R)).
Definition inv_low (d : nat) (M : mat) (w : nat -> R) : Prop := lowest n d P0 A B (slice 0 d M) w.

Lemma slice_join d q M M' : slice 0 d M' = slice 0 d M -> slice 0 (d + q) M' = hcat d (slice 0 d M) (slice d q M').
Proof.
  intros E. apply mext; intros i j. rewrite <- E. unfold hcat, slice. cbn [Nat.add]. destruct (Nat.ltb_spec j (d + q)), (Nat.ltb_spec j d); try lia; try reflexivity.
  - destruct (Nat.ltb_spec (j - d) q); [|lia]. f_equal. lia.
  - destruct (Nat.ltb_spec (j - d) q); [lia|]. reflexivity.
Qed.

Lemma inv_ritz_step m k q M w M' e w' : let d := (k * bs)%nat in (1 <= q <= bs)%nat -> (d + q <= m)%nat -> mdim n m M -> mdim n m M' -> inv_ritz d M w -> slice 0 d M' = slice 0 d M ->
  ritz_fields n q (dproj n d B P0 (slice 0 d M)) A B (slice d q M') e -> (forall j, (j < q)%nat -> w' (d + j)%nat = e j) -> (forall i, (i < d)%nat -> w' i = w i) -> inv_ritz (d + q) M' w'.
Proof.
  intros d Hq Hd DM DM' (SY & OY & Blk) Es G V1 V2. pose proof Ok as [DA DB DP HA HB Base Id HP Cm Mu].
  assert (DY : mdim n d (slice 0 d M)) by (apply (slice_dim n m); exact DM).
  destruct (ritz_orth n d A B P0 (slice 0 d M) DB DP HB HP Id Cm DY SY OY q (slice d q M') e G) as (S1 & O1).
  split; [rewrite (slice_join d q M M' Es); exact S1|]. split; [rewrite (slice_join d q M M' Es); exact O1|].
  destruct G as (_ & _ & _ & FA & Asc).
  intros i j Hi Hj Eb. destruct (Nat.lt_ge_cases i d) as [Hid|Hid], (Nat.lt_ge_cases j d) as [Hjd|Hjd].
  - destruct (Blk i j Hid Hjd Eb) as (F & Le). rewrite (V2 i Hid), (V2 j Hjd). split; [|exact Le]. rewrite <- F.
    pose proof (f_equal (fun S => form n A S S i j) Es) as Ef. cbv beta in Ef. rewrite !form_slice in Ef. cbn [Nat.add] in Ef. destruct (Nat.ltb_spec i d), (Nat.ltb_spec j d); try lia. exact Ef.
  - exfalso. pose proof (Nat.div_lt_upper_bound i bs k ltac:(lia) ltac:(unfold d in *; lia)). pose proof (Nat.div_le_lower_bound j bs k ltac:(lia) ltac:(unfold d in *; lia)). lia.
  - exfalso. pose proof (Nat.div_lt_upper_bound j bs k ltac:(lia) ltac:(unfold d in *; lia)). pose proof (Nat.div_le_lower_bound i bs k ltac:(lia) ltac:(unfold d in *; lia)). lia.
  - pose proof (f_equal (fun F => F (i - d)%nat (j - d)%nat) FA) as Ef. cbv beta in Ef. rewrite form_slice in Ef. destruct (Nat.ltb_spec (i - d) q), (Nat.ltb_spec (j - d) q); try lia. cbn [andb] in Ef.
    replace (d + (i - d))%nat with i in Ef by lia. replace (d + (j - d))%nat with j in Ef by lia. rewrite Ef. unfold mdiag. destruct (Nat.ltb_spec (i - d) q); [|lia]. cbn [andb].
    pose proof (V1 (i - d)%nat ltac:(lia)) as Wi. pose proof (V1 (j - d)%nat ltac:(lia)) as Wj. replace (d + (i - d))%nat with i in Wi by lia. replace (d + (j - d))%nat with j in Wj by lia. rewrite Wi, Wj.
    split; [destruct (Nat.eqb_spec i j), (Nat.eqb_spec (i - d) (j - d)); try lia; reflexivity|]. intros Hij. apply Asc. lia.
Qed.

Lemma inv_low_step m k q M w M' e w' : let d := (k * bs)%nat in (1 <= q <= bs)%nat -> (d + q <= m)%nat -> mdim n m M -> mdim n m M' -> inv_low d M w -> slice 0 d M' = slice 0 d M ->
  lowest n q (dproj n d B P0 (slice 0 d M)) A B (slice d q M') e -> (forall j, (j < q)%nat -> w' (d + j)%nat = e j) -> (forall i, (i < d)%nat -> w' i = w i) -> inv_low (d + q) M' w'.
Proof.
  intros d Hq Hd DM DM' L Es G V1 V2. pose proof Ok as [DA DB DP HA HB Base Id HP Cm Mu]. pose proof L as (DY & SY & OY & _).
  pose proof (lowest_join n d A B P0 (slice 0 d M) DB DP HB HP Id Cm DY SY OY DA HA w q (slice d q M') e L G) as J. unfold inv_low. rewrite (slice_join d q M M' Es).
  assert (Ew : forall i, (i < d + q)%nat -> w' i = if (i <? d)%nat then w i else e (i - d)%nat).
  { intros i Hi. destruct (Nat.ltb_spec i d); [apply V2; auto|]. rewrite <- (V1 (i - d)%nat) by lia. f_equal. lia. }
  destruct J as (D & S & O & St & As & Lo). split; [exact D|]. split; [exact S|]. split; [exact O|]. split; [|split].
  - intros p X DX SX. rewrite (St p X DX SX). f_equal. apply mext; intros i j. unfold mdiag. destruct (Nat.ltb_spec i (d + q)); [|reflexivity]. rewrite Ew by assumption. reflexivity.
  - intros i j Hij. rewrite !Ew by lia. apply As. exact Hij.
  - intros i X Hi. rewrite Ew by exact Hi. apply Lo. exact Hi.
Qed.
End Invs.
