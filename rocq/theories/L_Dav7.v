(** Complete runs of the Davidson solver. *)
From Coq Require Import List ZArith Reals Bool Arith Lia Lra FunctionalExtensionality.
From Verif Require Import Base RC Loops L_Op M_Evect M_Lin M_Eig M_Dav S_Evect S_Eig S_Dav L_Evect L_Evect3 L_Mat L_Eig L_Eig2 L_Eig3 L_Eig4 L_Eig5 L_Eig7 L_Eig9 L_Eig12 L_Eig13 L_Dav L_Dav2 L_Dav3 L_Dav4 L_Dav5 L_Dav6.
Import ListNotations.
Local Open Scope R_scope.
Add Ring Cring_d7 : C_ring_theory.

(** Orthonormal fields whose span A keeps have no residual. *)
Lemma residual_zero n p A M T e : orthonormal n p M -> mdim p p T -> mmul n A M = mmul p M T -> form n A M M = mdiag p e -> residual n p A M e = mzero.
Proof.
  intros (DM & OM) DT E F. assert (Q : T = mdiag p e). { rewrite <- F. unfold form. rewrite E, <- mmul_assoc, OM. symmetry. apply (mid_l p p). exact DT. }
  unfold residual. rewrite E, Q. unfold msub. apply mscal_m1_add.
Qed.

Lemma blocks_1 n p M : (1 <= p)%nat -> mdim n p M -> blocks p 1 (fun _ => M) = M.
Proof.
  intros Hp D. apply mext; intros i j. destruct (Nat.lt_ge_cases j p) as [Hj|Hj].
  - pose proof (blocks_at p Hp 1 (fun _ => M) i 0 j ltac:(lia) Hj) as K. rewrite Nat.mul_0_r in K. exact K.
  - unfold blocks. destruct (Nat.ltb_spec j (p * 1)); [lia|]. symmetry. apply D. auto.
Qed.

Section Run.
Variables (n p nb : nat) (potr : Z -> list C -> option (list C)) (heev : Z -> list C -> list C * list R).
Variables (opA : emat C -> outcome (emat C)) (opK : option (emat C -> emat C -> list R -> outcome (emat C))) (constraint : option (emat C -> outcome (emat C))).
Variables (HA HP : mat) (target tolerance : R).
Hypothesis Ok : davidson_ok n p nb potr heev opA opK constraint HA HP.
Hypothesis Hnb : (2 <= nb)%nat.
Let Hp := dk_p _ _ _ _ _ _ _ _ _ _ Ok. Let DA := dk_dimA _ _ _ _ _ _ _ _ _ _ Ok.
Variables (M0 : mat) (Y : emat C) (e : list R) (Work : list (emat C)).
Hypotheses (HY : fields n p Y M0) (He : (p <= length e)%nat) (HW : workspace n p Work) (Enb : nb = (length Work / 2)%nat).

Lemma quot_nb : Z.quot (Z.of_nat (length Work)) 2 = Z.of_nat nb.
Proof. rewrite Enb, Nat2Z.inj_div, Z.quot_div_nonneg by lia. reflexivity. Qed.
Lemma davidson_run k :
  (davidson potr heev opA opK constraint tolerance target k Y e Work = Abort /\
    (~ independent n p (mid n) (mmul n HP M0) \/ exists rs, trail n p nb opK HA HP target M0 rs /\ (length rs = k \/ (length rs <= k)%nat /\ exists r t q W e it M, rs = r :: t /\ stage n p nb HA HP q W e it r M /\ linked n p opK HA HP M0 t q W /\ stuck n p nb opK HA HP q W r))) \/
  exists r r0 t Y' e' M M', davidson potr heev opA opK constraint tolerance target k Y e Work = Val (r :: r0 :: t, Y', e') /\ trail n p nb opK HA HP target M0 (r :: r0 :: t) /\
    Rabs (r_E r - r_E r0) < tolerance * / 2 * (Rabs (r_E r) + Rabs (r_E r0) + / 10000000) /\ (length (r :: r0 :: t) <= k)%nat /\
    length e' = p /\ fields n p (r_Y r) M /\ fields n p Y' M' /\ respan p M M' /\ orthonormal n p M' /\ satisfies n HP M' /\ form n HA M' M' = mdiag p (fun i => nth i e' 0) /\ (forall i, (i < p)%nat -> nth i e' 0 = nth i (r_e r) 0) /\
    (forall i j, (i <= j < p)%nat -> nth i e' 0 <= nth j e' 0) /\ independent n p (mid n) (mmul n HP M0).
Proof.
  unfold davidson. destruct (dstart_ok n p nb potr heev opA opK constraint HA HP Ok Hnb M0 Y e Work HY He HW Enb) as [(-> & Nd)|(s & M & -> & Ind & Is & Rs & DM)]; cbn [bind]; [left; auto|]. rewrite quot_nb.
  destruct (dloop_ok n p nb potr heev opA opK constraint HA HP target tolerance Ok Hnb M0 k s 0 (fun _ => M) [] Is I) as [(E & rs & Tr & Q)|(r & r0 & t & s' & E & Tr & Cv & Ln)].
  - cbn [linked]. rewrite Nat.mul_1_r, (blocks_1 n p M Hp DM). auto.
  - discriminate.
  - cbn [length Z.of_nat] in E. rewrite E. cbn [bind]. left. split; [reflexivity|]. right. exists rs. split; [exact Tr|]. cbn [length] in Q. rewrite Nat.add_0_r in Q. exact Q.
  - cbn [length Z.of_nat] in E, Ln. rewrite E. cbn [bind]. right. pose proof Tr as ((q & W & ee & it & MR & St & _) & _).
    destruct (final_ok n p nb potr heev opA opK constraint HA HP Ok Hnb r MR q W ee it St) as (Y' & e' & M' & EF & L & HY' & R' & O' & F' & V').
    destruct (stage_facts _ _ _ _ _ _ _ _ _ _ _ DA St) as (OM & KM & _ & AM & _).
    exists r, r0, t, Y', e', MR, M'. split.
    { cbv zeta in EF. destruct (XtX _ _ _) as [U| | |]; try discriminate. cbn [bind] in *. destruct (invert potr U) as [[U'|]| | |]; try discriminate. cbn [bind] in *. rewrite EF. reflexivity. }
    split; [exact Tr|]. split; [exact Cv|]. split; [cbn [length]; lia|]. split; [exact L|]. split; [destruct St as (_ & _ & _ & _ & H & _); exact H|]. split; [exact HY'|]. split; [exact R'|]. split; [exact O'|].
    split; [destruct R' as (T & _ & _ & _ & _ & _ & ->); unfold satisfies in *; rewrite <- mmul_assoc, KM; reflexivity|]. split; [exact F'|]. split; [exact V'|]. split; [|exact Ind].
    intros i j Hij. rewrite !V' by lia. apply AM. exact Hij.
Qed.

Lemma exact_start k T : zero_to_zero n p opK -> mdim p p T -> mmul n HA (mmul n HP M0) = mmul p (mmul n HP M0) T ->
  davidson potr heev opA opK constraint tolerance target k Y e Work = Abort.
Proof.
  intros ZK DT ET. unfold davidson. destruct (dstart_ok n p nb potr heev opA opK constraint HA HP Ok Hnb M0 Y e Work HY He HW Enb) as [(-> & Nd)|(s & M & -> & Ind & Is & Rs & DM)]; cbn [bind]; [reflexivity|]. rewrite quot_nb.
  destruct k as [|k]; [reflexivity|]. cbn [dloop].
  destruct (iterate_ok n p nb potr heev opA opK constraint HA HP target tolerance Ok Hnb 0 s 0 (fun _ => M) Is) as (r & it & U & e0 & _ & Ir & H). unfold conv in H. cbn [Z.ltb Z.compare andb] in H. destruct H as (_ & H). rewrite H; [reflexivity|exact ZK|].
  destruct (stage_of n p nb potr heev opA opK constraint HA HP target Ok Hnb s 0 (fun _ => M) r it U e0 Is Ir) as (St & _). set (MY := ritzM p 0 (fun _ => M) it U) in *. rewrite Nat.mul_1_r, (blocks_1 n p M Hp DM) in St.
  destruct (stage_facts _ _ _ _ _ _ _ _ _ _ _ DA St) as (OM & _ & FM & _ & T2 & DT2 & E2).
  destruct St as (_ & _ & _ & Hit & _ & V & OV & _ & (T3 & DT3 & E3) & _ & _ & Cl & _).
  assert (EV : V = MY). { apply mext; intros i j. destruct (Nat.lt_ge_cases j p) as [Hj|Hj]; [rewrite Cl by exact Hj; f_equal; lia|]. rewrite (proj1 OV) by auto. symmetry. apply (proj1 OM). auto. } subst V.
  assert (DP : mdim n p (mmul n HP M0)). { destruct (constrain_ok n p constraint HP (dk_P _ _ _ _ _ _ _ _ _ _ Ok) Y M0 HY) as (Y1 & _ & H1). apply (fields_dim _ _ _ _ H1). }
  destruct (respan_sym p n _ _ DP Rs) as (Ta & _ & DTa & _ & _ & _ & Ea). destruct Rs as (Tb & _ & DTb & _ & _ & _ & Eb).
  apply (residual_zero n p HA MY (mmul p T3 (mmul p Ta (mmul p T (mmul p Tb T2)))) _ OM); [repeat (apply (mdim_mul p p p); [assumption|]); assumption| |exact FM].
  rewrite E2 at 1. rewrite Eb at 1. rewrite <- mmul_assoc, <- mmul_assoc, ET. rewrite Ea at 1. rewrite E3 at 1. rewrite !mmul_assoc. reflexivity.
Qed.
End Run.

(** ** Falling values *)
Section Trail.
Variables (n p nb : nat) (opK : option (emat C -> emat C -> list R -> outcome (emat C))) (A P : mat) (target : R) (M0 : mat).
Hypotheses (DA : mdim n n A).
Lemma trail_app l rs : trail n p nb opK A P target M0 (l ++ rs) -> trail n p nb opK A P target M0 rs.
Proof. induction l as [|r l IH]; [auto|]. intros (_ & H). auto. Qed.
Lemma trail_in r rs : In r rs -> trail n p nb opK A P target M0 rs -> exists q W e it M, stage n p nb A P q W e it r M.
Proof.
  intros H T. apply in_split in H as (l & t & ->). apply trail_app in T as ((q & W & e & it & M & St & _) & _). exists q, W, e, it, M. exact St.
Qed.
Lemma trail_falls r r0 t i : target = 0 -> trail n p nb opK A P target M0 (r :: r0 :: t) -> (i < p)%nat -> nth i (r_e r) 0 <= nth i (r_e r0) 0.
Proof.
  intros T0 ((q & W & e & it & M & St & H0 & _ & _ & MB & HB & SB & _) & (q1 & W1 & e1 & it1 & M1 & St1 & _) & _) Hi. rewrite (H0 T0) in St.
  assert (Ee : nth i (r_e r) 0 = e i). { destruct St as (_ & _ & _ & _ & _ & V & _ & _ & _ & _ & _ & _ & _ & Ve & _). apply Ve. exact Hi. }
  rewrite Ee. destruct (stage_facts _ _ _ _ _ _ _ _ _ _ _ DA St1) as (O1 & _ & F1 & A1 & _).
  assert (M1 = MB). { destruct St1 as (_ & _ & _ & _ & H & _). apply (rep_fun n p (edata (r_Y r0))); [apply H|apply HB]. } subst MB.
  apply (stage_below n p nb A P q W e r M p M1 (fun i => nth i (r_e r0) 0)); auto.
Qed.
Lemma trail_E r rs : trail n p nb opK A P target M0 (r :: rs) -> r_E r = rsum p (fun i => nth i (r_e r) 0).
Proof.
  intros ((q & W & e & it & M & (_ & _ & _ & _ & _ & V & _ & _ & _ & _ & _ & _ & _ & Ve & ->) & _) & _). apply rsum_ext. intros i Hi. symmetry. apply Ve. exact Hi.
Qed.
End Trail.
