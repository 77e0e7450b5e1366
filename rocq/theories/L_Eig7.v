(** One iteration of the eigensolver. *)
From Coq Require Import List ZArith Reals Bool Arith Lia Lra.
From Verif Require Import Base RC Loops M_Evect M_Lin M_Eig S_Evect S_Eig L_Evect L_Evect3 L_Mat L_Eig L_Eig2 L_Eig3 L_Eig4 L_Eig5 L_Eig6.
Import ListNotations.
Local Open Scope R_scope.
Add Ring Cring_e : C_ring_theory.

Lemma form_dim n p A Y Z : mdim n n A -> mdim n p Y -> mdim n p Z -> mdim p p (form n A Y Z).
Proof. apply mdim_form. Qed.
Lemma form_herm n A Y : hermitian A -> hermitian (form n A Y Y).
Proof. intros H. apply form_adj. exact H. Qed.
Lemma form_span n p B Y T : form n B (mmul p Y T) (mmul p Y T) = mmul p (madj T) (mmul p (form n B Y Y) T).
Proof. unfold form. rewrite madj_mul, !mmul_assoc. reflexivity. Qed.
Lemma posdef_trace p M : (1 <= p)%nat -> posdef p M -> 0 < re (mtr p M).
Proof.
  intros Hp Pd. assert (Di : forall i, (i < p)%nat -> 0 < re (M i i)).
  { intros i Hi. pose proof (Pd (fun k => if (k =? i)%nat then C1 else C0)) as Q. rewrite (csum_single p i) in Q; [|exact Hi|].
    - rewrite (csum_single p i) in Q; [|exact Hi|].
      + rewrite Nat.eqb_refl in Q. replace (Cconj C1 * (M i i * C1))%C with (M i i) in Q by cring. apply Q. exists i. split; [exact Hi|]. rewrite Nat.eqb_refl. intros E. apply (f_equal re) in E. cbn in E. lra.
      + intros k Hk Nk. destruct (Nat.eqb_spec k i); [congruence|]. cring.
    - intros k Hk Nk. transitivity (csum p (fun _ => C0)); [|apply csum_0]. apply csum_ext. intros l Hl. destruct (Nat.eqb_spec k i); [congruence|]. cring. }
  unfold mtr. rewrite csum_re. clear Pd. induction p as [|p IH]; [lia|]. cbn [rsum]. pose proof (Di p ltac:(lia)). destruct p; [cbn [rsum]; lra|]. pose proof (IH ltac:(lia) ltac:(intros; apply Di; lia)). lra.
Qed.
Lemma posdef_scal p a M : 0 < a -> posdef p M -> posdef p (mscal a M).
Proof.
  intros Ha Pd v Hv. specialize (Pd v Hv).
  replace (csum p (fun i => csum p (fun j => (Cconj (v i) * (mscal a M i j * v j))%C))) with (Cscal a (csum p (fun i => csum p (fun j => (Cconj (v i) * (M i j * v j))%C)))).
  - csimp. cbn [fst snd] in *. apply Rmult_lt_0_compat; [exact Ha|exact Pd].
  - replace (Cscal a (csum p (fun i => csum p (fun j => (Cconj (v i) * (M i j * v j))%C)))) with (RtoC a * csum p (fun i => csum p (fun j => (Cconj (v i) * (M i j * v j))%C)))%C by cring.
    rewrite <- csum_scal. apply csum_ext; intros i Hi. rewrite <- csum_scal. apply csum_ext; intros j Hj. unfold mscal. cring.
Qed.
Lemma posdef_unscal p a M : 0 < a -> posdef p (mscal a M) -> posdef p M.
Proof.
  intros Ha Pd. rewrite <- (mscal_1 M). replace 1 with (/ a * a) by (apply Rinv_l; lra). rewrite <- mscal_mscal. apply posdef_scal; [apply Rinv_0_lt_compat; exact Ha|exact Pd].
Qed.

(** Same span. *)
Lemma respan_refl p n M : mdim n p M -> respan p M M.
Proof. intros D. exists (mid p), (mid p). rewrite (mid_l p p) by apply mdim_id. rewrite (mid_r n p M D). repeat split; apply mdim_id. Qed.
Lemma respan_scal p n a M : a <> 0 -> mdim n p M -> respan p M (mscal a M).
Proof.
  intros Ha D. exists (mscal a (mid p)), (mscal (/ a) (mid p)). rewrite !mmul_scal_l, !mmul_scal_r, (mid_l p p) by apply mdim_id. rewrite (mid_r n p M D), !mscal_mscal, Rinv_r, Rinv_l, mscal_1 by exact Ha.
  repeat split; apply mdim_scal, mdim_id.
Qed.
Lemma respan_trans p M1 M2 M3 : respan p M1 M2 -> respan p M2 M3 -> respan p M1 M3.
Proof.
  intros (T & T' & D & D' & E & E' & ->) (S & S' & F & F' & G & G' & ->). exists (mmul p T S), (mmul p S' T'). split; [apply (mdim_mul p p p); auto|]. split; [apply (mdim_mul p p p); auto|]. repeat split.
  - rewrite !mmul_assoc, <- (mmul_assoc p p S S'), G, (mid_l p p) by exact D'. exact E.
  - rewrite !mmul_assoc, <- (mmul_assoc p p T' T), E', (mid_l p p) by exact F. exact G'.
  - apply mmul_assoc.
Qed.
Lemma respan_sym p n M M' : mdim n p M -> respan p M M' -> respan p M' M.
Proof.
  intros DM (T & T' & D & D' & E & E' & ->). exists T', T. repeat split; auto. rewrite mmul_assoc, E. symmetry. apply (mid_r n p). exact DM.
Qed.
Lemma respan_dim p n M M' : mdim n p M -> respan p M M' -> mdim n p M'.
Proof. intros DM (T & T' & D & D' & E & E' & ->). apply (mdim_mul n p p); auto. Qed.
Lemma respan_independent n p B M M' : respan p M M' -> independent n p B M -> independent n p B M'.
Proof.
  intros (T & T' & D & D' & E & E' & ->) Pd. unfold independent. rewrite form_span. apply (posdef_congr p _ T T'); auto.
Qed.
Lemma respan_rayleigh n p A B M M' E : mdim n n A -> mdim n n B -> mdim n p M -> respan p M M' -> rayleigh n p A B M E -> rayleigh n p A B M' E.
Proof.
  intros DA DB DM (T & T' & D & D' & E1 & E2 & ->) (N & DN & HN & ->). exists (mmul p T' (mmul p N (madj T'))).
  assert (DFA : mdim p p (form n A M M)) by (apply form_dim; auto). assert (DFB : mdim p p (form n B M M)) by (apply form_dim; auto).
  assert (DT' : mdim p p (madj T')) by (apply mdim_adj; auto).
  split; [apply (mdim_mul p p p); [exact D'|apply (mdim_mul p p p); auto]|]. rewrite !form_span. split.
  - rewrite !mmul_assoc. rewrite <- (mmul_assoc p p T T'), E1, (mid_l p p) by (apply (mdim_mul p p p); auto).
    rewrite <- (mmul_assoc p p (form n B M M) N), HN, (mid_l p p) by exact DT'. rewrite <- madj_mul, E2. apply mid_herm.
  - rewrite !mmul_assoc. rewrite <- (mmul_assoc p p T T'), E1, (mid_l p p) by (apply (mdim_mul p p p); auto).
    rewrite (mtr_cyc p p (madj T)). rewrite !mmul_assoc. rewrite <- madj_mul, E1, mid_herm. rewrite (mid_r p p) by exact DN. reflexivity.
Qed.
Lemma rayleigh_unique n p A B M E E' : mdim n n B -> mdim n p M -> hermitian B -> rayleigh n p A B M E -> rayleigh n p A B M E' -> E = E'.
Proof.
  intros DB DM Hh (N & DN & HN & ->) (N' & DN' & HN' & ->). rewrite (inv_unique p (form n B M M) N N'); [reflexivity|apply form_dim; auto|apply form_herm; exact Hh|split; auto|split; auto].
Qed.

Section Solver.
Variables (n p : nat) (potr : Z -> list C -> option (list C)) (heev : Z -> list C -> list C * list R).
Variables (opA : emat C -> outcome (emat C)) (opB : option (emat C -> outcome (emat C))).
Variables (HA HB : mat).
Hypotheses (Hp : (1 <= p)%nat) (Pok : potr_ok p potr) (Eok : heev_ok p heev).
Hypotheses (DA : mdim n n HA) (DB : mdim n n HB) (HhA : hermitian HA) (HhB : hermitian HB).
Hypotheses (OA : applies n p opA HA) (OB : applies_opt n p opB HB).

Lemma apply_B_ok Y M : fields n p Y M -> exists BY, apply_B opB Y = Val BY /\ fields n p BY (mmul n HB M).
Proof.
  intros HY. unfold apply_B. unfold applies_opt in OB. destruct opB as [f|]; [apply OB; exact HY|]. exists Y. split; [reflexivity|]. rewrite OB, (mid_l n p M (fields_dim _ _ _ _ HY)). exact HY.
Qed.
Lemma gram_ok Y M BY : fields n p Y M -> fields n p BY (mmul n HB M) -> exists U, gram opB Y BY = Val U /\ square p U (form n HB M M).
Proof.
  intros HY HBY. unfold gram. rewrite (proj1 (proj2 HY)). pose proof (create_square p) as HW. unfold applies_opt in OB. destruct opB as [f|].
  - apply (XtY_ok n p _ _ Y M BY _ _ _ HW HW HY HBY).
  - destruct (XtX_ok n p _ _ Y M _ _ HW HW HY) as (U & E & H). exists U. split; [exact E|]. unfold form. rewrite OB, (mid_l n p M (fields_dim _ _ _ _ HY)). exact H.
Qed.

Lemma IZR_p : 0 < IZR (Z.of_nat p).
Proof. apply IZR_lt. lia. Qed.
Lemma normalize_ok Y M BY U : fields n p Y M -> fields n p BY (mmul n HB M) -> square p U (form n HB M M) ->
  if Rlt_dec 0 (re (mtr p (form n HB M M))) then
    exists a Y' BY' U', 0 < a /\ normalize opB Y BY U = Val (Y', BY', U') /\ fields n p Y' (mscal a M) /\ fields n p BY' (mmul n HB (mscal a M)) /\
      square p U' (form n HB (mscal a M) (mscal a M)) /\ a * a * re (mtr p (form n HB M M)) = IZR (Z.of_nat p)
  else normalize opB Y BY U = NonFin.
Proof.
  intros HY HBY HU. unfold normalize. rewrite (trace_ok p U _ HU). cbn [bind]. rewrite (proj1 (proj2 HY)), (proj1 HY). pose proof IZR_p as Hz. rewrite fdiv_nz by lra. cbn [bind].
  set (t := re (mtr p (form n HB M M))). destruct (Rlt_dec 0 t) as [Ht|Ht].
  - assert (Hq : 0 < t / IZR (Z.of_nat p)) by (apply Rdiv_lt_0_compat; auto). unfold fsqrt. destruct (Rltb_spec (t / IZR (Z.of_nat p)) 0); [lra|]. cbn [bind].
    assert (Hs : 0 < sqrt (t / IZR (Z.of_nat p))) by (apply sqrt_lt_R0; exact Hq). set (r := sqrt (t / IZR (Z.of_nat p))) in *.
    assert (Hr : r * r = t / IZR (Z.of_nat p)) by (apply sqrt_sqrt; lra).
    rewrite !fdiv_nz by (try apply Rmult_integral_contrapositive; lra). cbn [bind].
    destruct (escal_ok n p (1 / r) Y M HY) as (y & -> & Ly & Hy). cbn [bind].
    assert (B' : exists BY', (match opB with Some _ => let! b := blas_rscal (Z.of_nat p * Z.of_nat n) (1 / r) (edata BY) in Val (set_data BY b) | None => Val (set_data Y y) end) = Val BY' /\ fields n p BY' (mmul n HB (mscal (1 / r) M))).
    { unfold applies_opt in OB. destruct opB as [f|].
      - destruct (escal_ok n p (1 / r) BY _ HBY) as (b & -> & Lb & Hb). cbn [bind]. eexists. split; [reflexivity|]. rewrite mmul_scal_r. exact Hb.
      - eexists. split; [reflexivity|]. rewrite OB, (mid_l n p) by (apply mdim_scal; apply (fields_dim _ _ _ _ HY)). exact Hy. }
    destruct B' as (BY' & -> & HBY'). cbn [bind]. destruct (rep_rscal p p (1 / (r * r)) (sdata U) (form n HB M M)) as (u & -> & Lu & Hu); [apply HU|]. cbn [bind].
    exists (1 / r), (set_data Y y), BY', (sset U u). split; [apply Rdiv_lt_0_compat; lra|]. split; [reflexivity|]. split; [exact Hy|]. split; [exact HBY'|]. split.
    + apply (square_set p U (form n HB M M)); [exact HU|exact Lu|]. rewrite form_scal_l, form_scal_r, mscal_mscal. replace (1 / r * (1 / r)) with (1 / (r * r)) by (field; lra). exact Hu.
    + replace (1 / r * (1 / r) * t) with (t / (r * r)) by (field; lra). rewrite Hr. field. lra.
  - unfold fsqrt. destruct (Rltb_spec (t / IZR (Z.of_nat p)) 0) as [|N]; [reflexivity|]. cbn [bind].
    assert (t / IZR (Z.of_nat p) = 0).
    { assert (t / IZR (Z.of_nat p) <= 0); [|lra]. unfold Rdiv. assert (0 < / IZR (Z.of_nat p)) by (apply Rinv_0_lt_compat; exact Hz). nra. }
    rewrite H, sqrt_0. unfold fdiv. destruct (Req_EM_T 0 0); [reflexivity|contradiction].
Qed.

(** What the head of the iteration establishes for the fields MY. *)
Definition headed_ok (h : headed) (MY N : mat) : Prop :=
  fields n p (h_Y h) MY /\ fields n p (h_BY h) (mmul n HB MY) /\ square p (h_YtBY h) (form n HB MY MY) /\ independent n p HB MY /\
  square p (h_U h) N /\ inverse_of p (form n HB MY MY) N.

Lemma copy_invert U M W MW : square p W MW -> square p U M -> hermitian M ->
  (let! U := sqmatrix_copy W U in invert potr U) = Val None /\ ~ posdef p M \/
  exists V N, (let! U := sqmatrix_copy W U in invert potr U) = Val (Some V) /\ posdef p M /\ square p V N /\ inverse_of p M N.
Proof.
  intros HW HU Hh. destruct (copy_ok p W MW U M HW HU) as (V & -> & HV). cbn [bind]. pose proof (invert_ok p potr V M Pok HV Hh) as Iv. destruct (invert potr V) as [[V'|]| | |]; try contradiction.
  - right. destruct Iv as (Pd & N & HN & Inv). exists V', N. auto.
  - left. auto.
Qed.

Lemma head_ok reorth Y M : fields n p Y M ->
  match head potr heev opB reorth Y with
  | Val (Some h) => independent n p HB M /\ exists MY N, respan p M MY /\ headed_ok h MY N
  | Val None | NonFin => ~ independent n p HB M
  | _ => False
  end.
Proof.
  intros HY. pose proof (fields_dim _ _ _ _ HY) as DM. unfold head. rewrite (proj1 (proj2 HY)). pose proof (create_square p) as HW. set (W := create_sq (Z.of_nat p)) in *.
  destruct (apply_B_ok Y M HY) as (BY & -> & HBY). cbn [bind]. destruct (gram_ok Y M BY HY HBY) as (U & -> & HU). cbn [bind].
  pose proof (normalize_ok Y M BY U HY HBY HU) as Nm. destruct (Rlt_dec 0 (re (mtr p (form n HB M M)))) as [Ht|Ht].
  2: { rewrite Nm. cbn [bind]. intros Pd. apply Ht. apply posdef_trace; auto. }
  destruct Nm as (a & Y1 & BY1 & U1 & Ha & -> & HY1 & HBY1 & HU1 & _). cbn [bind].
  assert (D1 : mdim n p (mscal a M)) by (apply mdim_scal; exact DM).
  assert (Hh1 : hermitian (form n HB (mscal a M) (mscal a M))) by (apply form_herm; exact HhB).
  destruct (copy_ok p W _ U1 _ HW HU1) as (V & -> & HV). cbn [bind].
  pose proof (invert_ok p potr V _ Pok HV Hh1) as Iv. destruct (invert potr V) as [[V'|]| | |]; try contradiction; cbn [bind].
  2: { intros Pd. apply Iv. rewrite form_scal_l, form_scal_r, mscal_mscal. apply posdef_scal; [apply Rmult_lt_0_compat; exact Ha|exact Pd]. }
  destruct Iv as (Pd1 & N & HN & Inv). rewrite (trace_ok p V' N HN). cbn [bind].
  assert (Ind : independent n p HB M).
  { rewrite form_scal_l, form_scal_r, mscal_mscal in Pd1. apply (posdef_unscal p (a * a)); [apply Rmult_lt_0_compat; exact Ha|exact Pd1]. }
  assert (Sp1 : respan p M (mscal a M)) by (apply (respan_scal p n); [lra|exact DM]).
  destruct (reorth && Rltb (100000000 * IZR (sp V')) (re (mtr p N))).
  2: { split; [exact Ind|]. exists (mscal a M), N. split; [exact Sp1|]. repeat split; cbn; auto; try apply HY1; try apply HBY1; try apply HU1; try apply HN; try apply Inv. }
  set (M1 := mscal a M) in *. set (F1 := form n HB M1 M1) in *.
  assert (DF1 : mdim p p F1) by (apply form_dim; auto). destruct (inv_both p F1 N DF1 Hh1 Inv) as (HhN & NF). destruct Inv as (DN & FN).
  destruct (sqrt_ok p heev Eok W _ V' N W _ HW HN HW HhN (posdef_inverse p F1 N DF1 Hh1 (conj DN FN) Pd1)) as (Q & MQ & -> & HQ & HhQ & QQ). cbn [bind].
  destruct (XeYS_ok n p Y1 _ Y1 _ Q MQ true Hp HY1 HY1 HQ) as (G & -> & HG). cbn [bind opm] in *. rewrite HhQ in HG.
  destruct (ecopy_ok n p Y1 _ G _ HY1 HG) as (Y2 & -> & HY2). cbn [bind]. set (M2 := mmul p M1 MQ) in *.
  destruct (apply_B_ok Y2 M2 HY2) as (BY2 & -> & HBY2). cbn [bind]. destruct (gram_ok Y2 M2 BY2 HY2 HBY2) as (U2 & -> & HU2). cbn [bind].
  assert (DQ : mdim p p MQ) by apply (square_dim _ _ _ HQ).
  assert (Comm : mmul p MQ F1 = mmul p F1 MQ).
  { rewrite <- (mid_l p p (mmul p MQ F1)) by (apply (mdim_mul p p p); auto). rewrite <- FN, <- QQ at 1. rewrite !mmul_assoc.
    rewrite <- (mmul_assoc p p MQ MQ F1), QQ, NF. rewrite (mid_r p p) by exact DQ. reflexivity. }
  assert (F2 : form n HB M2 M2 = mid p).
  { unfold M2. rewrite form_span. fold F1. rewrite HhQ, <- mmul_assoc, Comm, mmul_assoc, QQ. exact FN. }
  assert (Sp2 : respan p M1 M2).
  { exists MQ, (mmul p MQ F1). split; [exact DQ|]. split; [apply (mdim_mul p p p); auto|]. split; [rewrite <- mmul_assoc, QQ; exact NF|]. split; [rewrite Comm, mmul_assoc, QQ; exact FN|reflexivity]. }
  pose proof (normalize_ok Y2 M2 BY2 U2 HY2 HBY2 HU2) as Nm2. destruct (Rlt_dec 0 (re (mtr p (form n HB M2 M2)))) as [Ht2|Ht2].
  2: { exfalso. apply Ht2. rewrite F2. apply posdef_trace; [exact Hp|apply posdef_id]. }
  destruct Nm2 as (b & Y3 & BY3 & U3 & Hb & -> & HY3 & HBY3 & HU3 & _). cbn [bind]. set (M3 := mscal b M2) in *.
  destruct (copy_ok p W _ U3 _ HW HU3) as (V3 & -> & HV3). cbn [bind].
  assert (Pd3 : posdef p (form n HB M3 M3)).
  { unfold M3. rewrite form_scal_l, form_scal_r, mscal_mscal, F2. apply posdef_scal; [apply Rmult_lt_0_compat; exact Hb|apply posdef_id]. }
  pose proof (invert_ok p potr V3 _ Pok HV3 (form_herm n HB M3 HhB)) as Iv3. destruct (invert potr V3) as [[V4|]| | |]; try contradiction; cbn [bind].
  destruct Iv3 as (_ & N3 & HN3 & Inv3). split; [exact Ind|]. exists M3, N3. split.
  - apply (respan_trans p M M1); [exact Sp1|]. apply (respan_trans p M1 M2); [exact Sp2|]. apply (respan_scal p n); [lra|]. apply (fields_dim _ _ _ _ HY2).
  - repeat split; cbn; auto; try apply HY3; try apply HBY3; try apply HU3; try apply HN3; try apply Inv3. 
Qed.

(** The energy and the gradient. *)
Lemma energy_ok h MY N : headed_ok h MY N -> exists G S, energy opA h = Val (G, S, re (mtr p (mmul p (form n HA MY MY) N))) /\
  fields n p G (mmul n HA (mmul p MY N)) /\ square p S (mmul p (form n HA MY MY) N).
Proof.
  intros (HY & HBY & HF & Ind & HU & Inv). pose proof (fields_dim _ _ _ _ HY) as DM. pose proof (form_dim n p HB MY MY DB DM DM) as DF.
  destruct (inv_both p _ N DF (form_herm n HB MY HhB) Inv) as (HhN & NF). unfold energy. rewrite (proj1 (proj2 HY)). pose proof (create_square p) as HW.
  destruct (OA _ _ HY) as (X & -> & HX). cbn [bind]. destruct (XeYS_ok n p (h_Y h) MY X _ (h_U h) N true Hp HY HX HU) as (G & -> & HG). cbn [bind opm] in *. rewrite HhN in HG.
  destruct (XtY_ok n p _ _ (h_Y h) MY G _ _ _ HW HW HY HG) as (S & -> & HS). cbn [bind].
  replace (mmul n (madj MY) (mmul p (mmul n HA MY) N)) with (mmul p (form n HA MY MY) N) in HS by (unfold form; rewrite !mmul_assoc; reflexivity).
  rewrite (trace_ok p S _ HS). cbn [bind]. exists G, S. split; [reflexivity|]. split; [|exact HS]. rewrite mmul_assoc in HG. exact HG.
Qed.
Definition gradm (MY N : mat) : mat := madd (mmul n HA (mmul p MY N)) (mscal (-1) (mmul p (mmul n HB MY) (mmul p N (mmul p (form n HA MY MY) N)))).
Lemma gradient_ok h MY N G S : headed_ok h MY N -> fields n p G (mmul n HA (mmul p MY N)) -> square p S (mmul p (form n HA MY MY) N) ->
  exists G', gradient h G S = Val G' /\ fields n p G' (gradm MY N).
Proof.
  intros (HY & HBY & HF & Ind & HU & Inv) HG HS. pose proof (fields_dim _ _ _ _ HY) as DM. pose proof (form_dim n p HB MY MY DB DM DM) as DF.
  destruct (inv_both p _ N DF (form_herm n HB MY HhB) Inv) as (HhN & NF). unfold gradient. rewrite (proj1 (proj2 HY)). pose proof (create_square p) as HW.
  destruct (AeBC_ok p _ _ (h_U h) N false S _ false HW HU HS) as (S1 & -> & HS1). cbn [bind opm] in *.
  destruct (XpaYS_ok n p G _ (-1) (h_BY h) _ S1 _ true Hp HG HBY HS1) as (G' & E & HG'). exists G'. split; [exact E|]. cbn [opm] in HG'. unfold gradm.
  rewrite !madj_mul, HhN, (form_herm n HA MY HhA) in HG'. rewrite !mmul_assoc in *. exact HG'.
Qed.

(** ** The direction *)
Variables (opK : option (emat C -> emat C -> smat C -> outcome (emat C))) (constraint : option (emat C -> outcome (emat C))).
Variables (cg pr project reorth : bool) (reset : Z -> bool) (tolerance : R) (HP : mat).
Hypothesis KOK : match opK with
  | Some f => forall G Y S MG MY MS, fields n p G MG -> fields n p Y MY -> square p S MS -> exists X MX, f G Y S = Val X /\ fields n p X MX
  | None => True end.
Hypotheses (OP : applies_opt n p constraint HP) (PP : mmul n HP HP = HP) (PB : project = true -> mmul n HP HB = mmul n HB HP).
Definition kept (M : mat) : Prop := mmul n HP M = M.
Lemma kept_span M M' : kept M -> respan p M M' -> kept M'.
Proof. intros K (T & T' & D & D' & E & E' & ->). unfold kept. rewrite <- mmul_assoc, K. reflexivity. Qed.
Lemma kept_scal a M : kept M -> kept (mscal a M).
Proof. intros K. unfold kept. rewrite mmul_scal_r, K. reflexivity. Qed.
Lemma kept_add M M' : kept M -> kept M' -> kept (madd M M').
Proof. intros K K'. unfold kept. rewrite mmul_add_r, K, K'. reflexivity. Qed.
Lemma kept_proj M : kept (mmul n HP M).
Proof. unfold kept. rewrite <- mmul_assoc, PP. reflexivity. Qed.

Lemma constrain_ok X M : fields n p X M -> exists X', constrain constraint X = Val X' /\ fields n p X' (mmul n HP M).
Proof.
  intros HX. unfold constrain. unfold applies_opt in OP. destruct constraint as [f|]; [apply OP; exact HX|]. exists X. split; [reflexivity|]. rewrite OP, (mid_l n p M (fields_dim _ _ _ _ HX)). exact HX.
Qed.
Lemma precondition_ok h MY N G MG : headed_ok h MY N -> kept MY -> fields n p G MG -> exists X MX, precondition opK constraint project h G = Val X /\ fields n p X MX /\ kept MX.
Proof.
  intros (HY & HBY & HF & Ind & HU & Inv) KY HG. unfold precondition. rewrite (proj1 (proj2 HY)). pose proof (create_square p) as HW.
  assert (K : exists X MX, (match opK with Some f => f G (h_Y h) (h_YtBY h) | None => evectmatrix_copy G G end) = Val X /\ fields n p X MX).
  { destruct opK as [f|]; [apply (KOK G (h_Y h) (h_YtBY h) MG MY _ HG HY HF)|]. destruct (ecopy_ok n p G MG G MG HG HG) as (X & E & HX). eauto. }
  destruct K as (X & MX & -> & HX). cbn [bind]. destruct (constrain_ok X MX HX) as (X1 & -> & HX1). cbn [bind]. destruct project.
  - destruct (XtY_ok n p _ _ (h_Y h) MY X1 _ _ _ HW HW HY HX1) as (S1 & -> & HS1). cbn [bind].
    destruct (AeBC_ok p _ _ (h_U h) N false S1 _ false HW HU HS1) as (S2 & -> & HS2). cbn [bind opm] in *.
    destruct (XpaYS_ok n p X1 _ (-1) (h_BY h) _ S2 _ false Hp HX1 HBY HS2) as (X2 & E & HX2). exists X2, (madd (mmul n HP MX) (mscal (-1) (mmul p (mmul n HB MY) (opm false (mmul p N (mmul n (madj MY) (mmul n HP MX))))))). split; [exact E|]. split; [exact HX2|].
    apply kept_add; [apply kept_proj|]. apply kept_scal. unfold kept. rewrite <- !mmul_assoc, PB by reflexivity. rewrite !mmul_assoc. rewrite <- (mmul_assoc n p HP MY), KY. reflexivity.
  - exists X1, (mmul n HP MX). split; [reflexivity|]. split; [exact HX1|apply kept_proj].
Qed.

Definition est_ok (s : est) (MY MD : mat) : Prop :=
  fields n p (s_Y s) MY /\ kept MY /\ fields n p (s_D s) MD /\ kept MD /\ exists MG, fields n p (s_prev_G s) MG.
Lemma direction_ok it s h MY MD G MG X MX : est_ok s MY MD -> fields n p G MG -> fields n p X MX -> kept MX ->
  exists D t Q MD', direction cg pr reset it s h G X = Val (D, t, Q) /\ fields n p D MD' /\ kept MD' /\ fields n p Q MG.
Proof.
  intros (HY & KY & HD & KD & MQ0 & HQ0) HG HX KX. unfold direction. rewrite (traceXtY_ok n p G MG X MX HG HX). cbn [bind]. destruct cg.
  - set (num := if pr then _ else _).
    assert (Nm : exists x, num = Val (x, G)).
    { unfold num. destruct pr; [|eauto]. destruct (diff_ok n p G MG _ _ HG HQ0) as (G' & -> & HG'). cbn [bind]. rewrite (traceXtY_ok n p G' _ X MX HG' HX). cbn [bind]. eauto. }
    destruct Nm as (x & ->). cbn [bind]. set (prev := if h_re h then 0 else s_prev_traceGtX s).
    assert (Gm : exists g, (if Reqb prev 0 then Val 0 else fdiv x prev) = Val g) by (destruct (Reqb_spec prev 0); [eauto|rewrite fdiv_nz by auto; eauto]). destruct Gm as (g & ->). cbn [bind].
    set (g' := if reset it then 0 else g). destruct (eaXpbY_ok n p (g' * s_d_scale s) (s_D s) MD 1 X MX HD HX) as (D & -> & HD'). cbn [bind].
    eexists D, _, G, _. split; [reflexivity|]. split; [exact HD'|]. split; [|exact HG]. apply kept_add; apply kept_scal; auto.
  - eexists X, _, G, MX. split; [reflexivity|]. auto.
Qed.

(** ** The matrices of the line *)
Definition dE_of (Y D N : mat) : R := 2 * (re (mtr p (mmul p N (msym (form n HA Y D)))) - re (mtr p (mmul p (mmul p N (mmul p (form n HA Y Y) N)) (msym (form n HB Y D))))).
Definition d2E_of (Y D N : mat) : R :=
  2 * (re (mtr p (mmul p N (form n HA D D))) - re (mtr p (mmul p (mmul p N (mmul p (form n HA Y Y) N)) (madd (form n HB D D) (mscal (-4) (mmul p (msym (form n HB Y D)) (mmul p N (msym (form n HB Y D)))))))) - 4 * re (mtr p (mmul p N (mmul p (msym (form n HA Y D)) (mmul p N (msym (form n HB Y D))))))).
Lemma msym_herm M : hermitian (msym M).
Proof. unfold hermitian, msym. rewrite madj_scal, madj_add, madj_adj. f_equal. apply mext; intros i j. unfold madd. cring. Qed.
Lemma line_data_ok h MY N S D MD : headed_ok h MY N -> square p S (mmul p (form n HA MY MY) N) -> fields n p D MD ->
  if Rlt_dec 0 (re (mtr p (form n HB MD MD))) then
    exists a D' tf ds, 0 < a /\ line_data opA opB h S D = Val (D', tf, ds, dE_of MY (mscal a MD) N, d2E_of MY (mscal a MD) N) /\ fields n p D' (mscal a MD) /\ line_of n p HA HB MY (mscal a MD) tf /\
      t_lag tf = 0 /\ t_d_lag tf = 0 /\ t_YtLY tf = 0 /\ t_DtLD tf = 0 /\ t_YtLD tf = 0
  else line_data opA opB h S D = NonFin.
Proof.
  intros (HY & HBY & HF & Ind & HU & Inv) HS HD. pose proof (fields_dim _ _ _ _ HY) as DM. pose proof (form_dim n p HB MY MY DB DM DM) as DF.
  destruct (inv_both p _ N DF (form_herm n HB MY HhB) Inv) as (HhN & NF). unfold line_data. rewrite (proj1 (proj2 HY)), (proj1 HY). pose proof (create_square p) as HW. set (W := create_sq (Z.of_nat p)) in *.
  destruct (apply_B_ok D MD HD) as (BD & -> & HBD). cbn [bind]. rewrite (traceXtY_ok n p BD _ D _ HBD HD). cbn [bind].
  replace (mmul n (madj (mmul n HB MD)) MD) with (form n HB MD MD) by (unfold form; rewrite madj_mul, HhB, mmul_assoc; reflexivity).
  pose proof IZR_p as Hz. rewrite fdiv_nz by lra. cbn [bind]. set (t := re (mtr p (form n HB MD MD))). destruct (Rlt_dec 0 t) as [Ht|Ht].
  2: { unfold fsqrt. destruct (Rltb_spec (t / IZR (Z.of_nat p)) 0) as [|Nn]; [reflexivity|]. cbn [bind].
    assert (t / IZR (Z.of_nat p) = 0).
    { assert (t / IZR (Z.of_nat p) <= 0); [|lra]. unfold Rdiv. assert (0 < / IZR (Z.of_nat p)) by (apply Rinv_0_lt_compat; exact Hz). nra. }
    rewrite H, sqrt_0. unfold fdiv. destruct (Req_EM_T 0 0); [reflexivity|contradiction]. }
  assert (Hq : 0 < t / IZR (Z.of_nat p)) by (apply Rdiv_lt_0_compat; auto). unfold fsqrt. destruct (Rltb_spec (t / IZR (Z.of_nat p)) 0); [lra|]. cbn [bind].
  assert (Hs : 0 < sqrt (t / IZR (Z.of_nat p))) by (apply sqrt_lt_R0; exact Hq). set (r := sqrt (t / IZR (Z.of_nat p))) in *.
  rewrite fdiv_nz by lra. cbn [bind]. destruct (escal_ok n p (1 / r) D MD HD) as (x & -> & Lx & HD1). cbn [bind]. set (a := 1 / r) in *. set (M1 := mscal a MD) in *.
  assert (B' : exists BD', (match opB with Some _ => let! b := blas_rscal (Z.of_nat p * Z.of_nat n) a (edata BD) in Val (set_data BD b) | None => Val (set_data D x) end) = Val BD' /\ fields n p BD' (mmul n HB M1)).
  { unfold applies_opt in OB. destruct opB as [f|].
    - destruct (escal_ok n p a BD _ HBD) as (b & -> & Lb & Hb). cbn [bind]. eexists. split; [reflexivity|]. unfold M1. rewrite mmul_scal_r. exact Hb.
    - eexists. split; [reflexivity|]. rewrite OB, (mid_l n p) by (apply mdim_scal; apply (fields_dim _ _ _ _ HD)). exact HD1. }
  destruct B' as (BD1 & -> & HBD1). cbn [bind]. destruct (OA _ _ HD1) as (G & -> & HG). cbn [bind].
  destruct (gram_ok _ M1 BD1 HD1 HBD1) as (DtBD & -> & HDB). cbn [bind].
  destruct (XtY_ok n p _ _ _ M1 G _ _ _ HW HW HD1 HG) as (DtAD & -> & HDA). cbn [bind].
  destruct (XtY_ok n p _ _ _ MY BD1 _ _ _ HW HW HY HBD1) as (S1 & -> & HS1). cbn [bind].
  destruct (symmetrize_ok p _ _ S1 _ HW HS1) as (SB & -> & HSB). cbn [bind]. clear S1 HS1.
  destruct (XtY_ok n p _ _ _ MY G _ _ _ HW HW HY HG) as (S1 & -> & HS1). cbn [bind].
  destruct (symmetrize_ok p _ _ S1 _ HW HS1) as (SA & -> & HSA). cbn [bind]. clear S1 HS1.
  fold (form n HB MY M1) in HSB. fold (form n HA MY M1) in HSA. fold (form n HA M1 M1) in HDA.
  destruct (AeBC_ok p _ _ (h_U h) N false SB _ true HW HU HSB) as (S1 & -> & HS1). cbn [bind opm] in *. rewrite (msym_herm (form n HB MY M1)) in HS1.
  rewrite (traceAtB_ok p _ _ _ _ HU HSA). cbn [bind]. rewrite (traceAtB_ok p _ _ _ _ HS HS1). cbn [bind].
  destruct (copy_ok p _ _ DtBD _ HW HDB) as (S2 & -> & HS2). cbn [bind].
  destruct (ApaBC_ok p S2 _ (-4) SB _ false S1 _ false Hp HS2 HSB HS1) as (S3 & -> & HS3). cbn [bind opm] in *.
  destruct (AeBC_ok p _ _ SA _ false S1 _ false HW HSA HS1) as (S4 & -> & HS4). cbn [bind opm] in *.
  destruct (AeBC_ok p _ _ (h_U h) N false S3 _ true HW HU HS3) as (S5 & -> & HS5). cbn [bind opm] in *.
  rewrite (traceAtB_ok p _ _ _ _ HU HDA). cbn [bind]. rewrite (traceAtB_ok p _ _ _ _ HS HS5). cbn [bind]. rewrite (traceAtB_ok p _ _ _ _ HU HS4). cbn [bind].
  destruct (AeBC_ok p _ _ S _ false (h_YtBY h) _ true HW HS HF) as (S6 & -> & HS6). cbn [bind opm] in *.
  rewrite (form_herm n HB MY HhB) in HS6. rewrite mmul_assoc, NF in HS6. rewrite (mid_r p p) in HS6 by (apply form_dim; auto).
  rewrite !madj_mul, HhN, (form_herm n HA MY HhA).
  assert (H3 : madj (madd (form n HB M1 M1) (mscal (-4) (mmul p (msym (form n HB MY M1)) (mmul p N (msym (form n HB MY M1)))))) = madd (form n HB M1 M1) (mscal (-4) (mmul p (msym (form n HB MY M1)) (mmul p N (msym (form n HB MY M1)))))).
  { rewrite madj_add, madj_scal, !madj_mul, HhN, (form_herm n HB M1 HhB), (msym_herm (form n HB MY M1)), mmul_assoc. reflexivity. }
  rewrite H3. exists a. eexists _, _, r. split; [apply Rdiv_lt_0_compat; lra|]. split.
  { apply (f_equal (@Val _)). apply (f_equal2 pair); [apply (f_equal2 pair); [reflexivity|]|]; unfold dE_of, d2E_of; rewrite !mmul_assoc; reflexivity. }
  split; [exact HD1|]. split; [unfold line_of; fold M1; rewrite <- (form_adj n HA MY M1 HhA), <- (form_adj n HB MY M1 HhB); fold (msym (form n HA MY M1)) (msym (form n HB MY M1)); cbn; repeat (split; [assumption|]); assumption|]. cbn. repeat split.
Qed.
End Solver.
