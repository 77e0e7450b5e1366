(** The solver on several processes runs as on one. *)
From Coq Require Import List ZArith Reals Bool Arith Lia Lra.
From Verif Require Import Base RC Loops M_Evect M_Lin M_Eig S_Evect S_Eig L_Evect L_Evect3 L_Mat L_Eig L_Eig2 L_Eig3 M_Pcg S_Pcg L_Pcg1.
Import ListNotations.
Local Open Scope Z_scope.

(** ** The replicated matrices keep their size *)
Lemma forZ_keeps {S} (I : S -> Prop) lo hi (f : Z -> S -> outcome S) s s' : (forall i s s', I s -> f i s = Val s' -> I s') -> I s -> forZ lo hi f s = Val s' -> I s'.
Proof.
  intros Hf. rewrite forZ_foldM. generalize (zran lo hi). intros l. revert s. induction l as [|x l IH]; intros s Hs E; cbn [foldM] in E; [injection E as <-; exact Hs|].
  destruct (f x s) as [s1| | |] eqn:Ef; try discriminate. apply (IH s1); [apply (Hf x s); assumption|exact E].
Qed.
Lemma wr_keeps {A} (d d' : list A) i v : wr d i v = Val d' -> length d' = length d.
Proof. unfold wr. destruct (_ && _); [|discriminate]. intros E. injection E as <-. apply upd_length. Qed.
Lemma gemm_keeps ta tb m n k a A oA fA B oB fB b c oC fC c' : gemm ta tb m n k a A oA fA B oB fB b c oC fC = Val c' -> length c' = length c.
Proof.
  unfold gemm. destruct (m * n =? 0); [intros E; injection E as <-; reflexivity|]. destruct (k =? 0); intros E.
  - refine (forZ_keeps (fun x => length x = length c) _ _ _ _ _ _ eq_refl E). intros i s s' Hs E1. refine (forZ_keeps (fun x => length x = length c) _ _ _ _ _ _ Hs E1).
    intros j s1 s2 Hs1 E2. cbn [bind] in E2. apply wr_keeps in E2. congruence.
  - refine (forZ_keeps (fun x => length x = length c) _ _ _ _ _ _ eq_refl E). intros i s s' Hs E1. refine (forZ_keeps (fun x => length x = length c) _ _ _ _ _ _ Hs E1).
    intros j s1 s2 Hs1 E2. cbv beta in E2. match type of E2 with bind ?v _ = _ => destruct v; try discriminate end. cbn [bind] in E2. apply wr_keeps in E2. congruence.
Qed.

Section P.
Variables (p : nat) (ns : list nat).
Hypothesis Hp : (1 <= p)%nat.
Hypothesis Hns : ns <> [].
Notation n := (total ns).
Notation W := (create_sq (Z.of_nat p)).
Notation RF := (same_block p ns).
Notation RS := (RS p).
Notation okS S := (exists M, square p S M).

Lemma shape_square S : sp S = Z.of_nat p -> wfs S -> okS S.
Proof.
  intros E Wf. exists (fun i j => if (i <? p)%nat && (j <? p)%nat then nth (i * p + j) (sdata S) C0 else C0). split; [exact E|]. split; [exact Wf|]. split; [destruct Wf; nia|]. split.
  - intros i j H. destruct (Nat.ltb_spec i p), (Nat.ltb_spec j p); cbn; try reflexivity; lia.
  - intros i j Hi Hj. destruct (Nat.ltb_spec i p), (Nat.ltb_spec j p); cbn; try reflexivity; lia.
Qed.
Lemma set_square S d : okS S -> length d = length (sdata S) -> okS (sset S d).
Proof. intros (M & H1 & (H2 & H3) & _) L. apply shape_square; [exact H1|]. split; [exact H2|]. cbn. rewrite L. exact H3. Qed.
Lemma W_ok : okS W.
Proof. eexists. apply create_square. Qed.
Lemma RSr S : okS S -> RS S S.
Proof. intros H. split; [reflexivity|exact H]. Qed.
Lemma so_S (o : outcome (smat C)) : (forall S, o = Val S -> okS S) -> same_outcome RS o o.
Proof. intros H. apply so_refl. intros S E. apply RSr. apply (H S E). Qed.

Lemma copy_S A B : okS A -> okS B -> same_outcome RS (sqmatrix_copy A B) (sqmatrix_copy A B).
Proof. intros (MA & HA) (MB & HB). destruct (copy_ok p A MA B MB HA HB) as (S & E & HS). rewrite E. cbn. apply RSr. eexists. exact HS. Qed.
Lemma AeBC_S A B b D d : okS A -> okS B -> okS D -> same_outcome RS (sqmatrix_AeBC A B b D d) (sqmatrix_AeBC A B b D d).
Proof. intros (MA & HA) (MB & HB) (MD & HD). destruct (AeBC_ok p A MA B MB b D MD d HA HB HD) as (S & E & HS). rewrite E. cbn. apply RSr. eexists. exact HS. Qed.
Lemma ApaBC_S A a B b D d : okS A -> okS B -> okS D -> same_outcome RS (sqmatrix_ApaBC A a B b D d) (sqmatrix_ApaBC A a B b D d).
Proof. intros (MA & HA) (MB & HB) (MD & HD). destruct (ApaBC_ok p A MA a B MB b D MD d Hp HA HB HD) as (S & E & HS). rewrite E. cbn. apply RSr. eexists. exact HS. Qed.
Lemma symm_S A B : okS A -> okS B -> same_outcome RS (sqmatrix_symmetrize A B) (sqmatrix_symmetrize A B).
Proof. intros (MA & HA) (MB & HB). destruct (symmetrize_ok p A MA B MB HA HB) as (S & E & HS). rewrite E. cbn. apply RSr. eexists. exact HS. Qed.

Variable potr : Z -> list C -> option (list C).
Variable heev : Z -> list C -> list C * list R.
Hypothesis Hpotr : in_place_potr potr.
Hypothesis Hheev : in_place_heev heev.
Definition ROpt {A B} (Q : A -> B -> Prop) (a : option A) (b : option B) : Prop := match a, b with Some a, Some b => Q a b | None, None => True | _, _ => False end.
Lemma invert_S U : okS U -> same_outcome (ROpt RS) (invert potr U) (invert potr U).
Proof.
  intros HU. unfold invert. destruct (potr (sp U) (sdata U)) as [d|] eqn:E; [|exact I]. pose proof (Hpotr _ _ _ E) as L. destruct HU as (M & HU). pose proof (square_len _ _ _ HU) as LU. rewrite (proj1 HU).
  destruct (mirror_ok p d) as (d' & -> & L' & _); [lia|]. cbn. apply RSr. apply set_square; [eexists; exact HU|congruence].
Qed.
Lemma AeBC_keeps A B b D d S : okS A -> sqmatrix_AeBC A B b D d = Val S -> okS S.
Proof. intros HA. unfold sqmatrix_AeBC. destruct (check _); try discriminate. cbn [bind]. destruct (gemm _ _ _ _ _ _ _ _ _ _ _ _ _ _ _ _) as [x| | |] eqn:E; try discriminate. intros Q. injection Q as <-. apply set_square; [exact HA|]. apply (gemm_keeps _ _ _ _ _ _ _ _ _ _ _ _ _ _ _ _ _ E). Qed.
Lemma sqrt_S A U B : okS A -> same_outcome RS (sqmatrix_sqrt heev A U B) (sqmatrix_sqrt heev A U B).
Proof.
  intros HA. apply so_S. intros S. unfold sqmatrix_sqrt. destruct (check _); try discriminate. cbn [bind]. destruct (eigensolve heev U) as (V, e). destruct (forZ _ _ _ _); try discriminate. cbn [bind]. apply AeBC_keeps. exact HA.
Qed.
Lemma eigensolve_S U : okS U -> okS (fst (eigensolve heev U)).
Proof. intros HU. unfold eigensolve. pose proof (Hheev (sp U) (sdata U)) as L. destruct (heev (sp U) (sdata U)) as (d, e). cbn in *. apply set_square; assumption. Qed.

Section Solver.
Variables (opA : emat C -> outcome (emat C)) (opA' : dmat -> outcome dmat).
Variables (opB : option (emat C -> outcome (emat C))) (opB' : option (dmat -> outcome dmat)).
Variables (opK : option (emat C -> emat C -> smat C -> outcome (emat C))) (opK' : option (dmat -> dmat -> smat C -> outcome dmat)).
Variables (cons : option (emat C -> outcome (emat C))) (cons' : option (dmat -> outcome dmat)).
Variables (cg pr project reorth : bool) (reset : Z -> bool) (tol : R).
Hypothesis HA : same_op p ns opA opA'.
Hypothesis HB : same_opt p ns opB opB'.
Hypothesis HK : same_K p ns opK opK'.
Hypothesis HC : same_opt p ns cons cons'.

Lemma apply_B_so Y l : RF Y l -> same_outcome RF (apply_B opB Y) (apply_B_mpi opB' l).
Proof. intros H. unfold apply_B, apply_B_mpi. unfold same_opt in HB. destruct opB, opB'; try contradiction; [apply HB; exact H|exact H]. Qed.
Lemma constrain_so Y l : RF Y l -> same_outcome RF (constrain cons Y) (constrain_mpi cons' l).
Proof. intros H. unfold constrain, constrain_mpi. unfold same_opt in HC. destruct cons, cons'; try contradiction; [apply HC; exact H|exact H]. Qed.
Lemma gram_so Y l BY m : RF Y l -> RF BY m -> same_outcome RS (gram opB Y BY) (gram_mpi opB' l m).
Proof.
  intros H H'. unfold gram, gram_mpi. destruct (RF_bands p ns Hns _ _ H) as (E1 & E2 & _). rewrite E1, E2. cbv zeta. unfold same_opt in HB.
  destruct opB, opB'; try contradiction; [apply (XtY_so p ns Hp Hns _ _ _ _ H H')|apply (XtX_so p ns Hp Hns _ _ H)].
Qed.
Lemma normalize_so Y l BY m S : RF Y l -> RF BY m -> okS S ->
  same_outcome (fun a b => RF (fst (fst a)) (fst (fst b)) /\ RF (snd (fst a)) (snd (fst b)) /\ RS (snd a) (snd b)) (normalize opB Y BY S) (normalize_mpi opB' l m S).
Proof.
  intros H H' HS. unfold normalize, normalize_mpi. destruct (RF_bands p ns Hns _ _ H) as (E1 & E2 & E3). rewrite E1, E2, E3.
  apply (so_bind eq); [apply so_eq|]. intros t ? <-. apply (so_bind eq); [apply so_eq|]. intros q ? <-. apply (so_bind eq); [apply so_eq|]. intros y ? <-. apply (so_bind eq); [apply so_eq|]. intros i1 ? <-. apply (so_bind eq); [apply so_eq|]. intros i2 ? <-.
  apply (so_bind (fun x l' => RF (set_data Y x) l')); [apply (rscal_so p ns i1 Y l H)|]. intros x l' Hx.
  apply (so_bind RF).
  - unfold same_opt in HB. destruct opB, opB'; try contradiction; [|exact Hx].
    pose proof (rscal_so p ns i1 BY m H') as K. destruct (blas_rscal (Z.of_nat p * Z.of_nat n) i1 (edata BY)), (rscal_mpi i1 m); cbn in *; auto.
  - intros BY' m' H2. destruct HS as (MS & HS). destruct (rep_rscal p p i2 (sdata S) MS) as (b & Eb & Lb & Rb); [apply HS|]. rewrite Eb. cbn. split; [exact Hx|]. split; [exact H2|]. apply RSr. eexists. apply (square_set p S MS b _ HS Lb Rb).
Qed.
Definition RH (h : headed) (h' : headed_mpi) : Prop := RF (h_Y h) (mh_Y h') /\ RF (h_BY h) (mh_BY h') /\ RS (h_YtBY h) (mh_YtBY h') /\ RS (h_U h) (mh_U h') /\ h_re h = mh_re h'.
Lemma head_so Y l : RF Y l -> same_outcome (ROpt RH) (head potr heev opB reorth Y) (head_mpi potr heev opB' reorth l).
Proof.
  intros H. unfold head, head_mpi. destruct (RF_bands p ns Hns _ _ H) as (E1 & E2 & E3). rewrite E1, E2. cbv zeta.
  apply (so_bind RF); [apply apply_B_so; exact H|]. intros BY m HBY.
  apply (so_bind RS); [apply gram_so; assumption|]. intros S ? (<- & HS).
  eapply so_bind; [apply normalize_so; assumption|]. intros ((Y1, BY1), S1) ((l1, m1), S1') (Q1 & Q2 & (Q3 & Q4)). cbn [fst snd] in Q1, Q2, Q3, Q4. subst S1'.
  apply (so_bind RS); [apply copy_S; [apply W_ok|exact Q4]|]. intros U ? (<- & HU).
  eapply so_bind; [apply invert_S; exact HU|]. intros [V|] [V'|] HV; try contradiction; [|exact I]. destruct HV as (<- & HV).
  apply (so_bind eq); [apply so_eq|]. intros t ? <-. destruct (reorth && Rltb (100000000 * IZR (sp V)) (re t)).
  - apply (so_bind RS); [apply sqrt_S; apply W_ok|]. intros S2 S2' HS2.
    apply (so_bind RF); [apply (XeYS_so p ns Hp); assumption|]. intros G g HG.
    apply (so_bind RF); [apply copy_so; assumption|]. intros Y2 l2 HY2.
    apply (so_bind RF); [apply apply_B_so; exact HY2|]. intros BY2 m2 HBY2.
    apply (so_bind RS); [apply gram_so; assumption|]. intros S3 ? (<- & HS3).
    eapply so_bind; [apply normalize_so; assumption|]. intros ((Y4, BY4), S4) ((l4, m4), S4') (P1 & P2 & (P3 & P4)). cbn [fst snd] in P1, P2, P3, P4. subst S4'.
    apply (so_bind RS); [apply copy_S; [apply W_ok|exact P4]|]. intros U2 ? (<- & HU2).
    eapply so_bind; [apply invert_S; exact HU2|]. intros [V2|] [V2'|] HV2; try contradiction; [|exact I]. destruct HV2 as (<- & HV2).
    cbn. unfold RH. cbn. repeat (split; [first [assumption|apply RSr; assumption]|]). reflexivity.
  - cbn. unfold RH. cbn. repeat (split; [first [assumption|apply RSr; assumption]|]). reflexivity.
Qed.
Lemma energy_so h h' : RH h h' -> same_outcome (fun a b => RF (fst (fst a)) (fst (fst b)) /\ RS (snd (fst a)) (snd (fst b)) /\ snd a = snd b) (energy opA h) (energy_mpi opA' h').
Proof.
  intros (H1 & H2 & H3 & H4 & H5). unfold energy, energy_mpi. destruct (RF_bands p ns Hns _ _ H1) as (E1 & E2 & E3). rewrite E1, E2. cbv zeta.
  apply (so_bind RF); [apply HA; exact H1|]. intros X x HX. apply (so_bind RF); [apply (XeYS_so p ns Hp); assumption|]. intros G g HG.
  apply (so_bind RS); [apply (XtY_so p ns Hp Hns); assumption|]. intros S ? (<- & HS). apply (so_bind eq); [apply so_eq|]. intros t ? <-. cbn. split; [exact HG|]. split; [apply RSr; exact HS|reflexivity].
Qed.
Lemma gradient_so h h' G g S : RH h h' -> RF G g -> okS S -> same_outcome RF (gradient h G S) (gradient_mpi h' g S).
Proof.
  intros (H1 & H2 & H3 & (H4 & H4') & H5) HG HS. unfold gradient, gradient_mpi. destruct (RF_bands p ns Hns _ _ H1) as (E1 & E2 & E3). rewrite E1, E2, <- H4. cbv zeta.
  apply (so_bind RS); [apply AeBC_S; [apply W_ok|exact H4'|exact HS]|]. intros S1 S1' HS1. apply (XpaYS_so p ns Hp); assumption.
Qed.
Lemma precondition_so h h' G g : RH h h' -> RF G g -> same_outcome RF (precondition opK cons project h G) (precondition_mpi opK' cons' project h' g).
Proof.
  intros (H1 & H2 & (H3 & H3') & (H4 & H4') & H5) HG. unfold precondition, precondition_mpi. destruct (RF_bands p ns Hns _ _ H1) as (E1 & E2 & E3). rewrite E1, E2, <- H4, <- H3. cbv zeta.
  apply (so_bind RF). { unfold same_K in HK. destruct opK, opK'; try contradiction; [apply HK; assumption|apply copy_so; assumption]. }
  intros X x HX. apply (so_bind RF); [apply constrain_so; exact HX|]. intros X1 x1 HX1. destruct project; [|exact HX1].
  apply (so_bind RS); [apply (XtY_so p ns Hp Hns); assumption|]. intros S ? (<- & HS). apply (so_bind RS); [apply AeBC_S; [apply W_ok|exact H4'|exact HS]|]. intros S1 S1' HS1. apply (XpaYS_so p ns Hp); assumption.
Qed.
Definition RE (s : est) (s' : est_mpi) : Prop := RF (s_Y s) (ms_Y s') /\ RF (s_D s) (ms_D s') /\ RF (s_prev_G s) (ms_prev_G s') /\ s_d_scale s = ms_d_scale s' /\
  s_prev_traceGtX s = ms_prev_traceGtX s' /\ s_prev_theta s = ms_prev_theta s' /\ s_prev_E s = ms_prev_E s'.
Lemma direction_so it s s' h h' G g X x : RE s s' -> RH h h' -> RF G g -> RF X x ->
  same_outcome (fun a b => RF (fst (fst a)) (fst (fst b)) /\ snd (fst a) = snd (fst b) /\ RF (snd a) (snd b)) (direction cg pr reset it s h G X) (direction_mpi cg pr reset it s' h' g x).
Proof.
  intros (S1 & S2 & S3 & S4 & S5 & _) (_ & _ & _ & _ & H5) HG HX. unfold direction, direction_mpi. rewrite <- S4, <- S5, <- H5.
  apply (so_bind eq); [apply (traceXtY_so p ns); assumption|]. intros t ? <-. cbv zeta. destruct cg; [|cbn; auto].
  apply (so_bind (fun a b => fst a = fst b /\ RF (snd a) (snd b))).
  - destruct pr; [|cbn; auto]. apply (so_bind RF); [apply diff_so; assumption|]. intros G' g' HG'. apply (so_bind eq); [apply (traceXtY_so p ns); assumption|]. intros t' ? <-. cbn. auto.
  - intros (num, pG) (num', pg) (Q1 & Q2). cbn [fst snd] in Q1, Q2. subst num'. apply (so_bind eq); [apply so_eq|]. intros gm ? <-. apply (so_bind RF); [apply aXpbY_so; assumption|]. intros D dd HD. cbn. auto.
Qed.
Lemma line_data_so h h' S D dd : RH h h' -> okS S -> RF D dd ->
  same_outcome (fun a b => RF (fst (fst (fst (fst a)))) (fst (fst (fst (fst b)))) /\ snd (fst (fst (fst a))) = snd (fst (fst (fst b))) /\ snd (fst (fst a)) = snd (fst (fst b)) /\ snd (fst a) = snd (fst b) /\ snd a = snd b)
    (line_data opA opB h S D) (line_data_mpi opA' opB' h' S dd).
Proof.
  intros (H1 & H2 & (H3 & H3') & (H4 & H4') & H5) HS HD. unfold line_data, line_data_mpi. destruct (RF_bands p ns Hns _ _ H1) as (E1 & E2 & E3). rewrite E1, E2, E3, <- H4, <- H3. cbv zeta.
  apply (so_bind RF); [apply apply_B_so; exact HD|]. intros BD bd HBD.
  apply (so_bind eq); [apply (traceXtY_so p ns); assumption|]. intros t ? <-. apply (so_bind eq); [apply so_eq|]. intros q ? <-. apply (so_bind eq); [apply so_eq|]. intros sc ? <-. apply (so_bind eq); [apply so_eq|]. intros i1 ? <-.
  apply (so_bind (fun x l' => RF (set_data D x) l')); [apply rscal_so; exact HD|]. intros x d1 HD1.
  apply (so_bind RF).
  { unfold same_opt in HB. destruct opB, opB'; try contradiction; [|exact HD1]. pose proof (rscal_so p ns i1 BD bd HBD) as K. destruct (blas_rscal (Z.of_nat p * Z.of_nat n) i1 (edata BD)), (rscal_mpi i1 bd); cbn in *; auto. }
  intros BD1 bd1 HBD1. apply (so_bind RF); [apply HA; exact HD1|]. intros G g HG.
  apply (so_bind RS); [apply gram_so; assumption|]. intros DtBD ? (<- & K1).
  apply (so_bind RS); [apply (XtY_so p ns Hp Hns); assumption|]. intros DtAD ? (<- & K2).
  apply (so_bind RS); [apply (XtY_so p ns Hp Hns); assumption|]. intros SA ? (<- & K3).
  apply (so_bind RS); [apply symm_S; [apply W_ok|exact K3]|]. intros yBD ? (<- & K4).
  apply (so_bind RS); [apply (XtY_so p ns Hp Hns); assumption|]. intros SB ? (<- & K5).
  apply (so_bind RS); [apply symm_S; [apply W_ok|exact K5]|]. intros yAD ? (<- & K6).
  repeat (apply (so_bind eq); [apply so_eq|]; intros ? ? <-). cbn. repeat (split; [first [exact HD1|reflexivity]|]). reflexivity.
Qed.
Definition RP (a : prepared) (b : prepared_mpi) : Prop :=
  match a, b with
  | PConverged E h, MPConverged E' h' => E = E' /\ RH h h'
  | PLine E h D tr G t sc dE d2E, MPLine E' h' D' tr' G' t' sc' dE' d2E' => E = E' /\ RH h h' /\ RF D D' /\ tr = tr' /\ RF G G' /\ t = t' /\ sc = sc' /\ dE = dE' /\ d2E = d2E'
  | PRestart, MPRestart => True
  | _, _ => False
  end.
Lemma prepare_so it s s' : RE s s' -> same_outcome RP (prepare potr heev opA opB opK cons cg pr project reorth reset tol it s) (prepare_mpi potr heev opA' opB' opK' cons' cg pr project reorth reset tol it s').
Proof.
  intros HS. pose proof HS as (S1 & S2 & S3 & S4 & S5 & S6 & S7). unfold prepare, aim, prepare_mpi. rewrite <- S7.
  pose proof (head_so (s_Y s) (ms_Y s') S1) as Hh. destruct (head potr heev opB reorth (s_Y s)) as [o| | |], (head_mpi potr heev opB' reorth (ms_Y s')) as [o'| | |]; try contradiction; try exact I.
  destruct o as [h|], o' as [h'|]; try contradiction; cbn [bind]; [|exact I]. change (RH h h') in Hh.
  pose proof (energy_so h h' Hh) as He. destruct (energy opA h) as [((G, Y), E)| | |], (energy_mpi opA' h') as [((g, y), E')| | |]; try contradiction; try exact I.
  cbn [same_outcome fst snd] in He. destruct He as (HG & (<- & HY) & <-). cbn [bind].
  destruct ((0 <? it) && _); [cbn; auto|].
  pose proof (gradient_so h h' G g Y Hh HG HY) as Hg. destruct (gradient h G Y) as [G1| | |], (gradient_mpi h' g Y) as [g1| | |]; try contradiction; try exact I. cbn [bind same_outcome] in *.
  pose proof (precondition_so h h' G1 g1 Hh Hg) as Hx. destruct (precondition opK cons project h G1) as [X| | |], (precondition_mpi opK' cons' project h' g1) as [x| | |]; try contradiction; try exact I. cbn [bind same_outcome] in *.
  pose proof (direction_so it s s' h h' G1 g1 X x HS Hh Hg Hx) as Hd. destruct (direction cg pr reset it s h G1 X) as [((D, tr), pG)| | |], (direction_mpi cg pr reset it s' h' g1 x) as [((dd, tr'), pg)| | |]; try contradiction; try exact I.
  cbn [same_outcome fst snd] in Hd. destruct Hd as (HD & <- & HpG). cbn [bind].
  pose proof (line_data_so h h' Y D dd Hh HY HD) as Hl. destruct (line_data opA opB h Y D) as [((((D1, tf), sc), dE), d2E)| | |], (line_data_mpi opA' opB' h' Y dd) as [((((d1, tf'), sc'), dE'), d2E')| | |]; try contradiction; try exact I.
  cbn [same_outcome fst snd] in Hl. destruct Hl as (HD1 & <- & <- & <- & <-). cbn. repeat (split; [first [assumption|reflexivity]|]). reflexivity.
Qed.
Definition RT (a : stepped) (b : stepped_mpi) : Prop :=
  match a, b with Converged E h, MConverged E' h' => E = E' /\ RH h h' | Again E s, MAgain E' s' => E = E' /\ RE s s' | Restarted, MRestarted => True | _, _ => False end.
Lemma step_so fuel it s s' : RE s s' -> same_run RT (step potr heev opA opB opK cons cg pr project reorth reset tol fuel it s) (step_mpi potr heev opA' opB' opK' cons' cg pr project reorth reset tol fuel it s').
Proof.
  intros HS. pose proof (prepare_so it s s' HS) as H. unfold step, step_mpi. destruct HS as (_ & _ & _ & _ & _ & <- & _).
  destruct (prepare potr heev opA opB opK cons cg pr project reorth reset tol it s) as [a| | |], (prepare_mpi potr heev opA' opB' opK' cons' cg pr project reorth reset tol it s') as [b| | |]; try contradiction; try exact I.
  destruct a, b; try contradiction; try exact I; [exact H|]. destruct H as (<- & HH & HD & <- & HG & <- & <- & <- & <-).
  destruct (line_min potr tol fuel t E dE (first_theta dE d2E (s_prev_theta s))) as [[r| | |]|]; try exact I. cbn [bind same_run].
  apply (so_bind RF); [apply aXpbY_so; [apply HH|exact HD]|]. intros Y y HY. apply (so_bind RF); [apply constrain_so; exact HY|]. intros Y1 y1 HY1. cbn. split; [reflexivity|]. unfold RE. cbn. repeat (split; [first [assumption|reflexivity]|]). reflexivity.
Qed.
Lemma finish_so h h' : RH h h' -> same_outcome (fun a b => RF (fst a) (fst b) /\ snd a = snd b) (finish potr heev opA opB h) (finish_mpi potr heev opA' opB' h').
Proof.
  intros (H1 & _). unfold finish, finish_mpi. apply (so_bind RF); [apply apply_B_so; exact H1|]. intros BY by' HBY. apply (so_bind RS); [apply gram_so; assumption|]. intros U ? (<- & HU).
  eapply so_bind; [apply invert_S; exact HU|]. intros [V|] [V'|] HV; try contradiction; [|exact I]. destruct HV as (<- & HV).
  unfold get_eigenvals_aux, get_eigenvals_aux_mpi. destruct (RF_bands p ns Hns _ _ H1) as (E1 & E2 & E3). rewrite E1, E2. cbv zeta.
  apply (so_bind RS); [apply sqrt_S; apply W_ok|]. intros S2 S2' HS2. apply (so_bind RF); [apply (XeYS_so p ns Hp); assumption|]. intros W1 w1 HW1. apply (so_bind RF); [apply HA; exact HW1|]. intros W2 w2 HW2.
  apply (so_bind RS); [apply (XtY_so p ns Hp Hns); assumption|]. intros U2 ? (<- & HU2). pose proof (eigensolve_S U2 HU2) as HV2. destruct (eigensolve heev U2) as (V2, e). cbn [fst] in HV2.
  apply (so_bind RF); [apply (XeYS_so p ns Hp); [assumption|assumption|apply RSr; exact HV2]|]. intros Y y HY. cbn. auto.
Qed.
Lemma loop_so k fuel : forall it s s' Es, RE s s' -> same_run (fun a b => fst a = fst b /\ ROpt RH (snd a) (snd b)) (loop potr heev opA opB opK cons cg pr project reorth reset tol k fuel it s Es) (loop_mpi potr heev opA' opB' opK' cons' cg pr project reorth reset tol k fuel it s' Es).
Proof.
  induction k as [|k IH]; intros it s s' Es HS; [exact I|]. cbn [loop loop_mpi]. pose proof (step_so fuel it s s' HS) as H.
  destruct (step potr heev opA opB opK cons cg pr project reorth reset tol fuel it s) as [[a| | |]|], (step_mpi potr heev opA' opB' opK' cons' cg pr project reorth reset tol fuel it s') as [[b| | |]|]; try contradiction; try exact I.
  destruct a, b; try contradiction.
  - destruct H as (<- & H). cbn. auto.
  - destruct H as (<- & H). apply IH. exact H.
  - cbn. auto.
Qed.
Lemma solver_so k fuel Y l : RF Y l -> same_run (ROpt (fun a b => fst (fst a) = fst (fst b) /\ RF (snd (fst a)) (snd (fst b)) /\ snd a = snd b))
  (eigensolver potr heev opA opB opK cons cg pr project reorth reset tol k fuel Y) (eigensolver_mpi potr heev opA' opB' opK' cons' cg pr project reorth reset tol k fuel l).
Proof.
  intros H. unfold eigensolver, eigensolver_mpi.
  assert (St : same_outcome RE (start cons Y) (start_mpi cons' l)).
  { unfold start, start_mpi. cbv zeta. apply (so_bind RF); [apply constrain_so; exact H|]. intros Y1 l1 H1. cbn. unfold RE. cbn. pose proof (zero_so p ns Y l H) as Hz. repeat (split; [first [assumption|reflexivity]|]). reflexivity. }
  destruct (start cons Y) as [s| | |], (start_mpi cons' l) as [s'| | |]; try contradiction; try exact I. pose proof (loop_so k fuel 0 s s' [] St) as Hl.
  destruct (loop potr heev opA opB opK cons cg pr project reorth reset tol k fuel 0 s []) as [a|], (loop_mpi potr heev opA' opB' opK' cons' cg pr project reorth reset tol k fuel 0 s' []) as [b|]; try contradiction; try exact I. cbn [same_run].
  eapply so_bind; [exact Hl|]. intros (Es, o) (Es', o') (Q1 & Q2). cbn [fst snd] in Q1, Q2. subst Es'. destruct o as [h|], o' as [h'|]; try contradiction; [|exact I].
  eapply so_bind; [apply (finish_so h h' Q2)|]. intros (Y1, e) (l1, e') (P1 & P2). cbn [fst snd] in P1, P2. subst e'. cbn. auto.
Qed.
End Solver.
End P.
