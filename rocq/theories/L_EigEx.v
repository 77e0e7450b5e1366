(** A small instance of the eigensolver: two components, one band, A = diag(1, 3), B = 1. *)
From Coq Require Import List ZArith Reals Bool Arith Lia Lra.
From Verif Require Import Base RC Loops M_Evect M_Lin M_Eig S_Evect S_Lin S_Eig L_Evect L_Evect3 L_Lin P_Lin L_Mat L_Eig L_Eig2 L_Eig3 L_Eig4 L_Eig5 L_Eig6 L_Eig7 L_Eig8 L_Eig9 L_Eig10 L_Eig11 L_Eig12.
Import ListNotations.
Local Open Scope R_scope.
Add Ring Cring_ex : C_ring_theory.

Definition ex_potr (_ : Z) (d : list C) : option (list C) := match d with z :: r => if Rltb 0 (re z) then Some (RtoC (/ re z) :: r) else None | [] => None end.
Definition ex_heev (_ : Z) (d : list C) : list C * list R := match d with z :: r => (C1 :: r, [re z]) | [] => ([], [0]) end.
Definition ex_opA (X : emat C) : outcome (emat C) := Val (set_data X (match edata X with a :: b :: r => a :: Cscal 3 b :: r | l => l end)).
Definition ex_K (G Y : emat C) (S : smat C) : outcome (emat C) := Val (set_data G (match edata G with a :: b :: r => C0 :: C1 :: r | l => l end)).
Definition exA : mat := mdiag 2 (fun i => if (i =? 0)%nat then 1 else 3).
Definition e1 : mat := fun i j => if ((i =? 0) && (j =? 0))%nat then C1 else C0.
Definition e2 : mat := fun i j => if ((i =? 1) && (j =? 0))%nat then C1 else C0.
Definition ex_Y : emat C := {| en := 2; ep := 1; ealloc := 1; edata := [C1; C0] |}.

Lemma exA_dim : mdim 2 2 exA.
Proof. intros i j H. unfold exA, mdiag. destruct (Nat.ltb_spec i 2), (Nat.eqb_spec i j); cbn [andb]; auto; lia. Qed.
Lemma exA_herm : hermitian exA.
Proof.
  apply mext; intros i j. unfold madj, exA, mdiag. destruct (Nat.eqb_spec i j) as [->|N].
  - rewrite Nat.eqb_refl. destruct (j <? 2)%nat; cbn [andb]; [apply Cconj_R|apply Cconj_0].
  - destruct (Nat.eqb_spec j i); [congruence|]. rewrite !andb_false_r. apply Cconj_0.
Qed.
Lemma e1_dim : mdim 2 1 e1.
Proof. intros i j H. unfold e1. destruct (Nat.eqb_spec i 0), (Nat.eqb_spec j 0); cbn [andb]; auto; lia. Qed.
Lemma e2_dim : mdim 2 1 e2.
Proof. intros i j H. unfold e2. destruct (Nat.eqb_spec i 1), (Nat.eqb_spec j 0); cbn [andb]; auto; lia. Qed.
Lemma dim1 M M' : mdim 1 1 M -> mdim 1 1 M' -> M O O = M' O O -> M = M'.
Proof. intros D D' E. apply mext; intros i j. destruct i as [|i]; [destruct j as [|j]; [exact E|]|]; rewrite D, D' by lia; reflexivity. Qed.
Lemma herm1 M : hermitian M -> M O O = RtoC (re (M O O)).
Proof. intros H. assert (Q := f_equal (fun F => F O O) H). unfold madj in Q. apply (f_equal im) in Q. revert Q. generalize (M O O). intros [a b]. cbn. intros Q. unfold RtoC. f_equal. lra. Qed.
Lemma posdef1 M : posdef 1 M <-> 0 < re (M O O).
Proof.
  split.
  - intros Pd. assert (W : exists i, (i < 1)%nat /\ (fun _ : nat => C1) i <> C0) by (exists O; split; [lia|]; intros E; apply (f_equal re) in E; revert E; csimp; lra).
    specialize (Pd (fun _ => C1) W). cbn [csum] in Pd. revert Pd. csimp. intros Pd. lra.
  - intros H v (i & Hi & Nz). assert (i = O) by lia. subst i. cbn [csum].
    replace (re _) with (re (M O O) * normsqr (v O) ) by (unfold normsqr; csimp; ring). apply Rmult_lt_0_compat; [exact H|]. unfold normsqr. assert (re (v O) <> 0 \/ im (v O) <> 0).
    { destruct (Req_dec (re (v O)) 0), (Req_dec (im (v O)) 0); auto. exfalso. apply Nz. apply C_eq; auto. }
    assert (0 < re (v O) * re (v O) \/ 0 < im (v O) * im (v O)) by (destruct H0; [left|right]; apply Rlt_0_sqr; assumption). pose proof (Rle_0_sqr (re (v O))). pose proof (Rle_0_sqr (im (v O))). unfold Rsqr in *. lra.
Qed.
Lemma ex_potr_ok : potr_ok 1 ex_potr.
Proof.
  intros d M (L & D & E) Hh. specialize (E O O Nat.lt_0_1 Nat.lt_0_1). cbn in E. destruct d as [|z r]; [cbn in L; lia|]. cbn in E. cbn [ex_potr].
  destruct (Rltb_spec 0 (re z)) as [P|P].
  - split; [reflexivity|]. split; [apply posdef1; rewrite <- E; exact P|]. exists (fun i j => if ((i =? 0) && (j =? 0))%nat then RtoC (/ re z) else C0).
    split; [intros i j H; destruct (Nat.eqb_spec i 0), (Nat.eqb_spec j 0); cbn [andb]; auto; lia|]. split.
    + apply dim1; [|apply mdim_id|].
      * apply (mdim_mul 1 1 1); [exact D|]. intros i j H; destruct (Nat.eqb_spec i 0), (Nat.eqb_spec j 0); cbn [andb]; auto; lia.
      * unfold mmul, mid. cbn [csum Nat.eqb Nat.ltb Nat.leb andb]. rewrite (herm1 M Hh), <- E. apply C_eq; csimp; [field; lra|ring].
    + intros i j H. assert (i = O) by lia. assert (j = O) by lia. subst. reflexivity.
  - intros Pd. apply posdef1 in Pd. rewrite <- E in Pd. contradiction.
Qed.
Lemma ex_heev_ok : heev_ok 1 ex_heev.
Proof.
  intros d M (L & D & E) Hh. specialize (E O O Nat.lt_0_1 Nat.lt_0_1). cbn in E. destruct d as [|z r]; [cbn in L; lia|]. cbn in E. cbn [ex_heev fst snd length]. split; [reflexivity|]. split; [reflexivity|].
  exists (mid 1). split; [|split; [|split; [|split]]].
  - split; [cbn in *; lia|]. split; [apply mdim_id|]. intros i j Hi Hj. assert (i = O) by lia. assert (j = O) by lia. subst. reflexivity.
  - rewrite mid_herm. apply (mid_l 1 1), mdim_id.
  - rewrite mid_herm. apply (mid_l 1 1), mdim_id.
  - rewrite mid_herm. assert (Dd : mdim 1 1 (mdiag 1 (fun i => nth i [re z] 0))) by (intros i j H; unfold mdiag; destruct (Nat.ltb_spec i 1), (Nat.eqb_spec i j); cbn [andb]; auto; lia). rewrite (mid_r 1 1), (mid_l 1 1) by exact Dd. apply dim1; auto. rewrite (herm1 M Hh), <- E. reflexivity.
  - intros i j H. assert (i = O) by lia. assert (j = O) by lia. subst. lra.
Qed.
Lemma rep21 d M : rep 2 1 d M -> exists a b r, d = a :: b :: r /\ M O O = a /\ M 1%nat O = b.
Proof.
  intros (L & D & E). destruct d as [|a [|b r]]; cbn in L; try lia. exists a, b, r. split; [reflexivity|]. split; [symmetry; apply (E O O); lia|symmetry; apply (E 1%nat O); lia].
Qed.
Lemma rep21_of a b r M : mdim 2 1 M -> M O O = a -> M 1%nat O = b -> rep 2 1 (a :: b :: r) M.
Proof.
  intros D E1 E2. split; [cbn; lia|]. split; [exact D|]. intros i j Hi Hj. assert (j = O) by lia. subst j. destruct i as [|[|i]]; [cbn; auto..|lia].
Qed.
Lemma ex_applies : applies 2 1 ex_opA exA.
Proof.
  intros X M HX. unfold ex_opA. eexists. split; [reflexivity|]. pose proof HX as (_ & _ & _ & Hr). destruct (rep21 _ _ Hr) as (a & b & r & Ed & Ea & Eb). apply (fields_set 2 1 X M); [exact HX|rewrite Ed; reflexivity|]. rewrite Ed.
  apply rep21_of; [apply (mdim_mul 2 2 1); [apply exA_dim|apply (fields_dim _ _ _ _ HX)]| |]; unfold mmul, exA, mdiag; cbn [csum Nat.eqb Nat.ltb Nat.leb andb]; rewrite Ea, Eb; cring.
Qed.
Lemma ex_K_fields G Y S MG MY MS : fields 2 1 G MG -> fields 2 1 Y MY -> square 1 S MS -> exists X, ex_K G Y S = Val X /\ fields 2 1 X e2.
Proof.
  intros HG _ _. unfold ex_K. eexists. split; [reflexivity|]. pose proof HG as (_ & _ & _ & Hr). destruct (rep21 _ _ Hr) as (a & b & r & Ed & Ea & Eb). apply (fields_set 2 1 G MG); [exact HG|rewrite Ed; reflexivity|]. rewrite Ed. apply rep21_of; [apply e2_dim|reflexivity..].
Qed.
Lemma ex_ok K : K = None \/ K = Some ex_K -> solver_ok 2 1 ex_potr ex_heev ex_opA None K None false exA (mid 2) (mid 2).
Proof.
  intros HK. constructor; try discriminate.
  - lia.
  - apply ex_potr_ok.
  - apply ex_heev_ok.
  - apply exA_dim.
  - apply mdim_id.
  - apply exA_herm.
  - apply mid_herm.
  - apply ex_applies.
  - reflexivity.
  - destruct HK as [->| ->]; [exact I|]. intros G Y S MG MY MS H1 H2 H3. destruct (ex_K_fields G Y S MG MY MS H1 H2 H3) as (X & E & HX). exists X, e2. auto.
  - reflexivity.
  - apply (mid_l 2 2), mdim_id.
Qed.
Lemma ex_fields : fields 2 1 ex_Y e1.
Proof. split; [reflexivity|]. split; [reflexivity|]. split; [unfold wf; cbn; lia|]. apply rep21_of; [apply e1_dim|reflexivity..]. Qed.
Lemma ex_line x : independent 2 1 (mid 2) (turned x e1 e2) /\ rayleigh 2 1 exA (mid 2) (turned x e1 e2) (cos x * cos x + 3 * (sin x * sin x)).
Proof.
  assert (DT : mdim 2 1 (turned x e1 e2)) by (apply turned_dim; [apply e1_dim|apply e2_dim]).
  assert (F1 : form 2 (mid 2) (turned x e1 e2) (turned x e1 e2) O O = C1).
  { unfold form, mmul, madj, turned, mid, madd, mscal, e1, e2. cbn [csum Nat.eqb Nat.ltb Nat.leb andb]. pose proof (sin2_cos2 x) as Q. unfold Rsqr in Q. apply C_eq; csimp; [|ring]. ring_simplify. rewrite <- Q. ring. }
  assert (FI : form 2 (mid 2) (turned x e1 e2) (turned x e1 e2) = mid 1) by (apply dim1; [apply form_dim; auto; apply mdim_id|apply mdim_id|exact F1]).
  split; [unfold independent; rewrite FI; apply posdef_id|]. exists (mid 1). split; [apply mdim_id|]. split; [rewrite FI; apply (mid_l 1 1), mdim_id|]. rewrite (mid_r 1 1) by (apply form_dim; auto; apply exA_dim).
  unfold mtr, form, mmul, madj, turned, exA, mdiag, madd, mscal, e1, e2. cbn [csum Nat.eqb Nat.ltb Nat.leb andb]. csimp. ring.
Qed.
Lemma exA_e1 : mmul 2 exA e1 = mmul 1 (mmul 2 (mid 2) e1) (mid 1).
Proof.
  rewrite (mid_l 2 1) by apply e1_dim. rewrite (mid_r 2 1) by apply e1_dim. apply mext; intros i j. unfold mmul, exA, mdiag, e1. cbn [csum]. destruct i as [|[|i]]; destruct j as [|j]; cbn [Nat.eqb Nat.ltb Nat.leb andb]; cring.
Qed.
Lemma exA_semidef : semidef 2 exA.
Proof.
  intros v. cbn [csum]. unfold exA, mdiag. cbn [Nat.eqb Nat.ltb Nat.leb andb]. csimp. pose proof (Rle_0_sqr (fst (v O))). pose proof (Rle_0_sqr (snd (v O))). pose proof (Rle_0_sqr (fst (v 1%nat))). pose proof (Rle_0_sqr (snd (v 1%nat))). unfold Rsqr in *. lra.
Qed.
Lemma ex_span M : respan 1 e1 M -> independent 2 1 (mid 2) M.
Proof. intros Sp. apply (respan_independent 2 1 (mid 2) e1); [exact Sp|]. rewrite <- (turned_0 e1 e2). apply ex_line. Qed.

(** A run: the preconditioner offers e2, along which the trace does not change to first order. *)
Definition ex_state : est := {| s_Y := ex_Y; s_D := ex_Y; s_prev_G := ex_Y; s_d_scale := 1; s_prev_traceGtX := 0; s_prev_theta := / 2; s_prev_E := 0 |}.
Lemma ex_state_ok : state_ok 2 1 (mid 2) ex_state e1 e1.
Proof. assert (satisfies 2 (mid 2) e1) by (apply (mid_l 2 1), e1_dim). repeat split; auto; try apply ex_fields. exists e1. apply ex_fields. Qed.
Lemma ex_rayleigh M N : respan 1 e1 M -> inverse_of 1 (form 2 (mid 2) M M) N -> value 2 1 exA M N = 1.
Proof.
  intros Sp Inv. pose proof (proj2 (ex_line 0)) as Ry. rewrite turned_0, cos_0, sin_0 in Ry. replace (1 * 1 + 3 * (0 * 0)) with 1 in Ry by ring.
  assert (DM : mdim 2 1 M) by (apply (respan_dim 1 2 e1); [apply e1_dim|exact Sp]).
  apply (rayleigh_unique 2 1 exA (mid 2) M); [apply mdim_id|exact DM|apply mid_herm| |].
  - exists N. split; [apply Inv|]. split; [apply Inv|reflexivity].
  - apply (respan_rayleigh 2 1 exA (mid 2) e1 M 1 exA_dim (mdim_id 2) e1_dim Sp Ry).
Qed.
Lemma ex_cross H M a : H = exA \/ H = mid 2 -> respan 1 e1 M -> msym (form 2 H M (mscal a e2)) = mzero.
Proof.
  intros EH (T & T' & _ & _ & _ & _ & ->). apply mext; intros i j. unfold msym, madd, mscal, madj, form, mmul, madj, mzero.
  destruct EH as [->| ->]; unfold exA, mdiag, mid, e1, e2; cbn [csum Nat.eqb Nat.ltb Nat.leb andb]; cring.
Qed.
Lemma ex_prepare it s M MD : state_ok 2 1 (mid 2) s M MD -> respan 1 e1 M -> (it <= 0)%Z ->
  exists h D t Q tf ds d2E MY MD' MG, prepare ex_potr ex_heev ex_opA None (Some ex_K) None false false false false (fun _ => false) (/ 10) it s = Val (PLine 1 h D t Q tf ds 0 d2E) /\
    fields 2 1 (h_Y h) MY /\ respan 1 e1 MY /\ fields 2 1 D MD' /\ fields 2 1 Q MG /\ exists a, 0 < a /\ MD' = mscal a e2.
Proof.
  intros St Sp0 Hit. pose proof St as (HY & KY & _). pose proof (ex_ok (Some ex_K) (or_intror eq_refl)) as [Hp Pok Eok DA DB HhA HhB OA OB KOK OP PP PB].
  unfold prepare, aim. pose proof (head_ok 2 1 ex_potr ex_heev None (mid 2) Hp Pok Eok DB HhB OB false (s_Y s) M HY) as Hd.
  destruct (head ex_potr ex_heev None false (s_Y s)) as [[h|]| | |]; try contradiction; cbn [bind].
  2: { exfalso. apply Hd. apply ex_span, Sp0. }
  2: { exfalso. apply Hd. apply ex_span, Sp0. }
  destruct Hd as (_ & MY & N & Sp & Hh). assert (Sp1 := respan_trans 1 _ _ _ Sp0 Sp). pose proof Hh as (HYh & _ & _ & _ & _ & Inv).
  destruct (energy_ok 2 1 ex_opA exA (mid 2) Hp DB HhB OA h MY N Hh) as (G & S & -> & HG & HS). cbn [bind]. destruct (Z.ltb_spec 0 it); [lia|]. cbn [andb].
  destruct (gradient_ok 2 1 exA (mid 2) Hp DB HhA HhB h MY N G S Hh HG HS) as (G' & -> & HG'). cbn [bind].
  unfold precondition. destruct (ex_K_fields G' (h_Y h) (h_YtBY h) _ MY (form 2 (mid 2) MY MY) HG' HYh ltac:(apply Hh)) as (X & -> & HX). cbn [bind constrain].
  unfold direction. rewrite (traceXtY_ok 2 1 G' _ X _ HG' HX). cbn [bind].
  pose proof (line_data_ok 2 1 ex_opA None exA (mid 2) Hp DA DB HhA HhB OA OB h MY N S X _ Hh HS HX) as Ld. destruct (Rlt_dec 0 (re (mtr 1 (form 2 (mid 2) e2 e2)))) as [Hl|Hl].
  - destruct Ld as (a & D' & tf & ds & Ha & -> & HD1 & Ln & Lz). cbn [bind]. assert (Ev := ex_rayleigh MY N Sp1 Inv). unfold value in Ev. rewrite Ev.
    assert (Ed : dE_of 2 1 exA (mid 2) MY (mscal a e2) N = 0).
    { unfold dE_of. rewrite !ex_cross by auto. rewrite !L_Eig4.mmul_zero_r. unfold mtr, mzero. rewrite !csum_0. csimp. ring. }
    rewrite Ed. eexists _, _, _, _, _, _, _, MY, _, _. split; [reflexivity|]. split; [exact HYh|]. split; [exact Sp1|]. split; [exact HD1|]. split; [exact HG'|]. exists a. auto.
  - exfalso. apply Hl. unfold mtr, form, mmul, madj, mid, e2. cbn [csum Nat.eqb Nat.ltb Nat.leb andb]. csimp. lra.
Qed.
Lemma ex_converged it s M MD : state_ok 2 1 (mid 2) s M MD -> respan 1 e1 M -> (0 < it)%Z -> s_prev_E s = 1 ->
  exists h MY N, prepare ex_potr ex_heev ex_opA None (Some ex_K) None false false false false (fun _ => false) (/ 10) it s = Val (PConverged 1 h) /\ headed_ok 2 1 (mid 2) h MY N.
Proof.
  intros St Sp0 Hit EP. pose proof St as (HY & KY & _). pose proof (ex_ok (Some ex_K) (or_intror eq_refl)) as [Hp Pok Eok DA DB HhA HhB OA OB KOK OP PP PB].
  unfold prepare, aim. pose proof (head_ok 2 1 ex_potr ex_heev None (mid 2) Hp Pok Eok DB HhB OB false (s_Y s) M HY) as Hd.
  destruct (head ex_potr ex_heev None false (s_Y s)) as [[h|]| | |]; try contradiction; cbn [bind].
  2: { exfalso. apply Hd. apply ex_span, Sp0. }
  2: { exfalso. apply Hd. apply ex_span, Sp0. }
  destruct Hd as (_ & MY & N & Sp & Hh). assert (Sp1 := respan_trans 1 _ _ _ Sp0 Sp). pose proof Hh as (HYh & _ & _ & _ & _ & Inv).
  destruct (energy_ok 2 1 ex_opA exA (mid 2) Hp DB HhB OA h MY N Hh) as (G & S & -> & HG & HS). cbn [bind]. destruct (Z.ltb_spec 0 it); [|lia]. cbn [andb].
  assert (Ev := ex_rayleigh MY N Sp1 Inv). unfold value in Ev. rewrite Ev, EP. replace (1 - 1) with 0 by ring. rewrite Rabs_R0.
  destruct (Rltb_spec 0 (/ 10 * / 2 * (1 + 1 + / 10000000))) as [_|Hn]; [|exfalso; apply Hn; lra]. exists h, MY, N. auto.
Qed.
(** Every line followed in a run keeps the fields independent. *)
Lemma ex_again s M MD fuel E s' : state_ok 2 1 (mid 2) s M MD -> respan 1 e1 M -> step ex_potr ex_heev ex_opA None (Some ex_K) None false false false false (fun _ => false) (/ 10) fuel 0 s = Some (Val (Again E s')) ->
  exists M' MD', state_ok 2 1 (mid 2) s' M' MD' /\ respan 1 e1 M' /\ s_prev_E s' = 1.
Proof.
  intros St Sp0. unfold step. destruct (ex_prepare 0 s M MD St Sp0 (Z.le_refl 0)) as (h & D & t & Q & tf & ds & d2E & MY & MD1 & MG & -> & HY & Sp & HD & HQ & _).
  unfold line_min, linmin. destruct (Rltb_spec 0 0) as [C|_]; [lra|]. destruct (Reqb_spec 0 0) as [_|C]; [|congruence]. cbn [r_x]. rewrite Rabs_R0. destruct (Rleb_spec 0 PI) as [_|C]; [|pose proof PI_RGT_0; lra]. cbn [bind r_x].
  destruct (eaXpbY_ok 2 1 (cos 0) (h_Y h) MY (sin 0) D MD1 HY HD) as (Y1 & -> & HY1). cbn [bind constrain]. fold (turned 0 MY MD1) in HY1. rewrite turned_0 in HY1. intros [= <- <-].
  assert (DM : mdim 2 1 MY) by apply (fields_dim _ _ _ _ HY). assert (DD : mdim 2 1 MD1) by apply (fields_dim _ _ _ _ HD). exists MY, MD1. split; [|split; [exact Sp|reflexivity]].
  split; [exact HY1|split; [apply (mid_l 2 1); exact DM|split; [exact HD|split; [apply (mid_l 2 1); exact DD|exists MG; exact HQ]]]].
Qed.
Lemma ex_reached it s : reached ex_potr ex_heev ex_opA None (Some ex_K) None false false false false (fun _ => false) (/ 10) ex_Y it s ->
  exists M MD, state_ok 2 1 (mid 2) s M MD /\ respan 1 e1 M /\ (it = 0%Z \/ it = 1%Z /\ s_prev_E s = 1).
Proof.
  pose proof (ex_ok (Some ex_K) (or_intror eq_refl)) as Ok. induction 1 as [s Hs|it s fuel E s' _ (M & MD & St & Sp & [-> |(-> & Pe)]) Hs].
  - destruct (start_ok 2 1 ex_potr ex_heev ex_opA None (Some ex_K) None false exA (mid 2) (mid 2) Ok ex_Y e1 ex_fields) as (s1 & E1 & St & _). rewrite Hs in E1. injection E1 as <-. rewrite (mid_l 2 1 e1 e1_dim) in St.
    exists e1, mzero. split; [exact St|]. split; [apply (respan_refl 1 2), e1_dim|auto].
  - destruct (ex_again s M MD fuel E s' St Sp Hs) as (M' & MD' & St' & Sp' & Pe). exists M', MD'. auto.
  - exfalso. unfold step in Hs. destruct (ex_converged 1 s M MD St Sp ltac:(lia) Pe) as (h & MY & N & Ec & _). rewrite Ec in Hs. discriminate.
Qed.
Lemma ex_lines it s E h D t Q tf ds dE d2E : reached ex_potr ex_heev ex_opA None (Some ex_K) None false false false false (fun _ => false) (/ 10) ex_Y it s ->
  prepare ex_potr ex_heev ex_opA None (Some ex_K) None false false false false (fun _ => false) (/ 10) it s = Val (PLine E h D t Q tf ds dE d2E) ->
  forall Y' D', fields 2 1 (h_Y h) Y' -> fields 2 1 D D' -> forall x, independent 2 1 (mid 2) (turned x Y' D').
Proof.
  intros Rc Pr Y' D' HY' HD' x. destruct (ex_reached it s Rc) as (M & MD & St & Sp & [-> |(-> & Pe)]).
  2: { destruct (ex_converged 1 s M MD St Sp ltac:(lia) Pe) as (h1 & MY & N & Ec & _). rewrite Ec in Pr. discriminate. }
  destruct (ex_prepare 0 s M MD St Sp (Z.le_refl 0)) as (h1 & D1 & t1 & Q1 & tf1 & ds1 & d1 & MY & MD1 & MG & E1 & HY & Sp1 & HD & HQ & a & Ha & Ea).
  rewrite E1 in Pr. injection Pr as _ <- <- _ _ _ _ _ _. assert (Y' = MY) by (apply (rep_fun 2 1 (edata (h_Y h1))); [apply HY'|apply HY]). assert (D' = MD1) by (apply (rep_fun 2 1 (edata D1)); [apply HD'|apply HD]). subst Y' D' MD1.
  destruct Sp1 as (T & T' & DT & DT' & T1 & T2 & ->). unfold independent. apply posdef1.
  assert (Tn : 0 < normsqr (T O O)).
  { assert (Q0 := f_equal (fun F => re (F O O)) T1). assert (Q2 := f_equal (fun F => im (F O O)) T1). unfold mmul, mid in Q0, Q2. cbn [csum Nat.eqb Nat.ltb Nat.leb andb] in Q0, Q2. revert Q0 Q2. unfold normsqr. csimp. intros Q0 Q2.
    pose proof (Rle_0_sqr (fst (T O O))). pose proof (Rle_0_sqr (snd (T O O))). unfold Rsqr in *. destruct (Req_dec (fst (T O O) * fst (T O O) + snd (T O O) * snd (T O O)) 0) as [Z|Z]; [|lra].
    assert (fst (T O O) = 0) by (apply Rsqr_0_uniq; unfold Rsqr; lra). assert (snd (T O O) = 0) by (apply Rsqr_0_uniq; unfold Rsqr; lra). rewrite H1, H2 in Q0. lra. }
  assert (Ev : re (form 2 (mid 2) (turned x (mmul 1 e1 T) (mscal a e2)) (turned x (mmul 1 e1 T) (mscal a e2)) O O) = cos x * cos x * normsqr (T O O) + sin x * sin x * (a * a)).
  { unfold form, mmul, madj, turned, mid, madd, mscal, e1, e2, normsqr. cbn [csum Nat.eqb Nat.ltb Nat.leb andb]. csimp. ring. }
  rewrite Ev. pose proof (sin2_cos2 x) as Q2. unfold Rsqr in Q2. pose proof (Rle_0_sqr (cos x)) as Q3. pose proof (Rle_0_sqr (sin x)) as Q4. unfold Rsqr in Q3, Q4. assert (0 < a * a) by (apply Rmult_lt_0_compat; lra).
  destruct (Rle_lt_or_eq_dec _ _ Q3) as [L|L].
  - assert (0 < cos x * cos x * normsqr (T O O)) by (apply Rmult_lt_0_compat; lra). assert (0 <= sin x * sin x * (a * a)) by (apply Rmult_le_pos; lra). lra.
  - rewrite <- L in *. replace (sin x * sin x) with 1 by lra. lra.
Qed.
Lemma ex_run : exists Y e, eigensolver ex_potr ex_heev ex_opA None (Some ex_K) None false false false false (fun _ => false) (/ 10) 2 0 ex_Y = Some (Val (Some ([1; 1], Y, e))).
Proof.
  pose proof (ex_ok (Some ex_K) (or_intror eq_refl)) as Ok. pose proof Ok as [Hp Pok Eok DA DB HhA HhB OA OB KOK OP PP PB]. unfold eigensolver.
  destruct (start_ok 2 1 ex_potr ex_heev ex_opA None (Some ex_K) None false exA (mid 2) (mid 2) Ok ex_Y e1 ex_fields) as (s & -> & St & _).
  rewrite (mid_l 2 1 e1 e1_dim) in St. cbn [loop]. unfold step at 1. destruct (ex_prepare 0 s e1 _ St (respan_refl 1 2 e1 e1_dim) (Z.le_refl 0)) as (h & D & t & Q & tf & ds & d2E & MY & MD & MG & -> & HY & Sp & HD & HQ & _).
  unfold line_min, linmin. destruct (Rltb_spec 0 0) as [C|_]; [lra|]. destruct (Reqb_spec 0 0) as [_|C]; [|congruence]. cbn [r_x]. rewrite Rabs_R0. destruct (Rleb_spec 0 PI) as [_|C]; [|pose proof PI_RGT_0; lra]. cbn [bind r_x].
  destruct (eaXpbY_ok 2 1 (cos 0) (h_Y h) MY (sin 0) D MD HY HD) as (Y1 & -> & HY1). cbn [bind constrain]. fold (turned 0 MY MD) in HY1. rewrite turned_0 in HY1.
  set (s' := {| s_Y := Y1 |}). assert (DM : mdim 2 1 MY) by apply (fields_dim _ _ _ _ HY). assert (DD : mdim 2 1 MD) by apply (fields_dim _ _ _ _ HD).
  assert (St' : state_ok 2 1 (mid 2) s' MY MD) by (split; [exact HY1|split; [apply (mid_l 2 1); exact DM|split; [exact HD|split; [apply (mid_l 2 1); exact DD|exists MG; exact HQ]]]]).
  unfold step. destruct (ex_converged (0 + 1) s' MY MD St' Sp ltac:(lia) eq_refl) as (h' & MY' & N' & -> & Hh). cbn [bind].
  destruct (finish_ok 2 1 ex_potr ex_heev ex_opA None (Some ex_K) None false exA (mid 2) (mid 2) Ok h' MY' N' Hh) as (Y & e & M1 & -> & _). cbn [bind]. exists Y, e. reflexivity.
Qed.
Lemma ex_modes : modes 2 2 (mid 2) exA (mid 2) (mid 2) (fun i => if (i =? 0)%nat then 1 else 3).
Proof.
  split; [apply mdim_id|]. unfold form. rewrite mid_herm. split; [rewrite (mid_l 2 2 (mid 2) (mdim_id 2)); apply (mid_l 2 2), mdim_id|]. split; [rewrite (mid_r 2 2), (mid_l 2 2); auto using exA_dim|]. split.
  - intros i j H. destruct (Nat.eqb_spec i 0), (Nat.eqb_spec j 0); try lra; lia.
  - intros p M DM _. rewrite (mid_l 2 p M DM), (mid_l 2 p M DM), (mid_l 2 p M DM). reflexivity.
Qed.
