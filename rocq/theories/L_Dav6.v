(** Runs of the Davidson solver. *)
From Coq Require Import List ZArith Reals Bool Arith Lia Lra FunctionalExtensionality.
From Verif Require Import Base RC Loops L_Op M_Evect M_Lin M_Eig M_Dav S_Evect S_Eig S_Dav L_Evect L_Evect3 L_Mat L_Eig L_Eig2 L_Eig3 L_Eig4 L_Eig5 L_Eig7 L_Eig9 L_Eig12 L_Eig13 L_Dav L_Dav2 L_Dav3 L_Dav4 L_Dav5.
Import ListNotations.
Local Open Scope R_scope.
Add Ring Cring_d6 : C_ring_theory.

Lemma nerr_firstn {T} (l : list T) : forall k i, (i < k)%nat -> nth_error (firstn k l) i = nth_error l i.
Proof. induction l as [|a l IH]; intros [|k] [|i] H; cbn; try reflexivity; try lia. apply IH. lia. Qed.
Lemma nerr_skipn {T} (l : list T) : forall k i, nth_error (skipn k l) i = nth_error l (k + i).
Proof. induction l as [|a l IH]; intros [|k] i; cbn; try reflexivity; [destruct i; reflexivity|]. apply IH. Qed.
Lemma itarget_near p q t e it : (1 <= p)%nat -> (p <= q)%nat -> length e = q -> (forall i j, (i <= j < q)%nat -> nth i e 0 <= nth j e 0) ->
  itarget (Z.of_nat p) (Z.of_nat q) t e = Val (Z.of_nat it) -> (t = 0 -> it = 0%nat) /\ (t <> 0 -> (forall i, (i + p < q)%nat -> nth i e 0 < nth (i + p) e 0) -> nearest p q t (fun i => nth i e 0) it).
Proof.
  intros Hp Hq Le As. unfold itarget. destruct (Reqb_spec t 0) as [E|E]; [intros [= H]; split; [lia|contradiction]|]. intros H. split; [contradiction|]. intros _ St.
  destruct (window_ok p q t e Hp Hq Le As St (Z.to_nat (Z.of_nat q)) 0%nat) as (it' & E' & Hit & N); [lia|lia|intros; lia|]. change (Z.of_nat 0) with 0%Z in E'. rewrite E' in H. injection H as H. assert (it' = it) by lia. subst it'.
  intros i j Hi Hj Nj. apply N; auto.
Qed.

(** ** What follows from the vocabulary *)
Lemma kept_spanned n q p P W M : satisfies n P W -> spanned q p W M -> satisfies n P M.
Proof. intros K (T & _ & ->). unfold satisfies in *. rewrite <- mmul_assoc, K. reflexivity. Qed.
Lemma stage_facts n p nb A P q W e it r M : mdim n n A -> stage n p nb A P q W e it r M ->
  orthonormal n p M /\ satisfies n P M /\ form n A M M = mdiag p (fun i => nth i (r_e r) 0) /\ (forall i j, (i <= j < p)%nat -> nth i (r_e r) 0 <= nth j (r_e r) 0) /\ spanned q p W M.
Proof.
  intros DA (Hq & (DW & OW) & KW & Hit & HY & V & (DV & OV) & WV & VW & FV & As & Cl & Le & Ve & VE).
  assert (DM : mdim n p M) by apply (fields_dim _ _ _ _ HY).
  set (T := fun l j => if ((l =? it + j) && (j <? p))%nat then C1 else C0).
  assert (DT : mdim q p T) by (intros l j H; unfold T; destruct (Nat.eqb_spec l (it + j)), (Nat.ltb_spec j p); cbn [andb]; auto; exfalso; lia).
  assert (EM : M = mmul q V T).
  { apply mext; intros i j. unfold mmul. destruct (Nat.lt_ge_cases j p) as [Hj|Hj].
    - rewrite (csum_single q (it + j)); [|lia|].
      + unfold T. rewrite Nat.eqb_refl. destruct (Nat.ltb_spec j p); [|lia]. cbn [andb]. rewrite Cl by exact Hj. ring.
      + intros l Hl Nl. unfold T. destruct (Nat.eqb_spec l (it + j)); [contradiction|]. cbn [andb]. ring.
    - rewrite DM by auto. symmetry. transitivity (csum q (fun _ => C0)); [|apply csum_0]. apply csum_ext. intros l Hl. rewrite DT by auto. ring. }
  split; [split; [exact DM|]|].
  - apply mext; intros i j. destruct (Nat.lt_ge_cases i p) as [Hi|Hi]; [destruct (Nat.lt_ge_cases j p) as [Hj|Hj]|].
    + transitivity (mmul n (madj V) V (it + i)%nat (it + j)%nat).
      * unfold mmul, madj. apply csum_ext. intros l Hl. rewrite !Cl by auto. reflexivity.
      * rewrite OV. unfold mid. destruct (Nat.ltb_spec (it + i) q); [|lia]. destruct (Nat.ltb_spec i p); [|lia]. cbn [andb]. destruct (Nat.eqb_spec i j), (Nat.eqb_spec (it + i) (it + j)); try reflexivity; lia.
    + rewrite (mdim_id p) by auto. apply (mdim_mul p n p _ _ (mdim_adj _ _ _ DM) DM). auto.
    + rewrite (mdim_id p) by auto. apply (mdim_mul p n p _ _ (mdim_adj _ _ _ DM) DM). auto.
  - assert (SM : spanned q p W M) by (apply (spanned_trans q q p W V); [exact WV|exists T; auto]).
    split; [apply (kept_spanned n q p P W); auto|]. split; [|split; [|exact SM]].
    + apply mext; intros i j. destruct (Nat.lt_ge_cases i p) as [Hi|Hi]; [destruct (Nat.lt_ge_cases j p) as [Hj|Hj]|].
      * transitivity (form n A V V (it + i)%nat (it + j)%nat).
        -- unfold form, mmul, madj. apply csum_ext. intros l Hl. rewrite !Cl by auto. f_equal. apply csum_ext. intros m Hm. rewrite !Cl by auto. reflexivity.
        -- rewrite FV. unfold mdiag. destruct (Nat.ltb_spec (it + i) q); [|lia]. destruct (Nat.ltb_spec i p); [|lia]. cbn [andb]. rewrite Ve by auto. destruct (Nat.eqb_spec i j), (Nat.eqb_spec (it + i) (it + j)); try reflexivity; lia.
      * rewrite mdiag_dim by auto. apply (mdim_form n p _ _ _ DA DM DM). auto.
      * rewrite mdiag_dim by auto. apply (mdim_form n p _ _ _ DA DM DM). auto.
    + intros i j Hij. rewrite !Ve by lia. apply As. lia.
Qed.
(** Values in a larger space are not larger. *)
Lemma stage_below n p nb A P q W e r M p' M' e' : stage n p nb A P q W e 0 r M -> orthonormal n p' M' -> spanned q p' W M' -> form n A M' M' = mdiag p' e' -> (forall i j, (i <= j < p')%nat -> e' i <= e' j) ->
  forall k, (k < p')%nat -> e k <= e' k.
Proof.
  intros (Hq & OW & KW & Hit & HY & V & (DV & OV) & WV & VW & FV & As & Cl & Le & Ve & VE) (DM & OM) SM FM As' k Hk.
  destruct (spanned_trans _ _ _ _ _ _ VW SM) as (T & DT & ET). apply (poincare q p' T e e' DT); auto.
  - rewrite ET in OM. rewrite madj_mul, mmul_assoc, <- (mmul_assoc n q (madj V) V), OV, (mid_l q p' T DT) in OM. exact OM.
  - rewrite ET, form_span, FV in FM. exact FM.
Qed.
Lemma stage_room n p nb A P q W e it r M m V lam : mdim n n A -> stage n p nb A P q W e it r M -> modes n m P A (mid n) V lam -> (q <= m)%nat.
Proof.
  intros DA (Hq & OW & KW & Hit & HY & U & (DU & OU) & WU & UW & FU & As & _) Md. destruct q as [|q]; [lia|].
  destruct (above n (S q) m P A (mid n) V lam U e (mid_herm n) Md (mdim_id n) DU) with (k := q) as (H & _); auto.
  - apply (kept_spanned n (S q) (S q) P W); auto.
  - unfold form. rewrite (mid_l n (S q) U DU). exact OU.
Qed.
Lemma same_values p T e e' : mdim p p T -> mmul p (madj T) T = mid p -> mmul p T (madj T) = mid p -> form p (mdiag p e) T T = mdiag p e' ->
  (forall i j, (i <= j < p)%nat -> e i <= e j) -> (forall i j, (i <= j < p)%nat -> e' i <= e' j) -> forall k, (k < p)%nat -> e' k = e k.
Proof.
  intros DT U1 U2 F A1 A2 k Hk. apply Rle_antisym.
  - apply (poincare p p (madj T) e' e); auto; [apply mdim_adj; exact DT|rewrite madj_adj; exact U2|]. unfold form in *. rewrite <- F, madj_adj. rewrite !mmul_assoc. rewrite U2, <- (mmul_assoc p p T (madj T)), U2.
    rewrite (mid_r p p) by apply mdiag_dim. apply (mid_l p p). apply mdiag_dim.
  - apply (poincare p p T e e'); auto.
Qed.

Section Run.
Variables (n p nb : nat) (potr : Z -> list C -> option (list C)) (heev : Z -> list C -> list C * list R).
Variables (opA : emat C -> outcome (emat C)) (opK : option (emat C -> emat C -> list R -> outcome (emat C))) (constraint : option (emat C -> outcome (emat C))).
Variables (HA HP : mat) (target tolerance : R).
Hypothesis Ok : davidson_ok n p nb potr heev opA opK constraint HA HP.
Hypothesis Hnb : (2 <= nb)%nat.
Let Hp := dk_p _ _ _ _ _ _ _ _ _ _ Ok. Let Pok := dk_potr _ _ _ _ _ _ _ _ _ _ Ok. Let Eok := dk_heev _ _ _ _ _ _ _ _ _ _ Ok.
Let DA := dk_dimA _ _ _ _ _ _ _ _ _ _ Ok. Let HhA := dk_hermA _ _ _ _ _ _ _ _ _ _ Ok. Let OA := dk_A _ _ _ _ _ _ _ _ _ _ Ok.
Let OK := dk_K _ _ _ _ _ _ _ _ _ _ Ok. Let OP := dk_P _ _ _ _ _ _ _ _ _ _ Ok. Let PP := dk_idem _ _ _ _ _ _ _ _ _ _ Ok.
Let dinv := dinv n p nb HA HP. Let rinv := rinv n p nb HA target.

Lemma stage_of s b M r it U e : dinv s b M -> rinv s b M r it U e -> stage n p nb HA HP (p * S b) (blocks p (S b) M) (fun i => nth i e 0) it r (ritzM p b M it U) /\
  (target = 0 -> it = 0%nat) /\ (target <> 0 -> (forall i, (i + p < p * S b)%nat -> nth i e 0 < nth (i + p) e 0) -> nearest p (p * S b) target (fun i => nth i e 0) it).
Proof.
  intros Is Ir. pose proof (i_lt _ _ _ _ _ _ _ _ Is). split.
  - split; [nia|]. split; [split; [apply (W_dim n p nb potr heev opA opK constraint HA HP Ok s b M Is)|apply (WW n p nb potr heev opA opK constraint HA HP Ok s b M Is)]|]. split; [apply (W_kept n p nb potr heev opA opK constraint HA HP Ok Hnb s b M Is)|].
    apply (ritz_ok n p nb potr heev opA opK constraint HA HP target Ok Hnb s b M r it U e Is Ir).
  - apply itarget_near; [exact Hp|nia|apply (j_len _ _ _ _ _ _ _ _ _ _ _ _ Ir)|apply (j_asc _ _ _ _ _ _ _ _ _ _ _ _ Ir)|apply (j_tgt _ _ _ _ _ _ _ _ _ _ _ _ Ir)].
Qed.

Variable M0 : mat.
Definition linked (t : list ritz) (q : nat) (W : mat) : Prop := match t with [] => q = p /\ respan p (mmul n HP M0) W | r0 :: _ => (2 * p <= q)%nat /\ enlarged n p opK HA HP r0 q W end.

Lemma dloop_ok k : forall s b M rs, dinv s b M -> trail n p nb opK HA HP target M0 rs -> linked rs (p * S b) (blocks p (S b) M) -> (forall r0 t, rs = r0 :: t -> d_prev_E s = r_E r0) ->
  (dloop potr heev opA opK constraint tolerance target k (Z.of_nat nb) (Z.of_nat (length rs)) s rs = Abort /\
    exists rs', trail n p nb opK HA HP target M0 rs' /\ (length rs' = (k + length rs)%nat \/ (length rs' <= k + length rs)%nat /\ exists r t q W e it M, rs' = r :: t /\ stage n p nb HA HP q W e it r M /\ linked t q W /\ stuck n p nb opK HA HP q W r)) \/
  exists r r0 t s', dloop potr heev opA opK constraint tolerance target k (Z.of_nat nb) (Z.of_nat (length rs)) s rs = Val (r :: r0 :: t, s') /\ trail n p nb opK HA HP target M0 (r :: r0 :: t) /\
    Rabs (r_E r - r_E r0) < tolerance * / 2 * (Rabs (r_E r) + Rabs (r_E r0) + / 10000000) /\ (length (r :: r0 :: t) <= k + length rs)%nat.
Proof.
  induction k as [|k IH]; intros s b M rs Is Tr Lk Pv; [left; split; [reflexivity|]; exists rs; auto|]. cbn [dloop].
  destruct (iterate_ok n p nb potr heev opA opK constraint HA HP target tolerance Ok Hnb (Z.of_nat (length rs)) s b M Is) as (r & it & U & e & _ & Ir & H). destruct (stage_of s b M r it U e Is Ir) as (St & T0 & T1).
  assert (Tr' : trail n p nb opK HA HP target M0 (r :: rs)). { split; [|exact Tr]. exists (p * S b)%nat, (blocks p (S b) M), (fun i => nth i e 0), it, (ritzM p b M it U). split; [exact St|]. split; [exact T0|]. split; [exact T1|]. exact Lk. }
  destruct (conv _ _ _ _) eqn:Cv.
  - rewrite H. cbn [bind]. right. unfold conv in Cv. apply andb_prop in Cv as (C1 & C2). destruct rs as [|r0 t]; [discriminate|]. exists r, r0, t, s. split; [reflexivity|]. split; [exact Tr'|]. rewrite (Pv r0 t eq_refl) in C2. destruct (Rltb_spec (Rabs (r_E r - r_E r0)) (tolerance * / 2 * (Rabs (r_E r) + Rabs (r_E r0) + / 10000000))); [|discriminate]. split; [assumption|cbn [length]; lia].
  - destruct H as ([(-> & Sk)|(s' & b2 & M2 & -> & Hb2 & Is' & Pe & En)] & _); cbn [bind].
    { left. split; [reflexivity|]. exists (r :: rs). split; [exact Tr'|]. right. split; [cbn [length]; lia|]. exists r, rs, (p * S b)%nat, (blocks p (S b) M), (fun i => nth i e 0), it, (ritzM p b M it U). auto. }
    destruct (IH s' b2 M2 (r :: rs) Is' Tr') as [(E & rs' & Q1 & Q2)|(ra & rb & t & sf & E & Q)].
    + split; [nia|exact En].
    + intros r0 t [= <- _]. exact Pe.
    + left. cbn [length] in E, Q2. rewrite Nat2Z.inj_succ in E. unfold Z.succ in E. split; [exact E|]. exists rs'. split; [exact Q1|]. destruct Q2 as [Q2|(Q2 & Q3)]; [left; lia|right; split; [lia|exact Q3]].
    + right. exists ra, rb, t, sf. cbn [length] in E. rewrite Nat2Z.inj_succ in E. unfold Z.succ in E. split; [exact E|]. destruct Q as (Q1 & Q2 & Q3). split; [exact Q1|]. split; [exact Q2|]. cbn [length] in *. lia.
Qed.

Lemma dstart_ok Y e Work : fields n p Y M0 -> (p <= length e)%nat -> workspace n p Work -> nb = (length Work / 2)%nat ->
  dstart potr heev constraint Y e Work = Abort /\ ~ independent n p (mid n) (mmul n HP M0) \/
  exists s M, dstart potr heev constraint Y e Work = Val s /\ independent n p (mid n) (mmul n HP M0) /\ dinv s 0 (fun _ => M) /\ respan p (mmul n HP M0) M /\ mdim n p M.
Proof.
  intros HY He HW Enb. unfold dstart, check. assert (L4 : (4 <= length Work)%nat). { destruct (Nat.lt_ge_cases (length Work) 4) as [H|H]; [|exact H]. exfalso. assert (length Work / 2 < 2)%nat by (apply Nat.div_lt_upper_bound; lia). lia. }
  destruct (Z.leb_spec 4 (Z.of_nat (length Work))); [|lia]. cbn [bind]. replace (Z.quot (Z.of_nat (length Work)) 2) with (Z.of_nat nb) by (rewrite Enb, Nat2Z.inj_div, Z.quot_div_nonneg by lia; reflexivity).
  rewrite Nat2Z.id. assert (L2 : (2 * nb <= length Work)%nat) by (rewrite Enb; apply Nat.mul_div_le; lia). rewrite (proj1 (proj2 HY)).
  unfold sqmatrix_resize, check. cbn [salloc create_sq]. destruct (Z.leb_spec 0 (Z.of_nat p * Z.of_nat nb)); [|lia]. cbn [bind].
  destruct (constrain_ok n p constraint HP OP Y M0 HY) as (Y1 & -> & HY1). cbn [bind].
  assert (HV : forall k, (k < nb)%nat -> exists X, holds n p (firstn nb Work) k X).
  { intros k Hk. destruct (nth_error Work k) as [w|] eqn:E; [|apply nth_error_None in E; lia]. destruct (HW w (nth_error_In _ _ E)) as (X & HX). exists X, w. split; [|exact HX]. rewrite nerr_firstn by exact Hk. exact E. }
  assert (HAV : forall k, (k < nb)%nat -> exists X, holds n p (firstn nb (skipn nb Work)) k X).
  { intros k Hk. destruct (nth_error Work (nb + k)) as [w|] eqn:E; [|apply nth_error_None in E; lia]. destruct (HW w (nth_error_In _ _ E)) as (X & HX). exists X, w. split; [|exact HX]. rewrite nerr_firstn by exact Hk. rewrite nerr_skipn. exact E. }
  destruct (HV 0%nat ltac:(lia)) as (X0 & HX0). destruct (holds_rd n p _ 0%nat _ HX0) as (v0 & Ev & Hv0). cbn [Z.of_nat] in Ev. rewrite Ev. cbn [bind].
  assert (Gm : form n (mid n) (mmul n HP M0) (mmul n HP M0) = mmul n (madj (mmul n HP M0)) (mmul n HP M0)) by (unfold form; rewrite (mid_l n p (mmul n HP M0) (fields_dim _ _ _ _ HY1)); reflexivity).
  unfold independent. rewrite Gm.
  destruct (orthonormalize_ok n p nb potr heev opA opK constraint HA HP Ok Hnb Y1 _ v0 X0 HY1 Hv0) as [(-> & Nd)|(v & M & -> & Pd & Hv & Rs & Or)]; cbn [bind]; [left; auto|]. right.
  destruct (holds_wr n p (firstn nb Work) 0%nat v M) as (V' & EV & LV & V1 & V2); [rewrite firstn_length; lia|exact Hv|]. cbn [Z.of_nat] in EV. rewrite EV. cbn [bind]. eexists _, M. split; [reflexivity|]. split; [exact Pd|].
  split; [|split; [exact Rs|apply (fields_dim _ _ _ _ Hv)]].
  split; cbn [d_ibasis d_V d_AV d_VAV d_Y d_e sp salloc].
  - reflexivity.
  - lia.
  - rewrite LV, firstn_length. lia.
  - rewrite firstn_length, skipn_length. lia.
  - intros k Hk. destruct (Nat.eq_dec k 0) as [->|N]; [eauto|]. destruct (HV k Hk) as (X & HX). exists X. apply V2; auto.
  - intros k Hk. replace k with 0%nat by lia. exact V1.
  - exact HAV.
  - intros k Hk. lia.
  - rewrite Nat.mul_0_r. reflexivity.
  - lia.
  - split; cbn [sp salloc sdata]; [lia|]. unfold create_sq. cbn [sdata]. rewrite repeat_length. lia.
  - intros i j Hij. lia.
  - split; [intros; apply (fields_dim _ _ _ _ Hv)|]. intros i j Hi Hj. replace i with 0%nat by lia. replace j with 0%nat by lia. exact Or.
  - intros k Hk. unfold satisfies. destruct Rs as (T & _ & _ & _ & _ & _ & ->). rewrite <- !mmul_assoc, PP. reflexivity.
  - eauto.
  - exact He.
Qed.

Lemma solver : solver_ok n p potr heev opA None None constraint false HA (mid n) HP.
Proof.
  split; auto.
  - apply Eok1 with (1 := Ok) (2 := Hnb).
  - apply mdim_id.
  - apply mid_herm.
  - reflexivity.
  - discriminate.
Qed.

Lemma final_ok r M q W e it : stage n p nb HA HP q W e it r M ->
  exists Y e' M', (let W := create_sq (ep (r_Y r)) in let! U := XtX W (r_Y r) W in let! o := invert potr U in match o with None => Abort | Some U => get_eigenvals_aux heev opA (r_Y r) U end) = Val (Y, e') /\
    length e' = p /\ fields n p Y M' /\ respan p M M' /\ orthonormal n p M' /\ form n HA M' M' = mdiag p (fun i => nth i e' 0) /\ forall i, (i < p)%nat -> nth i e' 0 = nth i (r_e r) 0.
Proof.
  intros St. destruct (stage_facts _ _ _ _ _ _ _ _ _ _ _ DA St) as ((DM & OM) & KM & FM & AM & SM). assert (HY : fields n p (r_Y r) M) by (destruct St as (_ & _ & _ & _ & H & _); exact H).
  pose proof (create_square p) as HW0. destruct (XtX_ok n p _ _ (r_Y r) M _ _ HW0 HW0 HY) as (U & EU & HU). rewrite OM in HU.
  assert (Gm : form n (mid n) M M = mid p) by (unfold form; rewrite (mid_l n p M DM); exact OM).
  assert (Pd : posdef p (mid p)).
  { intros v (i & Hi & Nv). replace (csum p _) with (RtoC (rsum p (fun i => normsqr (v i)))).
    - cbn [re RtoC fst]. apply Rlt_le_trans with (normsqr (v i)).
      + unfold normsqr. destruct (v i) as (a, b) eqn:Ev. cbn [re im fst snd]. assert (a <> 0 \/ b <> 0) as [H|H] by (destruct (Req_dec a 0) as [->|]; [right|left; auto]; intros ->; apply Nv; reflexivity); [pose proof (Rsqr_pos_lt a H)|pose proof (Rsqr_pos_lt b H)]; unfold Rsqr in *; nra.
      + apply (rsum_le_one p (fun i => normsqr (v i))); [|exact Hi]. intros j _. unfold normsqr. nra.
    - symmetry. transitivity (csum p (fun i => RtoC (normsqr (v i)))).
      + apply csum_ext. intros j Hj. rewrite (csum_single p j); [|exact Hj|].
        * unfold mid. rewrite Nat.eqb_refl. destruct (Nat.ltb_spec j p); [|lia]. cbn [andb]. unfold normsqr. apply C_eq; csimp; ring.
        * intros l Hl Nl. unfold mid. destruct (Nat.eqb_spec j l); [congruence|]. rewrite andb_false_r. ring.
      + clear. induction p as [|k IH]; cbn [csum rsum]; [reflexivity|]. rewrite IH. apply C_eq; csimp; ring. }
  set (h := {| h_Y := r_Y r; h_BY := r_Y r; h_YtBY := U; h_U := U; h_re := false |}).
  destruct (finish_ok n p potr heev opA None None constraint false HA (mid n) HP solver h M (mid p)) as (Y & e' & M' & E & L & HY' & Rs & G' & F' & A').
  { split; [exact HY|]. split; [rewrite (mid_l n p M DM); exact HY|]. unfold independent, inverse_of. rewrite Gm. split; [exact HU|]. split; [exact Pd|]. split; [exact HU|]. split; [apply mdim_id|]. apply (mid_l p p). apply mdim_id. }
  exists Y, e', M'. split; [exact E|]. split; [exact L|]. split; [exact HY'|]. split; [exact Rs|]. assert (DM' := fields_dim _ _ _ _ HY'). assert (OM' : mmul n (madj M') M' = mid p) by (unfold form in G'; rewrite (mid_l n p M' DM') in G'; exact G').
  split; [split; [exact DM'|exact OM']|]. split; [exact F'|]. destruct Rs as (T & T' & DT & DT' & TT & TT' & EM). 
  assert (U1 : mmul p (madj T) T = mid p). { rewrite EM in OM'. rewrite madj_mul, mmul_assoc, <- (mmul_assoc n p (madj M) M), OM, (mid_l p p T DT) in OM'. exact OM'. }
  assert (ET : madj T = T'). { rewrite <- (mid_r p p (madj T)) by (apply mdim_adj; exact DT). rewrite <- TT, <- mmul_assoc, U1. apply (mid_l p p). exact DT'. }
  apply (same_values p T); auto.
  - rewrite ET. exact TT.
  - rewrite EM, form_span, FM in F'. exact F'.
Qed.
End Run.
