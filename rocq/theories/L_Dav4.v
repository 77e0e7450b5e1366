(** One iteration of the Davidson solver. *)
From Coq Require Import List ZArith Reals Bool Arith Lia Lra FunctionalExtensionality.
From Verif Require Import Base RC Loops L_Op M_Evect M_Lin M_Eig M_Dav S_Evect S_Eig S_Dav L_Evect L_Evect3 L_Mat L_Eig L_Eig2 L_Eig3 L_Eig4 L_Eig5 L_Eig7 L_Eig12 L_Dav L_Dav2 L_Dav3.
Import ListNotations.
Local Open Scope R_scope.
Add Ring Cring_d4 : C_ring_theory.

Lemma square_any p S : sp S = Z.of_nat p -> wfs S -> exists M, square p S M.
Proof.
  intros E (W1 & W2). exists (fun i j => if (i <? p)%nat && (j <? p)%nat then nth (i * p + j) (sdata S) C0 else C0).
  split; [exact E|]. split; [split; assumption|]. split; [nia|]. split.
  - intros i j [H|H]; destruct (Nat.ltb_spec i p), (Nat.ltb_spec j p); cbn [andb]; try reflexivity; lia.
  - intros i j Hi Hj. destruct (Nat.ltb_spec i p); [|lia]. destruct (Nat.ltb_spec j p); [|lia]. reflexivity.
Qed.
Lemma XtY_alloc U X Y S U' : XtY U X Y S = Val U' -> salloc U' = salloc U.
Proof.
  unfold XtY, XtY_slice2, check. destruct (_ =? _)%Z; [|discriminate]. cbn [bind]. destruct (_ && _); [|discriminate]. cbn [bind].
  destruct (gemm _ _ _ _ _ _ _ _ _ _ _ _ _ _ _ _); try discriminate. cbn [bind]. destruct (blas_copy _ _ _ _ _ _ _); try discriminate. cbn [bind].
  destruct (forZ _ _ _ _); try discriminate. cbn [bind]. intros [= <-]. reflexivity.
Qed.
Lemma mmul_sub_r k A B D : mmul k A (madd B (mscal (-1) D)) = madd (mmul k A B) (mscal (-1) (mmul k A D)).
Proof. rewrite mmul_add_r, mmul_scal_r. reflexivity. Qed.
Lemma blocks_mul n p b A M : (1 <= p)%nat -> blocks p b (fun k => mmul n A (M k)) = mmul n A (blocks p b M).
Proof.
  intros Hp. apply mext; intros i j. unfold blocks at 1, mmul. destruct (Nat.ltb_spec j (p * b)) as [Hj|Hj].
  - apply csum_ext. intros l Hl. unfold blocks. destruct (Nat.ltb_spec j (p * b)); [|lia]. reflexivity.
  - symmetry. rewrite <- (csum_0 n). apply csum_ext. intros l Hl. unfold blocks. destruct (Nat.ltb_spec j (p * b)); [lia|]. ring.
Qed.

Section Iter.
Variables (n p nb : nat) (potr : Z -> list C -> option (list C)) (heev : Z -> list C -> list C * list R).
Variables (opA : emat C -> outcome (emat C)) (opK : option (emat C -> emat C -> list R -> outcome (emat C))) (constraint : option (emat C -> outcome (emat C))).
Variables (HA HP : mat) (target tolerance : R).
Hypothesis Ok : davidson_ok n p nb potr heev opA opK constraint HA HP.
Hypothesis Hnb : (2 <= nb)%nat.
Let Hp := dk_p _ _ _ _ _ _ _ _ _ _ Ok. Let Pok := dk_potr _ _ _ _ _ _ _ _ _ _ Ok. Let Eok := dk_heev _ _ _ _ _ _ _ _ _ _ Ok.
Let DA := dk_dimA _ _ _ _ _ _ _ _ _ _ Ok. Let HhA := dk_hermA _ _ _ _ _ _ _ _ _ _ Ok. Let OA := dk_A _ _ _ _ _ _ _ _ _ _ Ok.
Let OK := dk_K _ _ _ _ _ _ _ _ _ _ Ok. Let OP := dk_P _ _ _ _ _ _ _ _ _ _ Ok. Let PP := dk_idem _ _ _ _ _ _ _ _ _ _ Ok.
Let dinv := dinv n p nb HA HP. Let rinv := rinv n p nb HA target.

(** ** What a Rayleigh-Ritz step means *)
Section Ritz.
Variables (s : dst) (b : nat) (M : nat -> mat) (r : ritz) (it : nat) (U : mat) (e : list R).
Hypotheses (Is : dinv s b M) (Ir : rinv s b M r it U e).
Let q := (p * S b)%nat.
Let W := blocks p (S b) M.
Definition ritzM : mat := mmul (p * S b) (blocks p (S b) M) (sel p it (p * S b) U).
Let V := mmul q W (madj U).
Lemma W_dim : mdim n q W.
Proof. apply blocks_dim; [exact Hp|apply (i_o _ _ _ _ _ _ _ _ Is)]. Qed.
Lemma U_dim : mdim q q U.
Proof. apply (square_dim q _ _ (j_S _ _ _ _ _ _ _ _ _ _ _ _ Ir)). Qed.
Lemma V_dim : mdim n q V.
Proof. apply (mdim_mul n q q); [apply W_dim|apply mdim_adj, U_dim]. Qed.
Lemma WW : mmul n (madj W) W = mid q.
Proof. apply orthoblocks_ok; [exact Hp|apply (i_o _ _ _ _ _ _ _ _ Is)]. Qed.
Lemma VV : mmul n (madj V) V = mid q.
Proof.
  unfold V. rewrite madj_mul, madj_adj, mmul_assoc, <- (mmul_assoc n q (madj W) W), WW, (mid_l q q) by apply mdim_adj, U_dim. apply (j_U1 _ _ _ _ _ _ _ _ _ _ _ _ Ir).
Qed.
Lemma VAV_diag : form n HA V V = mdiag q (fun i => nth i e 0).
Proof.
  unfold V. rewrite form_span. pose proof (j_D _ _ _ _ _ _ _ _ _ _ _ _ Ir : form n HA W W = mmul q (madj U) (mmul q (mdiag q (fun i => nth i e 0)) U)) as D. rewrite D, madj_adj.
  pose proof (j_U1 _ _ _ _ _ _ _ _ _ _ _ _ Ir : mmul q U (madj U) = mid q) as U1.
  rewrite !mmul_assoc. rewrite U1. rewrite <- (mmul_assoc q q U (madj U)), U1. rewrite (mid_r q q) by apply mdiag_dim. apply (mid_l q q). apply mdiag_dim.
Qed.
Lemma ritz_col i j : (j < p)%nat -> ritzM i j = V i (it + j)%nat.
Proof.
  intros Hj. unfold ritzM, V. fold q W. unfold mmul. apply csum_ext. intros k Hk. f_equal. unfold sel, madj. destruct (Nat.ltb_spec k q); [|lia]. destruct (Nat.ltb_spec j p); [|lia]. reflexivity.
Qed.
Lemma ritzM_dim : mdim n p ritzM.
Proof. apply (mdim_mul n (p * S b) p); [apply W_dim|apply sel_dim; exact Hp]. Qed.
Lemma ritz_ok : ritz_of n p q HA W (fun i => nth i e 0) it r ritzM.
Proof.
  split; [apply (j_in _ _ _ _ _ _ _ _ _ _ _ _ Ir)|]. split; [apply (j_Y _ _ _ _ _ _ _ _ _ _ _ _ Ir)|]. exists V. split; [split; [apply V_dim|apply VV]|].
  split; [exists (madj U); split; [apply mdim_adj, U_dim|reflexivity]|].
  split; [exists U; split; [apply U_dim|]; unfold V; rewrite mmul_assoc; rewrite (j_U2 _ _ _ _ _ _ _ _ _ _ _ _ Ir : mmul q (madj U) U = mid q); symmetry; apply (mid_r n q), W_dim|].
  split; [apply VAV_diag|]. split; [apply (j_asc _ _ _ _ _ _ _ _ _ _ _ _ Ir)|]. split; [apply ritz_col|]. split; [apply (j_le _ _ _ _ _ _ _ _ _ _ _ _ Ir)|]. split; [apply (j_e _ _ _ _ _ _ _ _ _ _ _ _ Ir)|apply (j_E _ _ _ _ _ _ _ _ _ _ _ _ Ir)].
Qed.
Lemma ritz_orth : mmul n (madj ritzM) ritzM = mid p.
Proof.
  pose proof (j_in _ _ _ _ _ _ _ _ _ _ _ _ Ir) as Hin. pose proof ritzM_dim as D.
  apply mext; intros i j. destruct (Nat.lt_ge_cases i p) as [Hi|Hi]; [destruct (Nat.lt_ge_cases j p) as [Hj|Hj]|].
  - transitivity (mmul n (madj V) V (it + i)%nat (it + j)%nat).
    + unfold mmul, madj. apply csum_ext. intros l Hl. rewrite !ritz_col by auto. reflexivity.
    + rewrite VV. unfold mid. destruct (Nat.ltb_spec (it + i) q); [|unfold q in *; lia]. destruct (Nat.ltb_spec i p); [|lia]. cbn [andb].
      destruct (Nat.eqb_spec i j), (Nat.eqb_spec (it + i) (it + j)); try reflexivity; lia.
  - rewrite (mdim_id p) by auto. apply (mdim_mul p n p _ _ (mdim_adj _ _ _ D) D). auto.
  - rewrite (mdim_id p) by auto. apply (mdim_mul p n p _ _ (mdim_adj _ _ _ D) D). auto.
Qed.
Lemma ritz_diag : form n HA ritzM ritzM = mdiag p (fun i => nth i (r_e r) 0).
Proof.
  pose proof (j_in _ _ _ _ _ _ _ _ _ _ _ _ Ir) as Hin. pose proof ritzM_dim as D.
  apply mext; intros i j. destruct (Nat.lt_ge_cases i p) as [Hi|Hi]; [destruct (Nat.lt_ge_cases j p) as [Hj|Hj]|].
  - transitivity (form n HA V V (it + i)%nat (it + j)%nat).
    + unfold form, mmul, madj. apply csum_ext. intros l Hl. rewrite !ritz_col by auto. f_equal. apply csum_ext. intros m Hm. rewrite !ritz_col by auto. reflexivity.
    + rewrite VAV_diag. unfold mdiag. destruct (Nat.ltb_spec (it + i) q); [|unfold q in *; lia]. destruct (Nat.ltb_spec i p); [|lia]. cbn [andb]. rewrite (j_e _ _ _ _ _ _ _ _ _ _ _ _ Ir) by auto.
      destruct (Nat.eqb_spec i j), (Nat.eqb_spec (it + i) (it + j)); try reflexivity; lia.
  - rewrite mdiag_dim by auto. apply (mdim_form n p _ _ _ DA D D). auto.
  - rewrite mdiag_dim by auto. apply (mdim_form n p _ _ _ DA D D). auto.
Qed.
Lemma W_kept : satisfies n HP W.
Proof.
  unfold satisfies, W. rewrite <- blocks_mul by exact Hp. apply blocks_ext; [exact Hp|]. intros k Hk. apply (i_k _ _ _ _ _ _ _ _ Is). lia.
Qed.
Lemma ritz_kept : satisfies n HP ritzM.
Proof. unfold satisfies, ritzM. fold q W. rewrite <- mmul_assoc, W_kept. reflexivity. Qed.

(** ** The next block *)
Lemma next_block_ok : exists V' AV' VAV' b2 M', next_block (Z.of_nat nb) s r = Val (V', AV', VAV', Z.of_nat b2) /\ (1 <= b2 < nb)%nat /\ length V' = nb /\ length AV' = nb /\
  (forall k, (k < nb)%nat -> exists X, holds n p V' k X) /\ (forall k, (k < b2)%nat -> holds n p V' k (M' k)) /\ holds n p V' b2 (mmul n HA ritzM) /\
  (forall k, (k < nb)%nat -> exists X, holds n p AV' k X) /\ (forall k, (k < b2)%nat -> holds n p AV' k (mmul n HA (M' k))) /\
  sp VAV' = Z.of_nat (p * b2) /\ salloc VAV' = Z.of_nat (p * nb) /\ wfs VAV' /\
  (forall i j, (i <= j < p * b2)%nat -> cell (p * b2) VAV' i j = form n HA (blocks p b2 M') (blocks p b2 M') i j) /\
  orthoblocks n p b2 M' /\ (forall k, (k < b2)%nat -> satisfies n HP (M' k)) /\ spanned (p * b2) p (blocks p b2 M') ritzM /\ ((S b < nb)%nat /\ b2 = S b /\ M' = M \/ S b = nb /\ b2 = 1%nat /\ M' = fun _ => ritzM).
Proof.
  pose proof Is as [Ib Il IlV IlA IV IVM IA IAM Isp Isa Iwf Ic Io Ik IY Ie]. pose proof Ir as [Jq Jit Jin JlA JA JAM Jsp Jsa Jwf Jc JS JU1 JU2 JD Jlen Jasc Jt JY Jle Je JE].
  unfold next_block. rewrite (proj1 (proj2 JY)), Ib, Jq, Jit. fold ritzM in JY.
  assert (Comb : forall X MX, fields n p X MX -> exists X', combine_blocks (Z.of_nat b) (Z.of_nat p) (Z.of_nat (p * S b)) (Z.of_nat it) (r_AV r) (r_S r) X = Val X' /\ fields n p X' (mmul n HA ritzM)).
  { intros X MX HX. destruct (combine_ok n p nb potr heev opA opK constraint HA HP Ok b it (r_AV r) (fun k => mmul n HA (M k)) (r_S r) U X MX Jin JAM JS HX) as (X' & E & H). exists X'. split; [exact E|].
    rewrite blocks_mul in H by exact Hp. rewrite mmul_assoc in H. exact H. }
  destruct (Nat.eq_dec (S b) nb) as [Eb|Nb].
  - replace (Z.rem (Z.of_nat b + 1) (Z.of_nat nb)) with 0%Z. 2: { replace (Z.of_nat b + 1)%Z with (Z.of_nat nb) by lia. rewrite Z.rem_same; lia. }
    destruct (IV 0%nat ltac:(lia)) as (X0 & H0). destruct (holds_rd n p _ 0%nat _ H0) as (x0 & Ex0 & Hx0). cbn [Z.of_nat] in Ex0. rewrite Ex0. cbn [bind].
    destruct (Comb x0 X0 Hx0) as (x & -> & Hx). cbn [bind]. destruct (holds_wr n p (d_V s) 0%nat x _ ltac:(lia) Hx) as (V1 & E1 & L1 & V1a & V1b). cbn [Z.of_nat] in E1. rewrite E1. cbn [bind Z.eqb].
    destruct (JA 0%nat ltac:(lia)) as (A0 & HA0). destruct (holds_rd n p _ 0%nat _ HA0) as (a0 & Ea0 & Ha0). cbn [Z.of_nat] in Ea0. rewrite Ea0. cbn [bind].
    destruct (ecopy_ok n p a0 A0 x _ Ha0 Hx) as (a1 & -> & Ha1). cbn [bind]. destruct (holds_wr n p (r_AV r) 0%nat a1 _ ltac:(lia) Ha1) as (AV1 & E2 & L2 & A1a & A1b). cbn [Z.of_nat] in E2. rewrite E2. cbn [bind].
    destruct (ecopy_ok n p x _ (r_Y r) _ Hx JY) as (v0 & -> & Hv0). cbn [bind]. destruct (holds_wr n p V1 0%nat v0 _ ltac:(lia) Hv0) as (V2 & E3 & L3 & V2a & V2b). cbn [Z.of_nat] in E3. rewrite E3. cbn [bind].
    unfold sqmatrix_resize, check. rewrite Jsa. destruct (Z.leb_spec (Z.of_nat p) (Z.of_nat (p * nb))) as [_|Hx']; [|exfalso; nia]. cbn [bind].
    destruct (square_any p {| sp := Z.of_nat p; salloc := Z.of_nat (p * nb); sdata := sdata (r_VAV r) |}) as (MV & HV); [reflexivity| |].
    { destruct Jwf as (J1 & J2). split; cbn [sp salloc sdata]; [nia|]. rewrite J2, Jsa. reflexivity. }
    destruct (XtY_ok n p _ _ v0 _ a1 _ (create_sq (Z.of_nat p)) _ HV (create_square p) Hv0 Ha1) as (VAV' & E4 & H4). rewrite E4. cbn [bind]. pose proof (XtY_alloc _ _ _ _ _ E4) as Al. cbn [salloc] in Al.
    assert (H1 : exists X1, holds n p V2 1 X1). { destruct (IV 1%nat ltac:(lia)) as (X1 & H1). exists X1. apply V2b; [lia|]. apply V1b; [lia|exact H1]. }
    destruct H1 as (X1 & H1). destruct (holds_rd n p _ 1%nat _ H1) as (v1 & Ev1 & Hv1). cbn [Z.of_nat Pos.of_succ_nat] in Ev1. rewrite Ev1. cbn [bind].
    destruct (ecopy_ok n p v1 X1 a1 _ Hv1 Ha1) as (v2 & -> & Hv2). cbn [bind]. destruct (holds_wr n p V2 1%nat v2 _ ltac:(lia) Hv2) as (V3 & E5 & L5 & V3a & V3b). cbn [Z.of_nat Pos.of_succ_nat] in E5. rewrite E5. cbn [bind].
    exists V3, AV1, VAV', 1%nat, (fun _ => ritzM). split; [reflexivity|]. split; [lia|]. split; [lia|]. split; [lia|].
    assert (Bl : blocks p 1 (fun _ => ritzM) = ritzM).
    { apply mext; intros i j. destruct (Nat.lt_ge_cases j p) as [Hj|Hj].
      - pose proof (blocks_at p Hp 1 (fun _ => ritzM) i 0 j ltac:(lia) Hj) as K. rewrite Nat.mul_0_r in K. exact K.
      - unfold blocks. destruct (Nat.ltb_spec j (p * 1)); [lia|]. symmetry. apply ritzM_dim. auto. }
    split. { intros k Hk. destruct (Nat.eq_dec k 1) as [->|N1]; [eauto|]. destruct (Nat.eq_dec k 0) as [->|N0]; [exists ritzM; apply V3b; [lia|exact V2a]|]. destruct (IV k Hk) as (Xk & Hk'). exists Xk. apply V3b; [auto|]. apply V2b; [auto|]. apply V1b; auto. }
    split. { intros k Hk. replace k with 0%nat by lia. apply V3b; [lia|exact V2a]. }
    split; [exact V3a|].
    split. { intros k Hk. destruct (Nat.eq_dec k 0) as [->|N0]; [eauto|]. destruct (JA k Hk) as (Xk & Hk'). exists Xk. apply A1b; auto. }
    split. { intros k Hk. replace k with 0%nat by lia. exact A1a. }
    split; [rewrite Nat.mul_1_r; apply H4|]. split; [exact Al|]. split; [apply H4|].
    split. { intros i j Hij. rewrite Bl, Nat.mul_1_r in *. destruct H4 as (_ & _ & _ & _ & H4). unfold cell. apply H4; lia. }
    split. { split; [intros; apply ritzM_dim|]. intros i j Hi Hj. replace i with 0%nat by lia. replace j with 0%nat by lia. cbn [Nat.eqb]. apply ritz_orth. }
    split; [intros; apply ritz_kept|]. split; [|auto]. exists (mid p). rewrite Bl, Nat.mul_1_r. split; [apply mdim_id|]. symmetry. apply (mid_r n p), ritzM_dim.
  - assert (Hb2 : (S b < nb)%nat) by lia. replace (Z.rem (Z.of_nat b + 1) (Z.of_nat nb)) with (Z.of_nat (S b)) by (rewrite Z.rem_small; lia).
    destruct (IV (S b) Hb2) as (X0 & H0). destruct (holds_rd n p _ _ _ H0) as (x0 & -> & Hx0). cbn [bind]. destruct (Comb x0 X0 Hx0) as (x & -> & Hx). cbn [bind].
    destruct (holds_wr n p (d_V s) (S b) x _ ltac:(lia) Hx) as (V1 & -> & L1 & V1a & V1b). cbn [bind]. destruct (Z.eqb_spec (Z.of_nat (S b)) 0); [lia|].
    exists V1, (r_AV r), (r_VAV r), (S b), M. split; [reflexivity|]. split; [lia|]. split; [lia|]. split; [exact JlA|].
    split. { intros k Hk. destruct (Nat.eq_dec k (S b)) as [->|N1]; [eauto|]. destruct (IV k Hk) as (Xk & Hk'). exists Xk. apply V1b; auto. }
    split. { intros k Hk. apply V1b; [lia|]. apply IVM. lia. }
    split; [exact V1a|]. split; [exact JA|]. split; [intros k Hk; apply JAM; lia|]. split; [exact Jsp|]. split; [exact Jsa|]. split; [exact Jwf|]. split; [exact Jc|]. split; [exact Io|].
    split; [intros k Hk; apply Ik; lia|]. split; [|auto]. eexists. split; [|reflexivity]. apply sel_dim; exact Hp.
Qed.
End Ritz.
End Iter.
