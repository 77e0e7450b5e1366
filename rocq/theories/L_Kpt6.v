(** The two solvers keep the promise; the constraint of k = 0. *)
From Coq Require Import List ZArith Reals Bool Arith Lia Lra Psatz.
From Verif Require Import Base RC Loops M_Evect M_Lin M_Eig M_Dav M_Kpt S_Evect S_Eig S_Dav S_Kpt L_Evect L_Mat L_Eig L_Eig2 L_Eig4 L_Eig5 L_Eig7 L_Eig13 L_Grid6 P_Eig M_Apx P_Apx P_Dav L_Kpt1 L_Kpt2 L_Kpt3 L_Kpt4 L_Kpt5.
Import ListNotations.
Local Open Scope R_scope.
Add Ring Cring_k6 : C_ring_theory.

Lemma cg_solver_ok n q potr heev opA opB opK project A B c P : solver_ok n q potr heev opA opB opK None false A B (mid n) -> (project = true -> B = mid n) -> applies n q c P -> mdim n n P -> mmul n P P = P ->
  solver_ok n q potr heev opA opB opK (Some c) project A B P.
Proof.
  intros [Hp Pok Eok DA DB HA HB AA AB AK _ _ _] Pr Ap DP Id. constructor; auto. intros E. rewrite (Pr E). rewrite (mid_r n n P DP), (mid_l n n P DP). reflexivity.
Qed.
Lemma cg_finds n bs potr heev opA opB opK cg pr project reorth reset tol force only quick k fuel A B :
  (forall q, (1 <= q <= bs)%nat -> solver_ok n q potr heev opA opB opK None false A B (mid n)) -> (project = true -> B = mid n) ->
  solver_finds (fun q P M e => ritz_fields n q P A B M e) n bs (cg_solver potr heev opA opB opK cg pr project reorth reset tol force only quick k fuel).
Proof.
  intros Ok Pr q c P Y M Y' e Hq Ap DP Id HY E. pose proof (cg_solver_ok n q potr heev opA opB opK project A B c P (Ok q Hq) Pr Ap DP Id) as Ok'.
  unfold cg_solver in E. destruct (full_solver _ _ _ _ _ _ _ _ _ _ _ _ _ _ _ _ _ _) as [[[((Es, Y1), e1)|]| | |]|] eqn:R; try discriminate. injection E as <- <-.
  destruct (C81_result n q _ _ _ _ _ _ _ _ _ _ _ _ _ _ _ A B P k fuel Y M Es Y1 e1 Ok' HY R) as (_ & M' & HM & Sa & FB & FA & Le & As & _). exists M'. split; [exact HM|]. split; [exact Le|].
  split; [apply (fields_dim _ _ _ _ HM)|]. auto.
Qed.
Lemma cg_safe n bs potr heev opA opB opK cg pr project reorth reset tol force only quick k fuel A B :
  (forall q, (1 <= q <= bs)%nat -> solver_ok n q potr heev opA opB opK None false A B (mid n)) -> (project = true -> B = mid n) ->
  solver_safe n bs (cg_solver potr heev opA opB opK cg pr project reorth reset tol force only quick k fuel).
Proof.
  intros Ok Pr q c P Y M Hq Ap DP Id HY. pose proof (cg_solver_ok n q potr heev opA opB opK project A B c P (Ok q Hq) Pr Ap DP Id) as Ok'. unfold cg_solver.
  pose proof (C81_safe n q potr heev opA opB opK (Some c) cg pr project reorth reset tol force only quick A B P k fuel Y M Ok' HY) as S.
  destruct (full_solver _ _ _ _ _ _ _ _ _ _ _ _ _ _ _ _ _ _) as [[[((Es, Y1), e1)|]| | |]|]; congruence.
Qed.

Lemma dav_finds n bs nb potr heev opA opK tol k e W A : dav_call n bs nb potr heev opA opK A e W ->
  solver_finds (fun q P M e => ritz_fields n q P A (mid n) M e) n bs (davidson_solver potr heev opA opK tol k e W).
Proof.
  intros Ok q c P Y M Y' e' Hq Ap DP Id HY E. destruct (Ok q Hq) as ([Hp Pok Eok DA HA AA AK _ _] & Enb & Hnb & Le & Wk). unfold davidson_solver in E.
  rewrite (proj1 (proj2 HY)) in E. destruct (davidson _ _ _ _ _ _ _ _ _ _ _) as [((rs, Y1), e1)| | |] eqn:R; try discriminate. cbn [bind] in E. injection E as <- <-.
  assert (Cl : call n q nb potr heev opA opK (Some c) A P Y M e (W (Z.of_nat q))) by (split; [constructor; auto|auto]).
  destruct (C74_result _ _ _ _ _ _ _ _ _ _ _ _ _ _ _ _ _ _ _ _ Cl R) as (r & r0 & t & Mr & M' & _ & _ & HM & _ & (DM & OM) & Sa & FA & Le1 & _ & As & _). exists M'. split; [exact HM|]. split; [exact Le1|].
  split; [exact DM|]. split; [exact Sa|]. split; [unfold form; rewrite (mid_l n q M' DM); exact OM|]. auto.
Qed.
Lemma dav_safe n bs nb potr heev opA opK tol k e W A : dav_call n bs nb potr heev opA opK A e W -> solver_safe n bs (davidson_solver potr heev opA opK tol k e W).
Proof.
  intros Ok q c P Y M Hq Ap DP Id HY. destruct (Ok q Hq) as ([Hp Pok Eok DA HA AA AK _ _] & Enb & Hnb & Le & Wk). unfold davidson_solver. rewrite (proj1 (proj2 HY)).
  assert (Cl : call n q nb potr heev opA opK (Some c) A P Y M e (W (Z.of_nat q))) by (split; [constructor; auto|auto]).
  destruct (C74_safe n q nb potr heev opA opK (Some c) A P tol 0 k Y M e _ Cl) as [(rs & Y1 & e1 & ->)|(-> & _)]; cbn [bind]; discriminate.
Qed.

(** * The constraint of all bands *)

Lemma zero_k_applies n q : (2 <= n)%nat -> applies n q (fun X => zero_k_constraint C0 X 0) (no_const n).
Proof.
  intros Hn X M HX. pose proof HX as (NX & PX & WX & _). destruct (zero_k_ok C0 X 0 WX ltac:(lia)) as (X' & E & W' & N' & P' & _ & Q). exists X'. split; [exact E|].
  assert (DM : mdim n q M) by apply (fields_dim _ _ _ _ HX).
  assert (En : forall i j, mmul n (no_const n) M i j = if ((2 <=? i) && (i <? n))%nat then M i j else C0).
  { intros i j. unfold mmul, no_const. destruct (Nat.leb_spec 2 i), (Nat.ltb_spec i n); cbn [andb]; try (rewrite (csum_ext n _ (fun _ => C0)) by (intros; ring); apply csum_0).
    rewrite (csum_single n i); [|assumption|intros k _ N; destruct (Nat.eqb_spec i k); [congruence|ring]]. rewrite Nat.eqb_refl. ring. }
  apply fields_of; [exact W'|congruence|congruence| |].
  - intros i j H. rewrite En. destruct (_ && _); [apply DM; exact H|reflexivity].
  - intros i j Hi Hj. rewrite En. specialize (Q (Z.of_nat i) (Z.of_nat j) ltac:(lia) ltac:(lia)). cbn [Z.leb Z.compare andb] in Q.
    destruct (Z.ltb_spec (Z.of_nat i) 2), (Nat.leb_spec 2 i), (Nat.ltb_spec i n); try lia; cbn [andb].
    + unfold entC, gets. unfold ent in Q. rewrite Q. reflexivity.
    + rewrite (ent_entC _ _ _ _ _ _ Q). apply (fields_at n q); auto.
Qed.
Lemma no_const_idem n : mmul n (no_const n) (no_const n) = no_const n.
Proof.
  apply mext; intros i j. unfold mmul, no_const. destruct (Nat.leb_spec 2 i), (Nat.ltb_spec i n); cbn [andb]; try (rewrite (csum_ext n _ (fun _ => C0)) by (intros; ring); apply csum_0).
  rewrite (csum_single n i); [|assumption|intros k _ N; destruct (Nat.eqb_spec i k); [congruence|ring]]. rewrite Nat.eqb_refl. destruct (Nat.leb_spec 2 i), (Nat.ltb_spec i n); try lia. cbn [andb]. ring.
Qed.
Lemma no_const_herm n : hermitian (no_const n).
Proof.
  unfold hermitian. apply mext; intros i j. unfold madj, no_const. destruct (Nat.eqb_spec j i) as [->|N].
  - rewrite Nat.eqb_refl. destruct (_ && _)%bool; apply C_eq; csimp; ring.
  - destruct (Nat.eqb_spec i j); [congruence|]. rewrite !andb_false_r. apply C_eq; csimp; ring.
Qed.
Lemma no_const_dim n : mdim n n (no_const n).
Proof. intros i j H. unfold no_const. destruct (Nat.leb_spec 2 i), (Nat.ltb_spec i n), (Nat.eqb_spec i j); cbn [andb]; try reflexivity; lia. Qed.

(** The hypotheses on the operators, from those on the parity constraint alone. *)
Lemma kpoint_ok_of n num parity_c (zero_k : bool) muinv A B Pp : mdim n n A -> mdim n n B -> mdim n n Pp -> hermitian A -> hermitian B ->
  (forall q, (1 <= q <= num)%nat -> applies n q parity_c Pp) -> mmul n Pp Pp = Pp -> hermitian Pp -> mmul n Pp B = mmul n B Pp ->
  (zero_k = true -> (2 <= n)%nat /\ mmul n Pp (no_const n) = mmul n (no_const n) Pp /\ mmul n (no_const n) B = mmul n B (no_const n)) ->
  (forall m p H M b N, (1 <= p <= m)%nat -> (m <= num)%nat -> fields n m H M -> fields n p b N -> exists b', muinv H b = Val b' /\ ealloc b' = ealloc b /\ fields n p b' (slice 0 p (mmul n B M))) ->
  kpoint_ok n num parity_c zero_k muinv A B (if zero_k then mmul n Pp (no_const n) else Pp).
Proof.
  intros DA DB DP HA HB Ap Id HP Cm Z Mu. assert (Ap1 : forall q, (1 <= q <= num)%nat -> applies n q (chain_func [parity_c]) Pp).
  { intros q Hq X M HX. destruct (Ap q Hq X M HX) as (X' & E & F). exists X'. cbn [chain_func]. rewrite E. auto. }
  destruct zero_k.
  - destruct (Z eq_refl) as (Hn & Cz & Cb). constructor; auto.
    + apply (mdim_mul n n n); [exact DP|apply no_const_dim].
    + intros q Hq. apply chain_applies; [apply zero_k_applies; exact Hn|apply Ap1; exact Hq].
    + rewrite mmul_assoc, <- (mmul_assoc n n (no_const n)), <- Cz, <- !mmul_assoc, Id, mmul_assoc, no_const_idem. reflexivity.
    + unfold hermitian. rewrite madj_mul, HP, no_const_herm. symmetry. exact Cz.
    + rewrite mmul_assoc, Cb, <- !mmul_assoc, Cm. reflexivity.
  - constructor; auto.
Qed.

(** * A whole call *)
Lemma ritz_run n num bs b0 parity_c zero_k same negative_ok muinv solver A B P parity fuel S2 ev H Hblock BY :
  kcall n num bs b0 parity_c zero_k same muinv A B P parity fuel S2 ev H Hblock BY -> solver_finds (fun q Q M e => ritz_fields n q Q A B M e) n bs solver ->
  match solve_kpoint parity_c muinv solver fuel zero_k same negative_ok parity (Z.of_nat num) S2 ev H Hblock BY with
  | Some (Val (H', f)) => exists M w, bands n num b0 negative_ok parity H' f M w /\ inv_ritz n bs A B P (num - b0)%nat (slice b0 (num - b0) M) (fun i => w (b0 + i)%nat)
  | Some UB => ~ solver_safe n bs solver
  | _ => True
  end.
Proof.
  intros (Ok & Ar & Hb0 & Hn & Hf) Fin. pose proof Ar as (_ & _ & Hbs & _). pose proof Ok as [DA DB DP HA HB Base Id HP Cm Mu].
  assert (Z0 : forall M, slice 0 0 M = mzero) by (intros M; apply mext; intros i j; reflexivity).
  assert (K : match solve_kpoint parity_c muinv solver fuel zero_k same negative_ok parity (Z.of_nat num) S2 ev H Hblock BY with
    | Some (Val (H', f)) => exists M w, fields n num H' M /\ ealloc H' = Z.of_nat num /\ length f = num /\ (forall i, (i < num)%nat -> freq_of negative_ok (nth i f 0) (w i)) /\
        (forall i, (i < b0)%nat -> w i = 0 /\ (forall g, (g < n)%nat -> M g i = if (Z.of_nat g =? const_row parity (Z.of_nat i))%Z then C1 else C0)) /\ inv_ritz n bs A B P (num - b0)%nat (slice b0 (num - b0) M) (fun i => w (b0 + i)%nat)
    | Some UB => ~ solver_safe n bs solver | _ => True end).
  { apply (kpoint_run n num bs b0 parity_c zero_k same negative_ok muinv solver A B P parity S2 ev H Hblock BY _ Ok Ar Hb0 Hn Fin (inv_ritz n bs A B P)); auto.
    - intros M w. split; [|split; [|intros; lia]].
      + unfold satisfies. apply mext; intros i j. rewrite mmul_slice. unfold slice. cbn. reflexivity.
      + apply mext; intros i j. rewrite form_slice. destruct (Nat.ltb_spec i 0); [lia|]. cbn [andb]. unfold mid. destruct (Nat.ltb_spec i 0); [lia|reflexivity].
    - intros d M w (S1 & S2' & _). auto.
    - intros M w w' Ew (I1 & I2 & I3). split; [exact I1|]. split; [exact I2|]. intros i j Hi Hj Eb. rewrite <- !Ew by auto. apply I3; auto.
    - intros k q M w M' e w' d Hq Hd DM DM' I Es R V1 V2. apply (inv_ritz_step n num bs parity_c zero_k muinv A B P Ok ltac:(lia) (num - b0) k q M w M' e w'); auto. }
  destruct (solve_kpoint _ _ _ _ _ _ _ _ _ _ _ _ _ _) as [[(H', f)| | |]|]; auto. destruct K as (M & w & F & _ & Lf & Fr & Cn & I). exists M, w. split; [|exact I]. split; [exact F|]. split; [exact Lf|]. split; [exact Fr|exact Cn].
Qed.
Lemma low_run n num bs b0 parity_c zero_k same negative_ok muinv solver A B P parity fuel S2 ev H Hblock BY :
  kcall n num bs b0 parity_c zero_k same muinv A B P parity fuel S2 ev H Hblock BY -> solver_finds (fun q Q M e => lowest n q Q A B M e) n bs solver ->
  match solve_kpoint parity_c muinv solver fuel zero_k same negative_ok parity (Z.of_nat num) S2 ev H Hblock BY with
  | Some (Val (H', f)) => exists M w, bands n num b0 negative_ok parity H' f M w /\ inv_low n A B P (num - b0)%nat (slice b0 (num - b0) M) (fun i => w (b0 + i)%nat)
  | Some UB => ~ solver_safe n bs solver
  | _ => True
  end.
Proof.
  intros (Ok & Ar & Hb0 & Hn & Hf) Fin. pose proof Ar as (_ & _ & Hbs & _). pose proof Ok as [DA DB DP HA HB Base Id HP Cm Mu].
  assert (Z0 : forall M, slice 0 0 M = mzero) by (intros M; apply mext; intros i j; reflexivity).
  assert (K : match solve_kpoint parity_c muinv solver fuel zero_k same negative_ok parity (Z.of_nat num) S2 ev H Hblock BY with
    | Some (Val (H', f)) => exists M w, fields n num H' M /\ ealloc H' = Z.of_nat num /\ length f = num /\ (forall i, (i < num)%nat -> freq_of negative_ok (nth i f 0) (w i)) /\
        (forall i, (i < b0)%nat -> w i = 0 /\ (forall g, (g < n)%nat -> M g i = if (Z.of_nat g =? const_row parity (Z.of_nat i))%Z then C1 else C0)) /\ inv_low n A B P (num - b0)%nat (slice b0 (num - b0) M) (fun i => w (b0 + i)%nat)
    | Some UB => ~ solver_safe n bs solver | _ => True end).
  { apply (kpoint_run n num bs b0 parity_c zero_k same negative_ok muinv solver A B P parity S2 ev H Hblock BY _ Ok Ar Hb0 Hn Fin (inv_low n A B P)); auto.
    - intros M w. unfold inv_low. rewrite Z0. split; [intros i j _; reflexivity|]. split; [apply mmul_zero_r|]. split; [unfold form; rewrite madj_zero, mmul_zero_l; apply mext; intros i j; reflexivity|].
      split; [intros p X _ _; unfold form; rewrite mmul_zero_r, mmul_zero_r; apply mext; intros i j; reflexivity|]. split; [intros; lia|]. intros; lia.
    - intros d M w (D1 & S1 & O1 & _). auto.
    - intros M w w' Ew (D1 & S1 & O1 & St & As & Lo). split; [exact D1|]. split; [exact S1|]. split; [exact O1|]. split; [|split].
      + intros p X DX SX. rewrite (St p X DX SX). f_equal. apply mext; intros i j. unfold mdiag. destruct (Nat.ltb_spec i (num - b0)); [|reflexivity]. rewrite Ew by assumption. reflexivity.
      + intros i j Hij. rewrite <- !Ew by lia. apply As. exact Hij.
      + intros i X Hi. rewrite <- Ew by exact Hi. apply Lo. exact Hi.
    - intros k q M w M' e w' d Hq Hd DM DM' I Es R V1 V2. apply (inv_low_step n num bs parity_c zero_k muinv A B P Ok ltac:(lia) (num - b0) k q M w M' e w'); auto. }
  destruct (solve_kpoint _ _ _ _ _ _ _ _ _ _ _ _ _ _) as [[(H', f)| | |]|]; auto. destruct K as (M & w & F & _ & Lf & Fr & Cn & I). exists M, w. split; [|exact I]. split; [exact F|]. split; [exact Lf|]. split; [exact Fr|exact Cn].
Qed.
