(** The solver for a block with a target, and whole calls. *)
From Coq Require Import List ZArith Reals Bool Arith Lia Lra Psatz.
From Verif Require Import Base RC Loops M_Evect M_Lin M_Eig M_Dav M_Kpt M_Tgt S_Evect S_Eig S_Dav S_Kpt S_Tgt L_Evect L_Mat L_Eig L_Eig2 L_Eig4 L_Eig5 L_Eig7 L_Eig13 L_Kpt1 L_Kpt2 L_Kpt3 L_Kpt4 L_Kpt5 L_Kpt6 L_Tgt1 L_Tgt2.
Import ListNotations.
Local Open Scope R_scope.
Add Ring Cring_tg3 : C_ring_theory.

Lemma tgt_finds (G : nat -> mat -> mat -> (nat -> R) -> Prop) n bs potr heev opA A inner :
  (forall q P N e, G q P N e -> satisfies n P N /\ form n (mid n) N N = mid q) -> algebra_ok bs potr heev -> mdim n n A -> hermitian A -> (forall q, (1 <= q <= bs)%nat -> applies n q opA A) ->
  solver_finds G n bs inner ->
  solver_finds (fun q P M w => ritz_fields n q P A (mid n) M w /\ exists N T e, combined q M N T /\ G q P N e) n bs (target_solver potr heev opA false inner).
Proof.
  intros HG Al DA HA Ap Fin q c P Y M Y' e Hq Ac DP Id HY E. unfold target_solver in E. destruct (inner c Y) as [[(Y1, e1)| | |]|] eqn:Ei; try discriminate.
  destruct (Fin q c P Y M Y1 e1 Hq Ac DP Id HY Ei) as (N & HN & _ & GN). destruct (HG _ _ _ _ GN) as (SN & ON). destruct (Al q Hq) as (Po & He).
  destruct (get_eigenvals_ok n q potr heev opA A Y1 N ltac:(lia) Po He DA HA (Ap q Hq) HN ON) as (Y2 & e2 & T & E2 & L2 & U & F2 & O2 & D2 & A2). rewrite E2 in E. injection E as <- <-.
  exists (mmul q N T). split; [exact F2|]. split; [exact L2|]. split.
  - split; [apply (fields_dim _ _ _ _ F2)|]. split; [unfold satisfies; rewrite <- mmul_assoc, SN; reflexivity|]. auto.
  - exists N, T, (fun i => nth i e1 0). split; [split; [exact U|reflexivity]|exact GN].
Qed.
Lemma tgt_safe (G : nat -> mat -> mat -> (nat -> R) -> Prop) n bs potr heev opA A mu inner :
  (forall q P N e, G q P N e -> satisfies n P N /\ form n (mid n) N N = mid q) -> algebra_ok bs potr heev -> mdim n n A -> hermitian A -> (forall q, (1 <= q <= bs)%nat -> applies n q opA A) ->
  solver_finds G n bs inner -> solver_safe n bs inner -> solver_safe n bs (target_solver potr heev opA mu inner).
Proof.
  intros HG Al DA HA Ap Fin Sf q c P Y M Hq Ac DP Id HY. unfold target_solver. destruct mu; [discriminate|]. pose proof (Sf q c P Y M Hq Ac DP Id HY) as Nu.
  destruct (inner c Y) as [[(Y1, e1)| | |]|] eqn:Ei; try congruence.
  destruct (Fin q c P Y M Y1 e1 Hq Ac DP Id HY Ei) as (N & HN & _ & GN). destruct (HG _ _ _ _ GN) as (SN & ON). destruct (Al q Hq) as (Po & He).
  destruct (get_eigenvals_ok n q potr heev opA A Y1 N ltac:(lia) Po He DA HA (Ap q Hq) HN ON) as (Y2 & e2 & T & E2 & _). rewrite E2. discriminate.
Qed.

Lemma tbands_of n num bs neg A P parity H' f M w : bands n num 0 neg parity H' f M w -> inv_ritz n bs A (mid n) P num M w -> tbands n num bs neg A P H' f M w.
Proof.
  intros (F & L & Fr & _) (S1 & O1 & Bl). assert (DM : mdim n num M) by apply (fields_dim _ _ _ _ F). rewrite (slice_all n num M DM) in S1, O1.
  split; [exact F|]. split; [exact L|]. split; [exact Fr|]. split; [exact S1|]. split; [unfold form in O1; rewrite (mid_l n num M DM) in O1; exact O1|].
  intros i j Hi Hj Sb. unfold same_block in Sb. rewrite !Nat.sub_0_r in Sb. apply Bl; auto.
Qed.

Section Run.
Variables (n num bs : nat) (parity_c : emat C -> outcome (emat C)) (zero_k same neg : bool) (muinv : emat C -> emat C -> outcome (emat C)).
Variable solver : (emat C -> outcome (emat C)) -> emat C -> option (outcome (emat C * list R)).
Variables (A P : mat) (t : R) (fuel : nat) (S2 : list C) (ev : list R) (H Hblock : emat C) (BY : option (emat C)).
Hypothesis Cl : tcall n num bs parity_c zero_k same muinv A P fuel S2 ev H Hblock BY.

Lemma tritz_run : solver_finds (fun q Q M e => ritz_fields n q Q A (mid n) M e) n bs solver ->
  match solve_kpoint_target parity_c muinv solver fuel zero_k same neg (Z.of_nat num) S2 ev H Hblock BY with
  | Some (Val (H', f)) => exists M w, tbands n num bs neg A P H' f M w
  | Some UB => ~ solver_safe n bs solver
  | _ => True
  end.
Proof.
  intros Fin. rewrite (target_kpoint parity_c muinv solver fuel zero_k same neg 0). pose proof (ritz_run n num bs 0 _ false same neg muinv solver A (mid n) P 0 fuel S2 ev H Hblock BY (tcall_kcall _ _ _ _ _ _ _ _ _ 0%Z _ _ _ _ _ _ Cl) Fin) as R.
  destruct (solve_kpoint _ _ _ _ _ _ _ _ _ _ _ _ _ _) as [[(H', f)| | |]|]; auto. destruct R as (M & w & B & I). exists M, w. rewrite Nat.sub_0_r in I.
  rewrite (slice_all n num M (fields_dim _ _ _ _ (proj1 B))) in I. apply (tbands_of n num bs neg A P 0 H' f M w B I).
Qed.

Lemma inv_run (Inv : nat -> mat -> (nat -> R) -> Prop) : solver_finds (tgood n A t) n bs solver ->
  (forall M w, Inv 0%nat M w) -> (forall d M w, Inv d M w -> inv_ritz n bs A (mid n) P d M w) ->
  (forall M w w', (forall i, (i < num)%nat -> w i = w' i) -> Inv num M w -> Inv num M w') ->
  (forall k q M w M' e w', let d := (k * bs)%nat in (1 <= q <= bs)%nat -> (d + q <= num)%nat -> mdim n num M -> mdim n num M' -> Inv d M w -> slice 0 d M' = slice 0 d M ->
    tgood n A t q (dproj n d (mid n) P (slice 0 d M)) (slice d q M') e -> (forall j, (j < q)%nat -> w' (d + j)%nat = e j) -> (forall i, (i < d)%nat -> w' i = w i) -> Inv (d + q)%nat M' w') ->
  match solve_kpoint_target parity_c muinv solver fuel zero_k same neg (Z.of_nat num) S2 ev H Hblock BY with
  | Some (Val (H', f)) => exists M w, tbands n num bs neg A P H' f M w /\ Inv num M w
  | _ => True
  end.
Proof.
  intros Fin I0 Ir Ie Is. rewrite (target_kpoint parity_c muinv solver fuel zero_k same neg 0). destruct (tcall_kcall _ _ _ _ _ _ _ _ _ 0%Z _ _ _ _ _ _ Cl) as (Ok & Ar & Hb0 & Hn & Hf).
  assert (K : match solve_kpoint (chain_func (base_chain parity_c zero_k)) muinv solver fuel false same neg 0 (Z.of_nat num) S2 ev H Hblock BY with
    | Some (Val (H', f)) => exists M w, fields n num H' M /\ ealloc H' = Z.of_nat num /\ length f = num /\ (forall i, (i < num)%nat -> freq_of neg (nth i f 0) (w i)) /\
        (forall i, (i < 0)%nat -> w i = 0 /\ (forall g, (g < n)%nat -> M g i = if (Z.of_nat g =? const_row 0 (Z.of_nat i))%Z then C1 else C0)) /\ Inv (num - 0)%nat (slice 0 (num - 0) M) (fun i => w (0 + i)%nat)
    | Some UB => ~ solver_safe n bs solver | _ => True end).
  { apply (kpoint_run n num bs 0 _ false same neg muinv solver A (mid n) P 0 S2 ev H Hblock BY _ Ok Ar Hb0 Hn Fin Inv); auto.
    - intros d M w I. destruct (Ir d M w I) as (S1 & O1 & _). auto.
    - rewrite Nat.sub_0_r. exact Ie.
    - rewrite Nat.sub_0_r. exact Is. }
  destruct (solve_kpoint _ _ _ _ _ _ _ _ _ _ _ _ _ _) as [[(H', f)| | |]|]; auto. destruct K as (M & w & F & _ & Lf & Fr & _ & I). exists M, w. rewrite Nat.sub_0_r, (slice_all n num M (fields_dim _ _ _ _ F)) in I.
  change (fun i => w (0 + i)%nat) with (fun i => w i) in I. change (fun i : nat => w i) with w in I. split; [|exact I].
  apply (tbands_of n num bs neg A P 0); [|apply (Ir num M w I)]. split; [exact F|]. split; [exact Lf|]. split; [exact Fr|]. intros; lia.
Qed.

Lemma ritz_0 M w : inv_ritz n bs A (mid n) P 0 M w.
Proof.
  split; [|split; [|intros; lia]].
  - unfold satisfies. apply mext; intros i j. rewrite mmul_slice. unfold slice. cbn. reflexivity.
  - apply mext; intros i j. rewrite form_slice. destruct (Nat.ltb_spec i 0); [lia|]. cbn [andb]. unfold mid. destruct (Nat.ltb_spec i 0); [lia|reflexivity].
Qed.
Lemma near_0 M w : inv_near n bs A P t 0 M w.
Proof.
  split; [apply ritz_0|]. exists mzero, mzero, (fun _ => 0). assert (Z0 : slice 0 0 M = mzero) by (apply mext; intros i j; reflexivity). rewrite Z0. split; [split; [|rewrite mmul_zero_r; reflexivity]|].
  - split; [intros i j _; reflexivity|]. split; apply mext; intros i j; unfold mid, mmul; cbn; reflexivity.
  - split; [intros i j _; reflexivity|]. split; [apply mmul_zero_r|]. split; [unfold form; rewrite madj_zero, mmul_zero_l; apply mext; intros i j; reflexivity|].
    split; [intros p X _ _; unfold form; rewrite mmul_zero_r, mmul_zero_r; apply mext; intros i j; reflexivity|]. split; [intros; lia|]. intros; lia.
Qed.
Lemma ritz_ext M w w' : (forall i, (i < num)%nat -> w i = w' i) -> inv_ritz n bs A (mid n) P num M w -> inv_ritz n bs A (mid n) P num M w'.
Proof. intros Ew (I1 & I2 & I3). split; [exact I1|]. split; [exact I2|]. intros i j Hi Hj Eb. rewrite <- !Ew by auto. apply I3; auto. Qed.

Lemma near_run : solver_finds (tgood n A t) n bs solver ->
  match solve_kpoint_target parity_c muinv solver fuel zero_k same neg (Z.of_nat num) S2 ev H Hblock BY with
  | Some (Val (H', f)) => exists M w, tbands n num bs neg A P H' f M w /\ forall i X mu, (i < num)%nat -> mode n P A X mu -> apart n M X -> Rabs (w i - t) <= Rabs (mu - t)
  | _ => True
  end.
Proof.
  intros Fin. pose proof (tcall_kcall _ _ _ _ _ _ _ _ _ 0%Z _ _ _ _ _ _ Cl) as (Ok & Ar & _). pose proof Ar as (_ & _ & Hbs & _).
  pose proof (inv_run (inv_near n bs A P t) Fin near_0) as R.
  destruct (solve_kpoint_target _ _ _ _ _ _ _ _ _ _ _ _ _) as [[(H', f)| | |]|]; auto. destruct R as (M & w & B & I).
  - intros d M w I. exact (proj1 I).
  - intros M w w' Ew (I & R). split; [apply (ritz_ext M w w'); auto|exact R].
  - intros k q M w M' e w' d Hq Hd DM DM' I Es G V1 V2. apply (inv_near_step n num bs _ false muinv A P t Ok ltac:(lia) num k q M w M' e w'); auto.
  - exists M, w. split; [exact B|]. assert (DM : mdim n num M) by apply (fields_dim _ _ _ _ (proj1 B)). intros i X mu Hi Mo Ap.
    apply (near_inv n num bs _ false muinv A P t Ok ltac:(lia) num num M w i X mu DM I Hi Mo). rewrite (slice_all n num M DM). exact Ap.
Qed.
Lemma exact_run : mmul n P A = mmul n A P -> no_tie n P A t -> solver_finds (tgood n A t) n bs solver ->
  match solve_kpoint_target parity_c muinv solver fuel zero_k same neg (Z.of_nat num) S2 ev H Hblock BY with
  | Some (Val (H', f)) => exists M w, tbands n num bs neg A P H' f M w /\ (forall i X mu, (i < num)%nat -> mode n P A X mu -> apart n M X -> Rabs (w i - t) <= Rabs (mu - t)) /\
      mmul n A M = mmul num M (mdiag num w) /\ (forall i j, (i < num)%nat -> (j < num)%nat -> (i / bs < j / bs)%nat -> Rabs (w i - t) <= Rabs (w j - t))
  | _ => True
  end.
Proof.
  intros Cm Nt Fin. pose proof (tcall_kcall _ _ _ _ _ _ _ _ _ 0%Z _ _ _ _ _ _ Cl) as (Ok & Ar & _). pose proof Ar as (_ & _ & Hbs & _).
  pose proof (inv_run (inv_exact n bs A P t) Fin) as R.
  destruct (solve_kpoint_target _ _ _ _ _ _ _ _ _ _ _ _ _) as [[(H', f)| | |]|]; auto. destruct R as (M & w & B & I).
  - intros M w. split; [apply near_0|]. split; [|intros; lia]. apply mext; intros i j. rewrite mmul_slice. unfold slice. cbn. reflexivity.
  - intros d M w I. exact (proj1 (proj1 I)).
  - intros M w w' Ew ((I & R) & Ex & Or). split; [split; [apply (ritz_ext M w w'); auto|exact R]|]. split.
    + rewrite Ex. f_equal. apply mext; intros i j. unfold mdiag. destruct (Nat.ltb_spec i num); [|reflexivity]. rewrite Ew by assumption. reflexivity.
    + intros i j Hi Hj. rewrite <- !Ew by assumption. apply Or; assumption.
  - intros k q M w M' e w' d Hq Hd DM DM' I Es G V1 V2. apply (inv_exact_step n num bs _ false muinv A P t Ok ltac:(lia) Cm Nt num k q M w M' e w'); auto.
  - exists M, w. split; [exact B|]. assert (DM : mdim n num M) by apply (fields_dim _ _ _ _ (proj1 B)). destruct I as (I & Ex & Or). rewrite (slice_all n num M DM) in Ex. split; [|split; [exact Ex|exact Or]]. intros i X mu Hi Mo Ap.
    apply (near_inv n num bs _ false muinv A P t Ok ltac:(lia) num num M w i X mu DM I Hi Mo). rewrite (slice_all n num M DM). exact Ap.
Qed.
End Run.
