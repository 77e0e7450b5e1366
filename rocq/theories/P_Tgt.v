(** Property theorems for the bands near a target frequency: C82. *)
From Coq Require Import List ZArith Reals Bool Arith Lia Lra Psatz.
From Verif Require Import Base RC M_Tensor M_Evect M_Grid M_Op M_Eig M_Dav M_Kpt M_Mx M_Tgt S_Tensor S_Evect S_Grid S_Op S_Eig S_Dav S_Kpt S_Mx S_Tgt L_Mat L_Eig2 L_Op L_Op2 L_Op3 L_Op4 L_Op5 L_Mx1 L_Mx2 L_Mx3 L_Mx4 L_EigEx L_Kpt1 L_Kpt2 L_Kpt6 L_KptEx L_Tgt1 L_Tgt2 L_Tgt3 L_Tgt4 L_TgtEx P_Op P_Mx.
Import ListNotations.
Local Open Scope R_scope.
Notation fields := S_Eig.fields.
Notation form := S_Eig.form.

(** The operator handed to the eigensolver is (A - w^2)^2; a mode of A with the value mu is one of it
    with the value (mu - w^2)^2. *)
Theorem C82_operator n p opA A w X M : applies n p opA A -> fields n p X M ->
  exists Y, target_operator opA w X = Val Y /\ fields n p Y (mmul n (square_shift n A (w * w)) M) /\
    (forall mu, mmul n A M = mscal mu M -> fields n p Y (mscal ((mu - w * w) * (mu - w * w)) M)).
Proof.
  intros Ap HX. destruct (target_ok n p opA A w Ap X M HX) as (Y & E & HY). exists Y. split; [exact E|]. split; [exact HY|].
  intros mu Em. pose proof (fields_dim _ _ _ _ HX) as DM.
  replace (mscal ((mu - w * w) * (mu - w * w)) M) with (mmul n (square_shift n A (w * w)) M); [exact HY|].
  assert (Sh : mmul n (shift n A (w * w)) M = mscal (mu - w * w) M) by (rewrite (shift_mul n p A (w * w) M DM), Em; apply mext; intros i j; unfold msub, madd, mscal; apply C_eq; csimp; ring).
  unfold square_shift. rewrite mmul_assoc, Sh. rewrite mmul_scal_r, Sh. apply mext; intros i j; unfold mscal; apply C_eq; csimp; ring.
Qed.
Print Assumptions C82_operator.
Example C82_operator_ex : mmul 2 (sm 2 2 1) (col2 C1 C1) = mscal 3 (col2 C1 C1) /\ applies 2 1 (sm_op (sm 2 2 1)) (sm 2 2 1) /\ fields 2 1 (mk2 C1 C1) (col2 C1 C1).
Proof.
  split; [|split; [apply sm_applies; [lia|apply sm_dim]|apply mk2_fields]].
  rewrite sm_col. apply mext; intros [|[|i]] [|j]; unfold mscal; cbn; apply C_eq; csimp; ring.
Qed.

(** Whatever the solver of the squared operator gives, as long as it is orthonormal and satisfies the
    constraint, the bands are orthonormal, satisfy the constraint, and within a block they diagonalize
    A itself and the squared frequencies are its values, ascending. *)
Theorem C82_bands n num bs parity_c zero_k same negative_ok muinv potr heev opA inner A P w fuel S2 ev H Hblock BY :
  tcall n num bs parity_c zero_k same muinv A P fuel S2 ev H Hblock BY -> algebra_ok bs potr heev -> (forall q, (1 <= q <= bs)%nat -> applies n q opA A) ->
  solver_finds (fun q Q M e => ritz_fields n q Q (square_shift n A (w * w)) (mid n) M e) n bs inner -> solver_safe n bs inner ->
  let r := solve_kpoint_target parity_c muinv (target_solver potr heev opA false inner) fuel zero_k same negative_ok (Z.of_nat num) S2 ev H Hblock BY in
  r <> Some UB /\ forall H' f, r = Some (Val (H', f)) -> exists M v, tbands n num bs negative_ok A P H' f M v.
Proof.
  intros Cl Al Ap Fin Sf r. pose proof Cl as (Ok & _). pose proof Ok as [DA _ _ HA _ _ _ _ _ _].
  assert (HG : forall q P0 N e, ritz_fields n q P0 (square_shift n A (w * w)) (mid n) N e -> satisfies n P0 N /\ form n (mid n) N N = mid q) by (intros q P0 N e (_ & S1 & O1 & _); auto).
  pose proof (tgt_finds _ n bs potr heev opA A inner HG Al DA HA Ap Fin) as F1. pose proof (tgt_safe _ n bs potr heev opA A false inner HG Al DA HA Ap Fin Sf) as S1.
  assert (F2 : solver_finds (fun q Q M e => ritz_fields n q Q A (mid n) M e) n bs (target_solver potr heev opA false inner)).
  { intros q c P0 Y M Y' e Hq A0 DP Id HY E. destruct (F1 q c P0 Y M Y' e Hq A0 DP Id HY E) as (M' & FM & L & G & _). exists M'. auto. }
  pose proof (tritz_run n num bs parity_c zero_k same negative_ok muinv _ A P fuel S2 ev H Hblock BY Cl F2) as R. fold r in R. split.
  - intros E. rewrite E in R. contradiction.
  - intros H' f E. rewrite E in R. exact R.
Qed.
Print Assumptions C82_bands.

(** If it gives the lowest modes of the squared operator, no mode outside of the bands that are found
    is closer to the target, in the square of the frequency, than any of them. *)
Theorem C82_nearest n num bs parity_c zero_k same negative_ok muinv potr heev opA inner A P w fuel S2 ev H Hblock BY H' f :
  tcall n num bs parity_c zero_k same muinv A P fuel S2 ev H Hblock BY -> algebra_ok bs potr heev -> (forall q, (1 <= q <= bs)%nat -> applies n q opA A) ->
  solver_finds (fun q Q M e => lowest n q Q (square_shift n A (w * w)) (mid n) M e) n bs inner ->
  solve_kpoint_target parity_c muinv (target_solver potr heev opA false inner) fuel zero_k same negative_ok (Z.of_nat num) S2 ev H Hblock BY = Some (Val (H', f)) ->
  exists M v, tbands n num bs negative_ok A P H' f M v /\
    forall i X mu, (i < num)%nat -> mode n P A X mu -> apart n M X -> Rabs (v i - w * w) <= Rabs (mu - w * w).
Proof.
  intros Cl Al Ap Fin E. pose proof Cl as (Ok & _). pose proof Ok as [DA _ _ HA _ _ _ _ _ _].
  assert (F1 : solver_finds (tgood n A (w * w)) n bs (target_solver potr heev opA false inner)) by (apply (tgt_finds (fun q Q M e => lowest n q Q (square_shift n A (w * w)) (mid n) M e)); auto; intros q P0 N e (_ & S1 & O1 & _); auto).
  pose proof (near_run n num bs parity_c zero_k same negative_ok muinv _ A P (w * w) fuel S2 ev H Hblock BY Cl F1) as R. rewrite E in R. exact R.
Qed.
Print Assumptions C82_nearest.

(** So a mode whose frequency nu is on the same side of the target as that of the band, or below the
    target, is not closer to it. *)
Theorem C82_sides n num bs parity_c zero_k same muinv potr heev opA inner A P w fuel S2 ev H Hblock BY H' f :
  tcall n num bs parity_c zero_k same muinv A P fuel S2 ev H Hblock BY -> algebra_ok bs potr heev -> (forall q, (1 <= q <= bs)%nat -> applies n q opA A) ->
  solver_finds (fun q Q M e => lowest n q Q (square_shift n A (w * w)) (mid n) M e) n bs inner ->
  solve_kpoint_target parity_c muinv (target_solver potr heev opA false inner) fuel zero_k same false (Z.of_nat num) S2 ev H Hblock BY = Some (Val (H', f)) -> 0 <= w ->
  exists M, fields n num H' M /\ forall i X nu, (i < num)%nat -> 0 <= nu -> mode n P A X (nu * nu) -> apart n M X ->
    Rabs (nth i f 0 - w) * (nth i f 0 + w) <= Rabs (nu - w) * (nu + w) /\ (nu <= w \/ w <= nth i f 0 -> Rabs (nth i f 0 - w) <= Rabs (nu - w)).
Proof.
  intros Cl Al Ap Fin E Hw. destruct (C82_nearest n num bs parity_c zero_k same false muinv potr heev opA inner A P w fuel S2 ev H Hblock BY H' f Cl Al Ap Fin E) as (M & v & (F & _ & Fr & _) & Nr).
  exists M. split; [exact F|]. intros i X nu Hi Hnu Md Apt. specialize (Nr i X (nu * nu) Hi Md Apt). destruct (Fr i Hi) as (Pf & Ef). set (x := nth i f 0) in *. rewrite <- Ef in Nr.
  replace (x * x - w * w) with ((x - w) * (x + w)) in Nr by ring. replace (nu * nu - w * w) with ((nu - w) * (nu + w)) in Nr by ring. rewrite !Rabs_mult in Nr. rewrite (Rabs_right (x + w)), (Rabs_right (nu + w)) in Nr by lra.
  split; [exact Nr|]. intros C. unfold Rabs in *. destruct (Rcase_abs (x - w)), (Rcase_abs (nu - w)); destruct C; try lra; nra.
Qed.
Print Assumptions C82_sides.

(** If moreover no two values of modes have the same distance from the squared target, the bands are
    exact modes of A, and those of an earlier block are not farther from the target. *)
Theorem C82_modes n num bs parity_c zero_k same negative_ok muinv potr heev opA inner A P w fuel S2 ev H Hblock BY H' f :
  tcall n num bs parity_c zero_k same muinv A P fuel S2 ev H Hblock BY -> algebra_ok bs potr heev -> (forall q, (1 <= q <= bs)%nat -> applies n q opA A) ->
  solver_finds (fun q Q M e => lowest n q Q (square_shift n A (w * w)) (mid n) M e) n bs inner -> mmul n P A = mmul n A P -> no_tie n P A (w * w) ->
  solve_kpoint_target parity_c muinv (target_solver potr heev opA false inner) fuel zero_k same negative_ok (Z.of_nat num) S2 ev H Hblock BY = Some (Val (H', f)) ->
  exists M v, tbands n num bs negative_ok A P H' f M v /\
    (forall i X mu, (i < num)%nat -> mode n P A X mu -> apart n M X -> Rabs (v i - w * w) <= Rabs (mu - w * w)) /\
    mmul n A M = mmul num M (mdiag num v) /\
    (forall i j, (i < num)%nat -> (j < num)%nat -> (i / bs < j / bs)%nat -> Rabs (v i - w * w) <= Rabs (v j - w * w)).
Proof.
  intros Cl Al Ap Fin Cm Nt E. pose proof Cl as (Ok & _). pose proof Ok as [DA _ _ HA _ _ _ _ _ _].
  assert (F1 : solver_finds (tgood n A (w * w)) n bs (target_solver potr heev opA false inner)) by (apply (tgt_finds (fun q Q M e => lowest n q Q (square_shift n A (w * w)) (mid n) M e)); auto; intros q P0 N e (_ & S1 & O1 & _); auto).
  pose proof (exact_run n num bs parity_c zero_k same negative_ok muinv _ A P (w * w) fuel S2 ev H Hblock BY Cl Cm Nt F1) as R. rewrite E in R. exact R.
Qed.
Print Assumptions C82_modes.

(** With a permeability there is no result. *)
Theorem C82_mu potr heev opA inner c Y : target_solver potr heev opA true inner c Y = Some Abort.
Proof. reflexivity. Qed.
Print Assumptions C82_mu.

(** * The solvers and the operator of the program *)

(** With the Maxwell operator, either preconditioner and the conjugate-gradient solver.  There are no
    constant bands even at k = 0; [mx_call] with [false] says that of the arrays. *)
Theorem C82_cg d num bs zero_k same negative_ok parity simple potr heev cg pr project reorth reset tol force only quick k fuel0 w fuel S2 ev H Hblock BY :
  mx_call d num bs 0 false same parity fuel S2 ev H Hblock BY -> d_mu_inv d = None -> lapack_ok bs potr heev -> pre_fits simple d ->
  let r := solve_kpoint_target (mx_parity d parity) (mx_muinv d)
     (target_solver potr heev (mx_A d) false (cg_solver potr heev (target_operator (mx_A d) w) None (Some (target_K simple d)) cg pr project reorth reset tol force only quick k fuel0)) fuel zero_k same negative_ok (Z.of_nat num) S2 ev H Hblock BY in
  r <> Some UB /\ forall H' f, r = Some (Val (H', f)) -> exists MH v, mx_muinv d H' H' = Val MH /\ mx_bands d num bs 0 zero_k negative_ok parity H' MH f v.
Proof.
  intros Cl Em La Pf r. pose proof Cl as (Wd & Ho & Hn & _). pose proof (mx_tcall d Wd Hn num bs zero_k same parity fuel S2 ev H Hblock BY Cl Em) as Tc.
  pose proof (t_solver_ok d Wd Hn bs potr heev simple w La Pf) as Ok.
  destruct (C82_bands (rows d) num bs (mx_parity d parity) zero_k same negative_ok (mx_muinv d) potr heev (mx_A d) _ (omat d (opcol d)) (Pall d parity zero_k) w fuel S2 ev H Hblock BY Tc La (fun q (Hq : (1 <= q <= bs)%nat) => A_applies d Wd Hn q (proj1 Hq)) (cg_finds (rows d) bs potr heev (target_operator (mx_A d) w) None (Some (target_K simple d)) cg pr project reorth reset tol force only quick k fuel0 _ _ Ok (fun _ => eq_refl)) (cg_safe (rows d) bs potr heev (target_operator (mx_A d) w) None (Some (target_K simple d)) cg pr project reorth reset tol force only quick k fuel0 _ _ Ok (fun _ => eq_refl))) as (Sf & Q).
  split; [exact Sf|]. intros H' f E. destruct (Q H' f E) as (M & v & Tb). destruct (mx_tresult d Wd Hn num bs zero_k negative_ok parity H' f M v Ho Em Tb) as (MH & E1 & R). exists MH, v. auto.
Qed.
Print Assumptions C82_cg.

(** With the Davidson solver. *)
Theorem C82_davidson d num bs nb zero_k same negative_ok parity simple potr heev tol k e W w fuel S2 ev H Hblock BY :
  mx_call d num bs 0 false same parity fuel S2 ev H Hblock BY -> d_mu_inv d = None -> davidson_arrays d bs nb potr heev e W -> pre_fits simple d ->
  let r := solve_kpoint_target (mx_parity d parity) (mx_muinv d)
     (target_solver potr heev (mx_A d) false (davidson_solver potr heev (target_operator (mx_A d) w) (Some (target_KI simple d)) tol k e W)) fuel zero_k same negative_ok (Z.of_nat num) S2 ev H Hblock BY in
  r <> Some UB /\ forall H' f, r = Some (Val (H', f)) -> exists MH v, mx_muinv d H' H' = Val MH /\ mx_bands d num bs 0 zero_k negative_ok parity H' MH f v.
Proof.
  intros Cl Em Da Pf r. pose proof Cl as (Wd & Ho & Hn & _). pose proof (mx_tcall d Wd Hn num bs zero_k same parity fuel S2 ev H Hblock BY Cl Em) as Tc.
  pose proof (t_dav_call d Wd Hn bs nb potr heev simple w e W Da Pf) as Dc.
  assert (La : algebra_ok bs potr heev). { intros q Hq. destruct Da as (Hnb & _ & Q). destruct (Q q Hq) as (P1 & P2 & _). split; [exact P1|]. specialize (P2 1%nat ltac:(lia)). rewrite Nat.mul_1_r in P2. exact P2. }
  destruct (C82_bands (rows d) num bs (mx_parity d parity) zero_k same negative_ok (mx_muinv d) potr heev (mx_A d) _ (omat d (opcol d)) (Pall d parity zero_k) w fuel S2 ev H Hblock BY Tc La (fun q (Hq : (1 <= q <= bs)%nat) => A_applies d Wd Hn q (proj1 Hq)) (dav_finds (rows d) bs nb potr heev _ _ tol k e W _ Dc) (dav_safe (rows d) bs nb potr heev _ _ tol k e W _ Dc)) as (Sf & Q).
  split; [exact Sf|]. intros H' f E. destruct (Q H' f E) as (M & v & Tb). destruct (mx_tresult d Wd Hn num bs zero_k negative_ok parity H' f M v Ho Em Tb) as (MH & E1 & R). exists MH, v. auto.
Qed.
Print Assumptions C82_davidson.
Example C82_call_ex : mx_call (ex_d 1 None) 2 1 0 false false 1 2 [C0; C0] [0; 0]%R ex_X mx_blk None /\ d_mu_inv (ex_d 1 None) = None /\ lapack_ok 1 ex_potr ex_heev /\ pre_fits true (ex_d 1 None).
Proof.
  destruct C66_example as (Wd & _). destruct (ex_fields_X (ex_d 1 None) eq_refl) as (F1 & F2). split; [|split; [reflexivity|split; [exact ex_algebra|reflexivity]]].
  split; [exact Wd|]. split; [apply C13_example|]. split; [cbn; lia|]. split; [left; reflexivity|]. split; [exact F1|]. split; [reflexivity|]. split; [reflexivity|]. split; [lia|]. split; [exact F2|]. split; [reflexivity|].
  split; [split; [discriminate|lia]|]. split; [right; reflexivity|]. split; [cbn; lia|]. split; [reflexivity|]. split; [reflexivity|lia].
Qed.

(** In a uniform medium both preconditioners invert the square of the operator, which they are for
    (the target is left out of them), except at k + G = 0. *)
Lemma mx_A_cols d X : wfd d -> (0 < d_nfb d)%Z -> S_Op.fields d X -> exists Y, mx_A d X = Val Y /\ S_Op.fields d Y /\ ep Y = ep X /\ forall b, (0 <= b < ep X)%Z -> feq d (fld Y b) (opcol d (fld X b)).
Proof.
  intros Wd Hn FX. destruct (operator_ok d Wd (Z.to_nat (ep X)) X X (mx_scratch d) FX FX eq_refl Hn (scratch_ok d Wd Hn _) (le_n _)) as (Y & f & E & FY & PY & _ & H).
  exists Y. unfold mx_A. rewrite E. auto.
Qed.
Lemma copy_cols d G : wfd d -> S_Op.fields d G -> (1 <= ep G)%Z -> exists X, XeYS G G (create_sq 0) true = Val X /\ S_Op.fields d X /\ ep X = ep G /\ forall b, (0 <= b < ep G)%Z -> feq d (fld X b) (fld G b).
Proof.
  intros Wd FG Hp. set (q := Z.to_nat (ep G)). destruct (of_op d Wd q G FG ltac:(unfold q; lia)) as (M & HM).
  destruct (eaXpbY_ok (rows d) q 0 G M 1 G M HM HM) as (X & E & FX). assert (EX : XeYS G G (create_sq 0) true = Val X) by exact E. exists X. split; [exact EX|].
  pose proof (to_op d Wd _ _ _ FX) as OX. assert (PX : ep X = ep G) by (destruct FX as (_ & -> & _); unfold q; lia). split; [exact OX|]. split; [exact PX|].
  intros b Hb g c Hg Hc. unfold fld. destruct (row_of d g c Hg Hc) as (Hr & Eg & Ec). rewrite <- (Z2Nat.id b) by lia. replace (2 * g + c)%Z with (Z.of_nat (Z.to_nat (2 * g + c))) by (pose proof (N_pos d Wd); lia).
  rewrite (fields_at _ _ _ _ _ (Z.to_nat b) FX) by (unfold q; lia). rewrite (fields_at _ _ _ _ _ (Z.to_nat b) HM) by (unfold q; lia). unfold madd, mscal. apply C_eq; csimp; ring.
Qed.
Theorem C82_preconditioner d simple X AX AAX Y ev e : wfd d -> orthonormal_basis d -> (0 < d_nfb d)%Z -> uniform d (d_eps_inv d) e -> e <> 0 -> d_mu_inv d = None ->
  (simple = true -> Z.of_nat (length (d_kn2 d)) = npts d /\ (forall g, (g < Z.to_nat (npts d))%nat -> nth g (d_kn2 d) 0 = rdot (kvec d g) (kvec d g)) /\ d_eps_inv_mean d = e) ->
  S_Op.fields d X -> (1 <= ep X)%Z -> mx_A d X = Val AX -> mx_A d AX = Val AAX ->
  exists K, target_KI simple d AAX Y ev = Val K /\ S_Op.fields d K /\ ep K = ep X /\
    forall g c b, (g < Z.to_nat (npts d))%nat -> (0 <= c < 2)%Z -> (0 <= b < ep X)%Z -> rdot (kvec d g) (kvec d g) <> 0 ->
      entC K (2 * Z.of_nat g + c)%Z b = entC X (2 * Z.of_nat g + c)%Z b.
Proof.
  intros Wd Ho Hn Ue He Em Hs FX Hp E1 E2.
  destruct (mx_A_cols d X Wd Hn FX) as (? & E1' & F1 & P1 & H1). rewrite E1 in E1'. injection E1' as <-.
  destruct (mx_A_cols d AX Wd Hn F1) as (? & E2' & F2 & P2 & H2). rewrite E2 in E2'. injection E2' as <-.
  destruct (copy_cols d AAX Wd F2 ltac:(lia)) as (G & EG & FG & PG & HG).
  assert (Sq : forall b g c, (0 <= b < ep X)%Z -> (0 <= g < npts d)%Z -> (0 <= c < 2)%Z -> fld G b g c = (RtoC (e * (kmag (kz d g) * kmag (kz d g))) * (RtoC (e * (kmag (kz d g) * kmag (kz d g))) * fld X b g c))%C).
  { intros b g c Hb Hg Hc. rewrite (HG b ltac:(lia) g c Hg Hc), (H2 b ltac:(lia) g c Hg Hc). unfold opcol. rewrite Em, (epscol_iso d Wd e _ Ho Ue _ _ Hg Hc), (H1 b Hb g c Hg Hc). unfold opcol. rewrite Em, (epscol_iso d Wd e _ Ho Ue _ _ Hg Hc). reflexivity. }
  unfold target_KI, target_K. rewrite EG. cbn [bind]. destruct simple.
  - destruct (Hs eq_refl) as (Lk & Hk & Hmean). destruct (target_simple_ok d Wd G FG Lk) as (K & EK & FK & PK & HK). exists K. split; [exact EK|]. split; [exact FK|]. split; [congruence|].
    intros g c b Hg Hc Hb Nz. assert (Q : (0 <= Z.of_nat g < npts d)%Z) by lia. pose proof (HK b ltac:(lia) (Z.of_nat g) c Q Hc) as Y1. unfold fld at 1 in Y1. rewrite Y1, (Sq b _ _ Hb Q Hc), Nat2Z.id, Hk, Hmean by exact Hg.
    rewrite (kvec_sq d g Ho Hg) in *. unfold kz. rewrite Nat2Z.id. set (q := kmag (kat d g)) in *. assert (Hq : q <> 0) by (intros Z0; apply Nz; rewrite Z0; ring).
    rewrite FIX_id by (intros Z0; repeat (apply Rmult_integral in Z0; destruct Z0 as [Z0|Z0]); auto). unfold fld. destruct (entC X (2 * Z.of_nat g + c)%Z b) as [x y]. apply C_eq; csimp; field; auto.
  - assert (Ht : forall r, (0 <= r < npts d)%Z -> trace_at d r <> 0) by (intros r Hr; unfold trace_at; fold (sym_at (d_eps_inv d) (Z.to_nat r)); rewrite Ue by lia; cbn [iso m00 m11 m22]; lra).
    destruct (precond2_ok d Wd (Z.to_nat (ep G)) G (mx_scratch d) Ht FG Hn (scratch_ok d Wd Hn _) (le_n _)) as (K1 & g1 & EK1 & FK1 & PK1 & _ & HK1). rewrite EK1. cbn [mx_finish bind].
    destruct (precond2_ok d Wd (Z.to_nat (ep K1)) K1 (mx_scratch d) Ht FK1 Hn (scratch_ok d Wd Hn _) (le_n _)) as (K & g2 & EK & FK & PK & _ & HK). rewrite EK. cbn [mx_finish bind]. exists K. split; [reflexivity|]. split; [exact FK|]. split; [congruence|].
    intros g c b Hg Hc Hb Nz. assert (Q : (0 <= Z.of_nat g < npts d)%Z) by lia. pose proof (HK b ltac:(lia) (Z.of_nat g) c Q Hc) as Y1. unfold fld at 1 in Y1. rewrite Y1.
    rewrite (precol_iso d Wd e _ Ho Ue He _ _ Q Hc), (HK1 b ltac:(lia) _ _ Q Hc), (precol_iso d Wd e _ Ho Ue He _ _ Q Hc), (Sq b _ _ Hb Q Hc).
    rewrite (kvec_sq d g Ho Hg) in Nz. unfold kz. rewrite !Nat2Z.id. set (q := kmag (kat d g)) in *. assert (Hq : q <> 0) by (intros Z0; apply Nz; rewrite Z0; ring). rewrite FIX_id by exact Hq.
    unfold fld. destruct (entC X (2 * Z.of_nat g + c)%Z b) as [x y]. apply C_eq; csimp; field; auto.
Qed.
Print Assumptions C82_preconditioner.
(** [C65_example] meets the hypotheses. *)

(** * Runs *)
Lemma tx_applies a b c q : (1 <= q <= 1)%nat -> applies 2 q (sm_op (sm a b c)) (sm a b c).
Proof. intros Hq. apply sm_applies; [lia|apply sm_dim]. Qed.
Lemma tx_lowest a b t : (a - t) * (a - t) <= (b - t) * (b - t) -> solver_finds (fun q Q M e => lowest 2 q Q (square_shift 2 (sm a b 0) t) (mid 2) M e) 2 1 (rq_solver (square_shift 2 (sm a b 0) t) (mid 2)).
Proof.
  intros Hab. rewrite sm_sq. replace ((a - t) * (a - t) + 0 * 0) with ((a - t) * (a - t)) by ring. replace ((b - t) * (b - t) + 0 * 0) with ((b - t) * (b - t)) by ring.
  replace (0 * (a - t) + 0 * (b - t)) with 0 by ring. rewrite sm_dg. apply rq_lowest_finds. exact Hab.
Qed.
Lemma tx_herm a b t : hermitian (square_shift 2 (sm a b 0) t).
Proof. rewrite sm_sq. apply sm_herm. Qed.
(** A mode of diag (a, b). *)
Lemma mode_diag a b X mu : mode 2 (mid 2) (sm a b 0) X mu -> mu = a \/ mu = b.
Proof.
  intros (DX & _ & Nz & E). destruct (Req_dec mu a) as [|Na]; [auto|]. destruct (Req_dec mu b) as [|Nb]; [auto|]. exfalso. apply Nz.
  assert (EX : X = col2 (X 0%nat 0%nat) (X 1%nat 0%nat)) by (apply mext; intros [|[|i]] [|j]; cbn; try reflexivity; apply DX; lia).
  assert (E2 : mmul 2 (sm a b 0) (col2 (X 0%nat 0%nat) (X 1%nat 0%nat)) = mscal mu X) by (rewrite <- EX; exact E). rewrite sm_col in E2. pose proof (f_equal (fun m : mat => m 0%nat 0%nat) E2) as E0. pose proof (f_equal (fun m : mat => m 1%nat 0%nat) E2) as E1.
  cbn in E0, E1. unfold mscal in E0, E1. destruct (X 0%nat 0%nat) as [x0 y0], (X 1%nat 0%nat) as [x1 y1].
  pose proof (f_equal fst E0) as R0. pose proof (f_equal snd E0) as I0. pose proof (f_equal fst E1) as R1. pose proof (f_equal snd E1) as I1. revert R0 I0 R1 I1. csimp. intros.
  assert (x0 = 0) by (apply (Rmult_eq_reg_l (mu - a)); lra). assert (y0 = 0) by (apply (Rmult_eq_reg_l (mu - a)); lra). assert (x1 = 0) by (apply (Rmult_eq_reg_l (mu - b)); lra). assert (y1 = 0) by (apply (Rmult_eq_reg_l (mu - b)); lra).
  subst. apply mext; intros [|[|i]] [|j]; reflexivity.
Qed.

(** The hypotheses of C82_modes: two bands solved one by one, the values 3 and 1, target 3/2. *)
Example C82_modes_ex : let A := sm 3 1 0 in let w := 3 / 2 in
  tcall 2 2 1 (fun X => Val X) false false (mat_muinv 2 (mid 2)) A (mid 2) 2 [C0; C0] [0; 0] kx_H kx_blk None /\ algebra_ok 1 ex_potr ex_heev /\
  (forall q, (1 <= q <= 1)%nat -> applies 2 q (sm_op A) A) /\ solver_finds (fun q Q M e => lowest 2 q Q (square_shift 2 A (w * w)) (mid 2) M e) 2 1 (rq_solver (square_shift 2 A (w * w)) (mid 2)) /\
  mmul 2 (mid 2) A = mmul 2 A (mid 2) /\ no_tie 2 (mid 2) A (w * w) /\
  exists H', solve_kpoint_target (fun X => Val X) (mat_muinv 2 (mid 2)) (target_solver ex_potr ex_heev (sm_op A) false (rq_solver (square_shift 2 A (w * w)) (mid 2))) 2 false false false 2 [C0; C0] [0; 0] kx_H kx_blk None = Some (Val (H', [sqrt 3; sqrt 1])).
Proof.
  intros A w. split; [apply tcall_2|]. split; [apply ex_algebra|]. split; [apply tx_applies|]. split; [apply tx_lowest; unfold w; lra|].
  split; [rewrite (mid_l 2 2), (mid_r 2 2) by apply sm_dim; reflexivity|]. split.
  - intros X mu Y nu M1 M2. apply mode_diag in M1, M2. unfold w. destruct M1 as [-> | ->], M2 as [-> | ->]; lra.
  - apply (tx_run2 3 1); [lra|lra|apply tx_herm].
Qed.

(** The manual: "the num-bands states whose frequencies have the smallest absolute difference with
    target-freq".  Not so: the frequencies are 1 and sqrt 3, the target 7/5, and 1 is found. *)
Theorem C82_closest_refuted : exists A w inner H' f M X nu,
  tcall 2 1 1 (fun X => Val X) false true (mat_muinv 2 (mid 2)) A (mid 2) 1 [C0] [0] (mk2 C1 C1) kx_blk None /\ algebra_ok 1 ex_potr ex_heev /\
  (forall q, (1 <= q <= 1)%nat -> applies 2 q (sm_op A) A) /\ solver_finds (fun q Q M e => lowest 2 q Q (square_shift 2 A (w * w)) (mid 2) M e) 2 1 inner /\ no_tie 2 (mid 2) A (w * w) /\ 0 <= w /\
  solve_kpoint_target (fun X => Val X) (mat_muinv 2 (mid 2)) (target_solver ex_potr ex_heev (sm_op A) false inner) 1 false true false 1 [C0] [0] (mk2 C1 C1) kx_blk None = Some (Val (H', f)) /\
  fields 2 1 H' M /\ 0 <= nu /\ mode 2 (mid 2) A X (nu * nu) /\ apart 2 M X /\ Rabs (nu - w) < Rabs (nth 0 f 0 - w).
Proof.
  set (w := 7 / 5). destruct (tx_run1 1 3 0 (square_shift 2 (sm 1 3 0) (w * w)) ltac:(lra) (tx_herm _ _ _)) as (H' & M & T & E & F & (_ & EM)).
  exists (sm 1 3 0), w, (rq_solver (square_shift 2 (sm 1 3 0) (w * w)) (mid 2)), H', [sqrt 1], M, (col2 C0 C1), (sqrt 3).
  split; [apply tcall_1|]. split; [apply ex_algebra|]. split; [apply tx_applies|]. split; [apply tx_lowest; unfold w; lra|].
  split; [intros X mu Y nu M1 M2; apply mode_diag in M1, M2; unfold w; destruct M1 as [-> | ->], M2 as [-> | ->]; lra|]. split; [unfold w; lra|].
  split; [exact E|]. split; [exact F|]. split; [apply sqrt_pos|]. rewrite sqrt_sqrt by lra. split; [|split].
  - split; [apply col2_dim|]. split; [apply (mid_l 2 1), col2_dim|]. split; [intros Q; apply (f_equal (fun m : mat => m 1%nat 0%nat)) in Q; exact (C1_neq_0 Q)|].
    rewrite sm_col. apply mext; intros [|[|i]] [|j]; unfold mscal; cbn; apply C_eq; csimp; ring.
  - unfold apart. rewrite EM. apply mext; intros i j. unfold mmul, madj, col2. destruct j as [|j]; cbn; apply C_eq; csimp; ring.
  - cbn [nth]. rewrite sqrt_1. unfold w. assert (S3 : sqrt 3 * sqrt 3 = 3) by (apply sqrt_sqrt; lra). pose proof (sqrt_pos 3). assert (17 / 10 < sqrt 3) by nra. assert (sqrt 3 < 7 / 4) by nra.
    unfold Rabs. destruct (Rcase_abs (sqrt 3 - 7 / 5)), (Rcase_abs (1 - 7 / 5)); lra.
Qed.
Print Assumptions C82_closest_refuted.

(** The frequencies need not ascend when the bands are solved in several blocks. *)
Theorem C82_order_refuted : exists A w inner H' f,
  tcall 2 2 1 (fun X => Val X) false false (mat_muinv 2 (mid 2)) A (mid 2) 2 [C0; C0] [0; 0] kx_H kx_blk None /\ algebra_ok 1 ex_potr ex_heev /\
  (forall q, (1 <= q <= 1)%nat -> applies 2 q (sm_op A) A) /\ solver_finds (fun q Q M e => lowest 2 q Q (square_shift 2 A (w * w)) (mid 2) M e) 2 1 inner /\ no_tie 2 (mid 2) A (w * w) /\
  solve_kpoint_target (fun X => Val X) (mat_muinv 2 (mid 2)) (target_solver ex_potr ex_heev (sm_op A) false inner) 2 false false false 2 [C0; C0] [0; 0] kx_H kx_blk None = Some (Val (H', f)) /\ nth 1 f 0 < nth 0 f 0.
Proof.
  destruct C82_modes_ex as (Tc & Al & Ap & Lo & _ & Nt & H' & E). eexists _, _, _, H', _. split; [exact Tc|]. split; [exact Al|]. split; [exact Ap|]. split; [exact Lo|]. split; [exact Nt|]. split; [exact E|].
  cbn [nth]. apply sqrt_lt_1; lra.
Qed.
Print Assumptions C82_order_refuted.

(** When two modes are equally far from the target, what is found may be a mixture of them, with a
    frequency that no mode has: the values 1 and 3, squared target 2, reported frequency sqrt 2. *)
Theorem C82_mixed_refuted : exists A w inner H' f,
  tcall 2 1 1 (fun X => Val X) false true (mat_muinv 2 (mid 2)) A (mid 2) 1 [C0] [0] (mk2 C1 C1) kx_blk None /\ algebra_ok 1 ex_potr ex_heev /\
  (forall q, (1 <= q <= 1)%nat -> applies 2 q (sm_op A) A) /\ solver_finds (fun q Q M e => lowest 2 q Q (square_shift 2 A (w * w)) (mid 2) M e) 2 1 inner /\
  solve_kpoint_target (fun X => Val X) (mat_muinv 2 (mid 2)) (target_solver ex_potr ex_heev (sm_op A) false inner) 1 false true false 1 [C0] [0] (mk2 C1 C1) kx_blk None = Some (Val (H', f)) /\
  forall X mu, mode 2 (mid 2) A X mu -> nth 0 f 0 * nth 0 f 0 <> mu.
Proof.
  set (w := sqrt 2). assert (Hw : w * w = 2) by (apply sqrt_sqrt; lra). assert (ES : square_shift 2 (sm 2 2 1) (w * w) = dg 1 1) by (rewrite Hw, sm_sq, <- sm_dg; f_equal; ring).
  destruct (tx_run1 2 2 1 (dg 1 1) ltac:(lra) (dg_herm 1 1)) as (H' & M & T & E & F & _). exists (sm 2 2 1), w, (rq_solver (dg 1 1) (mid 2)), H', [sqrt 2].
  split; [apply tcall_1|]. split; [apply ex_algebra|]. split; [apply tx_applies|]. split; [rewrite ES; apply rq_lowest_finds; lra|]. split; [exact E|].
  intros X mu (DX & _ & Nz & Em) Eq. cbn [nth] in Eq. rewrite sqrt_sqrt in Eq by lra. subst mu. apply Nz.
  assert (EX : X = col2 (X 0%nat 0%nat) (X 1%nat 0%nat)) by (apply mext; intros [|[|i]] [|j]; cbn; try reflexivity; apply DX; lia).
  assert (E2 : mmul 2 (sm 2 2 1) (col2 (X 0%nat 0%nat) (X 1%nat 0%nat)) = mscal 2 X) by (rewrite <- EX; exact Em). rewrite sm_col in E2. pose proof (f_equal (fun m : mat => m 0%nat 0%nat) E2) as E0. pose proof (f_equal (fun m : mat => m 1%nat 0%nat) E2) as E1.
  cbn in E0, E1. unfold mscal in E0, E1. destruct (X 0%nat 0%nat) as [x0 y0], (X 1%nat 0%nat) as [x1 y1].
  pose proof (f_equal fst E0) as R0. pose proof (f_equal snd E0) as I0. pose proof (f_equal fst E1) as R1. pose proof (f_equal snd E1) as I1. revert R0 I0 R1 I1. csimp. intros.
  assert (x0 = 0) by lra. assert (y0 = 0) by lra. assert (x1 = 0) by lra. assert (y1 = 0) by lra. subst. apply mext; intros [|[|i]] [|j]; reflexivity.
Qed.
Print Assumptions C82_mixed_refuted.
