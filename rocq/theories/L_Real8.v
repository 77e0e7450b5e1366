(** The exact bands of the two builds. *)
From Coq Require Import List ZArith Reals Bool Arith Lia Lra.
From Verif Require Import Base RC M_Tensor S_Tensor M_Evect S_Evect M_Grid S_Grid M_Op S_Op L_Op L_Op2 L_Op3 L_Op4 L_Op5 M_Eig S_Eig L_Mat L_Eig2 L_Eig4 L_Eig5 L_Eig7 L_Eig13 L_Kpt2 M_Kpt S_Kpt L_Kpt1 L_Kpt6 M_Mx S_Mir S_Mx L_Mx1 L_Mx2 L_Mx3 L_Mx4 L_Mx6 S_Cmp L_Cmp1 L_Cmp2 L_Cmp3 S_Spec L_Spec1 L_Spec2 L_Spec3 L_Spec5 Loops L_Evect L_Evect3 M_Dav L_Eig L_Spec4 L_Spec6 M_Real S_Real S_Rbd L_Real1 L_Real2 L_Real3 L_Real4 L_Real7.
Import ListNotations.
Local Open Scope Z_scope.
Add Ring Cring_rl8 : C_ring_theory.

Lemma RtoC_inj a b : RtoC a = RtoC b -> a = b.
Proof. intros H. injection H as H. exact H. Qed.
Lemma RtoC_rsum n f : RtoC (rsum n f) = csum n (fun i => RtoC (f i)).
Proof. induction n as [|n IH]; [reflexivity|]. cbn [rsum csum]. rewrite <- IH. apply C_eq; csimp; ring. Qed.
Lemma as_complex_ent X i j : entC (as_complex X) i j = RtoC (entR X i j).
Proof.
  unfold entC, entR, ent, gets. cbn [as_complex edata ep]. unfold rd. destruct (i * ep X + j <? 0); [reflexivity|]. rewrite nth_error_map. destruct (nth_error (edata X) _); reflexivity.
Qed.
Lemma as_complex_re V : (forall x, In x (edata V) -> im x = 0%R) -> as_complex {| en := en V; ep := ep V; ealloc := ealloc V; edata := map re (edata V) |} = V.
Proof.
  intros H. unfold as_complex. cbn [en ep ealloc edata]. rewrite map_map. rewrite (map_ext_in _ (fun x => x)); [rewrite map_id; destruct V; reflexivity|]. intros x Hx. apply C_eq; [reflexivity|]. symmetry. apply H. exact Hx.
Qed.

Section D.
Variables d dc : mdata.
Hypothesis Wr : wfr d.
Hypothesis Wc : wfd dc.
Hypothesis Sp : same_problem d dc.
Hypothesis Sy : symmetric_structure dc.
Hypothesis Hn : 0 < d_nfb d.
Hypothesis Hc : 0 < d_nfb dc.
Notation n := (rows dc).
Notation A := (omat dc (opcol dc)).
Notation B := (omat dc (mumaybe dc)).

Lemma n_Z : Z.of_nat n = 2 * npts d.
Proof. rewrite (rows_Z dc Wc), (same_npts d dc Sp). reflexivity. Qed.
Lemma complex_fields X : fields_r d X -> S_Op.fields dc (as_complex X).
Proof. intros ((W1 & W2 & W3) & En). split; [split; [exact W1|split; [exact W2|]]|]; cbn [as_complex en ep edata]; [rewrite map_length; exact W3|]. rewrite En, (same_npts d dc Sp). reflexivity. Qed.
Lemma real_fields X : S_Op.fields dc (as_complex X) -> fields_r d X.
Proof. intros ((W1 & W2 & W3) & En). cbn [as_complex en ep edata] in *. rewrite map_length in W3. split; [split; [exact W1|split; [exact W2|exact W3]]|]. rewrite En, (same_npts d dc Sp). reflexivity. Qed.
(** The matrix of a block of real fields. *)
Lemma block_matrix q X : fields_r d X -> ep X = Z.of_nat q -> exists Mx, S_Eig.fields n q (as_complex X) Mx /\ realm Mx /\ mdim n q Mx /\ forall i j, (i < n)%nat -> (j < q)%nat -> Mx i j = RtoC (entR X (Z.of_nat i) (Z.of_nat j)).
Proof.
  intros FX PX. destruct (of_op dc Wc q (as_complex X) (complex_fields X FX) PX) as (Mx & Fx). exists Mx. pose proof (fields_dim _ _ _ _ Fx) as Dx.
  assert (K : forall i j, (i < n)%nat -> (j < q)%nat -> Mx i j = RtoC (entR X (Z.of_nat i) (Z.of_nat j))) by (intros i j Hi Hj; rewrite <- (fields_at n q _ Mx i j Fx Hi Hj); apply as_complex_ent).
  split; [exact Fx|]. split; [|split; [exact Dx|exact K]]. intros i j. destruct (Nat.lt_ge_cases i n) as [Hi|Hi]; [destruct (Nat.lt_ge_cases j q) as [Hj|Hj]|].
  - rewrite K by assumption. reflexivity.
  - rewrite Dx by lia. reflexivity.
  - rewrite Dx by lia. reflexivity.
Qed.
(** The block of a real matrix. *)
Lemma matrix_block q M : mdim n q M -> realm M -> exists X, fields_r d X /\ ep X = Z.of_nat q /\ S_Eig.fields n q (as_complex X) M.
Proof.
  intros D RM. pose proof (emat_any dc q M D) as F. set (V := emat_of n q M) in F. exists {| en := en V; ep := ep V; ealloc := ealloc V; edata := map re (edata V) |}.
  assert (E : as_complex {| en := en V; ep := ep V; ealloc := ealloc V; edata := map re (edata V) |} = V) by (apply as_complex_re; intros x Hx; unfold V in Hx; cbn [emat_of edata] in Hx; apply in_map_iff in Hx; destruct Hx as (k & <- & _); apply RM).
  split; [apply real_fields; rewrite E; apply (to_op dc Wc q V M F)|]. split; [reflexivity|]. rewrite E. exact F.
Qed.
Lemma ready_any X : fields_r d X -> ready_r (Z.to_nat (ep X)) d X X (repeat 0%R (Z.to_nat (3 * (d_other d * d_last_size d) * Z.min (d_nfb d) (ep X)))).
Proof. intros F. split; [exact F|]. split; [exact F|]. split; [reflexivity|]. split; [exact Hn|]. split; [unfold scratch_r; rewrite repeat_length; lia|lia]. Qed.
Lemma lift_fld X b : feq dc (lift X b) (fld (as_complex X) b).
Proof. intros g c Hg Hcc. unfold lift, fldr, fld. symmetry. apply as_complex_ent. Qed.
Lemma takes_op X Y : fields_r d X -> takes maxwell_operator_r d X Y -> fields_r d Y /\ ep Y = ep X /\ forall b, 0 <= b < ep X -> feq dc (lift Y b) (opcol dc (fld (as_complex X) b)).
Proof.
  intros _ (fuel & out & fft & f & Rd & E). destruct (operator_r_ok d dc Wr Sp Sy fuel X out fft Rd) as (Y' & f' & E' & FY & PY & _ & H). rewrite E in E'. injection E' as <- <-.
  split; [exact FY|]. split; [exact PY|]. intros b Hb. apply (same_feq d dc Sp). eapply feq_trans; [apply H; exact Hb|]. apply opcol_ext; [assumption..|]. apply (same_feq d dc Sp). apply lift_fld.
Qed.
Lemma takes_mu X Y : fields_r d X -> takes muinv_operator_r d X Y -> fields_r d Y /\ ep Y = ep X /\ forall b, 0 <= b < ep X -> feq dc (lift Y b) (mumaybe dc (fld (as_complex X) b)).
Proof.
  intros _ (fuel & out & fft & f & Rd & E). destruct (muinv_r_ok d dc Wr Sp Sy fuel X out fft Rd) as (Y' & f' & E' & FY & PY & _ & H). rewrite E in E'. injection E' as <- <-.
  split; [exact FY|]. split; [exact PY|]. intros b Hb. apply (same_feq d dc Sp). eapply feq_trans; [apply H; exact Hb|]. apply mumaybe_ext; [assumption..|]. apply (same_feq d dc Sp). apply lift_fld.
Qed.
Lemma takes_op_some X : fields_r d X -> exists Y, takes maxwell_operator_r d X Y.
Proof. intros F. destruct (operator_r_ok d dc Wr Sp Sy _ X X _ (ready_any X F)) as (Y & f & E & _). exists Y. do 4 eexists. split; [exact (ready_any X F)|exact E]. Qed.
Lemma takes_mu_some X : fields_r d X -> exists Y, takes muinv_operator_r d X Y.
Proof. intros F. destruct (muinv_r_ok d dc Wr Sp Sy _ X X _ (ready_any X F)) as (Y & f & E & _). exists Y. do 4 eexists. split; [exact (ready_any X F)|exact E]. Qed.

(** The matrices are real. *)
Lemma lift_real Y b g c : im (lift Y b g c) = 0%R. Proof. reflexivity. Qed.
Definition unit_block (j : nat) : mat := fun i k => if (i <? n)%nat && (i =? j)%nat && (k =? 0)%nat then C1 else C0.
Lemma unit_dim j : mdim n 1 (unit_block j).
Proof. intros i k H. unfold unit_block. destruct (Nat.ltb_spec i n), (Nat.eqb_spec i j), (Nat.eqb_spec k 0); try reflexivity; lia. Qed.
Lemma unit_fld j X : S_Eig.fields n 1 (as_complex X) (unit_block j) -> feq dc (fld (as_complex X) 0) (unit_at j).
Proof.
  intros F g c Hg Hcc. destruct (row_of dc g c Hg Hcc) as (R1 & R2 & R3). pose proof (fld_M dc 1 (as_complex X) (unit_block j) 0 (Z.to_nat (2 * g + c)) F R1 ltac:(lia)) as E. rewrite R2, R3 in E. change (Z.of_nat 0) with 0 in E. rewrite E.
  unfold unit_block, unit_at. destruct (Nat.ltb_spec (Z.to_nat (2 * g + c)) n); [|lia]. destruct (Nat.eqb_spec (Z.to_nat (2 * g + c)) j), (Z.eqb_spec (2 * g + c) (Z.of_nat j)); try reflexivity; lia.
Qed.
Lemma A_real : realm A.
Proof.
  intros i j. destruct (Nat.ltb_spec i n) as [Hi|Hi]; [destruct (Nat.ltb_spec j n) as [Hj|Hj]|]; [|rewrite (omat_dim dc) by lia; reflexivity..].
  rewrite omat_entry by assumption. assert (Ru : realm (unit_block j)) by (intros a b; unfold unit_block; destruct (_ && _); reflexivity).
  destruct (matrix_block 1 (unit_block j) (unit_dim j) Ru) as (X & FX & PX & F). destruct (takes_op_some X FX) as (Y & T). destruct (takes_op X Y FX T) as (_ & _ & V). specialize (V 0 ltac:(lia)).
  destruct (row_in dc i Hi) as (R1 & R2 & _). pose proof (opcol_ext d dc Sp _ _ (proj2 (same_feq d dc Sp _ _) (unit_fld j X F))) as Ex. apply (same_feq d dc Sp) in Ex.
  rewrite <- (Ex _ _ R1 R2), <- (V _ _ R1 R2). reflexivity.
Qed.
Lemma B_real : realm B.
Proof.
  intros i j. destruct (Nat.ltb_spec i n) as [Hi|Hi]; [destruct (Nat.ltb_spec j n) as [Hj|Hj]|]; [|rewrite (omat_dim dc) by lia; reflexivity..].
  rewrite omat_entry by assumption. assert (Ru : realm (unit_block j)) by (intros a b; unfold unit_block; destruct (_ && _); reflexivity).
  destruct (matrix_block 1 (unit_block j) (unit_dim j) Ru) as (X & FX & PX & F). destruct (takes_mu_some X FX) as (Y & T). destruct (takes_mu X Y FX T) as (_ & _ & V). specialize (V 0 ltac:(lia)).
  destruct (row_in dc i Hi) as (R1 & R2 & _). pose proof (mumaybe_ext d dc Sp _ _ (proj2 (same_feq d dc Sp _ _) (unit_fld j X F))) as Ex. apply (same_feq d dc Sp) in Ex.
  rewrite <- (Ex _ _ R1 R2), <- (V _ _ R1 R2). reflexivity.
Qed.
Lemma mixed_real t s f : (forall g c, im (f g c) = 0%R) -> forall g c, im (mixed t s f g c) = 0%R.
Proof. intros H g c. unfold mixed. pose proof (H g c). pose proof (H (t g) c). csimp. rewrite H0, H1. ring. Qed.
Lemma maybe_real s T f : (forall g c, im (f g c) = 0%R) -> (forall g c, im (T f g c) = 0%R) -> forall g c, im (maybe s T f g c) = 0%R.
Proof. intros H1 H2. unfold maybe. destruct (_ =? 0); assumption. Qed.
Lemma P_real parity zero_k : realm (Pall dc parity zero_k).
Proof.
  assert (R : realm (Pp dc parity)).
  { intros i j. unfold Pp, omat. destruct (_ && _)%nat; [|reflexivity]. unfold pcol, ycol. assert (U : forall g c, im (unit_at j g c) = 0%R) by (intros g c; unfold unit_at; destruct (_ =? _); reflexivity).
    assert (Zr : forall g c, im (zcol dc parity (unit_at j) g c) = 0%R) by (unfold zcol; apply maybe_real; [exact U|apply mixed_real; exact U]). apply maybe_real; [exact Zr|apply mixed_real; exact Zr]. }
  unfold Pall. destruct zero_k; [|exact R]. apply realm_mul; [exact R|]. intros i j. unfold no_const. repeat match goal with |- context [if ?b then _ else _] => destruct b end; reflexivity.
Qed.

(** Symmetry of a real block. *)
Lemma same_allowed parity zero_k X b : allowed d parity zero_k X b <-> allowed dc parity zero_k X b.
Proof. destruct Sp as (E1 & E2 & E3 & _). unfold allowed, zparity, yparity. rewrite E1, E2, E3. tauto. Qed.

(** Inner products. *)
Lemma dot_inner X Y i j : fields_r d X -> fields_r d Y -> RtoC (dotr X Y i j) = inner dc (lift X i) (lift Y j).
Proof.
  intros (_ & EX) FY. rewrite (inner_rows dc). unfold dotr. rewrite EX, RtoC_rsum. replace (Z.to_nat (2 * npts d)) with n by (pose proof n_Z; lia). apply csum_ext. intros k Hk.
  destruct (row_in dc k Hk) as (_ & _ & E). unfold lift, fldr. rewrite E. apply C_eq; csimp; ring.
Qed.
Lemma dot_op q r X Mx V AV Mv i j : fields_r d X -> S_Eig.fields n q (as_complex X) Mx -> fields_r d V -> S_Eig.fields n r (as_complex V) Mv -> takes maxwell_operator_r d V AV -> (i < q)%nat -> (j < r)%nat ->
  RtoC (dotr X AV (Z.of_nat i) (Z.of_nat j)) = S_Eig.form n A Mx Mv i j.
Proof.
  intros FX Fx FV Fv T Hi Hj. destruct (takes_op V AV FV T) as (FA & PA & K). pose proof Fv as (_ & PV & _). cbn [as_complex ep] in PV. rewrite dot_inner by assumption. rewrite (form_omat dc (opcol dc) q r _ Mx _ Mv i j (opcol_sym dc) Fx Fv Hi Hj).
  apply inner_ext; [apply lift_fld|]. apply K. lia.
Qed.
Lemma dot_mu q r X Mx V MV Mv i j : fields_r d X -> S_Eig.fields n q (as_complex X) Mx -> fields_r d V -> S_Eig.fields n r (as_complex V) Mv -> takes muinv_operator_r d V MV -> (i < q)%nat -> (j < r)%nat ->
  RtoC (dotr X MV (Z.of_nat i) (Z.of_nat j)) = S_Eig.form n B Mx Mv i j.
Proof.
  intros FX Fx FV Fv T Hi Hj. destruct (takes_mu V MV FV T) as (FA & PA & K). pose proof Fv as (_ & PV & _). cbn [as_complex ep] in PV. rewrite dot_inner by assumption. rewrite (form_omat dc (mumaybe dc) q r _ Mx _ Mv i j (mumaybe_sym dc) Fx Fv Hi Hj).
  apply inner_ext; [apply lift_fld|]. apply K. lia.
Qed.
Lemma dotr_comm X Y i j : fields_r d X -> fields_r d Y -> dotr X Y i j = dotr Y X j i.
Proof. intros (_ & EX) (_ & EY). unfold dotr. rewrite EX, EY. apply rsum_ext. intros k _. ring. Qed.
Lemma dot_mu2 q r X Mx V MV Mv i j : fields_r d X -> S_Eig.fields n q (as_complex X) Mx -> fields_r d V -> S_Eig.fields n r (as_complex V) Mv -> takes muinv_operator_r d V MV -> (i < q)%nat -> (j < r)%nat ->
  RtoC (dotr MV X (Z.of_nat j) (Z.of_nat i)) = S_Eig.form n B Mv Mx j i.
Proof.
  intros FX Fx FV Fv T Hi Hj. destruct (takes_mu V MV FV T) as (FA & _). rewrite dotr_comm by assumption. pose proof (dot_mu q r X Mx V MV Mv i j FX Fx FV Fv T Hi Hj) as E.
  rewrite <- (form_adj n B Mx Mv (omat_herm dc _ (mumaybe_sym dc))). unfold madj. rewrite <- E. apply C_eq; csimp; ring.
Qed.

(** From matrices to real blocks and back. *)
Lemma modes_real_blocks parity zero_k m Mv lam : modes n m (Pall dc parity zero_k) A B Mv lam -> satisfies n (Pall dc parity zero_k) Mv -> realm Mv -> exact_bands_r d m parity zero_k lam.
Proof.
  intros (DV & FB & FA & Al & Cp) Sv RV. destruct (matrix_block m Mv DV RV) as (V & FV & PV & Fv). destruct (takes_mu_some V FV) as (MV & TM). destruct (takes_op_some V FV) as (AV & TA).
  exists V, MV, AV. split; [|intros i Hi; apply same_allowed; apply (sat_allowed dc Wc parity zero_k m (as_complex V) Mv i Fv Hi Sv)]. constructor.
  - split; assumption.
  - exact TM.
  - exact TA.
  - intros i j Hi Hj. apply RtoC_inj. rewrite (dot_mu m m V Mv V MV Mv i j FV Fv FV Fv TM Hi Hj), FB. unfold mid. destruct (Nat.ltb_spec i m); [|lia]. cbn [andb]. destruct (i =? j)%nat; reflexivity.
  - intros i j Hi Hj. apply RtoC_inj. rewrite (dot_op m m V Mv V AV Mv i j FV Fv FV Fv TA Hi Hj), FA. unfold mdiag. destruct (Nat.ltb_spec i m); [|lia]. cbn [andb]. destruct (i =? j)%nat; reflexivity.
  - exact Al.
  - intros X b FX Hb Ax r Hr. set (q := Z.to_nat (ep X)). assert (PX : ep X = Z.of_nat q) by (unfold q; lia). destruct (block_matrix q X FX PX) as (Mx & Fx & _ & Dx & Ex). pose proof n_Z as Rz.
    set (j := Z.to_nat b). assert (Eb : b = Z.of_nat j) by (unfold j; lia). rewrite Eb in *. clear Eb. assert (Hj : (j < q)%nat) by lia. apply same_allowed in Ax.
    pose proof (Cp 1%nat (slice j 1 Mx) (slice_dim n q j 1 Mx Dx) (allowed_sat dc Wc parity zero_k q (as_complex X) Mx j Fx Hj Ax)) as EM.
    set (i := Z.to_nat r). assert (Er : r = Z.of_nat i) by (unfold i; lia). rewrite Er. assert (Hi : (i < n)%nat) by lia.
    apply (f_equal (fun F : mat => F i 0%nat)) in EM. unfold slice at 1 in EM. cbn [Nat.ltb Nat.leb] in EM. rewrite Nat.add_0_r in EM. apply RtoC_inj. rewrite <- (Ex i j Hi Hj), EM. unfold mmul at 1. rewrite RtoC_rsum. apply csum_ext. intros k Hk.
    rewrite <- (fields_at n m (as_complex V) Mv i k Fv Hi Hk), as_complex_ent.
    replace (S_Eig.form n B Mv (slice j 1 Mx) k 0%nat) with (S_Eig.form n B Mv Mx k j).
    + rewrite <- (dot_mu2 q m X Mx V MV Mv j k FX Fx FV Fv TM Hj Hk). apply C_eq; csimp; ring.
    + unfold S_Eig.form, mmul. apply csum_ext. intros x Hx. f_equal. apply csum_ext. intros y Hy. unfold slice. cbn [Nat.ltb Nat.leb]. rewrite Nat.add_0_r. reflexivity.
Qed.
Lemma real_blocks_modes parity zero_k m lam : exact_bands_r d m parity zero_k lam -> exists Mv, modes n m (Pall dc parity zero_k) A B Mv lam /\ satisfies n (Pall dc parity zero_k) Mv.
Proof.
  intros (V & MV & AV & [ (FV & PV) TM TA OV CV AS Cp ] & Al). destruct (block_matrix m V FV PV) as (Mv & Fv & RV & DV & Ev). exists Mv. pose proof n_Z as Rz.
  assert (DB : mdim n n B) by apply omat_dim. assert (DA : mdim n n A) by apply omat_dim.
  assert (Sv : satisfies n (Pall dc parity zero_k) Mv).
  { unfold satisfies. apply mext; intros r c. destruct (Nat.lt_ge_cases c m) as [Hcm|Hcm].
    - pose proof (allowed_sat dc Wc parity zero_k m (as_complex V) Mv c Fv Hcm (proj1 (same_allowed _ _ _ _) (Al c Hcm))) as Q. unfold satisfies in Q. apply (f_equal (fun F : mat => F r 0%nat)) in Q. rewrite mmul_slice in Q. unfold slice in Q. cbn [Nat.ltb Nat.leb] in Q. rewrite Nat.add_0_r in Q. exact Q.
    - rewrite (DV r c) by lia. unfold mmul. apply csum_0_ext. intros l Hl. rewrite (DV l c) by lia. ring. }
  split; [|exact Sv]. split; [exact DV|]. split; [|split; [|split; [exact AS|]]].
  - apply mext; intros i j. destruct (Nat.ltb_spec i m) as [Hi|Hi], (Nat.ltb_spec j m) as [Hj|Hj]; try (rewrite (L_Cmp2.mdim_form n m m) by (auto; lia); unfold mid; destruct (Nat.ltb_spec i m), (Nat.eqb_spec i j); try lia; reflexivity).
    rewrite <- (dot_mu m m V Mv V MV Mv i j FV Fv FV Fv TM Hi Hj), OV by assumption. unfold mid. destruct (Nat.ltb_spec i m); [|lia]. cbn [andb]. destruct (i =? j)%nat; reflexivity.
  - apply mext; intros i j. destruct (Nat.ltb_spec i m) as [Hi|Hi], (Nat.ltb_spec j m) as [Hj|Hj]; try (rewrite (L_Cmp2.mdim_form n m m) by (auto; lia); unfold mdiag; destruct (Nat.ltb_spec i m), (Nat.eqb_spec i j); try lia; reflexivity).
    rewrite <- (dot_op m m V Mv V AV Mv i j FV Fv FV Fv TA Hi Hj), CV by assumption. unfold mdiag. destruct (Nat.ltb_spec i m); [|lia]. cbn [andb]. destruct (i =? j)%nat; reflexivity.
  - assert (Cr : forall p M, mdim n p M -> satisfies n (Pall dc parity zero_k) M -> realm M -> M = mmul m Mv (S_Eig.form n B Mv M)).
    { intros p M DM SM RM. destruct (matrix_block p M DM RM) as (X & FX & PX & Fx). apply mext; intros r c. destruct (Nat.lt_ge_cases r n) as [Hr|Hr]; [destruct (Nat.lt_ge_cases c p) as [Hcp|Hcp]|].
      - rewrite <- (fields_at n p (as_complex X) M r c Fx Hr Hcp), as_complex_ent.
        rewrite (Cp X (Z.of_nat c) FX ltac:(lia) (proj2 (same_allowed _ _ _ _) (sat_allowed dc Wc parity zero_k p (as_complex X) M c Fx Hcp SM)) (Z.of_nat r)) by lia.
        rewrite RtoC_rsum. unfold mmul. apply csum_ext. intros i Hi. rewrite Ev by assumption. change (S_Eig.form n B Mv M i c) with (S_Eig.form n B Mv M i c). rewrite <- (dot_mu2 p m X M V MV Mv c i FX Fx FV Fv TM Hcp Hi). apply C_eq; csimp; ring.
      - rewrite (DM r c) by lia. symmetry. unfold mmul at 1. apply csum_0_ext. intros i Hi. rewrite (L_Cmp2.mdim_form n m p) by (auto; lia). ring.
      - rewrite (DM r c) by lia. symmetry. unfold mmul at 1. apply csum_0_ext. intros i Hi. rewrite (DV r i) by lia. ring. }
    intros p M DM SM. pose proof (P_real parity zero_k) as RP.
    pose proof (Cr p (rem M) (rem_dim n p M DM) (rem_sat n _ M RP SM) (rem_real M)) as E1. pose proof (Cr p (imm M) (imm_dim n p M DM) (imm_sat n _ M RP SM) (imm_real M)) as E2.
    assert (Fc : S_Eig.form n B Mv (cmuli (imm M)) = cmuli (S_Eig.form n B Mv (imm M))) by (unfold S_Eig.form; rewrite !mmul_cmuli; reflexivity).
    transitivity (madd (mmul m Mv (S_Eig.form n B Mv (rem M))) (cmuli (mmul m Mv (S_Eig.form n B Mv (imm M))))).
    + rewrite <- E1, <- E2. apply parts.
    + rewrite <- mmul_cmuli, <- Fc, <- mmul_add_r, <- form_add_r, <- parts. reflexivity.
Qed.
Lemma real_bands_exist parity zero_k : orthonormal_basis dc -> sound_mu dc -> exists m lam Mv, modes n m (Pall dc parity zero_k) A B Mv lam /\ satisfies n (Pall dc parity zero_k) Mv /\ realm Mv.
Proof.
  intros Ho Sm.
  destruct (modes_real n (Pall dc parity zero_k) A B (omat_dim dc _) (omat_dim dc _) (Pall_dim dc parity zero_k) (omat_herm dc _ (opcol_sym dc)) (omat_herm dc _ (mumaybe_sym dc)) (Pall_idem dc Wc parity zero_k)) as (m & V & lam & (_ & SV & _) & Md & RV); try assumption.
  - apply metric_posdef; assumption.
  - apply A_real.
  - apply B_real.
  - apply P_real.
  - exists m, lam, V. auto.
Qed.
End D.
