(** What follows for the exact bands: matrices, number, signs, stability. *)
From Coq Require Import List ZArith Reals Bool Arith Lia Lra Classical.
From Verif Require Import Base RC M_Tensor S_Tensor M_Evect S_Evect M_Grid S_Grid M_Op S_Op L_Op L_Op2 L_Op3 L_Op4 L_Op5 M_Eig S_Eig L_Mat L_Eig2 L_Eig4 L_Eig5 L_Eig7 L_Eig13 L_Kpt2 M_Kpt S_Kpt L_Kpt1 L_Kpt6 M_Mx S_Mir S_Mx L_Mx1 L_Mx2 L_Mx3 L_Mx4 L_Mx6 S_Cmp L_Cmp1 L_Cmp2 L_Cmp3 S_Spec L_Spec1 L_Spec2 L_Spec3 L_Spec5.
Import ListNotations.
Local Open Scope Z_scope.
Add Ring Cring_sp6 : C_ring_theory.

(** Independent columns in the span of m columns are at most m. *)
Definition independent (k : nat) (X : mat) : Prop := forall c, mdim k 1 c -> mmul k X c = L_Kpt1.mzero -> c = L_Kpt1.mzero.
Lemma independent_at_most m k V W X : independent k X -> X = mmul m V W -> (k <= m)%nat.
Proof.
  intros In E. destruct (Nat.lt_ge_cases m k) as [H|H]; [|exact H]. exfalso. destruct (solve m W) as (c & (j & Hj & Nj) & Ec).
  set (U := fun a b => if (a <? S m)%nat && (b =? 0)%nat then c a else C0).
  assert (DU : mdim k 1 U) by (intros a b K; unfold U; destruct (Nat.ltb_spec a (S m)), (Nat.eqb_spec b 0); try reflexivity; lia).
  assert (WU : forall i b, (i < m)%nat -> mmul k W U i b = C0).
  { intros i b Hi. unfold mmul. destruct (Nat.eq_dec b 0) as [->|Nb].
    - rewrite <- (Ec i Hi). replace k with (S m + (k - S m))%nat by lia. rewrite L_Eig.csum_app. rewrite (csum_0_ext (k - S m)).
      + rewrite (csum_ext (S m) _ (fun j => (W i j * c j)%C)); [ring|]. intros l Hl. unfold U. destruct (Nat.ltb_spec l (S m)); [|lia]. reflexivity.
      + intros l Hl. unfold U. destruct (Nat.ltb_spec (S m + l) (S m)); [lia|]. cbn [andb]. ring.
    - apply csum_0_ext. intros l Hl. unfold U. destruct (Nat.eqb_spec b 0); [lia|]. rewrite andb_false_r. ring. }
  assert (Z : U = L_Kpt1.mzero).
  { apply (In U DU). rewrite E, mmul_assoc. apply mext; intros a b. unfold mmul at 1, L_Kpt1.mzero. apply csum_0_ext. intros i Hi. rewrite WU by exact Hi. ring. }
  apply Nj. apply (f_equal (fun F : mat => F j 0%nat)) in Z. unfold U, L_Kpt1.mzero in Z. destruct (Nat.ltb_spec j (S m)); [|lia]. exact Z.
Qed.
Lemma orthonormal_independent n k B X : S_Eig.form n B X X = mid k -> independent k X.
Proof.
  intros O c Dc E. rewrite <- (mid_l k 1 c Dc), <- O. unfold S_Eig.form. rewrite !mmul_assoc, E, !mmul_zero_r. reflexivity.
Qed.

Section D.
Variable d : mdata.
Hypothesis Wd : wfd d.
Hypothesis Hn : 0 < d_nfb d.
Hypothesis Ho : orthonormal_basis d.
Notation n := (rows d).

(** From the fields to the matrices. *)
Lemma fields_modes parity zero_k m lam : exact_bands d m parity zero_k lam ->
  exists Mv, modes n m (Pall d parity zero_k) (omat d (opcol d)) (omat d (mumaybe d)) Mv lam /\ satisfies n (Pall d parity zero_k) Mv.
Proof.
  intros (V & MV & [ (FV & PV) EV OV CV AV Cp ] & Al). destruct (of_op d Wd m V FV PV) as (Mv & Fv). pose proof (fields_dim _ _ _ _ Fv) as DV. exists Mv.
  assert (DB : mdim n n (omat d (mumaybe d))) by apply omat_dim. pose proof (rows_Z d Wd) as Rz.
  assert (Sv : satisfies n (Pall d parity zero_k) Mv).
  { unfold satisfies. apply mext; intros r c. destruct (Nat.lt_ge_cases c m) as [Hc|Hc].
    - pose proof (allowed_sat d Wd parity zero_k m V Mv c Fv Hc (Al c Hc)) as Q. unfold satisfies in Q. apply (f_equal (fun F : mat => F r 0%nat)) in Q. rewrite mmul_slice in Q. unfold slice in Q. cbn [Nat.ltb Nat.leb] in Q. rewrite Nat.add_0_r in Q. exact Q.
    - rewrite (DV r c) by lia. unfold mmul. apply csum_0_ext. intros l Hl. rewrite (DV l c) by lia. ring. }
  split; [|exact Sv]. split; [exact DV|]. split; [|split; [|split; [exact AV|]]].
  - apply mext; intros i j. destruct (Nat.ltb_spec i m) as [Hi|Hi], (Nat.ltb_spec j m) as [Hj|Hj]; try (rewrite (L_Cmp2.mdim_form n m m) by (auto; lia); unfold mid; destruct (Nat.ltb_spec i m), (Nat.eqb_spec i j); try lia; reflexivity).
    rewrite <- (dot_form d Wd Hn m V MV Mv i j Fv EV Hi Hj), OV by assumption. unfold mid, delta. destruct (Nat.ltb_spec i m); [reflexivity|lia].
  - apply mext; intros i j. destruct (Nat.ltb_spec i m) as [Hi|Hi], (Nat.ltb_spec j m) as [Hj|Hj]; try (rewrite (L_Cmp2.mdim_form n m m) by (auto using omat_dim; lia); unfold mdiag; destruct (Nat.ltb_spec i m), (Nat.eqb_spec i j); try lia; reflexivity).
    rewrite <- (curl_form d Wd Hn m V MV Mv i j Ho Fv EV Hi Hj), CV by assumption. unfold mdiag, delta. destruct (Nat.ltb_spec i m); [|lia]. cbn [andb]. destruct (i =? j)%nat; ring.
  - intros p M DM SM. pose proof (emat_any d p M DM) as Fx. set (X := emat_of n p M) in Fx. pose proof (to_op d Wd p X M Fx) as FX.
    apply mext; intros r c. destruct (Nat.lt_ge_cases r n) as [Hr|Hr]; [destruct (Nat.lt_ge_cases c p) as [Hc|Hc]|].
    + rewrite <- (fields_at n p X M r c Fx Hr Hc). rewrite (Cp X (Z.of_nat c) FX ltac:(cbn; lia) (sat_allowed d Wd parity zero_k p X M c Fx Hc SM) (Z.of_nat r)) by lia.
      unfold mmul. apply csum_ext. intros i Hi. rewrite (fields_at n m V Mv r i Fv Hr Hi). f_equal. apply (dot_form2 d Wd Hn m p V MV Mv X M i c Fv EV Fx Hi Hc).
    + rewrite (DM r c) by lia. symmetry. unfold mmul at 1. apply csum_0_ext. intros i Hi. rewrite (L_Cmp2.mdim_form n m p) by (auto; lia). ring.
    + rewrite (DM r c) by lia. symmetry. unfold mmul at 1. apply csum_0_ext. intros i Hi. rewrite (DV r i) by lia. ring.
Qed.

(** Unit fields from row s on. *)
Definition units (s : nat) : mat := fun i j => if (i <? n)%nat && (i =? s + j)%nat then C1 else C0.
Lemma units_dim s : mdim n (n - s) (units s).
Proof. intros i j K. unfold units. destruct (Nat.ltb_spec i n), (Nat.eqb_spec i (s + j)); try reflexivity; lia. Qed.
Lemma units_independent s : independent (n - s) (units s).
Proof.
  intros c Dc E. apply mext; intros i j. unfold L_Kpt1.mzero. destruct (Nat.lt_ge_cases i (n - s)) as [Hi|Hi]; [|apply Dc; lia].
  apply (f_equal (fun F : mat => F (s + i)%nat j)) in E. unfold mmul, L_Kpt1.mzero in E. rewrite (csum_single (n - s) i) in E; [|exact Hi|].
  - unfold units in E. rewrite Nat.eqb_refl in E. destruct (Nat.ltb_spec (s + i) n); [|lia]. cbn [andb] in E. rewrite <- E. ring.
  - intros k Hk N. unfold units. destruct (Nat.eqb_spec (s + i) (s + k)); [lia|]. rewrite andb_false_r. ring.
Qed.
Definition skipped (zero_k : bool) : nat := if zero_k then 2%nat else 0%nat.
Lemma units_sat parity zero_k : wanted parity 0 1 = 0 -> wanted parity 2 3 = 0 -> satisfies n (Pall d parity zero_k) (units (skipped zero_k)).
Proof.
  intros E1 E2. unfold satisfies, Pall. rewrite (no_parity d parity E1 E2). destruct zero_k; cbn [skipped]; [|apply (mid_l n (n - 0)), units_dim].
  rewrite (mid_l n n) by apply no_const_dim. rewrite <- (nccol_mat d). apply mext; intros r c. unfold mmul.
  destruct (Nat.lt_ge_cases r n) as [Hr|Hr].
  - rewrite (csum_ext n _ (fun l => (omat d (fun f => nccol f) r l * units 2 l c)%C)) by reflexivity.
    destruct (row_in d r Hr) as (Hg & Hc & Er). pose proof (omat_col d nccol (mf (units 2) c) _ _ (nccol_sym d) Hg Hc) as Q. rewrite Er, Nat2Z.id in Q.
    etransitivity; [apply csum_ext; intros l Hl; rewrite <- (mf_row d (units 2) c l Hl); reflexivity|]. etransitivity; [symmetry; exact Q|]. unfold nccol. rewrite (mf_row d (units 2) c r Hr).
    destruct (Z.eqb_spec (Z.of_nat r / 2) 0) as [E0|]; [|reflexivity]. unfold units. destruct (Nat.eqb_spec r (2 + c)); [|rewrite andb_false_r; reflexivity]. exfalso. subst r. assert (1 <= Z.of_nat (2 + c) / 2) by (apply Z.div_le_lower_bound; lia). lia.
  - rewrite (units_dim 2 r c) by lia. apply csum_0_ext. intros l Hl. rewrite (omat_dim d nccol r l) by lia. ring.
Qed.
Lemma bands_count parity zero_k m lam : wanted parity 0 1 = 0 -> wanted parity 2 3 = 0 -> exact_bands d m parity zero_k lam -> m = (n - skipped zero_k)%nat.
Proof.
  intros E1 E2 Eb. destruct (fields_modes parity zero_k m lam Eb) as (Mv & (DV & OV & _ & _ & Cp) & Sv). set (s := skipped zero_k).
  apply Nat.le_antisymm.
  - apply (independent_at_most (n - s) m (units s) (fun i j => Mv (s + i)%nat j) Mv); [apply (orthonormal_independent n m (omat d (mumaybe d))); exact OV|].
    apply mext; intros r c. unfold mmul. destruct (Nat.lt_ge_cases r n) as [Hr|Hr]; [destruct (Nat.lt_ge_cases r s) as [Hs|Hs]|].
    + transitivity C0; [|symmetry; apply csum_0_ext; intros l Hl; unfold units; destruct (Nat.eqb_spec r (s + l)); [lia|]; rewrite andb_false_r; ring].
      unfold s, skipped in Hs. destruct zero_k; [|lia]. destruct (sat_all d Wd parity true m Mv DV Sv) as (_ & Sz). specialize (Sz eq_refl). rewrite <- (nccol_mat d) in Sz.
      destruct (Nat.lt_ge_cases c m) as [Hc|Hc]; [|apply DV; lia].
      pose proof (emat_any d m Mv DV) as Fv. pose proof (fixed_col d nccol c 1 m _ Mv c (nccol_sym d) Fv ltac:(lia) ltac:(lia) (satisfies_slice _ _ _ _ _ Sz)) as Q.
      destruct (row_in d r Hr) as (Hg & Hc2 & Er). specialize (Q _ _ Hg Hc2). rewrite (fld_M d m _ Mv c r Fv Hr Hc) in Q. rewrite <- Q. unfold nccol. rewrite Z.div_small by lia. reflexivity.
    + rewrite (csum_single (n - s) (r - s)); [|lia|intros k Hk N; unfold units; destruct (Nat.eqb_spec r (s + k)); [lia|]; rewrite andb_false_r; ring].
      unfold units. destruct (Nat.ltb_spec r n), (Nat.eqb_spec r (s + (r - s))); try lia. cbn [andb]. replace (s + (r - s))%nat with r by lia. ring.
    + rewrite (DV r c) by lia. symmetry. apply csum_0_ext. intros l Hl. unfold units. destruct (Nat.ltb_spec r n); [lia|]. cbn [andb]. ring.
  - pose proof (Cp (n - s)%nat (units s) (units_dim s) (units_sat parity zero_k E1 E2)) as E. exact (independent_at_most m (n - s) Mv _ (units s) (units_independent s) E).
Qed.

Definition at_row (h : ff) (i : nat) : C := h (Z.of_nat i / 2) (Z.of_nat i mod 2).
(** The curl form of a uniform medium. *)
Definition bare (e : R) : mdata :=
  {| d_nx := d_nx d; d_ny := d_ny d; d_nz := d_nz d; d_other := d_other d; d_last := d_last d; d_last_size := d_last_size d; d_out := d_out d;
     d_nfb := d_nfb d; d_kG := d_kG d; d_eps_inv := flat d e; d_mu_inv := None; d_kn2 := d_kn2 d; d_eps_inv_mean := d_eps_inv_mean d |}.
Lemma bare_wfd e : wfd (bare e).
Proof.
  destruct Wd as (H1 & H2 & H3 & H4 & H5 & H6 & H7 & H8 & H9 & H10 & H11). repeat (split; [assumption|]). split; [apply (flat_len d e); unfold npts; nia|]. intros mu E. discriminate.
Qed.
Lemma gcross_flat e h : re (gform d assign_cross_t2c (flat d e) h h) = rsum n (fun i => e * wave2 d i * normsqr (at_row h i))%R.
Proof.
  set (X := fun (k j : nat) => h (Z.of_nat k / 2) (Z.of_nat k mod 2)).
  assert (Fx : feq d h (mf X 0)).
  { intros g c Hg Hc. unfold mf, X. destruct (row_of d g c Hg Hc) as (_ & -> & ->). reflexivity. }
  rewrite (gform_ext d _ _ _ _ _ _ Fx Fx).
  pose proof (opcol_form (bare e) (mf X 0) (mf X 0)) as Q. pose proof (form_ff (bare e) (opcol (bare e)) X X 0 0 (opcol_sym (bare e))) as Q2.
  rewrite (uniform_diag (bare e) (bare_wfd e) e Ho (fun r Hr => flat_at d e r Hr) eq_refl) in Q2. change (gform d assign_cross_t2c (flat d e) (mf X 0) (mf X 0)) with (gform (bare e) assign_cross_t2c (d_eps_inv (bare e)) (mumaybe (bare e) (mf X 0)) (mumaybe (bare e) (mf X 0))).
  rewrite <- Q. etransitivity; [apply (f_equal re); symmetry; exact Q2|]. rewrite diag_quad. reflexivity.
Qed.

Lemma wave2_nonneg i : (0 <= wave2 d i)%R.
Proof. unfold wave2, rdot. destruct (kvec d (i / 2)) as ((a, b), c). nra. Qed.

(** Semidefinite tensors: no negative squared frequency.  Positive ones: none that vanishes, unless a
    wave vector does. *)
Lemma mode_value parity zero_k m lam Mv i : modes n m (Pall d parity zero_k) (omat d (opcol d)) (omat d (mumaybe d)) Mv lam -> (i < m)%nat ->
  lam i = re (gform d assign_cross_t2c (d_eps_inv d) (mumaybe d (mf Mv i)) (mumaybe d (mf Mv i))) /\ inner d (mf Mv i) (mumaybe d (mf Mv i)) = C1.
Proof.
  intros (DV & OV & FV & _) Hi. rewrite <- opcol_form, <- (form_ff d) by apply opcol_sym. rewrite <- (form_ff d) by apply mumaybe_sym. rewrite OV, FV. unfold mid, mdiag. rewrite Nat.eqb_refl. destruct (Nat.ltb_spec i m); [|lia]. cbn [andb]. split; [csimp; reflexivity|reflexivity].
Qed.
Lemma bands_nonneg parity zero_k m lam : exact_bands d m parity zero_k lam -> at_least d 0 -> forall i, (i < m)%nat -> (0 <= lam i)%R.
Proof.
  intros Eb La i Hi. destruct (fields_modes parity zero_k m lam Eb) as (Mv & Md & _). destruct (mode_value _ _ _ _ _ i Md Hi) as (-> & _).
  eapply Rle_trans; [|apply (gform_le d Wd _ _ (flat d 0)); exact (least_below d 0 La)]. rewrite gcross_flat. apply rsum_nonneg. intros k _. rewrite Rmult_0_l, Rmult_0_l. lra.
Qed.
Lemma bands_positive parity zero_k m lam : exact_bands d m parity zero_k lam -> positive d (d_eps_inv d) ->
  (forall i, (i < n)%nat -> (zero_k = true -> (2 <= i)%nat) -> (0 < wave2 d i)%R) -> forall i, (i < m)%nat -> (0 < lam i)%R.
Proof.
  intros Eb Pe Wv i Hi. destruct (fields_modes parity zero_k m lam Eb) as (Mv & Md & Sv). pose proof Md as (DV & _). destruct (mode_value _ _ _ _ _ i Md Hi) as (-> & One).
  destruct (floor_exists d (d_eps_inv d) Pe) as (e & He & Lo). set (h := mumaybe d (mf Mv i)) in *.
  eapply Rlt_le_trans; [|apply (gform_le d Wd _ _ (flat d e)); exact (least_below d e Lo)]. rewrite gcross_flat.
  assert (Nz : exists k, (k < n)%nat /\ (zero_k = true -> (2 <= k)%nat) /\ h (Z.of_nat k / 2) (Z.of_nat k mod 2) <> C0).
  { apply NNPP. intros No.
    assert (Z0 : inner d (mf Mv i) h = C0).
    { rewrite (inner_rows d). apply csum_0_ext. intros k Hk. destruct zero_k.
      - destruct (Nat.lt_ge_cases k 2) as [H2|H2].
        + assert (Ez : Mv k i = C0).
          { destruct (sat_all d Wd parity true m Mv DV Sv) as (_ & Sz). specialize (Sz eq_refl). rewrite <- (nccol_mat d) in Sz.
            pose proof (emat_any d m Mv DV) as Fv. pose proof (fixed_col d nccol i 1 m _ Mv i (nccol_sym d) Fv ltac:(lia) ltac:(lia) (satisfies_slice _ _ _ _ _ Sz)) as Q.
            destruct (row_in d k Hk) as (Hg & Hc2 & Er). specialize (Q _ _ Hg Hc2). rewrite (fld_M d m _ Mv i k Fv Hk Hi) in Q. rewrite <- Q. unfold nccol. rewrite Z.div_small by lia. reflexivity. }
          rewrite (mf_row d Mv i k Hk), Ez. apply C_eq; csimp; ring.
        + replace (h (Z.of_nat k / 2) (Z.of_nat k mod 2)) with C0; [ring|]. symmetry. apply NNPP. intros K. apply No. exists k. auto.
      - replace (h (Z.of_nat k / 2) (Z.of_nat k mod 2)) with C0; [ring|]. symmetry. apply NNPP. intros K. apply No. exists k. split; [exact Hk|]. split; [discriminate|exact K]. }
    rewrite Z0 in One. apply (f_equal re) in One. revert One. csimp. lra. }
  destruct Nz as (k & Hk & H2 & Hh).
  assert (Ge : forall j, (j < n)%nat -> (0 <= e * wave2 d j * normsqr (at_row h j))%R).
  { intros j _. pose proof (wave2_nonneg j). pose proof (normsqr_nonneg (at_row h j)). apply Rmult_le_pos; [apply Rmult_le_pos; lra|assumption]. }
  eapply Rlt_le_trans; [|apply (rsum_le_one n (fun j => e * wave2 d j * normsqr (at_row h j))%R k Ge Hk)]. cbv beta.
  apply Rmult_lt_0_compat; [apply Rmult_lt_0_compat; [exact He|apply Wv; assumption]|apply RC.normsqr_pos; exact Hh].
Qed.

(** As many for every permittivity. *)
Lemma bands_same t parity zero_k m lam m' lam' : Z.of_nat (length t) = npts d -> exact_bands d m parity zero_k lam -> exact_bands (with_eps d t) m' parity zero_k lam' -> m' = m.
Proof.
  intros Lt Eb (V' & MV' & Am' & Al'). assert (Wd' : wfd (with_eps d t)) by (apply (with_wfd d Wd); exact Lt).
  destruct (fields_modes parity zero_k m lam Eb) as (Mv & (DV & OV & _ & _ & Cp) & Sv).
  pose proof Am' as [ (FV' & PV') EV' OV' _ _ Cp' ]. destruct (of_op (with_eps d t) Wd' m' V' FV' PV') as (Mw & Fw). change (rows (with_eps d t)) with n in Fw. pose proof (fields_dim _ _ _ _ Fw) as DW.
  assert (DB : mdim n n (omat d (mumaybe d))) by apply omat_dim. pose proof (rows_Z d Wd) as Rz.
  assert (OW : S_Eig.form n (omat d (mumaybe d)) Mw Mw = mid m').
  { apply mext; intros a b. destruct (Nat.ltb_spec a m') as [Ha|Ha], (Nat.ltb_spec b m') as [Hb|Hb]; try (rewrite (L_Cmp2.mdim_form n m' m') by (auto; lia); unfold mid; destruct (Nat.ltb_spec a m'), (Nat.eqb_spec a b); try lia; reflexivity).
    transitivity (dotl V' MV' (Z.of_nat a) (Z.of_nat b)); [symmetry; exact (dot_form (with_eps d t) Wd' Hn m' V' MV' Mw a b Fw EV' Ha Hb)|]. rewrite OV' by assumption. unfold mid, delta. destruct (Nat.ltb_spec a m'); [reflexivity|lia]. }
  assert (SW : satisfies n (Pall d parity zero_k) Mw).
  { unfold satisfies. apply mext; intros r c. destruct (Nat.lt_ge_cases c m') as [Hc|Hc].
    - pose proof (allowed_sat d Wd parity zero_k m' V' Mw c Fw Hc (Al' c Hc)) as Q. unfold satisfies in Q. apply (f_equal (fun F : mat => F r 0%nat)) in Q. rewrite mmul_slice in Q. unfold slice in Q. cbn [Nat.ltb Nat.leb] in Q. rewrite Nat.add_0_r in Q. exact Q.
    - rewrite (DW r c) by lia. unfold mmul. apply csum_0_ext. intros l Hl. rewrite (DW l c) by lia. ring. }
  apply Nat.le_antisymm.
  - exact (independent_at_most m m' Mv _ Mw (orthonormal_independent n m' _ Mw OW) (Cp m' Mw DW SW)).
  - pose proof (emat_any d m Mv DV) as Fx. set (X := emat_of n m Mv) in Fx. pose proof (to_op d Wd m X Mv Fx) as FX.
    apply (independent_at_most m' m Mw (S_Eig.form n (omat d (mumaybe d)) Mw Mv) Mv (orthonormal_independent n m _ Mv OV)).
    apply mext; intros r c. destruct (Nat.lt_ge_cases r n) as [Hr|Hr]; [destruct (Nat.lt_ge_cases c m) as [Hc|Hc]|].
    + rewrite <- (fields_at n m X Mv r c Fx Hr Hc).
      rewrite (Cp' X (Z.of_nat c) FX ltac:(cbn; lia) (sat_allowed d Wd parity zero_k m X Mv c Fx Hc Sv) (Z.of_nat r)) by (change (npts (with_eps d t)) with (npts d); lia).
      unfold mmul. apply csum_ext. intros i Hi. rewrite (fields_at n m' V' Mw r i Fw Hr Hi). f_equal.
      exact (dot_form2 (with_eps d t) Wd' Hn m' m V' MV' Mw X Mv i c Fw EV' Fx Hi Hc).
    + rewrite (DV r c) by lia. symmetry. unfold mmul at 1. apply csum_0_ext. intros i Hi. rewrite (L_Cmp2.mdim_form n m' m) by (auto; lia). ring.
    + rewrite (DV r c) by lia. symmetry. unfold mmul at 1. apply csum_0_ext. intros i Hi. rewrite (DW r i) by lia. ring.
Qed.

(** Stability. *)
Lemma shift_form A B c X Y : S_Eig.form n (madd A (mscal c B)) X Y = madd (S_Eig.form n A X Y) (mscal c (S_Eig.form n B X Y)).
Proof. rewrite form_add_m. f_equal. unfold S_Eig.form. rewrite mmul_scal_l, mmul_scal_r. reflexivity. Qed.
Lemma rdiff a b : (a - b <= Rabs (a - b))%R. Proof. apply Rle_abs. Qed.
Lemma bands_stable_one t e K parity zero_k m lam m' lam' : d_mu_inv d = None -> Z.of_nat (length t) = npts d -> (0 <= e)%R -> within d e t (d_eps_inv d) -> (forall i, (i < n)%nat -> (wave2 d i <= K)%R) ->
  exact_bands d m parity zero_k lam -> exact_bands (with_eps d t) m' parity zero_k lam' ->
  forall j, (j < m)%nat -> (j < m')%nat /\ (lam' j <= lam j + e * K)%R.
Proof.
  intros Em Lt He Wt Wk Eb (V' & MV' & Am' & Al') j Hj.
  destruct (fields_modes parity zero_k m lam Eb) as (Mv & (DV & OV & FV & AV & Cp) & Sv).
  assert (Wd' : wfd (with_eps d t)) by (apply (with_wfd d Wd); exact Lt).
  pose proof Am' as [ (FV' & PV') EV' OV' CV' AV' Cp' ]. destruct (of_op (with_eps d t) Wd' m' V' FV' PV') as (Mw & Fw). change (rows (with_eps d t)) with n in Fw.
  pose proof (fields_dim _ _ _ _ Fw) as DW. set (B := omat d (mumaybe d)). assert (DB : mdim n n B) by apply omat_dim.
  set (A := omat d (opcol d)). set (A' := omat d (opcol (with_eps d t))).
  pose proof (emat_any d m Mv DV) as Fx. set (X := emat_of n m Mv) in Fx. pose proof (to_op d Wd m X Mv Fx) as FX.
  refine (compare n m m' A' (madd A (mscal (e * K) B)) B Mw lam' Mv (fun i => lam i + e * K)%R DB DW _ _ AV' DV _ OV _ _ _ j Hj).
  - apply mext; intros a b. destruct (Nat.ltb_spec a m') as [Ha|Ha], (Nat.ltb_spec b m') as [Hb|Hb]; try (rewrite (L_Cmp2.mdim_form n m' m') by (auto; lia); unfold mid; destruct (Nat.ltb_spec a m'), (Nat.eqb_spec a b); try lia; reflexivity).
    transitivity (dotl V' MV' (Z.of_nat a) (Z.of_nat b)); [symmetry; exact (dot_form (with_eps d t) Wd' Hn m' V' MV' Mw a b Fw EV' Ha Hb)|]. rewrite OV' by assumption. unfold mid, delta. destruct (Nat.ltb_spec a m'); [reflexivity|lia].
  - apply mext; intros a b. destruct (Nat.ltb_spec a m') as [Ha|Ha], (Nat.ltb_spec b m') as [Hb|Hb]; try (rewrite (L_Cmp2.mdim_form n m' m') by (auto; try apply omat_dim; lia); unfold mdiag; destruct (Nat.ltb_spec a m'), (Nat.eqb_spec a b); try lia; reflexivity).
    pose proof (curl_form (with_eps d t) Wd' Hn m' V' MV' Mw a b Ho Fw EV' Ha Hb) as Q. rewrite CV' in Q by assumption. transitivity (RtoC (lam' a) * delta a b)%C; [symmetry; exact Q|]. unfold mdiag, delta. destruct (Nat.ltb_spec a m'); [|lia]. cbn [andb]. destruct (a =? b)%nat; ring.
  - apply mext; intros r c. destruct (Nat.lt_ge_cases r n) as [Hr|Hr]; [destruct (Nat.lt_ge_cases c m) as [Hc|Hc]|].
    + rewrite <- (fields_at n m X Mv r c Fx Hr Hc). pose proof (rows_Z d Wd) as Rz.
      rewrite (Cp' X (Z.of_nat c) FX ltac:(cbn; lia) (sat_allowed d Wd parity zero_k m X Mv c Fx Hc Sv) (Z.of_nat r)) by (change (npts (with_eps d t)) with (npts d); lia).
      unfold mmul. apply csum_ext. intros i Hi. rewrite (fields_at n m' V' Mw r i Fw Hr Hi). f_equal.
      exact (dot_form2 (with_eps d t) Wd' Hn m' m V' MV' Mw X Mv i c Fw EV' Fx Hi Hc).
    + rewrite (DV r c) by lia. symmetry. unfold mmul at 1. apply csum_0_ext. intros i Hi. rewrite (L_Cmp2.mdim_form n m' m) by (auto; lia). ring.
    + rewrite (DV r c) by lia. symmetry. unfold mmul at 1. apply csum_0_ext. intros i Hi. rewrite (DW r i) by lia. ring.
  - rewrite shift_form. fold B in OV. fold A in FV. rewrite OV, FV. apply mext; intros a b. unfold madd, mscal, mdiag, mid. destruct (Nat.ltb a m && Nat.eqb a b)%bool; apply C_eq; csimp; ring.
  - intros a b Hab. specialize (AV a b Hab). lra.
  - intros U DU. set (Y := mmul m Mv U). rewrite shift_form. unfold madd, mscal.
    assert (EA : forall s, re (S_Eig.form n (omat d (opcol (with_eps d s))) Y Y 0%nat 0%nat) = re (gform d assign_cross_t2c s (mf Y 0) (mf Y 0))).
    { intros s. rewrite (form_ff d (opcol (with_eps d s)) Y Y 0 0 (opcol_sym (with_eps d s))). pose proof (opcol_form (with_eps d s) (mf Y 0) (mf Y 0)) as Q. unfold mumaybe in Q. cbn [d_mu_inv with_eps] in Q. rewrite Em in Q. exact (f_equal re Q). }
    unfold A'. rewrite EA. replace A with (omat d (opcol (with_eps d (d_eps_inv d)))) by (rewrite (with_same d Wd); reflexivity).
    assert (Ab : forall a b, re (a + Cscal (e * K) b)%C = (re a + e * K * re b)%R) by (intros a b; csimp; ring). rewrite Ab, EA. unfold B. rewrite (metric_id d Em).
    assert (Y1 : re (S_Eig.form n (mid n) Y Y 0%nat 0%nat) = rsum n (fun i => normsqr (Y i 0%nat))).
    { rewrite <- (inner_form d), (inner_rows d), csum_re. apply rsum_ext. intros i Hi. rewrite (mf_row d Y 0 i Hi). unfold normsqr. csimp. ring. }
    rewrite Y1.
    assert (G : (re (gform d assign_cross_t2c t (mf Y 0) (mf Y 0)) <= re (gform d assign_cross_t2c (d_eps_inv d) (mf Y 0) (mf Y 0)) + re (gform d assign_cross_t2c (flat d e) (mf Y 0) (mf Y 0)))%R).
    { unfold gform. assert (Q : forall z : C, re (RtoC (/ mN d) * z)%C = (/ mN d * re z)%R) by (intros z; csimp; ring). rewrite !Q, <- Rmult_plus_distr_l. apply Rmult_le_compat_l.
      - left. apply Rinv_0_lt_compat. unfold mN. apply IZR_lt. pose proof (N_pos d Wd) as Np. unfold npts in Np. lia.
      - rewrite !csum_re, <- rsum_add. apply rsum_le. intros r Hr. set (x := fun i => vsel i (position d assign_cross_t2c (mf Y 0) (Z.of_nat r))). rewrite (flat_at d e r Hr), iso_form. specialize (Wt r x Hr). pose proof (rdiff (re (S_Op.form (sym_at t r) x x)) (re (S_Op.form (sym_at (d_eps_inv d) r) x x))). lra. }
    eapply Rle_trans; [exact G|]. apply Rplus_le_compat_l. rewrite gcross_flat, <- rsum_scal. apply rsum_le. intros i Hi. unfold at_row; rewrite (mf_row d Y 0 i Hi). apply Rmult_le_compat_r; [apply normsqr_nonneg|]. apply Rmult_le_compat_l; [exact He|]. apply Wk. exact Hi.
Qed.
End D.
