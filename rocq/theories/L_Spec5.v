(** Every structure has a complete set of modes. *)
From Coq Require Import List ZArith Reals Bool Arith Lia Lra.
From Verif Require Import Base RC M_Tensor S_Tensor M_Evect S_Evect M_Grid S_Grid M_Op S_Op L_Op L_Op2 L_Op3 L_Op4 L_Op5 M_Eig S_Eig L_Mat L_Eig2 L_Eig4 L_Eig5 L_Eig7 L_Kpt2 M_Kpt S_Kpt L_Kpt1 L_Kpt6 M_Mx S_Mir S_Mx L_Mx1 L_Mx2 L_Mx3 L_Mx4 S_Cmp L_Cmp1 L_Cmp2 L_Cmp3 S_Spec L_Spec1 L_Spec2 L_Spec3.
Import ListNotations.
Local Open Scope Z_scope.
Add Ring Cring_sp5 : C_ring_theory.

(** One bound for all points. *)
Lemma tensor_floor (V : sym) : (forall x, (exists i, (i < 3)%nat /\ x i <> C0) -> (0 < re (S_Op.form V x x))%R) -> exists c, (0 < c)%R /\ forall x, (c * size2 x <= re (S_Op.form V x x))%R.
Proof.
  intros P. assert (E : forall x, qv 3 (entry V) x = S_Op.form V x x) by (intros x; unfold qv, S_Op.form; apply csum_ext; intros i _; apply csum_ext; intros j _; ring).
  destruct (pd_lower 3 (entry V)) as (c & Hc & Lo).
  - intros [|[|[|i]]] [|[|[|j]]]; destruct V as [a b c p q r]; cbn [entry m00 m11 m22 m01 m02 m12]; apply C_eq; csimp; ring.
  - intros v Nv. fold (qv 3 (entry V) v). rewrite E. apply P. exact Nv.
  - exists c. split; [exact Hc|]. intros x. rewrite <- E. apply Lo.
Qed.
Lemma size2_nonneg x : (0 <= size2 x)%R.
Proof. unfold size2. apply rsum_nonneg. intros. apply normsqr_nonneg. Qed.
Lemma floor_exists d t : positive d t -> exists c, (0 < c)%R /\ forall r x, (r < Z.to_nat (npts d))%nat -> (c * size2 x <= re (S_Op.form (sym_at t r) x x))%R.
Proof.
  intros P. unfold positive in P. generalize dependent (Z.to_nat (npts d)). intros k. induction k as [|k IH]; intros P.
  - exists 1%R. split; [lra|]. intros r x H. lia.
  - destruct IH as (c & Hc & Lo); [intros r x Hr; apply P; lia|]. destruct (tensor_floor (sym_at t k)) as (c' & Hc' & Lo'); [intros x; apply P; lia|].
    exists (Rmin c c'). split; [apply Rmin_glb_lt; assumption|]. intros r x Hr. pose proof (size2_nonneg x).
    destruct (Nat.eq_dec r k) as [->|N]; [eapply Rle_trans; [|apply Lo']|eapply Rle_trans; [|apply Lo; lia]]; apply Rmult_le_compat_r; auto; [apply Rmin_r|apply Rmin_l].
Qed.

Section D.
Variable d : mdata.
Hypothesis Wd : wfd d.
Hypothesis Hn : 0 < d_nfb d.
Hypothesis Ho : orthonormal_basis d.
Notation n := (rows d).

Lemma inner_form X : inner d (mf X 0) (mf X 0) = S_Eig.form n (mid n) X X 0%nat 0%nat.
Proof.
  transitivity (csum n (fun i => (Cconj (X i 0%nat) * X i 0%nat)%C)).
  - rewrite (inner_rows d). apply csum_ext. intros i Hi. rewrite (mf_row d X 0 i Hi). reflexivity.
  - unfold S_Eig.form, mmul, madj. apply csum_ext. intros i Hi. f_equal. rewrite (csum_single n i); [|exact Hi|].
    + unfold mid. rewrite Nat.eqb_refl. destruct (Nat.ltb_spec i n); [|lia]. cbn [andb]. ring.
    + intros j Hj N. unfold mid. destruct (Nat.eqb_spec i j); [lia|]. rewrite andb_false_r. ring.
Qed.
Lemma metric_posdef : sound_mu d -> posdef n (omat d (mumaybe d)).
Proof.
  intros Sm. destruct (d_mu_inv d) as [mu|] eqn:Em.
  - destruct (floor_exists d mu (Sm mu Em)) as (c & Hc & Lo). apply posdef_iff. intros X DX NX. rewrite (form_ff d) by apply mumaybe_sym. unfold mumaybe. rewrite Em, mucol_form.
    assert (Np : 0 <= npts d) by (pose proof (N_pos d Wd); lia).
    assert (Na : nowhere_above d (flat d c) mu) by (intros r x Hr; rewrite flat_at, iso_form by exact Hr; apply Lo; exact Hr).
    eapply Rlt_le_trans; [|apply (gform_le d Wd assign_t2c mu (flat d c) (mf X 0) Na)]. rewrite <- mucol_form.
    rewrite (inner_ext d _ _ _ _ (feq_refl d _) (mucol_iso d Wd (flat d c) c (mf X 0) Ho (fun r Hr => flat_at d c r Hr))).
    assert (Sc : inner d (mf X 0) (fun g b => RtoC c * mf X 0 g b)%C = (RtoC c * inner d (mf X 0) (mf X 0))%C).
    { rewrite !(inner_rows d). rewrite <- csum_scal. apply csum_ext. intros i Hi. ring. }
    rewrite Sc, inner_form. pose proof (proj1 (posdef_iff n (mid n)) (posdef_id n) X DX NX) as K. revert K. generalize (S_Eig.form n (mid n) X X 0%nat 0%nat). intros z K. destruct z. csimp. nra.
  - rewrite (metric_id d Em). apply posdef_id.
Qed.

(** Symmetry as a constraint. *)
Lemma sat_col T b q X M : symmetric d T -> S_Eig.fields n q X M -> (b < q)%nat -> feq d (T (fld X (Z.of_nat b))) (fld X (Z.of_nat b)) -> satisfies n (omat d T) (slice b 1 M).
Proof.
  intros Sy F Hb E. unfold satisfies. apply mext; intros r k. unfold mmul, slice. destruct (Nat.ltb_spec k 1) as [Hk|Hk]; [|apply csum_0_ext; intros; ring]. replace (b + k)%nat with b by lia.
  destruct (Nat.ltb_spec r n) as [Hr|Hr].
  - destruct (row_in d r Hr) as (Hg & Hc & Er). pose proof (E _ _ Hg Hc) as Q. rewrite (omat_col d T _ _ _ Sy Hg Hc), Er, Nat2Z.id, (fld_M d q X M b r F Hr Hb) in Q. rewrite <- Q. apply csum_ext. intros l Hl. rewrite (fld_M d q X M b l F Hl Hb). reflexivity.
  - rewrite (fields_dim _ _ _ _ F r b) by lia. apply csum_0_ext. intros l Hl. rewrite (omat_dim d T r l) by lia. ring.
Qed.
Lemma mixed_fixed s f t g c : s = 1%R \/ s = (-1)%R -> Cscal (if c =? 0 then 1 else -1)%R (f (t g) c) = Cscal s (f g c) -> mixed t s f g c = f g c.
Proof.
  intros Hs E. unfold mixed. revert E. generalize (f g c) (f (t g) c). intros u v E. pose proof (f_equal re E) as E1. pose proof (f_equal im E) as E2.
  destruct (c =? 0), Hs as [-> | ->]; apply C_eq; csimp; lra.
Qed.
Lemma allowed_sat parity zero_k q X M b : S_Eig.fields n q X M -> (b < q)%nat -> allowed d parity zero_k X (Z.of_nat b) -> satisfies n (Pall d parity zero_k) (slice b 1 M).
Proof.
  intros F Hb (Az & Ay & A0). set (f := fld X (Z.of_nat b)).
  assert (Fz : feq d (zcol d parity f) f).
  { unfold zcol, maybe. destruct (Z.eqb_spec (wanted parity 0 1) 0) as [E|E]; [apply feq_refl|]. intros g c Hg Hc. destruct (grid_point d Wd g Hg) as (x & y & z & Hx & Hy & Hz & ->).
    apply mixed_fixed; [apply pm_R; exact E|]. rewrite (zmir_at d) by exact Hz. pose proof (Az E x y z c Hx Hy Hz Hc) as Q. unfold zflip, amp in Q. unfold f, fld, entC. rewrite !(Z.mul_comm 2). exact Q. }
  assert (Fy : feq d (ycol d parity f) f).
  { unfold ycol, maybe. destruct (Z.eqb_spec (wanted parity 2 3) 0) as [E|E]; [apply feq_refl|]. intros g c Hg Hc. destruct (grid_point d Wd g Hg) as (x & y & z & Hx & Hy & Hz & ->).
    apply mixed_fixed; [rewrite opp_IZR; destruct (pm_R parity 2 3 E) as [-> | ->]; [right|left]; lra|]. rewrite (ymir_at d) by assumption. pose proof (Ay E x y z c Hx Hy Hz Hc) as Q. unfold yflip, amp in Q. unfold f, fld, entC. rewrite !(Z.mul_comm 2). revert Q. rewrite opp_IZR.
    match goal with |- Cscal _ ?u = Cscal _ ?v -> _ => generalize u v end. intros u v Q. pose proof (f_equal re Q) as Q1. pose proof (f_equal im Q) as Q2. destruct (c =? 0); apply C_eq; csimp; lra. }
  assert (Fp : feq d (pcol d parity f) f).
  { unfold pcol. eapply feq_trans; [apply (ycol_ext d Wd), Fz|exact Fy]. }
  pose proof (sat_col (pcol d parity) b q X M (pcol_sym d Wd parity) F Hb Fp) as Sp. fold (Pp d parity) in Sp. unfold Pall. destruct zero_k; [|exact Sp].
  assert (F0 : feq d (nccol f) f).
  { intros g c Hg Hc. unfold nccol. destruct (Z.eqb_spec g 0) as [->|N]; [|reflexivity]. unfold f, fld. symmetry. apply (A0 eq_refl). lia. }
  pose proof (sat_col nccol b q X M (nccol_sym d) F Hb F0) as S0. rewrite (nccol_mat d) in S0. unfold satisfies in *. rewrite mmul_assoc, S0. exact Sp.
Qed.
Lemma sat_allowed parity zero_k q X M b : S_Eig.fields n q X M -> (b < q)%nat -> satisfies n (Pall d parity zero_k) M -> allowed d parity zero_k X (Z.of_nat b).
Proof.
  intros F Hb Sa. destruct (sat_all d Wd parity zero_k q M (fields_dim _ _ _ _ F) Sa) as (Sp & Sz).
  assert (Fx : feq d (pcol d parity (fld X (Z.of_nat b))) (fld X (Z.of_nat b))).
  { apply (fixed_col d (pcol d parity) b 1 q X M b); auto; [apply pcol_sym; exact Wd|lia|lia|]. apply satisfies_slice. exact Sp. }
  split; [|split].
  - intros Wz x y z c Hx Hy Hz Hc. pose proof (z_of_p d Wd parity _ Fx) as Q. unfold zcol, maybe in Q. destruct (Z.eqb_spec (wanted parity 0 1) 0); [contradiction|].
    specialize (Q ((x * d_ny d + y) * d_nz d + z) c (grid_in d x y z Hx Hy Hz) Hc). apply mixed_flip in Q; [|apply pm_R; exact Wz]. rewrite (zmir_at d) in Q by exact Hz.
    unfold zflip, amp. unfold fld, entC in Q. rewrite !(Z.mul_comm 2) in Q. exact Q.
  - intros Wy x y z c Hx Hy Hz Hc. pose proof (y_of_p d Wd parity _ Fx) as Q. unfold ycol, maybe in Q. destruct (Z.eqb_spec (wanted parity 2 3) 0); [contradiction|].
    specialize (Q ((x * d_ny d + y) * d_nz d + z) c (grid_in d x y z Hx Hy Hz) Hc).
    apply mixed_flip in Q; [|rewrite opp_IZR; destruct (pm_R parity 2 3 Wy) as [-> | ->]; [right|left]; lra]. rewrite (ymir_at d) in Q by assumption.
    unfold yflip, amp. unfold fld, entC in Q. rewrite !(Z.mul_comm 2) in Q. revert Q. rewrite opp_IZR.
    match goal with |- Cscal _ ?u = Cscal _ ?v -> _ => generalize u v end. intros u v Q. pose proof (f_equal re Q) as Q1. pose proof (f_equal im Q) as Q2. destruct (c =? 0); apply C_eq; csimp; lra.
  - intros Z0 r Hr. specialize (Sz Z0). rewrite <- (nccol_mat d) in Sz.
    pose proof (fixed_col d nccol b 1 q X M b (nccol_sym d) F ltac:(lia) ltac:(lia) (satisfies_slice _ _ _ _ _ Sz) 0 r ltac:(pose proof (N_pos d Wd); lia) Hr) as Q. unfold nccol, fld in Q. cbn [Z.eqb Z.mul Z.add] in Q. symmetry. exact Q.
Qed.
Lemma Pall_idem parity zero_k : mmul n (Pall d parity zero_k) (Pall d parity zero_k) = Pall d parity zero_k.
Proof.
  unfold Pall. destruct zero_k; [|apply Pp_idem; exact Wd]. rewrite mmul_assoc, <- (mmul_assoc n n (no_const n)), <- (Pp_nc d Wd), (mmul_assoc n n (Pp d parity) (no_const n)), no_const_idem, <- mmul_assoc, (Pp_idem d Wd). reflexivity.
Qed.
Lemma Pall_dim parity zero_k : mdim n n (Pall d parity zero_k).
Proof. unfold Pall, Pp. destruct zero_k; [apply (mdim_mul n n n); [apply omat_dim|apply no_const_dim]|apply omat_dim]. Qed.

Lemma emat_any p M : mdim n p M -> S_Eig.fields n p (emat_of n p M) M.
Proof.
  intros D. destruct p as [|p]; [|apply emat_of_fields; [lia|exact D]]. split; [reflexivity|]. split; [reflexivity|]. split.
  - split; [cbn; lia|]. split; [cbn; lia|]. cbn. rewrite Nat.mul_0_r. cbn. lia.
  - split; [rewrite Nat.mul_0_r; lia|]. split; [exact D|]. intros i j _ Hj. lia.
Qed.
(** From the matrices to the fields. *)
Lemma modes_blocks parity zero_k m Mv lam : modes n m (Pall d parity zero_k) (omat d (opcol d)) (omat d (mumaybe d)) Mv lam -> satisfies n (Pall d parity zero_k) Mv ->
  exists MV, all_modes d m parity zero_k (emat_of n m Mv) MV lam /\ modes_allowed d m parity zero_k (emat_of n m Mv).
Proof.
  intros (DV & FB & FA & Al & Cp) Sv. set (V := emat_of n m Mv). pose proof (emat_any m Mv DV) as Fv. fold V in Fv.
  assert (FO : S_Op.fields d V) by apply (to_op d Wd m V Mv Fv). destruct (muinv_wide d Wd Hn V V FO FO ltac:(lia)) as (MV & E & _).
  exists MV. split; [|intros i Hi; apply (sat_allowed parity zero_k m V Mv i Fv Hi Sv)]. constructor.
  - split; [exact FO|reflexivity].
  - exact E.
  - intros i j Hi Hj. rewrite (dot_form d Wd Hn m V MV Mv i j Fv E Hi Hj), FB. unfold mid, delta. destruct (Nat.ltb_spec i m); [reflexivity|lia].
  - intros i j Hi Hj. rewrite (curl_form d Wd Hn m V MV Mv i j Ho Fv E Hi Hj), FA. unfold mdiag, delta. destruct (Nat.ltb_spec i m); [|lia]. cbn [andb]. destruct (i =? j)%nat; ring.
  - exact Al.
  - intros X b FX Hb Ax r Hr. set (q := Z.to_nat (ep X)). assert (PX : ep X = Z.of_nat q) by (unfold q; lia). destruct (of_op d Wd q X FX PX) as (Mx & Fx).
    pose proof (rows_Z d Wd) as Rz. set (j := Z.to_nat b). assert (Eb : b = Z.of_nat j) by (unfold j; lia). rewrite Eb in *. clear Eb. assert (Hj : (j < q)%nat) by lia.
    assert (Dx : mdim n q Mx) by apply (fields_dim _ _ _ _ Fx).
    pose proof (Cp 1%nat (slice j 1 Mx) (slice_dim n q j 1 Mx Dx) (allowed_sat parity zero_k q X Mx j Fx Hj Ax)) as EM.
    set (i := Z.to_nat r). assert (Er : r = Z.of_nat i) by (unfold i; lia). rewrite Er. assert (Hi : (i < n)%nat) by lia.
    rewrite (fields_at n q X Mx i j Fx Hi Hj). apply (f_equal (fun F : mat => F i 0%nat)) in EM. unfold slice at 1 in EM. cbn [Nat.ltb Nat.leb] in EM. rewrite Nat.add_0_r in EM. rewrite EM.
    unfold mmul at 1. apply csum_ext. intros k Hk. rewrite (fields_at n m V Mv i k Fv Hi Hk). f_equal. rewrite (dot_form2 d Wd Hn m q V MV Mv X Mx k j Fv E Fx Hk Hj).
    unfold S_Eig.form, mmul. apply csum_ext. intros x Hx. f_equal. apply csum_ext. intros y Hy. unfold slice. cbn [Nat.ltb Nat.leb]. rewrite Nat.add_0_r. reflexivity.
Qed.
Lemma modes_fields parity zero_k m Mv lam : modes n m (Pall d parity zero_k) (omat d (opcol d)) (omat d (mumaybe d)) Mv lam -> satisfies n (Pall d parity zero_k) Mv ->
  exact_bands d m parity zero_k lam.
Proof. intros Md Sv. destruct (modes_blocks parity zero_k m Mv lam Md Sv) as (MV & H). exists (emat_of n m Mv), MV. exact H. Qed.
Lemma bands_exist parity zero_k : sound_mu d -> exists m lam, exact_bands d m parity zero_k lam.
Proof.
  intros Sm. destruct (modes_exist n (Pall d parity zero_k) (omat d (opcol d)) (omat d (mumaybe d)) (omat_dim d _) (omat_dim d _) (Pall_dim parity zero_k)
    (omat_herm d _ (opcol_sym d)) (omat_herm d _ (mumaybe_sym d)) (Pall_idem parity zero_k) (metric_posdef Sm)) as (m & V & lam & _ & (_ & SV & _) & Md).
  exists m, lam. apply (modes_fields parity zero_k m V lam Md SV).
Qed.
End D.
