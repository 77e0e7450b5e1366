(** The bands found with the Maxwell operator. *)
From Coq Require Import List ZArith Reals Bool Arith Lia Lra.
From Verif Require Import Base RC M_Tensor S_Tensor M_Evect S_Evect L_Evect M_Grid S_Grid L_Grid M_Lin M_Op S_Op L_Op L_Op2 L_Op3 L_Op4 L_Op5 M_Eig S_Eig L_Mat L_Eig2 M_Dav S_Dav M_Kpt S_Kpt L_Kpt1 L_Kpt2 L_Kpt3 L_Kpt4 L_Kpt5 L_Kpt6 L_Dft S_Mir L_Mir1 L_Mir2 M_Mx S_Mx L_Mx1 L_Mx2 L_Mx3.
Import ListNotations.
Local Open Scope Z_scope.
Add Ring Cring_mx4 : C_ring_theory.

Section D.
Variable d : mdata.
Hypothesis Wd : wfd d.
Hypothesis Hn : 0 < d_nfb d.
Notation N := (npts d).
Notation n := (rows d).

(** * The constraints and the permeability *)
Lemma pcol_scal parity m f : feq d (pcol d parity (fun g c => RtoC m * f g c)%C) (fun g c => RtoC m * pcol d parity f g c)%C.
Proof.
  intros g c Hg Hc. unfold pcol, ycol, zcol, maybe, mixed. destruct (wanted parity 0 1 =? 0), (wanted parity 2 3 =? 0); try reflexivity; rewrite !Cscal_mul; ring.
Qed.
Lemma nccol_scal m f : feq d (nccol (fun g c => RtoC m * f g c)%C) (fun g c => RtoC m * nccol f g c)%C.
Proof. intros g c Hg Hc. unfold nccol. destruct (g =? 0); ring. Qed.
(** An operator that commutes with the flip commutes with the projection. *)
Lemma mixed_split t s s0 f : (s0 * s0 = 1)%R -> feq d (mixed t s f) (fun g c => RtoC (/ 2) * (f g c + RtoC (s * s0) * flip t s0 f g c))%C.
Proof.
  intros S1 g c _ _. unfold mixed, flip, sgc. destruct (c =? 0); destruct (f g c) as [a b], (f (t g) c) as [u v]; apply C_eq; csimp.
  - replace s with (s * (s0 * s0))%R at 1 by (rewrite S1; ring). ring.
  - replace s with (s * (s0 * s0))%R at 1 by (rewrite S1; ring). ring.
  - replace s with (s * (s0 * s0))%R at 1 by (rewrite S1; ring). ring.
  - replace s with (s * (s0 * s0))%R at 1 by (rewrite S1; ring). ring.
Qed.
Lemma inner_mix f h u a : inner d (fun g c => RtoC (/ 2) * (f g c + RtoC a * h g c))%C u = (RtoC (/ 2) * (inner d f u + RtoC a * inner d h u))%C.
Proof.
  unfold inner. rewrite <- csum_scal, <- csum_add, <- csum_scal. apply csum_ext. intros g _. rewrite !Cconj_mul, !Cconj_add, !Cconj_mul, !Cconj_R. ring.
Qed.
Lemma mixed_commutes T t s s0 f : (s0 * s0 = 1)%R -> symmetric d T -> feq d (T (flip t s0 f)) (flip t s0 (T f)) -> feq d (mixed t s (T f)) (T (mixed t s f)).
Proof.
  intros S1 Sy Hc. apply (inner_sep d). intros u. rewrite (Sy u (mixed t s f)). rewrite (inner_ext d _ _ (T u) (T u) (mixed_split t s s0 f S1) (feq_refl _ _)).
  rewrite inner_mix. rewrite Cconj_mul, Cconj_add, Cconj_mul, !Cconj_R, <- !Sy. rewrite (inner_ext d u u _ _ (feq_refl _ _) Hc).
  rewrite (inner_conj d u (mixed t s (T f))), (inner_ext d _ _ u u (mixed_split t s s0 (T f) S1) (feq_refl _ _)), inner_mix, Cconj_mul, Cconj_add, Cconj_mul, !Cconj_R, <- !inner_conj. reflexivity.
Qed.
Lemma maybe_commutes T P s f : (s <> 0 -> feq d (P (T f)) (T (P f))) -> feq d (maybe s P (T f)) (T (maybe s P f)).
Proof. intros H. unfold maybe. destruct (Z.eqb_spec s 0); [apply feq_refl|auto]. Qed.
Lemma one1 : (1 * 1 = 1)%R. Proof. lra. Qed.
Lemma mone1 : (-1 * -1 = 1)%R. Proof. lra. Qed.
Lemma pcol_mu parity zero_k f : orthonormal_basis d -> mu_fits d parity zero_k -> feq d (pcol d parity (mumaybe d f)) (mumaybe d (pcol d parity f)).
Proof.
  intros Ho [E|[(mu & m & E & U)|[(E1 & E2 & _)|(_ & k & G1 & G2 & G3 & Md & Hz & Hy)]]].
  - unfold mumaybe. rewrite E. apply feq_refl.
  - unfold mumaybe. rewrite E. eapply feq_trans; [apply (pcol_ext d Wd), (mucol_iso d Wd mu m f Ho U)|]. eapply feq_trans; [apply pcol_scal|]. apply feq_sym, mucol_iso; assumption.
  - unfold pcol, ycol, zcol, maybe. rewrite E1, E2. apply feq_refl.
  - unfold pcol. eapply feq_trans.
    + apply (ycol_ext d Wd). apply (maybe_commutes (mumaybe d) (mixed (zmir d) (IZR (wanted parity 0 1))) (wanted parity 0 1) f). intros W. destruct (Hz W) as (Pl & N1 & St).
      apply (mixed_commutes (mumaybe d) (zmir d) _ 1); [apply one1|apply mumaybe_sym|].
      apply (mumaybe_flip d (zmir d) zsgn 1 (zmir_in d Wd) (zmir_inv d Wd) (csum_zmir d Wd) (zkern d Wd) one1); [apply (zall d Wd k G1 G2 G3); assumption|]. intros mu E. apply ztsym; auto.
    + apply (maybe_commutes (mumaybe d) (mixed (ymir d) (IZR (- wanted parity 2 3))) (wanted parity 2 3)). intros W. destruct (Hy W) as (Pl & N1 & St).
      apply (mixed_commutes (mumaybe d) (ymir d) _ (-1)); [apply mone1|apply mumaybe_sym|].
      apply (mumaybe_flip d (ymir d) ysgn (-1) (ymir_in d Wd) (ymir_inv d Wd) (csum_ymir d Wd) (ykern d Wd) mone1); [apply (yall d Wd k G1 G2 G3); assumption|]. intros mu E. apply ytsym; auto.
Qed.
Lemma nccol_mu parity f : orthonormal_basis d -> mu_fits d parity true -> feq d (nccol (mumaybe d f)) (mumaybe d (nccol f)).
Proof.
  intros Ho [E|[(mu & m & E & U)|[(E1 & E2 & E3)|(E3 & _)]]]; [| |discriminate|discriminate].
  - unfold mumaybe. rewrite E. apply feq_refl.
  - unfold mumaybe. rewrite E. eapply feq_trans; [apply (nccol_ext d), (mucol_iso d Wd mu m f Ho U)|]. eapply feq_trans; [apply nccol_scal|]. apply feq_sym, mucol_iso; assumption.
Qed.

Definition Pp parity := omat d (pcol d parity).
Definition Pall parity (zero_k : bool) := if zero_k then mmul n (Pp parity) (no_const n) else Pp parity.
Lemma P_applies parity q : (1 <= q)%nat -> applies n q (mx_parity d parity) (Pp parity).
Proof. intros Hq. apply col_applies; auto; [apply pcol_sym; exact Wd|]. intros X FX PX. destruct (parity_cols d Wd parity q X FX PX) as (Y & E & FY & PY & _ & H). exists Y. auto. Qed.
Lemma Pp_idem parity : mmul n (Pp parity) (Pp parity) = Pp parity.
Proof. unfold Pp. rewrite (omat_mul d) by (apply pcol_sym; exact Wd). apply omat_ext. intros f. apply pcol_idem. exact Wd. Qed.
Lemma Pp_herm parity : hermitian (Pp parity).
Proof. apply (omat_herm d), pcol_sym; exact Wd. Qed.
Lemma Pp_nc parity : mmul n (Pp parity) (no_const n) = mmul n (no_const n) (Pp parity).
Proof.
  rewrite <- (nccol_mat d). unfold Pp. rewrite (omat_mul d (pcol d parity)) by (apply pcol_sym; exact Wd). rewrite (omat_mul d nccol) by apply nccol_sym. apply omat_ext. intros f. apply pcol_nc. exact Wd.
Qed.
Lemma rows_2 : (2 <= n)%nat.
Proof. unfold rows. pose proof (N_pos d Wd). lia. Qed.

Lemma mx_kpoint num parity zero_k : orthonormal_basis d -> mu_fits d parity zero_k ->
  kpoint_ok n num (mx_parity d parity) zero_k (mx_muinv d) (omat d (opcol d)) (omat d (mumaybe d)) (Pall parity zero_k).
Proof.
  intros Ho Mf. unfold Pall. apply kpoint_ok_of; try (apply omat_dim); auto.
  - apply (omat_herm d), opcol_sym.
  - apply (omat_herm d), mumaybe_sym.
  - intros q Hq. apply P_applies. lia.
  - apply Pp_idem.
  - apply Pp_herm.
  - unfold Pp. rewrite (omat_mul d (pcol d parity)) by (apply pcol_sym; exact Wd). rewrite (omat_mul d (mumaybe d)) by apply mumaybe_sym. apply omat_ext. intros f. apply (pcol_mu parity zero_k); assumption.
  - intros ->. split; [apply rows_2|]. split; [apply Pp_nc|]. rewrite <- (nccol_mat d). rewrite (omat_mul d nccol) by apply nccol_sym. rewrite (omat_mul d (mumaybe d)) by apply mumaybe_sym. apply omat_ext. intros f. apply (nccol_mu parity); assumption.
  - intros m p H M b N0 Hp Hm FH Fb. pose proof FH as (_ & PH & _). pose proof Fb as (_ & Pb & _).
    destruct (muinv_wide d Wd Hn H b (to_op d Wd _ _ _ FH) (to_op d Wd _ _ _ Fb) ltac:(lia)) as (b' & E & F' & P' & A' & V). exists b'. split; [exact E|]. split; [exact A'|].
    apply (col_fields d Wd (mumaybe d) p m H M b'); auto; [apply mumaybe_sym|lia|congruence|]. intros i Hi. apply V. lia.
Qed.

Lemma of_op q X : S_Op.fields d X -> ep X = Z.of_nat q -> exists M, S_Eig.fields n q X M.
Proof.
  intros (W & En) Ep. exists (fun i j => if ((i <? n) && (j <? q))%nat then entC X (Z.of_nat i) (Z.of_nat j) else C0).
  apply fields_of; [exact W|rewrite En; symmetry; apply (rows_Z d Wd)|exact Ep| |].
  - intros i j H. destruct (Nat.ltb_spec i n), (Nat.ltb_spec j q); cbn [andb]; try reflexivity; lia.
  - intros i j Hi Hj. destruct (Nat.ltb_spec i n), (Nat.ltb_spec j q); try lia. reflexivity.
Qed.

Lemma mx_kcall num bs b0 zero_k same parity fuel S2 ev H Hblock BY : mx_call d num bs b0 zero_k same parity fuel S2 ev H Hblock BY ->
  kcall n num bs b0 (mx_parity d parity) zero_k same (mx_muinv d) (omat d (opcol d)) (omat d (mumaybe d)) (Pall parity zero_k) parity fuel S2 ev H Hblock BY.
Proof.
  intros (_ & Ho & _ & Mf & FH & PH & AH & Hbs & (WB & NB) & AB & Sm & HBY & L2 & Lev & Eb & Hf). split; [apply mx_kpoint; assumption|]. split; [|split; [exact Eb|split; [intros _; apply rows_2|exact Hf]]].
  split; [apply (of_op num H FH PH)|]. split; [exact AH|]. split; [exact Hbs|]. split; [exact WB|]. split; [rewrite NB; symmetry; apply (rows_Z d Wd)|]. split; [exact AB|]. split; [exact Sm|]. split; [|split; assumption].
  destruct BY as [b|].
  - destruct HBY as ((Wb & Nb) & Ab). split; [exact Wb|]. split; [rewrite Nb; symmetry; apply (rows_Z d Wd)|exact Ab].
  - destruct HBY as [->|E]; [left; reflexivity|right]. apply (omat_id d). intros f. unfold mumaybe. rewrite E. apply feq_refl.
Qed.

Lemma mx_solver_ok bs potr heev simple : lapack_ok bs potr heev -> pre_fits simple d -> forall q, (1 <= q <= bs)%nat ->
  solver_ok n q potr heev (mx_A d) (mx_B d) (Some (mx_K simple d)) None false (omat d (opcol d)) (omat d (mumaybe d)) (mid n).
Proof.
  intros La Pf q Hq. destruct (La q Hq) as (Lp & Lh). constructor; auto; try apply omat_dim; try lia.
  - apply (omat_herm d), opcol_sym.
  - apply (omat_herm d), mumaybe_sym.
  - apply A_applies; auto. lia.
  - apply B_applies; auto. lia.
  - intros G Y S MG MY MS FG _ FS. apply (K_total d Wd Hn simple q Pf ltac:(lia) G Y S MG MS FG FS).
  - reflexivity.
  - apply (mid_l n n), mdim_id.
Qed.
Lemma mx_dav_call bs nb potr heev simple e W : davidson_arrays d bs nb potr heev e W -> pre_fits simple d ->
  dav_call n bs nb potr heev (mx_A d) (Some (mx_KI simple d)) (omat d (opcol d)) e W.
Proof.
  intros (Hnb & Le & Q) Pf q Hq. destruct (Q q Hq) as (Lp & Lh & Enb & HW). split; [|split; [exact Enb|split; [exact Hnb|split; [lia|]]]].
  - constructor; auto; try apply omat_dim; try lia.
    + apply (omat_herm d), opcol_sym.
    + apply A_applies; auto. lia.
    + intros G Y e' MG MY FG _ _. apply (KI_total d Wd Hn simple q Pf G Y e' MG FG).
    + reflexivity.
    + apply (mid_l n n), mdim_id.
  - intros w Hw. destruct (HW w Hw) as (Fw & Pw). apply (of_op q w Fw Pw).
Qed.

(** * What the matrices say about the fields *)
Lemma fixed_col T b0 q num H M i : symmetric d T -> S_Eig.fields n num H M -> (b0 <= i < b0 + q)%nat -> (b0 + q <= num)%nat -> satisfies n (omat d T) (slice b0 q M) ->
  feq d (T (fld H (Z.of_nat i))) (fld H (Z.of_nat i)).
Proof.
  intros Sy F Hi Hq Sa g c Hg Hc. destruct (row_of d g c Hg Hc) as (Hr & Eg & Ec). rewrite (omat_col d T _ g c Sy Hg Hc). set (r := Z.to_nat (2 * g + c)) in *.
  unfold satisfies in Sa. pose proof (f_equal (fun m => m r (i - b0)%nat) Sa) as Q. cbv beta in Q. unfold mmul, slice in Q. destruct (Nat.ltb_spec (i - b0) q); [|lia]. replace (b0 + (i - b0))%nat with i in Q by lia.
  rewrite <- Eg, <- Ec at 1. rewrite (fld_M d num H M i r F Hr ltac:(lia)). rewrite <- Q. apply csum_ext. intros l Hl. rewrite (fld_M d num H M i l F Hl ltac:(lia)). reflexivity.
Qed.
Lemma sat_all parity zero_k q M : mdim n q M -> satisfies n (Pall parity zero_k) M -> satisfies n (Pp parity) M /\ (zero_k = true -> satisfies n (no_const n) M).
Proof.
  intros DM. unfold Pall, satisfies. destruct zero_k; [|intros Sa; split; [exact Sa|discriminate]]. intros Sa. split; [|intros _].
  - transitivity (mmul n (Pp parity) (mmul n (mmul n (Pp parity) (no_const n)) M)); [rewrite Sa; reflexivity|]. rewrite <- !mmul_assoc, Pp_idem. rewrite mmul_assoc in Sa. rewrite mmul_assoc. exact Sa.
  - transitivity (mmul n (no_const n) (mmul n (mmul n (Pp parity) (no_const n)) M)); [rewrite Sa; reflexivity|]. rewrite Pp_nc, <- !mmul_assoc, no_const_idem, <- Pp_nc. exact Sa.
Qed.
Lemma z_of_p parity f : feq d (pcol d parity f) f -> feq d (zcol d parity f) f.
Proof.
  intros H. eapply feq_trans; [apply (zcol_ext d Wd), feq_sym, H|]. eapply feq_trans; [|exact H]. unfold pcol. eapply feq_trans; [apply feq_sym, (yz_comm d Wd)|]. apply (ycol_ext d Wd), (zcol_idem d Wd).
Qed.
Lemma y_of_p parity f : feq d (pcol d parity f) f -> feq d (ycol d parity f) f.
Proof.
  intros H. eapply feq_trans; [apply (ycol_ext d Wd), feq_sym, H|]. eapply feq_trans; [|exact H]. apply (ycol_idem d Wd).
Qed.
Lemma mixed_flip s f t g c : s = 1%R \/ s = (-1)%R -> (mixed t s f g c = f g c) -> Cscal (if c =? 0 then 1 else -1)%R (f (t g) c) = Cscal s (f g c).
Proof.
  intros Hs E. unfold mixed in E. revert E. generalize (f g c) (f (t g) c). intros u v E.
  assert (Er : re (Cscal (/ 2) (u + Cscal (if c =? 0 then s else (- s)%R) v)) = re u) by (rewrite E; reflexivity).
  assert (Ei : im (Cscal (/ 2) (u + Cscal (if c =? 0 then s else (- s)%R) v)) = im u) by (rewrite E; reflexivity).
  destruct (c =? 0), Hs as [-> | ->]; apply C_eq; csimp; lra.
Qed.
(** All that the result says. *)
Lemma mx_result num bs b0 zero_k negative_ok parity H f M w : orthonormal_basis d -> (b0 <= num)%nat -> bands n num b0 negative_ok parity H f M w ->
  satisfies n (Pall parity zero_k) (slice b0 (num - b0) M) -> S_Eig.form n (omat d (mumaybe d)) (slice b0 (num - b0) M) (slice b0 (num - b0) M) = mid (num - b0) ->
  (forall i j, (b0 <= i < num)%nat -> (b0 <= j < num)%nat -> same_block bs b0 i j -> S_Eig.form n (omat d (opcol d)) M M i j = (if (i =? j)%nat then RtoC (w i) else C0) /\ ((i <= j)%nat -> (w i <= w j)%R)) ->
  exists MH, mx_muinv d H H = Val MH /\ mx_bands d num bs b0 zero_k negative_ok parity H MH f w.
Proof.
  intros Ho Hb (F & Lf & Fr & Cn) Sa Or Bl. pose proof (to_op d Wd _ _ _ F) as FO. pose proof F as (_ & PH & _). destruct (muinv_wide d Wd Hn H H FO FO ltac:(lia)) as (MH & E & FM & PM & _ & V). exists MH. split; [exact E|].
  assert (DS : mdim n (num - b0) (slice b0 (num - b0) M)) by (apply (slice_dim n num); apply (fields_dim _ _ _ _ F)).
  destruct (sat_all parity zero_k _ _ DS Sa) as (Sp & Sz).
  assert (Fx : forall i, (b0 <= i < num)%nat -> feq d (pcol d parity (fld H (Z.of_nat i))) (fld H (Z.of_nat i))).
  { intros i Hi. apply (fixed_col (pcol d parity) b0 (num - b0) num H M i); auto; [apply pcol_sym; exact Wd|lia|lia]. }
  assert (Dot : forall i j, (i < num)%nat -> (j < num)%nat -> dotl H MH (Z.of_nat i) (Z.of_nat j) = L_Op3.inner d (fld H (Z.of_nat i)) (mumaybe d (fld H (Z.of_nat j)))).
  { intros i j Hi Hj. rewrite (dotl_inner d Wd) by exact FO. apply inner_ext; [apply feq_refl|]. apply V. lia. }
  constructor.
  - repeat split; auto; try apply FO; try apply FM; lia.
  - exact Fr.
  - intros i Hi. destruct (Cn i Hi) as (W0 & Q). split; [exact W0|]. intros r Hr. rewrite <- (Z2Nat.id r) by lia. rewrite (fields_at n num H M) by (auto; try lia; rewrite <- (rows_Z d Wd) in Hr; lia). rewrite Q by (rewrite <- (rows_Z d Wd) in Hr; lia). reflexivity.
  - intros i j Hi Hj. rewrite Dot by lia. rewrite <- (form_omat d (mumaybe d) num num H M H M i j (mumaybe_sym d) F F) by lia.
    pose proof (f_equal (fun m => m (i - b0)%nat (j - b0)%nat) Or) as Q. cbv beta in Q. rewrite form_slice in Q. destruct (Nat.ltb_spec (i - b0) (num - b0)), (Nat.ltb_spec (j - b0) (num - b0)); try lia. cbn [andb] in Q.
    replace (b0 + (i - b0))%nat with i in Q by lia. replace (b0 + (j - b0))%nat with j in Q by lia. rewrite Q. unfold mid, delta. destruct (Nat.ltb_spec (i - b0) (num - b0)); [|lia]. cbn [andb]. destruct (Nat.eqb_spec (i - b0) (j - b0)), (Nat.eqb_spec i j); try lia; reflexivity.
  - intros mu Em i j Hi Hj. rewrite Dot by lia. unfold mumaybe. rewrite Em, mucol_form. apply gform_h.
  - intros Em i r Hi Hr. destruct (row_in d (Z.to_nat r) ltac:(rewrite <- (rows_Z d Wd) in Hr; lia)) as (Hg & Hc & Er). rewrite Z2Nat.id in * by lia.
    pose proof (V (Z.of_nat i) ltac:(lia) _ _ Hg Hc) as Q. unfold mumaybe in Q. rewrite Em in Q. unfold fld in Q. rewrite Er in Q. exact Q.
  - intros i j Hi Hj Sb. destruct (Bl i j Hi Hj Sb) as (Q & As). split; [|exact As]. rewrite <- gform_curl by exact Ho.
    rewrite (gform_ext d _ _ _ _ _ _ (V (Z.of_nat i) ltac:(lia)) (V (Z.of_nat j) ltac:(lia))). rewrite <- opcol_form, <- (form_omat d (opcol d) num num H M H M i j (opcol_sym d) F F) by lia. rewrite Q. unfold delta. destruct (i =? j)%nat; ring.
  - intros Wz x y z c i (Hx & Hy & Hz & Hc & Hi) Hbi. replace i with (Z.of_nat (Z.to_nat i)) by lia. set (k := Z.to_nat i) in *.
    pose proof (z_of_p parity _ (Fx k ltac:(lia))) as Q. unfold zcol, maybe in Q. destruct (Z.eqb_spec (wanted parity 0 1) 0); [contradiction|].
    specialize (Q ((x * d_ny d + y) * d_nz d + z) c (grid_in d x y z Hx Hy Hz) Hc). apply mixed_flip in Q; [|apply pm_R; exact Wz]. rewrite (zmir_at d) in Q by exact Hz.
    unfold zflip, amp. rewrite <- PH. unfold fld, entC in Q. rewrite (Z.mul_comm 2) in Q. rewrite (Z.mul_comm 2) in Q. exact Q.
  - intros Wy x y z c i (Hx & Hy & Hz & Hc & Hi) Hbi. replace i with (Z.of_nat (Z.to_nat i)) by lia. set (k := Z.to_nat i) in *.
    pose proof (y_of_p parity _ (Fx k ltac:(lia))) as Q. unfold ycol, maybe in Q. destruct (Z.eqb_spec (wanted parity 2 3) 0); [contradiction|].
    specialize (Q ((x * d_ny d + y) * d_nz d + z) c (grid_in d x y z Hx Hy Hz) Hc).
    apply mixed_flip in Q; [|rewrite opp_IZR; destruct (pm_R parity 2 3 Wy) as [-> | ->]; [right|left]; lra]. rewrite (ymir_at d) in Q by assumption.
    unfold yflip, amp. rewrite <- PH. unfold fld, entC in Q. rewrite (Z.mul_comm 2) in Q. rewrite (Z.mul_comm 2) in Q. revert Q. rewrite opp_IZR.
    generalize (gets (edata H) ((((x * d_ny d + opp (d_ny d) y) * d_nz d + z) * 2 + c) * ep H + Z.of_nat k)) (gets (edata H) ((((x * d_ny d + y) * d_nz d + z) * 2 + c) * ep H + Z.of_nat k)).
    intros u v Q. pose proof (f_equal re Q) as Q1. pose proof (f_equal im Q) as Q2. destruct (c =? 0); apply C_eq; csimp; lra.
  - intros Z0 i r Hi Hr. specialize (Sz Z0). rewrite <- nccol_mat in Sz.
    pose proof (fixed_col nccol b0 (num - b0) num H M i (nccol_sym d) F ltac:(lia) ltac:(lia) Sz 0 r ltac:(pose proof (N_pos d Wd); lia) Hr) as Q. unfold nccol, fld in Q. cbn [Z.eqb Z.mul Z.add] in Q. symmetry. exact Q.
Qed.
End D.
