(** The fields of a band and their energies. *)
From Coq Require Import List ZArith Reals Bool Lia Lra.
From Verif Require Import Base RC Loops M_Tensor S_Tensor M_Evect S_Evect L_Evect L_Evect3 M_Grid S_Grid M_Op S_Op L_Op L_Op2 L_Op3 L_Op4 L_Op5 M_Fld S_Fld L_Fld.
Import ListNotations.
Local Open Scope Z_scope.

Section D.
Variable d : mdata.
Hypothesis Wd : wfd d.
Notation N := (npts d).
Notation NN := (Z.to_nat (npts d)).

Lemma out_N : d_out d = N.
Proof. destruct Wd as (_ & _ & _ & _ & _ & _ & _ & H & _). exact H. Qed.

(** A field proportional to the one of a band in position space. *)
Definition shows (f : list C) (s : R) (asg : kdata -> C -> C -> cvec) (h : ff) : Prop :=
  3 * N <= Z.of_nat (length f) /\ forall r c, (r < NN)%nat -> (c < 3)%nat -> at_point f r c = (RtoC s * vsel c (position d asg h (Z.of_nat r)))%C.

Lemma band_ok H band : 1 <= band <= ep H -> check_band H band = Val tt.
Proof. intros Hb. unfold check_band, check. destruct (Z.leb_spec 1 band); [|lia]. destruct (Z.leb_spec band (ep H)); [reflexivity|lia]. Qed.
Lemma band_bad H band : ~ (1 <= band <= ep H) -> check_band H band = Abort.
Proof. intros Hb. unfold check_band, check. destruct (Z.leb_spec 1 band); destruct (Z.leb_spec band (ep H)); try reflexivity; lia. Qed.

Lemma one_band asg X start fft : fields d X -> 0 <= start < ep X -> 3 * N <= Z.of_nat (length fft) ->
  exists f0 f', to_cartesian asg d X start 1 fft = Val f0 /\ compute_fft 1 d f0 (1 * 3) (1 * 3) 1 = Val f' /\ length f' = length fft /\ shows f' 1 asg (fld X start).
Proof.
  intros HX Hs Hf. destruct (fwd_ok d Wd asg X start 1 fft HX ltac:(lia) ltac:(lia) ltac:(lia) ltac:(lia)) as (f0 & f' & E0 & E1 & L & A).
  exists f0, f'. split; [exact E0|]. split; [exact E1|]. split; [exact L|]. split; [rewrite L; exact Hf|].
  intros r c Hr Hc. specialize (A (Z.of_nat r) 0 ltac:(lia) ltac:(lia)). rewrite Z.mul_1_r, !Z.add_0_r in A. rewrite <- A.
  unfold at_point, arr. destruct c as [|[|[|c]]]; [| | |lia]; cbn [vsel fst snd].
  - replace (3 * Z.of_nat r + Z.of_nat 0) with (3 * Z.of_nat r) by lia. cring.
  - replace (3 * Z.of_nat r + Z.of_nat 1) with (3 * Z.of_nat r + 1) by lia. cring.
  - replace (3 * Z.of_nat r + Z.of_nat 2) with (3 * Z.of_nat r + 2) by lia. cring.
Qed.

Lemma shows_scale f asg h s : shows f 1 asg h -> exists f', scale_field (3 * d_out d) s f = Val f' /\ length f' = length f /\ shows f' s asg h.
Proof.
  intros (L & A). pose proof (N_pos d Wd). rewrite out_N. destruct (scale_field_ok (3 * N) s f ltac:(lia)) as (f' & E & L' & H1 & _).
  exists f'. split; [exact E|]. split; [exact L'|]. split; [lia|]. intros r c Hr Hc. unfold at_point. rewrite H1 by lia. fold (at_point f r c). rewrite A by assumption.
  rewrite Cscal_mul. cring.
Qed.
Lemma shows_ext f s asg h h' : shows f s asg h -> feq d h h' -> shows f s asg h'.
Proof. intros (L & A) E. split; [exact L|]. intros r c Hr Hc. rewrite A by assumption. rewrite (position_ext d asg h h') by exact E. reflexivity. Qed.

Lemma sqrt_nz V : (0 < V)%R -> sqrt V <> 0%R.
Proof. intros H. pose proof (sqrt_lt_R0 V H). lra. Qed.

Lemma bfield_ok Vol H band fft : (0 < Vol)%R -> fields d H -> 1 <= band <= ep H -> 3 * N <= Z.of_nat (length fft) ->
  exists f, get_bfield d Vol H band fft = Val f /\ length f = length fft /\ shows f (1 / sqrt Vol) assign_t2c (fld H (band - 1)).
Proof.
  intros HV HH Hb Hf. unfold get_bfield. rewrite band_ok by exact Hb. cbn [bind]. unfold h_from_H. rewrite range_ok by lia. cbn [bind].
  destruct (one_band assign_t2c H (band - 1) fft HH ltac:(lia) Hf) as (f0 & f1 & E0 & E1 & L1 & A1). rewrite E0. cbn [bind]. rewrite E1. cbn [bind].
  rewrite fdiv_nz by (apply sqrt_nz; exact HV). cbn [bind]. destruct (shows_scale f1 _ _ (1 / sqrt Vol) A1) as (f & E & L & A). exists f. split; [exact E|]. split; [congruence|exact A].
Qed.

(** H of the band in a matrix, with or without permeability. *)
Lemma workspace_band H W0 band fft : fields d H -> 1 <= band <= ep H -> workspace d W0 fft -> d_mu_inv d <> None ->
  exists W' f', H_from_B d false H W0 (band - 1) 0 1 fft = Val (W', f') /\ length f' = length fft /\ fields d W' /\ ep W' = 1 /\
    feq d (fld W' 0) (mumaybe d (fld H (band - 1))).
Proof.
  intros HH Hb (FW & PW & Hf) Hmu. unfold mumaybe. destruct (d_mu_inv d) as [mu|] eqn:Emu; [|contradiction].
  destruct (H_from_B_mu d Wd mu false H W0 (band - 1) 0 1 fft Emu HH FW ltac:(lia) ltac:(lia) ltac:(lia) ltac:(lia) ltac:(lia) ltac:(lia)) as (W' & f' & E & L & F & P & _ & Q & _).
  exists W', f'. split; [exact E|]. split; [exact L|]. split; [exact F|]. split; [congruence|]. specialize (Q 0 ltac:(lia)). rewrite !Z.add_0_r in Q. exact Q.
Qed.

Lemma hfield_ok Vol H W0 band fft : (0 < Vol)%R -> fields d H -> 1 <= band <= ep H -> workspace d W0 fft ->
  exists f, get_hfield d Vol H W0 band fft = Val f /\ length f = length fft /\ shows f (1 / sqrt Vol) assign_t2c (mumaybe d (fld H (band - 1))).
Proof.
  intros HV HH Hb WS. pose proof WS as (FW & PW & Hf). unfold get_hfield. rewrite band_ok by exact Hb. cbn [bind].
  assert (K : exists f1, (match d_mu_inv d with
    | None => h_from_H d H (band - 1) 1 fft
    | Some _ => let! s := H_from_B d false H W0 (band - 1) 0 1 fft in h_from_H d (fst s) 0 1 (snd s) end) = Val f1 /\ length f1 = length fft /\ shows f1 1 assign_t2c (mumaybe d (fld H (band - 1)))).
  { destruct (d_mu_inv d) as [mu|] eqn:Emu.
    - destruct (workspace_band H W0 band fft HH Hb WS) as (W' & f' & E & L & F & P & Q); [congruence|]. rewrite E. cbn [bind fst snd]. unfold h_from_H. rewrite range_ok by lia. cbn [bind].
      destruct (one_band assign_t2c W' 0 f' F ltac:(lia) ltac:(lia)) as (f0 & f1 & E0 & E1 & L1 & A1). rewrite E0. cbn [bind]. exists f1. split; [exact E1|]. split; [congruence|].
      exact (shows_ext _ _ _ _ _ A1 Q).
    - unfold h_from_H. rewrite range_ok by lia. cbn [bind]. destruct (one_band assign_t2c H (band - 1) fft HH ltac:(lia) Hf) as (f0 & f1 & E0 & E1 & L1 & A1).
      rewrite E0. cbn [bind]. exists f1. split; [exact E1|]. split; [exact L1|]. unfold mumaybe. rewrite Emu. exact A1. }
  destruct K as (f1 & E1 & L1 & A1). rewrite E1. cbn [bind]. rewrite fdiv_nz by (apply sqrt_nz; exact HV). cbn [bind].
  destruct (shows_scale f1 _ _ (1 / sqrt Vol) A1) as (f & E & L & A). exists f. split; [exact E|]. split; [congruence|exact A].
Qed.

Definition dscale (Vol w : R) : R := ((if Reqb w 0 then -1 else -1 / w) / sqrt Vol)%R.
Lemma dfield_ok Vol freqs H W0 band fft w : (0 < Vol)%R -> fields d H -> 1 <= band <= ep H -> workspace d W0 fft -> rd freqs (band - 1) = Val w ->
  exists f, get_dfield d Vol freqs H W0 band fft = Val f /\ length f = length fft /\ shows f (dscale Vol w) assign_cross_t2c (mumaybe d (fld H (band - 1))).
Proof.
  intros HV HH Hb WS Ew. pose proof WS as (FW & PW & Hf). unfold get_dfield. rewrite band_ok by exact Hb. cbn [bind].
  assert (K : exists f1, (match d_mu_inv d with
    | None => d_from_H d H (band - 1) 1 fft
    | Some _ => let! s := H_from_B d false H W0 (band - 1) 0 1 fft in d_from_H d (fst s) 0 1 (snd s) end) = Val f1 /\ length f1 = length fft /\ shows f1 1 assign_cross_t2c (mumaybe d (fld H (band - 1)))).
  { destruct (d_mu_inv d) as [mu|] eqn:Emu.
    - destruct (workspace_band H W0 band fft HH Hb WS) as (W' & f' & E & L & F & P & Q); [congruence|]. rewrite E. cbn [bind fst snd]. unfold d_from_H. rewrite range_ok by lia. cbn [bind].
      destruct (one_band assign_cross_t2c W' 0 f' F ltac:(lia) ltac:(lia)) as (f0 & f1 & E0 & E1 & L1 & A1). rewrite E0. cbn [bind]. exists f1. split; [exact E1|]. split; [congruence|].
      exact (shows_ext _ _ _ _ _ A1 Q).
    - unfold d_from_H. rewrite range_ok by lia. cbn [bind]. destruct (one_band assign_cross_t2c H (band - 1) fft HH ltac:(lia) Hf) as (f0 & f1 & E0 & E1 & L1 & A1).
      rewrite E0. cbn [bind]. exists f1. split; [exact E1|]. split; [exact L1|]. unfold mumaybe. rewrite Emu. exact A1. }
  destruct K as (f1 & E1 & L1 & A1). rewrite E1. cbn [bind]. rewrite Ew. cbn [bind].
  assert (S1 : (if negb (Reqb w 0) then fdiv (-1) w else Val (-1)%R) = Val (if Reqb w 0 then -1 else -1 / w)%R).
  { destruct (Reqb_spec w 0) as [|Nw]; cbn [negb]; [reflexivity|]. rewrite fdiv_nz by exact Nw. reflexivity. }
  rewrite S1. cbn [bind]. rewrite fdiv_nz by (apply sqrt_nz; exact HV). cbn [bind].
  destruct (shows_scale f1 _ _ (dscale Vol w) A1) as (f & E & L & A). exists f. split; [exact E|]. split; [congruence|exact A].
Qed.

Lemma efield_ok Vol freqs H W0 band fft w : (0 < Vol)%R -> fields d H -> 1 <= band <= ep H -> workspace d W0 fft -> rd freqs (band - 1) = Val w ->
  exists f e, get_dfield d Vol freqs H W0 band fft = Val f /\ get_efield d Vol freqs H W0 band fft = Val e /\ length e = length fft /\
    forall r c, (r < NN)%nat -> (c < 3)%nat -> at_point e r c = conjugate (sym_at (d_eps_inv d) r) (at_point f r) c.
Proof.
  intros HV HH Hb WS Ew. pose proof WS as (FW & PW & Hf). destruct (dfield_ok Vol freqs H W0 band fft w HV HH Hb WS Ew) as (f & E & L & _). unfold get_efield. rewrite E. cbn [bind].
  destruct (e_mid d Wd (d_eps_inv d) 1 (eps_len d Wd) ltac:(lia) f ltac:(lia)) as (e & Ee & Le & A). exists f, e. split; [reflexivity|]. split; [exact Ee|]. split; [congruence|].
  intros r c Hr Hc. specialize (A (Z.of_nat r) 0 ltac:(lia) ltac:(lia)). rewrite Z.mul_1_r, !Z.add_0_r, Nat2Z.id in A. unfold arr in A.
  assert (X : forall g (c : nat), at_point g r c = gets g (3 * Z.of_nat r + Z.of_nat c)) by reflexivity.
  rewrite sym_vec in A. cbv zeta in A. injection A as A0 A1 A2.
  assert (Y : forall k, conjugate (sym_at (d_eps_inv d) r) (at_point f r) k = conjugate (sym_at (d_eps_inv d) r)
     (fun i => match i with 0%nat => gets f (3 * Z.of_nat r) | 1%nat => gets f (3 * Z.of_nat r + 1) | _ => gets f (3 * Z.of_nat r + 2) end) k).
  { intros k. apply conjugate_ext. intros [|[|[|i]]] Hi; try lia; unfold at_point; f_equal; lia. }
  rewrite Y, X. destruct c as [|[|[|c]]]; [| | |lia].
  - rewrite Z.add_0_r. exact A0.
  - exact A1.
  - exact A2.
Qed.

Lemma quad_scale V s x y : (forall i, (i < 3)%nat -> x i = (RtoC s * y i)%C) -> quad V x = (RtoC (s * s) * quad V y)%C.
Proof.
  intros H. unfold quad. rewrite <- csum_scal. apply csum_ext. intros i Hi. rewrite <- csum_scal. apply csum_ext. intros j Hj. rewrite !H by assumption.
  rewrite Cconj_mul, Cconj_R, RtoC_mul. ring.
Qed.

Lemma shows_stored f s asg h : shows f s asg h -> stored d f.
Proof.
  intros (L & _). destruct Wd as (_ & _ & _ & _ & _ & _ & _ & Ho & _ & Le & Lm). pose proof (N_pos d Wd). unfold stored. rewrite Ho. split; [lia|]. split; [lia|]. split; [exact Le|exact Lm].
Qed.

(** The energy is a form. *)
Lemma energy_form t f s asg h (tens : list sym) : shows f s asg h -> (forall r, (r < NN)%nat -> medium t d r = sym_at tens r) ->
  wsum once NN (density t d f) = (s * s * (mN d * re (gform d asg tens h h)))%R.
Proof.
  intros (L & A) M. unfold wsum, once. rewrite (rsum_ext NN _ (fun r => s * s * re (form (sym_at tens r) (fun i => vsel i (position d asg h (Z.of_nat r))) (fun i => vsel i (position d asg h (Z.of_nat r)))))%R).
  - rewrite rsum_scal. f_equal. unfold gform. pose proof (N_nz d Wd) as Nz.
    assert (Q : forall z : C, re (RtoC (/ mN d) * z)%C = (/ mN d * re z)%R) by (intros z; csimp; ring).
    rewrite Q, csum_re. field. exact Nz.
  - intros r Hr. rewrite Rmult_1_l. unfold density. rewrite M by exact Hr.
    rewrite (quad_scale _ s _ (fun i => vsel i (position d asg h (Z.of_nat r)))) by (intros i Hi; apply A; assumption).
    rewrite form_quad. csimp. ring.
Qed.

Lemma total_energy t f s asg h tens Vol : (0 < Vol)%R -> shows f s asg h -> (forall r, (r < NN)%nat -> medium t d r = sym_at tens r) ->
  exists mem fr, compute_field_energy t d once Vol (mN d) (flat f) = Val (mem, (s * s * Vol * re (gform d asg tens h h))%R :: fr) /\
    length fr = 6%nat /\ (wsum once NN (density t d f) <> 0%R -> fold_right Rplus 0%R fr = 1%R) /\
    forall i, 0 <= i < N -> rd mem i = Val (density t d f (Z.to_nat i)).
Proof.
  intros HV A M. unfold compute_field_energy. destruct (energy_internal_ok t d once f (shows_stored _ _ _ _ A)) as (mem & E & _ & Hm). rewrite E. cbn [bind].
  pose proof (N_nz d Wd) as Nz. rewrite fdiv_nz by exact Nz. cbn [bind]. rewrite out_N in *. set (T := wsum once NN (density t d f)) in *.
  exists mem, (map (fun c => c / (if Reqb T 0 then 1 else T))%R (sixsums once t d f NN)). split.
  - f_equal. f_equal. f_equal. unfold T. rewrite (energy_form t f s asg h tens A M). field. exact Nz.
  - split; [reflexivity|]. split; [|exact Hm]. intros HT. destruct (Reqb_spec T 0) as [|_]; [contradiction|].
    assert (G : forall l, fold_right Rplus 0%R (map (fun c => c / T)%R l) = (fold_right Rplus 0 l / T)%R).
    { induction l as [|a l IH]; cbn [map fold_right]; [unfold Rdiv; ring|]. rewrite IH. field. exact HT. }
    rewrite G, six_total. fold T. field. exact HT.
Qed.
End D.

Lemma iso_list d r : wfd d -> (r < Z.to_nat (npts d))%nat -> sym_at (repeat (iso 1) (Z.to_nat (npts d))) r = iso 1.
Proof.
  intros Wd H. unfold sym_at. assert (G : forall n k, (k < n)%nat -> nth k (repeat (iso 1) n) sym0 = iso 1).
  { induction n as [|n IH]; intros k Hk; [lia|]. destruct k as [|k]; [reflexivity|]. cbn [repeat nth]. apply IH. lia. }
  apply G. exact H.
Qed.
Lemma inner_iso d f : wfd d -> orthonormal_basis d -> inner d f f = gform d assign_t2c (repeat (iso 1) (Z.to_nat (npts d))) f f.
Proof.
  intros Wd Ho. rewrite <- (mucol_form d). symmetry.
  assert (U : uniform d (repeat (iso 1) (Z.to_nat (npts d))) 1) by (intros r Hr; apply iso_list; assumption).
  apply (inner_ext d); [apply feq_refl|]. eapply feq_trans; [apply (mucol_iso d Wd _ 1 f Ho U)|]. intros g c Hg Hc. cring.
Qed.

Lemma b_energy fuel d Vol H out ft MH g band t f : wfd d -> orthonormal_basis d -> (0 < Vol)%R -> ready fuel d H out ft -> muinv_operator fuel d H out ft = Some (Val (MH, g)) ->
  1 <= band <= ep H -> (t = FB \/ (t = FOther /\ d_mu_inv d = None)) ->
  shows d f (1 / sqrt Vol) assign_t2c (fld H (band - 1)) ->
  exists mem fr, compute_field_energy t d once Vol (mN d) (flat f) = Val (mem, re (dotl H MH (band - 1) (band - 1)) :: fr) /\
    length fr = 6%nat /\ (wsum once (Z.to_nat (npts d)) (density t d f) <> 0%R -> fold_right Rplus 0%R fr = 1%R) /\
    forall i, 0 <= i < npts d -> rd mem i = Val (density t d f (Z.to_nat i)).
Proof.
  intros Wd Ho HV Rd E Hb Ht A.
  rewrite (mu_dot fuel d H H out ft MH g (band - 1) (band - 1) Wd (proj1 Rd) Rd E ltac:(lia)).
  set (T := match d_mu_inv d with Some mu => mu | None => repeat (iso 1) (Z.to_nat (npts d)) end).
  assert (M : forall r, (r < Z.to_nat (npts d))%nat -> medium t d r = sym_at T r).
  { intros r Hr. unfold T. destruct Ht as [->|(-> & Emu)]; unfold medium.
    - destruct (d_mu_inv d); [reflexivity|]. symmetry. apply iso_list; assumption.
    - rewrite Emu. symmetry. apply iso_list; assumption. }
  destruct (total_energy d Wd t f _ _ _ T Vol HV A M) as (mem & fr & E1 & Q). exists mem, fr. split; [|exact Q]. rewrite E1. f_equal. f_equal. f_equal.
  pose proof (sqrt_lt_R0 Vol HV) as Sp. pose proof (sqrt_sqrt Vol (Rlt_le _ _ HV)) as Sq.
  transitivity (re (gform d assign_t2c T (fld H (band - 1)) (fld H (band - 1)))).
  - rewrite <- Sq at 3. field. lra.
  - f_equal. unfold mumaybe, T. destruct (d_mu_inv d) as [mu|]; [symmetry; apply (mucol_form d)|symmetry; apply (inner_iso d _ Wd Ho)].
Qed.

Lemma d_energy fuel d Vol H out ft AH g band f w : wfd d -> (0 < Vol)%R -> w <> 0%R -> ready fuel d H out ft -> maxwell_operator fuel d H out ft = Some (Val (AH, g)) ->
  1 <= band <= ep H -> shows d f (dscale Vol w) assign_cross_t2c (mumaybe d (fld H (band - 1))) ->
  exists mem fr, compute_field_energy FD d once Vol (mN d) (flat f) = Val (mem, (re (dotl H AH (band - 1) (band - 1)) / (w * w))%R :: fr) /\
    length fr = 6%nat /\ (wsum once (Z.to_nat (npts d)) (density FD d f) <> 0%R -> fold_right Rplus 0%R fr = 1%R) /\
    forall i, 0 <= i < npts d -> rd mem i = Val (density FD d f (Z.to_nat i)).
Proof.
  intros Wd HV Hw Rd E Hb A.
  rewrite (op_dot fuel d H H out ft AH g (band - 1) (band - 1) Wd (proj1 Rd) Rd E ltac:(lia)), (opcol_form d).
  destruct (total_energy d Wd FD f _ _ _ (d_eps_inv d) Vol HV A (fun r _ => eq_refl)) as (mem & fr & E1 & Q). exists mem, fr. split; [|exact Q]. rewrite E1. f_equal. f_equal. f_equal.
  pose proof (sqrt_lt_R0 Vol HV) as Sp. pose proof (sqrt_sqrt Vol (Rlt_le _ _ HV)) as Sq. unfold dscale. destruct (Reqb_spec w 0); [contradiction|].
  rewrite <- Sq at 3. field. lra.
Qed.

Lemma dotl_scaled X Y Z j s : (forall i, 0 <= i < en X -> entC Y i j = (RtoC s * entC Z i j)%C) -> re (dotl X Y j j) = (s * re (dotl X Z j j))%R.
Proof.
  intros H. unfold dotl. rewrite (csum_ext _ _ (fun i => (RtoC s * (Cconj (entC X (Z.of_nat i) j) * entC Z (Z.of_nat i) j))%C)).
  - rewrite csum_scal. generalize (csum (Z.to_nat (en X)) (fun i => (Cconj (entC X (Z.of_nat i) j) * entC Z (Z.of_nat i) j)%C)). intros z. csimp. ring.
  - intros i Hi. rewrite H by lia. ring.
Qed.
