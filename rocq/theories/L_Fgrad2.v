(** The gradient of a frequency. *)
From Coq Require Import List ZArith Reals Lra Lia Bool.
From Verif Require Import Base RC M_Tensor S_Tensor M_Evect S_Evect L_Evect3 M_Grid S_Grid L_Grid5 P_Grid M_Op S_Op L_Op3 P_Op M_Interp S_Interp M_Matgrid S_Matgrid L_Matgrid2 M_Fld S_Fld L_Fld L_Fld2 L_Fld3 P_Fld M_Half S_Half L_Half L_Half2 M_Match S_Match L_Match M_Fgrad S_Fgrad L_Fgrad.
Import ListNotations.
Local Open Scope R_scope.

(** Sum of f x * d over a list of points with their derivatives. *)
Fixpoint lin {T} (L : list T) (ds : list R) (f : T -> R) : R := match L, ds with x :: L, d :: ds => f x * d + lin L ds f | _, _ => 0 end.
Lemma lin_ext {T} (f g : T -> R) L : forall ds, (forall x, In x L -> f x = g x) -> lin L ds f = lin L ds g.
Proof. induction L as [|x L IH]; intros [|d ds] H; cbn; try reflexivity. rewrite H by (left; reflexivity). rewrite IH; [reflexivity|]. intros y Hy. apply H. right. exact Hy. Qed.
Lemma lin_scal {T} (f : T -> R) c L : forall ds, lin L ds (fun x => c * f x) = c * lin L ds f.
Proof. induction L as [|x L IH]; intros [|d ds]; cbn; try ring. rewrite IH. ring. Qed.

Lemma cell_points n1 n2 n3 i j k idx : In (i, j, k, idx) (loop_complex n1 n2 n3) -> In (i, j, k) (whole n1 n2 n3) /\ idx = ((i * n2 + j) * n3 + k)%Z.
Proof.
  unfold loop_complex. intros H. apply in_flat_map in H as (i' & Hi & H). apply in_flat_map in H as (j' & Hj & H). apply in_map_iff in H as (k' & E & Hk). injection E as <- <- <- <-.
  split; [|reflexivity]. apply whole_in. unfold zrange in *. apply in_map_iff in Hi as (a & <- & Ha), Hj as (b & <- & Hb), Hk as (c & <- & Hc). apply in_seq in Ha, Hb, Hc. lia.
Qed.

Section Loop.
Variables (q : mproblem) (rest : Z * Z * Z -> R) (u : list R).
Notation n1 := (q_n1 q).
Notation n2 := (q_n2 q).
Notation n3 := (q_n3 q).
Hypothesis (P1 : (0 < n1)%Z) (P2 : (0 < n2)%Z) (P3 : (0 < n3)%Z).
Hypothesis G : Forall grid_ok (q_grids q).
Hypothesis EO : forall c, In c (whole n1 n2 n3) -> Forall (entry_ok (q_grids q)) (entries (there q c)).
Hypothesis Lu : length u = S_Matgrid.total (q_grids q).
Hypothesis Rg : forall c, In c (whole n1 n2 n3) -> regular (q_grids q) u (there q c).
Notation E := (eps_here q rest).
Notation gs := (with_params (q_grids q) u).

Lemma grad_run Esqr s (D : Z -> R) : forall L, (forall c idx, In (c, idx) L -> In c (whole n1 n2 n3) /\ rd Esqr idx = Val (D idx)) ->
  forall w, length w = length u -> exists w',
    addgradient L once4 n1 n2 n3 (q_sx q) (q_sy q) (q_sz q) (fun p s v => let f := q_tree q p in addgradient_point (f_kind f) (f_lo f) (f_hi f) gs (f_over f) (f_dflt f) s v) Esqr s w = Val w' /\ length w' = length w /\
    forall h, length h = length u -> exists ds, Forall2 (fun pt d => derivable_pt_lim (fun t => E (fst pt) (addl t u h)) 0 d) L ds /\ S_Matgrid.dotl w' h - S_Matgrid.dotl w h = lin L ds (fun pt => D (snd pt) * s).
Proof.
  unfold addgradient. induction L as [|(((i & j) & k) & idx) L IH]; intros H w Lw.
  - exists w. split; [reflexivity|]. split; [reflexivity|]. intros h Lh. exists []. split; [constructor|]. cbn. ring.
  - destruct (H _ _ (or_introl eq_refl)) as (Hw & He). cbn [run]. rewrite site_ok by assumption. cbn [bind]. rewrite He. cbn [bind]. fold (there q (i, j, k)).
    destruct (point_ok (q_grids q) u G Lu (there q (i, j, k)) (rest (i, j, k)) (D idx * s) w (EO _ Hw) (Rg _ Hw) ltac:(lia)) as (w1 & A1 & L1 & D1).
    cbv zeta in *. rewrite A1. cbn [bind once4]. destruct (IH (fun c x X => H c x (or_intror X)) w1 ltac:(lia)) as (w' & A & B & Dd). exists w'. split; [exact A|]. split; [lia|].
    intros h Lh. destruct (D1 h ltac:(lia)) as (d1 & Q1 & R1). destruct (Dd h Lh) as (ds & Q2 & R2). exists (d1 :: ds). split; [constructor; [exact Q1|exact Q2]|]. cbn [lin snd].
    rewrite <- R1, <- R2. ring.
Qed.

Lemma lin_deriv h (k : Z * Z * Z * Z -> R -> R) : length h = length u -> forall L ds, Forall2 (fun pt d => derivable_pt_lim (fun t => E (fst pt) (addl t u h)) 0 d) L ds ->
  (forall pt, In pt L -> E (fst pt) u <> 0 /\ continuity_pt (k pt) 0) ->
  derivable_pt_lim (fun t => lsum (fun pt => (/ E (fst pt) (addl t u h) - / E (fst pt) u) * k pt t) L) 0 (lin L ds (fun pt => - (k pt 0 / (E (fst pt) u * E (fst pt) u)))).
Proof.
  intros Lh L ds F. induction F as [|pt d L ds Dp F IH]; intros H; cbn [lsum lin]; [apply derivable_pt_lim_const|].
  destruct (H pt (or_introl eq_refl)) as (Ne & Ck). apply deriv_add; [|apply IH; intros x Hx; apply H; right; exact Hx].
  assert (Ne' : E (fst pt) (addl 0 u h) <> 0) by (rewrite addl_0 by exact Lh; exact Ne).
  pose proof (deriv_times (fun t => / E (fst pt) (addl t u h) - / E (fst pt) u) (k pt) _ ltac:(cbn beta; rewrite addl_0 by exact Lh; ring) (deriv_minus_const _ (/ E (fst pt) u) _ (deriv_inv _ d Ne' Dp)) Ck) as Q.
  cbn beta in Q. rewrite addl_0 in Q by exact Lh. replace (- (k pt 0 / (E (fst pt) u * E (fst pt) u)) * d) with (- d / (E (fst pt) u * E (fst pt) u) * k pt 0); [exact Q|]. field. exact Ne.
Qed.
End Loop.

Lemma lsum_grid n1 n2 n3 (f : nat -> R) : (0 <= n1)%Z -> (0 <= n2)%Z -> (0 <= n3)%Z -> lsum (fun pt : Z * Z * Z * Z => f (Z.to_nat (snd pt))) (loop_complex n1 n2 n3) = rsum (Z.to_nat (n1 * n2 * n3)) f.
Proof.
  intros H1 H2 H3. destruct (C09_complex n1 n2 n3 H1 H2 H3) as (A & _). pose proof (lsum_index snd once f _ _ A) as Q. unfold once, wsum in Q.
  transitivity (lsum (fun x : Z * Z * Z * Z => (if false then 2 else 1) * f (Z.to_nat (snd x))) (loop_complex n1 n2 n3)); [apply lsum_ext; intros; ring|].
  rewrite Q. apply rsum_ext. intros i _. unfold once. ring.
Qed.

Lemma square_at d e f r x s : (forall c, (c < 3)%nat -> at_point e r c = conjugate (iso x) (at_point f r) c) -> forall y, (forall c, (c < 3)%nat -> at_point f r c = (RtoC s * y c)%C) ->
  density FOther d e r = x * x * (s * s) * re (csum 3 (fun c => Cconj (y c) * y c)%C).
Proof.
  intros H y Hy.
  assert (I : forall z, conjugate (iso x) z 0 = (RtoC x * z 0%nat)%C /\ conjugate (iso x) z 1 = (RtoC x * z 1%nat)%C /\ conjugate (iso x) z 2 = (RtoC x * z 2%nat)%C).
  { intros z. unfold conjugate. rewrite !csum3. cbn [entry iso m00 m11 m22 m01 m02 m12]. generalize (z 0%nat) (z 1%nat) (z 2%nat). intros. repeat split; cring. }
  destruct (I (at_point f r)) as (I0 & I1 & I2).
  assert (Q : forall c, (c < 3)%nat -> at_point e r c = (RtoC (x * s) * y c)%C).
  { intros c Hc. rewrite RtoC_mul. destruct c as [|[|[|c]]]; [| | |lia]; rewrite H, ?I0, ?I1, ?I2, Hy by lia; ring. }
  unfold density, medium. assert (U : forall z, re (quad (iso 1) z) = re (csum 3 (fun c => Cconj (z c) * z c)%C)).
  { intros z. f_equal. unfold quad. rewrite !csum3. cbn [entry iso m00 m11 m22 m01 m02 m12]. change (RtoC 1) with C1. replace (Cconj C0) with C0 by cring. ring. }
  rewrite U, !csum3. rewrite !Q by lia. clear. replace (x * x * (s * s)) with ((x * s) * (x * s)) by ring. generalize (x * s). intros a. generalize (y 0%nat) (y 1%nat) (y 2%nat). intros. csimp. ring.
Qed.

Theorem frequency_ok : forall q rest u d Vol freqs H W0 band fft w s v, wfd d -> orthonormal_basis d -> d_mu_inv d = None -> fits q d -> 0 < Vol ->
  length u = S_Matgrid.total (q_grids q) -> length v = length u -> tensors_hold q rest u (d_eps_inv d) ->
  (forall c, In c (whole (q_n1 q) (q_n2 q) (q_n3 q)) -> eps_here q rest c u <> 0 /\ regular (q_grids q) u (there q c)) ->
  (1 <= band <= ep H)%Z -> workspace d W0 fft -> rd freqs (band - 1) = Val w -> 0 < w -> S_Evect.dotl H H (band - 1) (band - 1) = C1 -> eigenfield d H (band - 1) (w * w) ->
  exists v', grids_addgradient q (with_params (q_grids q) u) d Vol freqs H W0 band fft s v = Val v' /\ length v' = length v /\
  forall h Y j lam, length h = length u -> follows q rest u h d H (band - 1) Y j lam ->
    exists dw, derivable_pt_lim (fun t => sqrt (lam t)) 0 dw /\ S_Matgrid.dotl v' h - S_Matgrid.dotl v h = s * dw.
Proof.
  intros q rest u d Vol freqs H W0 band fft w s v Wd Ho Hm (S1 & S2 & S3 & G & EO) HV Lu Lv (Le & Ht) Hc Hb WS Ew Hw Nm Eg.
  pose proof Wd as (N1 & N2 & N3 & _ & _ & _ & _ & Out & _ & Lei & _). pose proof Eg as (FH & Hbb & _).
  set (n1 := q_n1 q) in *. set (n2 := q_n2 q) in *. set (n3 := q_n3 q) in *. assert (P1 : (0 < n1)%Z) by lia. assert (P2 : (0 < n2)%Z) by lia. assert (P3 : (0 < n3)%Z) by lia.
  assert (EN : npts d = (n1 * n2 * n3)%Z) by (unfold npts; rewrite S1, S2, S3; reflexivity).
  assert (HN : IZR (npts d) <> 0) by (apply not_0_IZR; rewrite EN; nia).
  set (L := loop_complex n1 n2 n3).
  assert (HL : forall c idx, In (c, idx) L -> In c (whole n1 n2 n3) /\ (Z.to_nat idx < Z.to_nat (npts d))%nat /\ (0 <= idx < d_out d)%Z /\ sym_at (d_eps_inv d) (Z.to_nat idx) = iso (/ eps_here q rest c u)).
  { intros ((i & j) & k) idx Hi. apply cell_points in Hi as (Hin & ->). pose proof Hin as Hin'. apply whole_in in Hin'. assert (Rng0 : (0 <= i * n2 + j < n1 * n2)%Z) by nia. assert (Rng : (0 <= (i * n2 + j) * n3 + k < n1 * n2 * n3)%Z) by (clear - Rng0 Hin' P3; nia).
    split; [exact Hin|]. rewrite Out, EN. split; [lia|]. split; [exact Rng|]. apply Ht. exact Hin. }
  destruct (C67_efield d Vol freqs H W0 band fft w Wd HV FH Hb WS Ew) as (f & e & E1 & E2 & Le2 & A).
  destruct (C67_dfield d Vol freqs H W0 band fft w Wd Ho Hm HV FH Hb WS Ew ltac:(lra)) as (f' & E1' & _ & B). rewrite E1 in E1'. injection E1' as <-.
  assert (St : stored d e) by (split; [rewrite Out; lia|]; split; [rewrite Out, Le2; destruct WS as (_ & _ & Hf); lia|]; split; [rewrite Out; exact Lei|]; rewrite Hm; discriminate).
  destruct (C67_density FOther d once e St) as (mem & cs & sum & E3 & Rm & _).
  set (b := (band - 1)%Z) in *. set (K := fun r => cross_at d H H b b r).
  set (Dn := fun idx => density FOther d e (Z.to_nat idx)).
  set (sc := s * (- w / 2) * (Vol / mN d)).
  destruct (grad_run q rest u P1 P2 P3 G EO Lu (fun c X => proj2 (Hc c X)) mem sc Dn L) with (w := v) as (v' & R1 & R2 & R3); [|exact Lv|].
  { intros c idx Hi. destruct (HL c idx Hi) as (X1 & _ & X3 & _). split; [exact X1|]. apply Rm. exact X3. }
  exists v'. split; [|split; [exact R2|]].
  - unfold grids_addgradient, check. destruct (Z.leb_spec band (ep H)); [|lia]. cbn [bind]. fold b. rewrite Ew. cbn [bind]. rewrite E2. cbn [bind]. rewrite E3. cbn [bind].
    rewrite fdiv_nz by exact HN. cbn [bind]. rewrite S1, S2, S3. exact R1.
  - intros h Y j lam Lh ((del & Hdel & Pth) & Cont). destruct (R3 h Lh) as (ds & F2 & Rd3).
    assert (CC : forall i, (0 <= i < 2 * npts d)%Z -> cc (fun t => entC (Y t) i j)) by (intros i Hi; destruct (Cont i Hi) as (_ & X1 & X2); split; assumption).
    set (a := fun t => re (S_Evect.dotl H (Y t) b j)).
    assert (Ca : continuity_pt a 0).
    { refine (proj1 (cc_csum _ (fun t i => (Cconj (entC H (Z.of_nat i) b) * entC (Y t) (Z.of_nat i) j)%C) _)). intros i Hi. apply cc_mul; [apply cc_const|]. apply CC. destruct FH as (_ & EH). lia. }
    assert (A0 : a 0 = 1).
    { unfold a. rewrite (dotl_ext H H (Y 0) H b j b b) by (try reflexivity; intros i Hi; apply Cont; destruct FH as (_ & EH); lia). rewrite Nm. reflexivity. }
    set (kk := fun (pt : Z * Z * Z * Z) t => cross_at d H (Y t) b j (Z.to_nat (snd pt))).
    assert (K0 : forall r, cross_at d H (Y 0) b j r = K r).
    { intros r. unfold K, cross_at. rewrite !csum3. rewrite !(curl_same d (Y 0) H j b r) by (intros i Hi; apply Cont; exact Hi). reflexivity. }
    assert (HK : forall pt, In pt L -> eps_here q rest (fst pt) u <> 0 /\ continuity_pt (kk pt) 0).
    { intros (c & idx) Hp. destruct (HL c idx Hp) as (Hin & _). split; [exact (proj1 (Hc c Hin))|]. exact (cross_cont d H Y b j (Z.to_nat idx) CC). }
    pose proof (lin_deriv q rest u h kk Lh L ds F2 HK) as LD.
    set (P := lin L ds (fun pt => - (kk pt 0 / (eps_here q rest (fst pt) u * eps_here q rest (fst pt) u)))) in *.
    apply (deriv_mul_const _ (/ IZR (npts d))) in LD. set (Fn := fun t => / IZR (npts d) * lsum (fun pt => (/ eps_here q rest (fst pt) (addl t u h) - / eps_here q rest (fst pt) u) * kk pt t) L) in *.
    assert (ID : forall t, Rabs t < del -> (lam t - w * w) * a t = Fn t).
    { intros t Hlt. destruct (Pth t Hlt) as (es & (Les & Hes) & Egt).
      set (ev := fun r : nat => m00 (sym_at es r)). set (e0 := fun r : nat => m00 (sym_at (d_eps_inv d) r)).
      assert (Cell : forall r, (r < Z.to_nat (npts d))%nat -> exists i j k, In (i, j, k) (whole n1 n2 n3) /\ r = Z.to_nat ((i * n2 + j) * n3 + k)).
      { intros r Hr. exists (Z.of_nat r / (n2 * n3))%Z, ((Z.of_nat r / n3) mod n2)%Z, (Z.of_nat r mod n3)%Z. rewrite EN in Hr.
        assert (Rr : (0 <= Z.of_nat r < n1 * (n2 * n3))%Z) by lia. pose proof (Z.mod_pos_bound (Z.of_nat r) n3 P3). pose proof (Z.mod_pos_bound (Z.of_nat r / n3) n2 P2).
        assert (Q1 : (Z.of_nat r / (n2 * n3) = Z.of_nat r / n3 / n2)%Z) by (rewrite Z.div_div by lia; f_equal; ring).
        pose proof (Z.div_mod (Z.of_nat r) n3 ltac:(lia)). pose proof (Z.div_mod (Z.of_nat r / n3) n2 ltac:(lia)).
        split; [apply whole_in; split; [|split; assumption]; split; [apply Z.div_pos; lia|apply Z.div_lt_upper_bound; nia]|]. rewrite Q1.
        rewrite <- (Nat2Z.id r) at 1. f_equal. nia. }
      assert (H0' : forall r, (r < Z.to_nat (npts d))%nat -> sym_at (d_eps_inv d) r = iso (e0 r)) by (intros r Hr; destruct (Cell r Hr) as (i & jj & k & Hin & ->); unfold e0; rewrite Ht by exact Hin; reflexivity).
      assert (H1' : forall r, (r < Z.to_nat (npts d))%nat -> sym_at es r = iso (ev r)) by (intros r Hr; destruct (Cell r Hr) as (i & jj & k & Hin & ->); unfold ev, n2, n3; rewrite Hes by exact Hin; reflexivity).
      assert (Les' : Z.of_nat (length es) = npts d) by (rewrite EN; exact Les).
      refine (eq_trans (eig_difference d es ev e0 H (Y t) b j (lam t) (w * w) Wd Ho Hm Les' H0' H1' Eg Egt) _).
      unfold Fn. f_equal. rewrite EN, <- (lsum_grid n1 n2 n3) by lia. fold L. apply lsum_ext. intros (((i & jj) & k) & idx) Hp. destruct (HL _ _ Hp) as (Hin & _ & _ & T0). cbn [snd fst].
        unfold ev, e0, kk. cbn [snd]. rewrite T0. apply cell_points in Hp as (_ & ->). unfold n2, n3. rewrite Hes by exact Hin. reflexivity. }
    assert (F0 : Fn 0 = 0).
    { unfold Fn. rewrite (lsum_ext _ (fun _ => 0)) by (intros x _; rewrite addl_0 by exact Lh; ring). clear. induction L as [|x L IH]; cbn; [ring|]. rewrite Rplus_0_l. exact IH. }
    assert (L0 : lam 0 = w * w) by (specialize (ID 0 ltac:(rewrite Rabs_R0; exact Hdel)); rewrite A0, F0 in ID; lra).
    (* the derivative of lam *)
    assert (Cia : continuity_pt (fun t => / a t) 0) by (apply (continuity_pt_inv a 0 Ca); rewrite A0; lra).
    pose proof (deriv_times Fn (fun t => / a t) _ F0 LD Cia) as DL. cbn beta in DL. rewrite A0, Rinv_1, Rmult_1_r in DL.
    assert (Dl : derivable_pt_lim lam 0 (/ IZR (npts d) * P)).
    { assert (DL' : derivable_pt_lim (fun t => Fn t * / a t + w * w) 0 (/ IZR (npts d) * P)).
      { pose proof (deriv_add _ (fun _ => w * w) 0 _ 0 DL (derivable_pt_lim_const (w * w) 0)) as Q. rewrite Rplus_0_r in Q. exact Q. }
      refine (deriv_near _ _ _ _ DL'). destruct (Ca (/ 2) ltac:(lra)) as (d2 & Hd2 & Nz). exists (Rmin del d2). split; [apply Rmin_pos; lra|]. intros t Hlt.
      assert (At : a t <> 0).
      { destruct (Req_dec t 0) as [->|Nt]; [rewrite A0; lra|]. intros Z0. specialize (Nz t). assert (Hd : R_dist t 0 < d2) by (unfold R_dist; rewrite Rminus_0_r; eapply Rlt_le_trans; [exact Hlt|apply Rmin_r]).
        specialize (Nz (conj (conj I (not_eq_sym Nt)) Hd)). cbn in Nz. unfold R_dist in Nz. rewrite Z0, A0 in Nz. replace (0 - 1) with (- (1)) in Nz by ring. rewrite Rabs_Ropp, Rabs_R1 in Nz. lra. }
      rewrite <- ID by (eapply Rlt_le_trans; [exact Hlt|apply Rmin_l]). field. exact At. }
    exists (/ (2 * sqrt (w * w)) * (/ IZR (npts d) * P)). split.
    + rewrite <- L0. apply (deriv_ext (Ranalysis1.comp sqrt lam)); [intros t; reflexivity|]. apply derivable_pt_lim_comp; [exact Dl|]. apply derivable_pt_lim_sqrt. rewrite L0. apply Rmult_lt_0_compat; exact Hw.
    + rewrite sqrt_square by lra. rewrite Rd3. unfold P.
      rewrite (lin_ext (fun pt => Dn (snd pt) * sc) (fun pt => s * (/ (2 * w) * / IZR (npts d)) * - (kk pt 0 / (eps_here q rest (fst pt) u * eps_here q rest (fst pt) u)))).
      * rewrite lin_scal. ring.
      * intros (c & idx) Hp. destruct (HL c idx Hp) as (Hin & Hr & _ & T0). cbn [fst snd]. unfold kk. cbn [snd]. rewrite K0. unfold Dn.
        rewrite (square_at d e f (Z.to_nat idx) (/ eps_here q rest c u) (- / (w * sqrt Vol))) with (y := curl d H b (Z.to_nat idx)).
        -- fold (cross_at d H H b b (Z.to_nat idx)). fold (K (Z.to_nat idx)). unfold sc. change (mN d) with (IZR (npts d)). destruct (Hc c Hin) as (Ne & _).
           assert (SV : sqrt Vol * sqrt Vol = Vol) by (apply sqrt_sqrt; lra). assert (SN : sqrt Vol <> 0) by (intros Z0; rewrite Z0 in SV; lra).
           rewrite <- SV at 3. field. repeat split; try assumption; lra.
        -- intros cc0 Hcc. rewrite A by assumption. rewrite T0. reflexivity.
        -- intros cc0 Hcc. apply B; assumption.
Qed.
