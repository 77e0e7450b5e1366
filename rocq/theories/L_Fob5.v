(** The flux of the Poynting vector and the group velocity. *)
From Coq Require Import String Ascii List ZArith Reals Lra Lia Bool.
From Verif Require Import Base RC Loops M_Tensor S_Tensor M_Evect S_Evect L_Evect3 M_Grid S_Grid M_Op S_Op L_Op L_Op2 L_Op3 L_Op4 L_Op5 M_Fld S_Fld L_Fld L_Fld2 M_Gv S_Gv L_Gv M_Half M_Fob S_Fob L_Fob1 L_Fob2 L_Fob3 L_Fob4.
Import ListNotations.
Local Open Scope Z_scope.
Add Ring C_ring_fob : C_ring_theory.

Lemma csum_sub n f g : csum n (fun i => f i - g i)%C = (csum n f - csum n g)%C.
Proof. induction n as [|n IH]; [cbn [csum]; apply C_eq; csimp; ring|]. cbn [csum]. rewrite IH. ring. Qed.

Definition ucr (u : vec) (v : nat -> C) : nat -> C := cross (fun c => RtoC (comp c u)) v.

Lemma ucross_pos d u f r i : (i < 3)%nat -> vsel i (position d (assign_ucross_t2c u) f r) = ucr u (fun c => vsel c (position d assign_t2c f r)) i.
Proof.
  intros Hi. unfold ucr, cross, position.
  set (w g := assign_t2c (kz d (Z.of_nat g)) (f (Z.of_nat g) 0) (f (Z.of_nat g) 1)).
  assert (P : forall c, (c < 3)%nat -> vsel c (vbuild (fun i => csum (Z.to_nat (npts d)) (fun g => (kern d 1 (Z.of_nat g) r * vsel i (w g))%C))) = csum (Z.to_nat (npts d)) (fun g => (kern d 1 (Z.of_nat g) r * vsel c (w g))%C)) by (intros c Hc; apply vsel_build; exact Hc).
  fold (w). rewrite !P by (apply Nat.mod_upper_bound; discriminate). rewrite vsel_build by exact Hi.
  rewrite <- !csum_scal, <- csum_sub. apply csum_ext. intros g _. fold (w g).
  assert (Q : vsel i (assign_ucross_t2c u (kz d (Z.of_nat g)) (f (Z.of_nat g) 0) (f (Z.of_nat g) 1)) =
    (RtoC (comp ((i + 1) mod 3)%nat u) * vsel ((i + 2) mod 3)%nat (w g) - RtoC (comp ((i + 2) mod 3)%nat u) * vsel ((i + 1) mod 3)%nat (w g))%C).
  { unfold assign_ucross_t2c. fold (w g). destruct (w g) as [[x y] z], u as [[u0 u1] u2]. destruct i as [|[|[|i]]]; [| | |lia]; cbn [Nat.modulo Nat.divmod Nat.add fst snd Nat.sub vsel comp]; apply C_eq; csimp; ring. }
  rewrite Q. ring.
Qed.
Lemma conj_form V x y : csum 3 (fun i => (Cconj (conjugate V x i) * y i)%C) = form V x y.
Proof.
  rewrite form_conj. unfold form, conjugate. rewrite !csum3. rewrite !Cconj_add, !Cconj_mul, !Cconj_conj. ring.
Qed.
Lemma along_cross u x y : along u (cross x y) = (- csum 3 (fun i => (x i * ucr u y i)%C))%C.
Proof. unfold along, ucr, cross. rewrite !csum3. cbn [Nat.modulo Nat.divmod Nat.add fst snd Nat.sub]. ring. Qed.
Lemma ucr_scale u s y i : ucr u (fun c => (RtoC s * y c)%C) i = (RtoC s * ucr u y i)%C.
Proof. unfold ucr, cross. ring. Qed.
Lemma form_scale V s t x y : form V (fun i => (RtoC s * x i)%C) (fun i => (RtoC t * y i)%C) = (RtoC (s * t) * form V x y)%C.
Proof. unfold form. rewrite !csum3. rewrite !Cconj_mul, !Cconj_R, RtoC_mul. ring. Qed.

Lemma flux_sum d Vol freqs H W0 b fft w u ef hf : wfd d -> (0 < Vol)%R -> fields d H -> 1 <= b <= ep H -> workspace d W0 fft -> rd freqs (b - 1) = Val w -> w <> 0%R ->
  M_Fld.get_efield d Vol freqs H W0 b fft = Val ef -> get_hfield d Vol H W0 b ef = Val hf ->
  (w * (Vol / IZR (npts d) * re (csum (Z.to_nat (npts d)) (fun i => along u (cross (fun c => Cconj (at_point ef i c)) (at_point hf i))))) = gvv d u H (b - 1))%R.
Proof.
  intros Wd HV HH Hb WS Ew Hw Ee Eh. destruct (efield_ok d Wd Vol freqs H W0 b fft w HV HH Hb WS Ew) as (df & ef' & Ed & Ee' & Le & Ae).
  assert (ef' = ef) as -> by congruence. destruct (dfield_ok d Wd Vol freqs H W0 b fft w HV HH Hb WS Ew) as (df' & Ed' & _ & _ & Ad). assert (df' = df) as -> by congruence.
  assert (WS2 : workspace d W0 ef) by (unfold workspace in *; rewrite Le; exact WS).
  destruct (hfield_ok d Wd Vol H W0 b ef HV HH Hb WS2) as (hf' & Eh' & _ & _ & Ah). assert (hf' = hf) as -> by congruence.
  pose proof (N_pos d Wd) as Np. assert (Hn : IZR (npts d) <> 0%R) by (apply not_0_IZR; lia). pose proof (sqrt_nz Vol HV) as Hs. pose proof (sqrt_sqrt Vol (Rlt_le _ _ HV)) as Hss.
  unfold gvv. rewrite ucol_form. set (F := mumaybe d (fld H (b - 1))) in *.
  set (fm r := form (sym_at (d_eps_inv d) r) (fun i => vsel i (position d assign_cross_t2c F (Z.of_nat r))) (fun i => vsel i (position d (assign_ucross_t2c u) F (Z.of_nat r)))).
  rewrite (csum_ext (Z.to_nat (npts d)) _ (fun r => (RtoC (/ (w * Vol)) * fm r)%C)).
  - rewrite csum_scal. unfold mN. generalize (csum (Z.to_nat (npts d)) fm). intros z. assert (Hv : Vol <> 0%R) by lra. transitivity (/ IZR (npts d) * re z)%R; [|unfold npts; csimp; ring]. replace (re (RtoC (/ (w * Vol)) * z)%C) with (/ (w * Vol) * re z)%R by (csimp; ring). field. repeat split; assumption.
  - intros r Hr. rewrite along_cross.
    rewrite (csum_ext 3 _ (fun i => (Cconj (conjugate (sym_at (d_eps_inv d) r) (at_point df r) i) * ucr u (at_point hf r) i)%C)) by (intros i Hi; rewrite Ae by assumption; reflexivity).
    rewrite conj_form. rewrite (form_ext _ _ (fun i => (RtoC (dscale Vol w) * vsel i (position d assign_cross_t2c F (Z.of_nat r)))%C) _ (fun i => (RtoC (1 / sqrt Vol) * vsel i (position d (assign_ucross_t2c u) F (Z.of_nat r)))%C)).
    + rewrite form_scale. fold (fm r). assert (Q : (dscale Vol w * (1 / sqrt Vol) = - / (w * Vol))%R).
      { unfold dscale. destruct (Reqb_spec w 0) as [|_]; [contradiction|]. replace (/ (w * Vol))%R with (/ (w * (sqrt Vol * sqrt Vol)))%R by (rewrite Hss; reflexivity). field. split; assumption. }
      rewrite Q. generalize (fm r). intros z. apply C_eq; csimp; ring.
    + intros i Hi. apply Ad; assumption.
    + intros i Hi. rewrite (ucross_pos d u F (Z.of_nat r) i Hi). rewrite <- ucr_scale. unfold ucr, cross. rewrite !Ah by (auto; apply Nat.mod_upper_bound; discriminate). reflexivity.
Qed.

Lemma csum_re n f : re (csum n f) = rsum n (fun i => re (f i)).
Proof. induction n as [|n IH]; [reflexivity|]. cbn [csum rsum]. rewrite <- IH. reflexivity. Qed.
Lemma flux_gvv s e b w u : good s -> st_env s = Some e -> v_k e <> 0 -> 1 <= b <= ep (v_H e) -> rd (v_freqs e) (b - 1) = Val w -> w <> 0%R ->
  exists s', poynting b s = Val s' /\ (w * flux (Z.to_nat (npts (v_d e))) (v_Vol e) u (st_mem s') = gvv (v_d e) u (v_H e) (b - 1))%R.
Proof.
  intros G He Hk Hb Ew Hw. destruct (poynting_run s e b G He Hk Hb) as (ef & hf & s' & Ee & Eh & Ep & _ & _ & _ & _ & V). exists s'. split; [exact Ep|].
  pose proof (good_work s e G He) as WS. pose proof G as (Ge & _). rewrite He in Ge. destruct Ge as (Wd & HV & _ & FH & _).
  rewrite <- (flux_sum (v_d e) (v_Vol e) (v_freqs e) (v_H e) (v_W0 e) b _ w u ef hf Wd HV FH Hb WS Ew Hw Ee Eh). f_equal. unfold flux. rewrite csum_re.
  pose proof (N_pos (v_d e) Wd). rewrite INR_IZR_INZ, Z2Nat.id by lia. f_equal. apply rsum_ext. intros i Hi. f_equal. specialize (V i Hi). assert (Q : forall a b c a' b' c', IV a b c = IV a' b' c' -> a = a' /\ b = b' /\ c = c') by (intros a b0 c a' b' c' [= -> -> ->]; auto). apply Q in V. destruct V as (V0 & V1 & V2).
  unfold along. rewrite !csum3. rewrite Nat.add_0_r, V0, V1, V2. reflexivity.
Qed.
