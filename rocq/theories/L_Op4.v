(** Homogeneous media, preconditioners, and the derivative with respect to k. *)
From Coq Require Import List ZArith Reals Bool Lia Lra.
From Verif Require Import Base RC Loops M_Tensor S_Tensor M_Evect S_Evect L_Evect L_Evect3 M_Grid S_Grid M_Op S_Op L_Op L_Op2 L_Op3 L_Dft.
Import ListNotations.
Local Open Scope Z_scope.

Definition vscal (s : C) (v : cvec) : cvec := vbuild (fun i => (s * vsel i v)%C).
Lemma vscal_sel s v i : (i < 3)%nat -> vsel i (vscal s v) = (s * vsel i v)%C.
Proof. intros. unfold vscal. apply vsel_build. assumption. Qed.
Lemma vec_eq u v : (forall i, (i < 3)%nat -> vsel i u = vsel i v) -> u = v.
Proof.
  intros H. destruct u as [[a b] c], v as [[a' b'] c']. pose proof (H 0%nat ltac:(lia)) as H0. pose proof (H 1%nat ltac:(lia)) as H1. pose proof (H 2%nat ltac:(lia)) as H2.
  cbn in H0, H1, H2. subst. reflexivity.
Qed.

Lemma forZ_id {S : Type} a b (f : Z -> S -> outcome S) : (forall i s, f i s = Val s) -> forall s, forZ a b f s = Val s.
Proof.
  intros H s. destruct (Z_le_gt_dec b a) as [Hle|Hgt]; [apply forZ_nil; lia|].
  destruct (forZ_inv (fun _ s' => s' = s) f a b s) as (s' & E & ->); [lia|reflexivity| |exact E].
  intros i s' _ ->. exists s. split; [apply H|reflexivity].
Qed.

Section D.
Variable d : mdata.
Hypothesis Wd : wfd d.
Notation N := (npts d).
Notation NN := (Z.to_nat (npts d)).

(** A sandwich whose middle is a multiplication by one number. *)
Lemma sand_const asg prj F f s g c : 0 <= g < N -> (forall r v, 0 <= r < N -> F r v = vscal (RtoC s) v) ->
  sand d asg prj F f g c = (let v := prj (kz d g) (vscal (RtoC (s * mN d)) (asg (kz d g) (f g 0) (f g 1))) in if c =? 0 then fst v else snd v).
Proof.
  intros Hg HF. unfold sand. cbv zeta.
  assert (E : back d (fun r => F r (position d asg f r)) g = vscal (RtoC (s * mN d)) (asg (kz d g) (f g 0) (f g 1))).
  { rewrite (back_ext d _ (fun r => vscal (RtoC s) (position d asg f r))) by (intros; apply HF; assumption).
    transitivity (vscal (RtoC s) (back d (position d asg f) g)).
    - apply vec_eq. intros i Hi. rewrite vscal_sel by exact Hi. unfold back. rewrite !vsel_build by exact Hi. rewrite <- csum_scal. apply csum_ext. intros r _.
      rewrite vscal_sel by exact Hi. ring.
    - rewrite back_position by assumption. apply vec_eq. intros i Hi. rewrite !vscal_sel by exact Hi. rewrite vsel_build by exact Hi. rewrite RtoC_mul. ring. }
  rewrite E. reflexivity.
Qed.

Lemma tens_iso t e r v : uniform d t e -> 0 <= r < N -> tens t r v = vscal (RtoC e) v.
Proof.
  intros U Hr. unfold tens. rewrite (U (Z.to_nat r)) by lia. destruct v as [[a b] c]. unfold assign_symmatrix_vector, vscal, vbuild, iso. cbn [m00 m11 m22 m01 m02 m12 vsel fst snd].
  apply (f_equal2 pair); [apply (f_equal2 pair)|]; cring.
Qed.


(** Components of a vector of the transverse plane. *)
Definition planar (w : vec) (v : vec) (x y : C) : cvec := vbuild (fun i => (RtoC (comp i w) * x + RtoC (comp i v) * y)%C).
Lemma dot_planar m n x y w : cdot3 (planar m n x y) w = (RtoC (rdot m w) * x + RtoC (rdot n w) * y)%C.
Proof.
  destruct m as [[mx my] mz], n as [[nx ny] nz], w as [[wx wy] wz], x as [x1 x2], y as [y1 y2]. unfold planar, vbuild, cdot3, rdot. cbn [comp fst snd].
  apply C_eq; csimp; ring.
Qed.
Lemma t2c_planar k v0 v1 s : vscal s (assign_t2c k v0 v1) = planar (km k) (kn k) (s * v0)%C (s * v1)%C.
Proof.
  destruct k as [kk [[mx my] mz] [[nx ny] nz]]. unfold vscal, planar, assign_t2c, vbuild, lin. cbn [km kn comp vsel fst snd].
  apply (f_equal2 pair); [apply (f_equal2 pair)|]; cring.
Qed.
Lemma cross_planar k v0 v1 s : vscal s (assign_cross_t2c k v0 v1) = planar (kn k) (km k) (RtoC (kmag k) * (s * v0))%C (RtoC (- kmag k) * (s * v1))%C.
Proof.
  destruct k as [kk [[mx my] mz] [[nx ny] nz]]. unfold vscal, planar, assign_cross_t2c, vbuild. cbn [km kn kmag comp vsel fst snd].
  apply (f_equal2 pair); [apply (f_equal2 pair)|]; cring.
Qed.
Lemma crossinv_planar k v0 v1 s : vscal s (assign_crossinv_t2c k v0 v1) =
  planar (kn k) (km k) (RtoC (- 1 / FIX_DENOM (kmag k)) * (s * v0))%C (RtoC (1 / FIX_DENOM (kmag k)) * (s * v1))%C.
Proof.
  destruct k as [kk [[mx my] mz] [[nx ny] nz]]. unfold vscal, planar, assign_crossinv_t2c, vbuild. cbn [km kn kmag comp vsel fst snd].
  unfold Rdiv. generalize (/ FIX_DENOM kk)%R. intros D. apply (f_equal2 pair); [apply (f_equal2 pair)|]; cring.
Qed.
Lemma rdot_comm a b : rdot a b = rdot b a.
Proof. destruct a as [[a0 a1] a2], b as [[b0 b1] b2]. unfold rdot. ring. Qed.
Lemma FIX_nz x : FIX_DENOM x <> 0%R.
Proof. unfold FIX_DENOM. destruct (Reqb_spec x 0); lra. Qed.
Lemma FIX_id x : x <> 0%R -> FIX_DENOM x = x.
Proof. intros H. unfold FIX_DENOM. destruct (Reqb_spec x 0); [contradiction|reflexivity]. Qed.

Lemma mucol_iso mu e f : orthonormal_basis d -> uniform d mu e -> feq d (mucol d mu f) (fun g c => RtoC e * f g c)%C.
Proof.
  intros Ho U g c Hg Hc. unfold mucol. rewrite (sand_const _ _ _ _ e) by (auto; intros; apply tens_iso; assumption). cbv zeta.
  destruct (Ho (Z.to_nat g) ltac:(lia)) as (H1 & H2 & H3). fold (kz d g) in H1, H2, H3. set (k := kz d g) in *.
  rewrite t2c_planar. unfold project_c2t. rewrite !dot_planar. rewrite (rdot_comm (kn k) (km k)), H1, H2, H3.
  pose proof (N_nz d Wd) as Nz. set (n := mN d) in *.
  assert (c = 0 \/ c = 1) as [-> | ->] by lia; cbn [Z.eqb fst snd]; rewrite Cscal_mul.
  - transitivity (RtoC (1 / n * (e * n)) * f g 0)%C; [rewrite (RtoC_mul (1 / n)); cring|]. f_equal. f_equal. field. exact Nz.
  - transitivity (RtoC (1 / n * (e * n)) * f g 1)%C; [rewrite (RtoC_mul (1 / n)); cring|]. f_equal. f_equal. field. exact Nz.
Qed.
Lemma epscol_iso e f : orthonormal_basis d -> uniform d (d_eps_inv d) e ->
  feq d (epscol d f) (fun g c => RtoC (e * (kmag (kz d g) * kmag (kz d g))) * f g c)%C.
Proof.
  intros Ho U g c Hg Hc. unfold epscol. rewrite (sand_const _ _ _ _ e) by (auto; intros; apply tens_iso; assumption). cbv zeta.
  destruct (Ho (Z.to_nat g) ltac:(lia)) as (H1 & H2 & H3). fold (kz d g) in H1, H2, H3. set (k := kz d g) in *.
  rewrite cross_planar. unfold assign_cross_c2t. rewrite !dot_planar. rewrite (rdot_comm (kn k) (km k)), H1, H2, H3.
  pose proof (N_nz d Wd) as Nz. set (n := mN d) in *. set (q := kmag k).
  assert (c = 0 \/ c = 1) as [-> | ->] by lia; cbn [Z.eqb fst snd]; rewrite Cscal_mul.
  - transitivity (RtoC (- (-1 / n * q) * (q * (e * n))) * f g 0)%C; [rewrite (RtoC_mul (- (-1 / n * q))), (RtoC_mul q); cring|]. f_equal. f_equal. field. exact Nz.
  - transitivity (RtoC ((-1 / n * q) * (- q * (e * n))) * f g 1)%C; [rewrite (RtoC_mul (-1 / n * q)), (RtoC_mul (- q)); cring|]. f_equal. f_equal. field. exact Nz.
Qed.
Lemma precol_iso e f : orthonormal_basis d -> uniform d (d_eps_inv d) e -> e <> 0%R ->
  feq d (precol d f) (fun g c => RtoC (/ (e * (FIX_DENOM (kmag (kz d g)) * FIX_DENOM (kmag (kz d g))))) * f g c)%C.
Proof.
  intros Ho U He g c Hg Hc. unfold precol. rewrite (sand_const _ _ _ _ (/ e)).
  2: exact Hg.
  2:{ intros r v Hr. unfold epsmul, trace_at. rewrite (U (Z.to_nat r)) by lia. unfold iso. cbn [m00 m11 m22]. destruct v as [[x y] z].
      replace (3 / (e + e + e))%R with (/ e)%R by (field; repeat split; intro; apply He; lra). unfold vscal, vbuild. cbn [vsel fst snd]. rewrite !Cscal_mul. reflexivity. }
  cbv zeta. destruct (Ho (Z.to_nat g) ltac:(lia)) as (H1 & H2 & H3). fold (kz d g) in H1, H2, H3. set (k := kz d g) in *.
  rewrite crossinv_planar. unfold assign_crossinv_c2t. rewrite !dot_planar. rewrite (rdot_comm (kn k) (km k)), H1, H2, H3.
  pose proof (N_nz d Wd) as Nz. set (n := mN d) in *. pose proof (FIX_nz (kmag k)) as Dz. set (q := FIX_DENOM (kmag k)) in *.
  assert (c = 0 \/ c = 1) as [-> | ->] by lia; cbn [Z.eqb fst snd]; rewrite Cscal_mul.
  - transitivity (RtoC (- (- (-1 / n) / q) * ((- 1 / q) * (/ e * n))) * f g 0)%C; [rewrite (RtoC_mul (- (- (-1 / n) / q))), (RtoC_mul (-1 / q)); cring|].
    f_equal. f_equal. field. auto.
  - transitivity (RtoC ((- (-1 / n) / q) * ((1 / q) * (/ e * n))) * f g 1)%C; [rewrite (RtoC_mul (- (-1 / n) / q)), (RtoC_mul (1 / q)); cring|].
    f_equal. f_equal. field. auto.
Qed.

(** The second preconditioner is symmetric and positive. *)
Lemma precol_form f h : inner d f (precol d h) =
  (RtoC (/ mN d) * csum NN (fun r => RtoC (3 / trace_at d (Z.of_nat r)) * cdotv (position d assign_crossinv_t2c f (Z.of_nat r)) (position d assign_crossinv_t2c h (Z.of_nat r))))%C.
Proof.
  unfold precol. rewrite (sand_form _ _ _ _ _ _ _ _ (adj_crossinv _)). f_equal.
  - f_equal. unfold Rdiv. ring.
  - apply csum_ext. intros r _. unfold epsmul, cdotv. destruct (position d assign_crossinv_t2c h (Z.of_nat r)) as [[x y] z].
    rewrite <- csum_scal. apply csum_ext. intros i Hi. destruct i as [|[|[|i]]]; [| | |lia]; cbn [vsel fst snd]; rewrite Cscal_mul; ring.
Qed.
Lemma cdotv_conj u v : cdotv u v = Cconj (cdotv v u).
Proof. unfold cdotv. rewrite csum_conj. apply csum_ext. intros i _. rewrite Cconj_mul, Cconj_conj. ring. Qed.
Lemma cdotv_self u : cdotv u u = RtoC (normsqr (vsel 0 u) + normsqr (vsel 1 u) + normsqr (vsel 2 u)).
Proof. unfold cdotv. rewrite csum3, !normsqr_conj, !RtoC_add. reflexivity. Qed.
Lemma precol_herm f h : inner d f (precol d h) = Cconj (inner d h (precol d f)).
Proof.
  rewrite !precol_form, Cconj_mul, Cconj_R. f_equal. rewrite csum_conj. apply csum_ext. intros r _. rewrite Cconj_mul, Cconj_R. f_equal. apply cdotv_conj.
Qed.
Lemma precol_nonneg f : (forall r, (r < NN)%nat -> (0 < trace_at d (Z.of_nat r))%R) -> im (inner d f (precol d f)) = 0%R /\ (0 <= re (inner d f (precol d f)))%R.
Proof.
  intros Ht. rewrite precol_form.
  rewrite (csum_ext NN _ (fun r => RtoC (3 / trace_at d (Z.of_nat r) * (let u := position d assign_crossinv_t2c f (Z.of_nat r) in normsqr (vsel 0 u) + normsqr (vsel 1 u) + normsqr (vsel 2 u))))).
  2:{ intros r _. rewrite cdotv_self, <- RtoC_mul. reflexivity. }
  rewrite csum_RtoC, <- RtoC_mul. unfold RtoC, im, re. cbn [fst snd]. split; [reflexivity|].
  pose proof (N_pos d Wd) as Np.
  assert (Hi : (0 < / mN d)%R) by (apply Rinv_0_lt_compat; unfold mN; fold N; apply IZR_lt; lia).
  apply Rmult_le_pos; [lra|]. apply rsum_nonneg. intros r Hr. cbv zeta. specialize (Ht r Hr).
  apply Rmult_le_pos; [unfold Rdiv; apply Rmult_le_pos; [lra|left; apply Rinv_0_lt_compat; exact Ht]|].
  pose proof (normsqr_nonneg (vsel 0 (position d assign_crossinv_t2c f (Z.of_nat r)))).
  pose proof (normsqr_nonneg (vsel 1 (position d assign_crossinv_t2c f (Z.of_nat r)))).
  pose proof (normsqr_nonneg (vsel 2 (position d assign_crossinv_t2c f (Z.of_nat r)))). lra.
Qed.

(** u x H. *)
Lemma ucol_form u f h : inner d f (ucol d u h) =
  (RtoC (/ mN d) * csum NN (fun r => form (sym_at (d_eps_inv d) r) (fun i => vsel i (position d assign_cross_t2c f (Z.of_nat r)))
     (fun i => vsel i (position d (assign_ucross_t2c u) h (Z.of_nat r)))))%C.
Proof.
  unfold ucol. rewrite (sand_form _ _ _ _ _ _ _ _ (adj_cross _)). f_equal.
  - f_equal. unfold Rdiv. ring.
  - apply csum_ext. intros r _. unfold tens. rewrite cdotv_form, Nat2Z.id. reflexivity.
Qed.
Lemma pos_ucross u X b r i : (i < 3)%nat -> vsel i (position d (assign_ucross_t2c u) (fld X b) (Z.of_nat r)) = synth d (fun g => ccross u (cart d X b g)) r i.
Proof.
  intros Hi. apply (position_synth d (assign_ucross_t2c u) X b r i (fun g => ccross u (cart d X b g))); [exact Hi|].
  intros g _. unfold cart. destruct (kat d g) as [kk [[mx my] mz] [[nx ny] nz]], u as [[u0 u1] u2].
  unfold assign_ucross_t2c, assign_t2c, lin, ccross. cbn [km kn]. destruct i as [|[|[|i]]]; [| | |lia]; cbn [vsel fst snd comp]; apply C_eq; csimp; ring.
Qed.
Lemma curl_shift u t X b r i : (i < 3)%nat -> curl_at d u t X b r i = (curl d X b r i + RtoC t * synth d (fun g => ccross u (cart d X b g)) r i)%C.
Proof.
  intros Hi. unfold curl_at, curl, synth. rewrite <- csum_scal, <- csum_add. apply csum_ext. intros g _.
  generalize (cart d X b g). intros v. destruct (kvec d g) as [[k0 k1] k2], u as [[u0 u1] u2]. unfold vadd3, rsc, ccross.
  destruct i as [|[|[|i]]]; [| | |lia]; cbn [comp fst snd]; rewrite !RtoC_add, !RtoC_mul; ring.
Qed.
Lemma form_lin V a b t : form V (fun i => a i + RtoC t * b i)%C (fun i => a i + RtoC t * b i)%C =
  (form V a a + RtoC t * (form V a b + form V b a) + RtoC (t * t) * form V b b)%C.
Proof. unfold form. rewrite !csum3. rewrite !Cconj_add, !Cconj_mul, !Cconj_R, RtoC_mul. ring. Qed.

Lemma ucol_dot u X Y j l : orthonormal_basis d ->
  inner d (fld X j) (ucol d u (fld Y l)) = mean_form d (sym_at (d_eps_inv d)) (curl d X j) (synth d (fun g => ccross u (cart d Y l g))).
Proof.
  intros Ho. rewrite ucol_form. unfold mean_form. fold N. f_equal. apply csum_ext. intros r _. apply form_ext; intros i Hi; [apply pos_curl; assumption|apply pos_ucross; exact Hi].
Qed.
Lemma mean_form_shift V u X b t : re (mean_form d V (curl_at d u t X b) (curl_at d u t X b)) =
  (re (mean_form d V (curl d X b) (curl d X b)) + t * (2 * re (mean_form d V (curl d X b) (synth d (fun g => ccross u (cart d X b g))))) +
   t * t * re (mean_form d V (synth d (fun g => ccross u (cart d X b g))) (synth d (fun g => ccross u (cart d X b g)))))%R.
Proof.
  set (a := curl d X b). set (w := synth d (fun g => ccross u (cart d X b g))).
  unfold mean_form.
  rewrite (csum_ext NN _ (fun r => (form (V r) (a r) (a r) + RtoC t * (form (V r) (a r) (w r) + form (V r) (w r) (a r)) + RtoC (t * t) * form (V r) (w r) (w r))%C)).
  2:{ intros r _. rewrite <- form_lin. apply form_ext; intros i Hi; apply curl_shift; exact Hi. }
  rewrite !csum_add, !csum_scal, csum_add.
  rewrite (csum_ext NN (fun i => form (V i) (w i) (a i)) (fun i => Cconj (form (V i) (a i) (w i)))) by (intros; apply form_conj).
  rewrite <- csum_conj. fold N.
  generalize (csum NN (fun i => form (V i) (a i) (a i))) (csum NN (fun i => form (V i) (a i) (w i))) (csum NN (fun i => form (V i) (w i) (w i))).
  intros A B D. generalize (/ IZR N)%R. intros q. csimp. ring.
Qed.
Lemma mean_form_deriv V u X b : derivable_pt_lim (fun t => re (mean_form d V (curl_at d u t X b) (curl_at d u t X b))) 0
  (2 * re (mean_form d V (curl d X b) (synth d (fun g => ccross u (cart d X b g)))))%R.
Proof.
  set (A := re (mean_form d V (curl d X b) (curl d X b))). set (B := re (mean_form d V (curl d X b) (synth d (fun g => ccross u (cart d X b g))))).
  set (D := re (mean_form d V (synth d (fun g => ccross u (cart d X b g))) (synth d (fun g => ccross u (cart d X b g))))).
  intros eps He. assert (Hd : (0 < eps / (Rabs D + 1))%R) by (apply Rdiv_lt_0_compat; [exact He|]; pose proof (Rabs_pos D); lra).
  exists (mkposreal _ Hd). intros h Hh Hlt. cbn [pos] in Hlt. rewrite !mean_form_shift. fold A B D.
  replace ((A + (0 + h) * (2 * B) + (0 + h) * (0 + h) * D - (A + 0 * (2 * B) + 0 * 0 * D)) / h - 2 * B)%R with (h * D)%R by (field; exact Hh).
  rewrite Rabs_mult. pose proof (Rabs_pos D) as Dp. pose proof (Rabs_pos h) as Hp.
  apply Rle_lt_trans with (Rabs h * (Rabs D + 1))%R; [apply Rmult_le_compat_l; lra|].
  apply Rlt_le_trans with (eps / (Rabs D + 1) * (Rabs D + 1))%R; [apply Rmult_lt_compat_r; lra|]. right. field. lra.
Qed.

(** The simple preconditioner. *)
Lemma simple_ok X : fields d X -> Z.of_nat (length (d_kn2 d)) = N ->
  exists Y, simple_precondition d X = Val Y /\ fields d Y /\ ep Y = ep X /\
    (forall b, 0 <= b < ep X -> feq d (fld Y b) (fun g c => RtoC (1 / FIX_DENOM (nth (Z.to_nat g) (d_kn2 d) 0%R * d_eps_inv_mean d)) * fld X b g c)%C).
Proof.
  intros (W & En) Lk. pose proof W as (Wn & Wp & Wl). pose proof (N_pos d Wd) as Np. unfold simple_precondition. change (d_nx d * d_ny d * d_nz d) with N.
  destruct (Z_le_gt_dec (ep X) 0) as [Hz|Hp].
  { rewrite forZ_id by (intros i s; apply forZ_id; intros c s1; apply forZ_nil; lia). cbn [bind]. rewrite set_data_same. exists X. split; [reflexivity|]. split; [split; assumption|]. split; [reflexivity|]. intros; lia. }
  set (sc := fun i : Z => (1 / FIX_DENOM (nth (Z.to_nat i) (d_kn2 d) 0%R * d_eps_inv_mean d))%R).
  set (body := fun (x : Z) (dt : list C) => let! v := rd dt x in wr dt x (Cscal (sc (x / ep X / 2)) v)).
  assert (Hrd : forall i, 0 <= i < N -> rd (d_kn2 d) i = Val (nth (Z.to_nat i) (d_kn2 d) 0%R)).
  { intros i Hi. unfold rd. destruct (Z.ltb_spec i 0); [lia|]. rewrite (nth_error_nth' _ 0%R) by lia. reflexivity. }
  rewrite (forZ_ext 0 N _ (fun i dt => forZ 0 2 (fun c dt => forZ 0 (ep X) (fun b dt => body ((i * 2 + c) * ep X + b) dt) dt) dt)).
  2:{ intros i s Hi. apply forZ_ext. intros c s1 Hc. apply forZ_ext. intros b s2 Hb. cbv zeta. rewrite Hrd by exact Hi. cbn [bind]. unfold body.
      rewrite Z.div_add_l, (Z.div_small b), Z.add_0_r by lia. rewrite Z.div_add_l, (Z.div_small c), Z.add_0_r by lia. reflexivity. }
  rewrite (forZ_flat N 2 (fun r dt => forZ 0 (ep X) (fun b dt => body (r * ep X + b) dt) dt)) by lia.
  rewrite (forZ_flat (N * 2) (ep X) body) by lia.
  destruct (forZ_inv (fun i s => length s = length (edata X) /\ (forall x, 0 <= x < i -> gets s x = Cscal (sc (x / ep X / 2)) (gets (edata X) x)) /\
     (forall x, i <= x -> gets s x = gets (edata X) x)) body 0 (N * 2 * ep X) (edata X)) as (dt & E & L & H & _).
  - nia.
  - split; [reflexivity|]. split; [intros; lia|reflexivity].
  - intros i s Hi (L & H1 & H2). assert (Hin : 0 <= i < Z.of_nat (length s)) by (rewrite L, Wl, En; nia).
    unfold body. rewrite (gets_in s i Hin). cbn [bind]. pose proof (wr_in s i (Cscal (sc (i / ep X / 2)) (gets s i)) Hin) as Wr. eexists. split; [exact Wr|].
    split; [rewrite upd_length; exact L|]. split.
    + intros x Hx. unfold gets at 1. rewrite (rd_wr _ _ _ _ _ Wr). destruct (Z.eqb_spec x i) as [->|]; [rewrite H2 by lia; reflexivity|]. apply H1. lia.
    + intros x Hx. unfold gets at 1. rewrite (rd_wr _ _ _ _ _ Wr). destruct (Z.eqb_spec x i) as [->|]; [lia|]. apply H2. lia.
  - rewrite E. cbn [bind]. exists (set_data X dt). split; [reflexivity|]. split; [split; [apply wf_set; [exact W|exact L]|exact En]|]. split; [reflexivity|].
    intros b Hb g c Hg Hc. unfold fld, entC. cbn [edata ep set_data].
    assert (Hi : 0 <= (2 * g + c) * ep X + b < N * 2 * ep X) by (apply rowin; [lia|exact Hb|lia]).
    rewrite H by exact Hi. rewrite Z.div_add_l, (Z.div_small b), Z.add_0_r by lia. rewrite (Z.mul_comm 2 g), Z.div_add_l, (Z.div_small c), Z.add_0_r by lia.
    rewrite Cscal_mul. reflexivity.
Qed.
End D.
