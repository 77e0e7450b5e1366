(** The operators as forms on fields. *)
From Coq Require Import List ZArith Reals Bool Lia Lra.
From Verif Require Import Base RC Loops M_Tensor S_Tensor M_Evect S_Evect L_Evect L_Evect3 M_Grid S_Grid M_Op S_Op L_Op L_Op2.
Import ListNotations.
Local Open Scope Z_scope.

Lemma csum_pairs n (f : Z -> C) : csum (2 * n) (fun i => f (Z.of_nat i)) = csum n (fun g => (f (2 * Z.of_nat g)%Z + f (2 * Z.of_nat g + 1)%Z)%C).
Proof.
  induction n as [|n IH]; [reflexivity|]. replace (2 * S n)%nat with (S (S (2 * n))) by lia. cbn [csum]. rewrite IH.
  replace (Z.of_nat (2 * n)) with (2 * Z.of_nat n) by lia. replace (Z.of_nat (S (2 * n))) with (2 * Z.of_nat n + 1) by lia. ring.
Qed.
Lemma csum3 f : csum 3 f = (f 0%nat + f 1%nat + f 2%nat)%C.
Proof. cbn. ring. Qed.

Definition cdotv (u v : cvec) : C := csum 3 (fun i => (Cconj (vsel i u) * vsel i v)%C).

Lemma cdotv_form V u v : cdotv u (assign_symmatrix_vector V v) = form V (fun i => vsel i u) (fun i => vsel i v).
Proof.
  destruct u as [[u0 u1] u2], v as [[v0 v1] v2]. unfold cdotv, form, assign_symmatrix_vector. rewrite !csum3. cbn [vsel fst snd entry].
  rewrite !Cscal_mul. ring.
Qed.

Definition adj (asg : kdata -> C -> C -> cvec) (prj : kdata -> cvec -> C * C) (s : C) : Prop :=
  forall k v0 v1 a, (Cconj v0 * fst (prj k a) + Cconj v1 * snd (prj k a))%C = (s * cdotv (asg k v0 v1) a)%C.

Lemma adj_t2c s : adj assign_t2c (project_c2t s) (RtoC s).
Proof.
  intros [kk [[mx my] mz] [[nx ny] nz]] v0 v1 [[a0 a1] a2]. unfold cdotv. rewrite csum3. unfold project_c2t, assign_t2c, cdot3, lin. cbn [km kn kmag fst snd vsel].
  apply C_eq; csimp; ring.
Qed.
Lemma adj_cross s : adj assign_cross_t2c (assign_cross_c2t s) (RtoC (- s)).
Proof.
  intros [kk [[mx my] mz] [[nx ny] nz]] v0 v1 [[a0 a1] a2]. unfold cdotv. rewrite csum3. unfold assign_cross_c2t, assign_cross_t2c, cdot3. cbn [km kn kmag fst snd vsel].
  apply C_eq; csimp; ring.
Qed.
Lemma adj_crossinv s : adj assign_crossinv_t2c (assign_crossinv_c2t s) (RtoC (- s)).
Proof.
  intros [kk [[mx my] mz] [[nx ny] nz]] v0 v1 [[a0 a1] a2]. unfold cdotv. rewrite csum3. unfold assign_crossinv_c2t, assign_crossinv_t2c, cdot3. cbn [km kn kmag fst snd vsel].
  unfold Rdiv. generalize (/ FIX_DENOM kk)%R. intros q. apply C_eq; csimp; ring.
Qed.

Section D.
Variable d : mdata.
Hypothesis Wd : wfd d.
Notation N := (npts d).
Notation NN := (Z.to_nat (npts d)).

Definition inner (f h : ff) : C := csum NN (fun g => (Cconj (f (Z.of_nat g) 0%Z) * h (Z.of_nat g) 0%Z + Cconj (f (Z.of_nat g) 1%Z) * h (Z.of_nat g) 1%Z)%C).

Lemma dotl_inner X Y j l : fields d X -> dotl X Y j l = inner (fld X j) (fld Y l).
Proof.
  intros (_ & En). unfold dotl, inner. rewrite En. replace (Z.to_nat (2 * N)) with (2 * NN)%nat by (pose proof (N_pos d Wd); lia).
  rewrite (csum_pairs NN (fun i => (Cconj (entC X i j) * entC Y i l)%C)). apply csum_ext. intros g _. unfold fld. rewrite !Z.add_0_r. reflexivity.
Qed.
Lemma inner_ext f f' h h' : feq d f f' -> feq d h h' -> inner f h = inner f' h'.
Proof. intros H1 H2. apply csum_ext. intros g Hg. rewrite !H1, !H2 by lia. reflexivity. Qed.

Lemma phase_sym nx ny nz g r : phase nx ny nz g r = phase nx ny nz r g.
Proof. unfold phase, point. rewrite (Z.mul_comm (g / _)), (Z.mul_comm ((g / nz) mod ny)), (Z.mul_comm (g mod nz)). reflexivity. Qed.
Lemma kern_conj g r : kern d (-1) r g = Cconj (kern d 1 g r).
Proof. unfold kern. cbn [Z.ltb Z.compare]. rewrite (phase_sym _ _ _ r g). cring. Qed.

Lemma back_dot p u g : cdotv p (back d u g) = csum NN (fun r => (Cconj (kern d 1 g (Z.of_nat r)) * cdotv p (u (Z.of_nat r)))%C).
Proof.
  unfold cdotv. rewrite (csum_ext 3 _ (fun i => csum NN (fun r => (Cconj (vsel i p) * (Cconj (kern d 1 g (Z.of_nat r)) * vsel i (u (Z.of_nat r))))%C))).
  - rewrite csum_swap. apply csum_ext. intros r _. rewrite <- csum_scal. apply csum_ext. intros i _. ring.
  - intros i Hi. unfold back. rewrite vsel_build by exact Hi. rewrite <- csum_scal. apply csum_ext. intros r _. rewrite kern_conj. reflexivity.
Qed.
Lemma position_dot asg f r w : cdotv (position d asg f r) w =
  csum NN (fun g => (Cconj (kern d 1 (Z.of_nat g) r) * cdotv (asg (kz d (Z.of_nat g)) (f (Z.of_nat g) 0%Z) (f (Z.of_nat g) 1%Z)) w)%C).
Proof.
  unfold cdotv.
  rewrite (csum_ext 3 _ (fun i => csum NN (fun g => (Cconj (kern d 1 (Z.of_nat g) r) * (Cconj (vsel i (asg (kz d (Z.of_nat g)) (f (Z.of_nat g) 0%Z) (f (Z.of_nat g) 1%Z))) * vsel i w))%C))).
  - rewrite csum_swap. apply csum_ext. intros g _. rewrite <- csum_scal. reflexivity.
  - intros i Hi. unfold position. rewrite vsel_build by exact Hi. rewrite csum_conj, <- csum_scal_r. apply csum_ext. intros g _. rewrite Cconj_mul. ring.
Qed.

Lemma sand_form asg asg' prj s F f h : adj asg' prj s ->
  inner f (sand d asg prj F h) = (s * csum NN (fun r => cdotv (position d asg' f (Z.of_nat r)) (F (Z.of_nat r) (position d asg h (Z.of_nat r)))))%C.
Proof.
  intros A. unfold inner, sand. cbn [Z.eqb].
  rewrite (csum_ext NN _ (fun g => csum NN (fun r => (s * (Cconj (kern d 1 (Z.of_nat g) (Z.of_nat r)) *
    cdotv (asg' (kz d (Z.of_nat g)) (f (Z.of_nat g) 0%Z) (f (Z.of_nat g) 1%Z)) (F (Z.of_nat r) (position d asg h (Z.of_nat r)))))%C))).
  - rewrite csum_swap. rewrite <- csum_scal. apply csum_ext. intros r _. rewrite position_dot. rewrite csum_scal. reflexivity.
  - intros g _. rewrite A. rewrite back_dot. rewrite <- csum_scal. reflexivity.
Qed.

Lemma form_conj V x y : form V x y = Cconj (form V y x).
Proof. unfold form. rewrite !csum3. destruct V as [a b c p q r]. cbn [entry m00 m11 m22 m01 m02 m12]. apply C_eq; csimp; ring. Qed.

Definition gform (asg : kdata -> C -> C -> cvec) (t : list sym) (f h : ff) : C :=
  (RtoC (/ mN d) * csum NN (fun r => form (sym_at t r) (fun i => vsel i (position d asg f (Z.of_nat r))) (fun i => vsel i (position d asg h (Z.of_nat r)))))%C.
Lemma gform_conj asg t f h : gform asg t f h = Cconj (gform asg t h f).
Proof.
  unfold gform. rewrite Cconj_mul, Cconj_R. f_equal. rewrite csum_conj. apply csum_ext. intros r _. apply form_conj.
Qed.
Lemma gform_ext asg t f f' h h' : feq d f f' -> feq d h h' -> gform asg t f h = gform asg t f' h'.
Proof. intros H1 H2. unfold gform. f_equal. apply csum_ext. intros r _. rewrite (position_ext d asg f f'), (position_ext d asg h h') by assumption. reflexivity. Qed.

Lemma mucol_form mu f h : inner f (mucol d mu h) = gform assign_t2c mu f h.
Proof.
  unfold mucol. rewrite (sand_form _ _ _ _ _ _ _ (adj_t2c _)). unfold gform. f_equal.
  - unfold Rdiv. rewrite Rmult_1_l. reflexivity.
  - apply csum_ext. intros r _. unfold tens. rewrite cdotv_form, Nat2Z.id. reflexivity.
Qed.
Lemma epscol_form f h : inner f (epscol d h) = gform assign_cross_t2c (d_eps_inv d) f h.
Proof.
  unfold epscol. rewrite (sand_form _ _ _ _ _ _ _ (adj_cross _)). unfold gform. f_equal.
  - f_equal. unfold Rdiv. ring.
  - apply csum_ext. intros r _. unfold tens. rewrite cdotv_form, Nat2Z.id. reflexivity.
Qed.
Lemma inner_conj f h : inner f h = Cconj (inner h f).
Proof. unfold inner. rewrite csum_conj. apply csum_ext. intros g _. rewrite Cconj_add, !Cconj_mul, !Cconj_conj. ring. Qed.
Lemma mucol_adj mu f h : inner f (mucol d mu h) = inner (mucol d mu f) h.
Proof. rewrite (inner_conj (mucol d mu f) h), !mucol_form. apply gform_conj. Qed.

Lemma opcol_form f h : inner f (opcol d h) = gform assign_cross_t2c (d_eps_inv d) (mumaybe d f) (mumaybe d h).
Proof.
  unfold opcol, mumaybe. destruct (d_mu_inv d) as [mu|].
  - rewrite mucol_adj. apply epscol_form.
  - apply epscol_form.
Qed.

(** In the words of the specification. *)
Lemma kern_wave g r : kern d 1 (Z.of_nat g) (Z.of_nat r) = wave d g r.
Proof.
  unfold kern, wave, phase, point. cbn [Z.ltb Z.compare]. cbv zeta.
  match goal with |- _ = (cos ?a, sin ?a) => set (A := a) end.
  match goal with |- (cos ?b, _) = _ => replace b with (- A)%R by (unfold A; ring) end.
  rewrite cos_neg, sin_neg, Ropp_involutive. reflexivity.
Qed.
Lemma position_synth asg X b r i F : (i < 3)%nat ->
  (forall g, (g < NN)%nat -> vsel i (asg (kat d g) (entC X (2 * Z.of_nat g) b) (entC X (2 * Z.of_nat g + 1) b)) = F g i) ->
  vsel i (position d asg (fld X b) (Z.of_nat r)) = synth d F r i.
Proof.
  intros Hi H. unfold position, synth. rewrite vsel_build by exact Hi. apply csum_ext. intros g Hg. rewrite kern_wave. f_equal.
  unfold kz, fld. rewrite Nat2Z.id, Z.add_0_r. apply H. exact Hg.
Qed.
Lemma pos_h X b r i : (i < 3)%nat -> vsel i (position d assign_t2c (fld X b) (Z.of_nat r)) = hfield d X b r i.
Proof.
  intros Hi. apply position_synth; [exact Hi|]. intros g _. unfold cart. destruct (kat d g) as [kk [[mx my] mz] [[nx ny] nz]].
  unfold assign_t2c, lin. cbn [km kn]. destruct i as [|[|[|i]]]; try lia; cbn [vsel fst snd comp]; apply C_eq; csimp; ring.
Qed.
Lemma cross_unit (mx my mz nx ny nz kk : R) (v0 v1 : C) : let k := {| kmag := kk; km := (mx, my, mz); kn := (nx, ny, nz) |} in
  rdot (km k) (km k) = 1%R -> rdot (kn k) (kn k) = 1%R -> rdot (km k) (kn k) = 0%R -> forall i, (i < 3)%nat ->
  vsel i (assign_cross_t2c k v0 v1) =
  ccross (rsc kk (rcross (km k) (kn k))) (fun i => (RtoC (comp i (km k)) * v0 + RtoC (comp i (kn k)) * v1)%C) i.
Proof.
  intros k H1 H2 H3 i Hi. unfold k in *. cbn [km kn rdot] in *. unfold assign_cross_t2c, ccross, rsc, rcross. cbn [km kn kmag].
  destruct v0 as [p q], v1 as [s t].
  (* (m x n) x m = n, (m x n) x n = - m *)
  assert (A0 : ((mz * nx - mx * nz) * mz - (mx * ny - my * nx) * my = nx)%R).
  { transitivity (nx * (mx * mx + my * my + mz * mz) - mx * (mx * nx + my * ny + mz * nz))%R; [ring|]. rewrite H1, H3. ring. }
  assert (A1 : ((mx * ny - my * nx) * mx - (my * nz - mz * ny) * mz = ny)%R).
  { transitivity (ny * (mx * mx + my * my + mz * mz) - my * (mx * nx + my * ny + mz * nz))%R; [ring|]. rewrite H1, H3. ring. }
  assert (A2 : ((my * nz - mz * ny) * my - (mz * nx - mx * nz) * mx = nz)%R).
  { transitivity (nz * (mx * mx + my * my + mz * mz) - mz * (mx * nx + my * ny + mz * nz))%R; [ring|]. rewrite H1, H3. ring. }
  assert (B0 : ((mz * nx - mx * nz) * nz - (mx * ny - my * nx) * ny = - mx)%R).
  { transitivity (- (mx * (nx * nx + ny * ny + nz * nz) - nx * (mx * nx + my * ny + mz * nz)))%R; [ring|]. rewrite H2, H3. ring. }
  assert (B1 : ((mx * ny - my * nx) * nx - (my * nz - mz * ny) * nz = - my)%R).
  { transitivity (- (my * (nx * nx + ny * ny + nz * nz) - ny * (mx * nx + my * ny + mz * nz)))%R; [ring|]. rewrite H2, H3. ring. }
  assert (B2 : ((my * nz - mz * ny) * ny - (mz * nx - mx * nz) * nx = - mz)%R).
  { transitivity (- (mz * (nx * nx + ny * ny + nz * nz) - nz * (mx * nx + my * ny + mz * nz)))%R; [ring|]. rewrite H2, H3. ring. }
  clear H1 H2 H3.
  destruct i as [|[|[|i]]]; [| | |lia]; cbn [vsel fst snd comp]; apply C_eq; csimp.
  - transitivity (kk * (p * ((mz * nx - mx * nz) * mz - (mx * ny - my * nx) * my) + s * ((mz * nx - mx * nz) * nz - (mx * ny - my * nx) * ny)))%R; [rewrite A0, B0; ring|ring].
  - transitivity (kk * (q * ((mz * nx - mx * nz) * mz - (mx * ny - my * nx) * my) + t * ((mz * nx - mx * nz) * nz - (mx * ny - my * nx) * ny)))%R; [rewrite A0, B0; ring|ring].
  - transitivity (kk * (p * ((mx * ny - my * nx) * mx - (my * nz - mz * ny) * mz) + s * ((mx * ny - my * nx) * nx - (my * nz - mz * ny) * nz)))%R; [rewrite A1, B1; ring|ring].
  - transitivity (kk * (q * ((mx * ny - my * nx) * mx - (my * nz - mz * ny) * mz) + t * ((mx * ny - my * nx) * nx - (my * nz - mz * ny) * nz)))%R; [rewrite A1, B1; ring|ring].
  - transitivity (kk * (p * ((my * nz - mz * ny) * my - (mz * nx - mx * nz) * mx) + s * ((my * nz - mz * ny) * ny - (mz * nx - mx * nz) * nx)))%R; [rewrite A2, B2; ring|ring].
  - transitivity (kk * (q * ((my * nz - mz * ny) * my - (mz * nx - mx * nz) * mx) + t * ((my * nz - mz * ny) * ny - (mz * nx - mx * nz) * nx)))%R; [rewrite A2, B2; ring|ring].
Qed.
Lemma pos_curl X b r i : orthonormal_basis d -> (i < 3)%nat -> vsel i (position d assign_cross_t2c (fld X b) (Z.of_nat r)) = curl d X b r i.
Proof.
  intros Ho Hi. apply (position_synth assign_cross_t2c X b r i (fun g => ccross (kvec d g) (cart d X b g))); [exact Hi|].
  intros g Hg. destruct (Ho g Hg) as (H1 & H2 & H3). unfold kvec, cart. destruct (kat d g) as [kk [[mx my] mz] [[nx ny] nz]].
  apply cross_unit; assumption.
Qed.
Lemma form_ext V x x' y y' : (forall i, (i < 3)%nat -> x i = x' i) -> (forall i, (i < 3)%nat -> y i = y' i) -> form V x y = form V x' y'.
Proof. intros Hx Hy. unfold form. apply csum_ext. intros i Hi. apply csum_ext. intros j Hj. rewrite Hx, Hy by assumption. reflexivity. Qed.
Lemma gform_curl t X Y j l : orthonormal_basis d -> gform assign_cross_t2c t (fld X j) (fld Y l) = mean_form d (sym_at t) (curl d X j) (curl d Y l).
Proof.
  intros Ho. unfold gform, mean_form. fold N. f_equal. apply csum_ext. intros r _. apply form_ext; intros i Hi; apply pos_curl; assumption.
Qed.
Lemma gform_h t X Y j l : gform assign_t2c t (fld X j) (fld Y l) = mean_form d (sym_at t) (hfield d X j) (hfield d Y l).
Proof.
  unfold gform, mean_form. fold N. f_equal. apply csum_ext. intros r _. apply form_ext; intros i Hi; apply pos_h; assumption.
Qed.

Lemma form_quad V x : form V x x = quad V x. Proof. reflexivity. Qed.
Lemma gform_psd asg t f : (forall r, (r < NN)%nat -> PSD (sym_at t r)) -> im (gform asg t f f) = 0%R /\ (0 <= re (gform asg t f f))%R.
Proof.
  intros H. unfold gform. set (S := csum NN _).
  assert (HS : im S = 0%R /\ (0 <= re S)%R).
  { unfold S. rewrite csum_im, csum_re. split.
    - rewrite (rsum_ext NN _ (fun _ => 0%R)); [apply rsum_0|]. intros r Hr. rewrite form_quad. apply (H r Hr).
    - apply rsum_nonneg. intros r Hr. rewrite form_quad. apply (H r Hr). }
  destruct HS as (H1 & H2). pose proof (N_pos d Wd) as Np.
  assert (Hi : (0 < / mN d)%R) by (apply Rinv_0_lt_compat; unfold mN; fold N; apply IZR_lt; lia).
  destruct S as [a b]. csimp. subst b. split; [ring|]. assert (0 <= / mN d * a)%R by (apply Rmult_le_pos; lra). lra.
Qed.
End D.
