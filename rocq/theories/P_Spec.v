(** C85: the exact bands exist, are unique, and follow the structure continuously. *)
From Coq Require Import List ZArith Reals Bool Arith Lia Lra.
From Verif Require Import Base RC M_Tensor S_Tensor M_Evect S_Evect M_Grid S_Grid M_Op S_Op L_Op4 M_Eig M_Dav S_Eig M_Kpt S_Kpt M_Mx S_Mir S_Mx L_EigEx S_Cmp L_Cmp2 L_Cmp3 S_Spec L_Spec4 L_Spec5 L_Spec6 L_Spec7 P_Op P_Mx P_Cmp.
Import ListNotations.
Local Open Scope Z_scope.

(** Every structure has its exact bands, at every k point and for every parity. *)
Theorem C85_exist d parity zero_k : wfd d -> 0 < d_nfb d -> orthonormal_basis d -> sound_mu d -> exists m lam, exact_bands d m parity zero_k lam.
Proof. intros Wd Hn Ho Sm. exact (bands_exist d Wd Hn Ho parity zero_k Sm). Qed.
Print Assumptions C85_exist.

(** They do not rise when the permittivity is raised, and there are as many for every permittivity. *)
Theorem C85_monotone d t parity zero_k m lam m' lam' : wfd d -> 0 < d_nfb d -> orthonormal_basis d -> Z.of_nat (length t) = npts d ->
  exact_bands d m parity zero_k lam -> exact_bands (with_eps d t) m' parity zero_k lam' -> m' = m /\ (nowhere_above d t (d_eps_inv d) -> forall j, (j < m)%nat -> (lam' j <= lam j)%R).
Proof.
  intros Wd Hn Ho L Eb Eb'. split; [exact (bands_same d Wd Hn Ho t parity zero_k m lam m' lam' L Eb Eb')|]. destruct Eb as (V & MV & Am & Al), Eb' as (V' & MV' & Am' & _). intros Le j Hj.
  apply (C84_monotone d t parity zero_k m V MV lam m' V' MV' lam' Wd Hn Ho L Le Am Al Am' j Hj).
Qed.
Print Assumptions C85_monotone.

(** There is only one list of them. *)
Theorem C85_unique d parity zero_k m lam m' lam' : wfd d -> 0 < d_nfb d -> orthonormal_basis d -> exact_bands d m parity zero_k lam -> exact_bands d m' parity zero_k lam' ->
  m' = m /\ forall j, (j < m)%nat -> lam' j = lam j.
Proof.
  intros Wd Hn Ho E1 E2. assert (L : Z.of_nat (length (d_eps_inv d)) = npts d) by (destruct Wd as (_ & _ & _ & _ & _ & _ & _ & _ & _ & Q & _); exact Q).
  assert (Rf : nowhere_above d (d_eps_inv d) (d_eps_inv d)) by (intros r x _; apply Rle_refl).
  destruct (C85_monotone d (d_eps_inv d) parity zero_k m lam m' lam' Wd Hn Ho L E1 ltac:(rewrite (with_same d Wd); exact E2)) as (Em & Q1).
  destruct (C85_monotone d (d_eps_inv d) parity zero_k m' lam' m lam Wd Hn Ho L E2 ltac:(rewrite (with_same d Wd); exact E1)) as (_ & Q2).
  split; [exact Em|]. intros j Hj. apply Rle_antisym; [apply Q1; assumption|apply Q2; [exact Rf|lia]].
Qed.
Print Assumptions C85_unique.

(** Without parity there are two for every plane wave, but for the constant fields at k = 0. *)
Theorem C85_count d parity zero_k m lam : wfd d -> 0 < d_nfb d -> orthonormal_basis d -> wanted parity 0 1 = 0 -> wanted parity 2 3 = 0 -> exact_bands d m parity zero_k lam ->
  Z.of_nat m = 2 * npts d - if zero_k then 2 else 0.
Proof.
  intros Wd Hn Ho E1 E2 Eb. rewrite (bands_count d Wd Hn Ho parity zero_k m lam E1 E2 Eb). unfold L_Mx1.rows. pose proof (L_Op.N_pos d Wd). destruct zero_k; cbn [skipped]; lia.
Qed.
Print Assumptions C85_count.

(** They are not negative, and positive if no wave vector but that of the constant fields vanishes. *)
Theorem C85_sign d parity zero_k m lam : wfd d -> 0 < d_nfb d -> orthonormal_basis d -> exact_bands d m parity zero_k lam ->
  (at_least d 0 -> forall i, (i < m)%nat -> (0 <= lam i)%R) /\
  (positive d (d_eps_inv d) -> (forall i, (i < 2 * Z.to_nat (npts d))%nat -> (zero_k = true -> (2 <= i)%nat) -> (0 < wave2 d i)%R) -> forall i, (i < m)%nat -> (0 < lam i)%R).
Proof. intros Wd Hn Ho Eb. split; [apply (bands_nonneg d Wd Hn Ho parity zero_k m lam Eb)|apply (bands_positive d Wd Hn Ho parity zero_k m lam Eb)]. Qed.
Print Assumptions C85_sign.

(** A change of the inverse permittivities by at most e moves no exact squared frequency by more than e
    times the largest |k + G|^2. *)
Theorem C85_stable d t e K parity zero_k m lam m' lam' : wfd d -> 0 < d_nfb d -> orthonormal_basis d -> d_mu_inv d = None -> Z.of_nat (length t) = npts d -> (0 <= e)%R -> within d e t (d_eps_inv d) ->
  (forall i, (i < 2 * Z.to_nat (npts d))%nat -> (wave2 d i <= K)%R) ->
  exact_bands d m parity zero_k lam -> exact_bands (with_eps d t) m' parity zero_k lam' -> m' = m /\ forall j, (j < m)%nat -> (Rabs (lam' j - lam j) <= e * K)%R.
Proof.
  intros Wd Hn Ho Em L He Wt Wk E1 E2. assert (Ee : Z.of_nat (length (d_eps_inv d)) = npts d) by (destruct Wd as (_ & _ & _ & _ & _ & _ & _ & _ & _ & Q & _); exact Q).
  destruct (C85_monotone d t parity zero_k m lam m' lam' Wd Hn Ho L E1 E2) as (Emm & _). split; [exact Emm|]. intros j Hj.
  assert (Wd' : wfd (with_eps d t)) by (apply (with_wfd d Wd); exact L).
  destruct (bands_stable_one d Wd Hn Ho t e K parity zero_k m lam m' lam' Em L He Wt Wk E1 E2 j Hj) as (_ & U1).
  assert (Wt' : within (with_eps d t) e (d_eps_inv d) (d_eps_inv (with_eps d t))) by (intros r x Hr; rewrite Rabs_minus_sym; apply Wt; exact Hr).
  assert (E1' : exact_bands (with_eps (with_eps d t) (d_eps_inv d)) m parity zero_k lam) by (replace (with_eps (with_eps d t) (d_eps_inv d)) with d by (destruct d; reflexivity); exact E1).
  destruct (bands_stable_one (with_eps d t) Wd' Hn Ho (d_eps_inv d) e K parity zero_k m' lam' m lam Em Ee He Wt' Wk E2 E1' j ltac:(lia)) as (_ & U2).
  apply Rabs_le. lra.
Qed.
Print Assumptions C85_stable.

(** Bands that were found (C79) against the exact ones of the same structure, which always exist: in each
    block not below, one by one; and over the first p bands of all blocks the sum is not below the sum
    of the p lowest. *)
Theorem C85_found d num bs b0 zero_k negative_ok parity H MH f w : wfd d -> 0 < d_nfb d -> orthonormal_basis d -> sound_mu d ->
  mx_muinv d H H = Val MH -> mx_bands d num bs b0 zero_k negative_ok parity H MH f w ->
  exists m lam, exact_bands d m parity zero_k lam /\ (num - b0 <= m)%nat /\
    (forall l j, (j < bs)%nat -> (b0 + l * bs + j < num)%nat -> (lam j <= w (b0 + l * bs + j)%nat)%R) /\
    (forall p, (b0 + p <= num)%nat -> (rsum p lam <= rsum p (fun j => w (b0 + j)%nat))%R).
Proof.
  intros Wd Hn Ho Sm E Bd. destruct (C85_exist d parity zero_k Wd Hn Ho Sm) as (m & lam & Eb). exists m, lam. split; [exact Eb|].
  pose proof (bands_sum d num bs b0 zero_k negative_ok parity H MH f w m lam Wd Hn Ho E Bd Eb) as Sm'. split; [|split].
  - destruct (Nat.le_gt_cases b0 num) as [Hb|Hb]; [apply Sm'; lia|lia].
  - intros l j Hj Hi. destruct Eb as (V & MV & Am & _). assert (L : Z.of_nat (length (d_eps_inv d)) = npts d) by (destruct Wd as (_ & _ & _ & _ & _ & _ & _ & _ & _ & Q & _); exact Q).
    apply (C84_above d (d_eps_inv d) num bs b0 zero_k negative_ok parity H MH f w m V MV lam Wd Hn Ho E Bd L ltac:(intros r x _; apply Rle_refl) ltac:(rewrite (with_same d Wd); exact Am) l j Hj Hi).
  - intros p Hp. apply Sm'. exact Hp.
Qed.
Print Assumptions C85_found.

(** For every completed run of the conjugate-gradient solver and of the Davidson solver. *)
Theorem C85_found_cg d num bs b0 zero_k same negative_ok parity simple potr heev cg pr project reorth reset tol force only quick k fuel0 fuel S2 ev H Hblock BY H' f :
  mx_call d num bs b0 zero_k same parity fuel S2 ev H Hblock BY -> lapack_ok bs potr heev -> pre_fits simple d -> (project = true -> d_mu_inv d = None) -> sound_mu d ->
  solve_kpoint (mx_parity d parity) (mx_muinv d) (cg_solver potr heev (mx_A d) (mx_B d) (Some (mx_K simple d)) cg pr project reorth reset tol force only quick k fuel0) fuel zero_k same negative_ok parity (Z.of_nat num) S2 ev H Hblock BY = Some (Val (H', f)) ->
  exists m lam w, exact_bands d m parity zero_k lam /\ (num - b0 <= m)%nat /\ (forall i, (i < num)%nat -> freq_of negative_ok (nth i f 0%R) (w i)) /\
    (forall l j, (j < bs)%nat -> (b0 + l * bs + j < num)%nat -> (lam j <= w (b0 + l * bs + j)%nat)%R) /\
    (forall p, (b0 + p <= num)%nat -> (rsum p lam <= rsum p (fun j => w (b0 + j)%nat))%R).
Proof.
  intros Cl La Pf Em Sm E. pose proof Cl as (Wd & Ho & Hn & _).
  destruct (C79_cg d num bs b0 zero_k same negative_ok parity simple potr heev cg pr project reorth reset tol force only quick k fuel0 fuel S2 ev H Hblock BY H' f Cl La Pf Em) as (_ & Q). destruct (Q E) as (MH & w & Em' & Bd).
  destruct (C85_found d num bs b0 zero_k negative_ok parity H' MH f w Wd Hn Ho Sm Em' Bd) as (m & lam & R1 & R2 & R3). exists m, lam, w. split; [exact R1|]. split; [exact R2|]. split; [|exact R3]. apply Bd.
Qed.
Print Assumptions C85_found_cg.
Theorem C85_found_davidson d num bs b0 nb zero_k same negative_ok parity simple potr heev tol k ev0 W fuel S2 ev H Hblock BY H' f :
  mx_call d num bs b0 zero_k same parity fuel S2 ev H Hblock BY -> davidson_arrays d bs nb potr heev ev0 W -> pre_fits simple d -> d_mu_inv d = None ->
  solve_kpoint (mx_parity d parity) (mx_muinv d) (davidson_solver potr heev (mx_A d) (Some (mx_KI simple d)) tol k ev0 W) fuel zero_k same negative_ok parity (Z.of_nat num) S2 ev H Hblock BY = Some (Val (H', f)) ->
  exists m lam w, exact_bands d m parity zero_k lam /\ (num - b0 <= m)%nat /\ (forall i, (i < num)%nat -> freq_of negative_ok (nth i f 0%R) (w i)) /\
    (forall l j, (j < bs)%nat -> (b0 + l * bs + j < num)%nat -> (lam j <= w (b0 + l * bs + j)%nat)%R) /\
    (forall p, (b0 + p <= num)%nat -> (rsum p lam <= rsum p (fun j => w (b0 + j)%nat))%R).
Proof.
  intros Cl Da Pf Em E. pose proof Cl as (Wd & Ho & Hn & _).
  destruct (C79_davidson d num bs b0 nb zero_k same negative_ok parity simple potr heev tol k ev0 W fuel S2 ev H Hblock BY H' f Cl Da Pf Em) as (_ & Q). destruct (Q E) as (MH & w & Em' & Bd).
  destruct (C85_found d num bs b0 zero_k negative_ok parity H' MH f w Wd Hn Ho ltac:(intros mu K; rewrite Em in K; discriminate) Em' Bd) as (m & lam & R1 & R2 & R3). exists m, lam, w. split; [exact R1|]. split; [exact R2|]. split; [|exact R3]. apply Bd.
Qed.
Print Assumptions C85_found_davidson.

(** Linear algebra routines as the solvers are assumed to call them exist, for all sizes. *)
Theorem C85_lapack : exists potr heev, forall bs, lapack_ok bs potr heev.
Proof. destruct potr_exists as (potr & Hp), heev_exists as (heev & Hh). exists potr, heev. intros bs q _. split; [apply Hp|apply Hh]. Qed.
Print Assumptions C85_lapack.

(** Two points with different permittivities; the same with a permeability. *)
Lemma iso_positive d t : (forall r, (r < Z.to_nat (npts d))%nat -> exists e, (0 < e)%R /\ sym_at t r = iso e) -> positive d t.
Proof.
  intros Hi r x Hr (i & Hi3 & Nx). destruct (Hi r Hr) as (e & He & ->). rewrite iso_form. apply Rmult_lt_0_compat; [exact He|]. unfold size2. cbn [rsum]. pose proof (RC.normsqr_pos _ Nx).
  pose proof (RC.normsqr_nonneg (x 0%nat)). pose proof (RC.normsqr_nonneg (x 1%nat)). pose proof (RC.normsqr_nonneg (x 2%nat)). destruct i as [|[|[|]]]; try lia; lra.
Qed.
Example C85_ex : wfd cm_d /\ 0 < d_nfb cm_d /\ orthonormal_basis cm_d /\ sound_mu cm_d /\ positive cm_d (d_eps_inv cm_d) /\ at_least cm_d 0 /\ within cm_d (/ 6) (flat cm_d (/ 3)) (d_eps_inv cm_d) /\ nowhere_above cm_d (flat cm_d (/ 3)) (d_eps_inv cm_d).
Proof.
  destruct cm_ok as (Wd & Hn & Ho). split; [exact Wd|]. split; [exact Hn|]. split; [exact Ho|]. split; [discriminate|]. split; [|split; [|split]].
  - apply iso_positive. intros r Hr. destruct (cm_at r Hr) as [-> | ->]; [exists (/ 2)%R|exists (/ 3)%R]; split; auto; lra.
  - intros r x Hr. pose proof (size2_pos x). destruct (cm_at r Hr) as [-> | ->]; rewrite iso_form; lra.
  - intros r x Hr. pose proof (size2_pos x). rewrite flat_at by exact Hr. destruct (cm_at r Hr) as [-> | ->]; rewrite !iso_form; apply Rabs_le; lra.
  - apply least_below, C84_bounds_ex.
Qed.
Example C85_exist_ex : exists lam, exact_bands cm_d 4 0 false lam.
Proof.
  destruct C85_ex as (Wd & Hn & Ho & Sm & _). destruct (C85_exist cm_d 0 false Wd Hn Ho Sm) as (m & lam & E). pose proof (C85_count cm_d 0 false m lam Wd Hn Ho eq_refl eq_refl E) as Q. replace 4%nat with m by (change (npts cm_d) with 2 in Q; lia). exists lam. exact E.
Qed.
Example C85_mu_ex : let d := ex_d 1 (Some [iso 1; iso (/ 2)]) in wfd d /\ sound_mu d /\ exists lam, exact_bands d 4 0 false lam.
Proof.
  cbv zeta. destruct C13_example as (Wd & Ho & _). set (d := ex_d 1 (Some [iso 1; iso (/ 2)])) in *. split; [exact Wd|]. assert (Sm : sound_mu d).
  { intros mu E. injection E as <-. apply iso_positive. intros r Hr. change (Z.to_nat (npts d)) with 2%nat in Hr. destruct r as [|[|r]]; [exists 1%R|exists (/ 2)%R|lia]; (split; [lra|reflexivity]). }
  split; [exact Sm|]. destruct (C85_exist d 0 false Wd ltac:(reflexivity) Ho Sm) as (m & lam & E). pose proof (C85_count d 0 false m lam Wd ltac:(reflexivity) Ho eq_refl eq_refl E) as Q. replace 4%nat with m by (change (npts d) with 2 in Q; lia). exists lam. exact E.
Qed.
(** The exact modes of the two points as found bands. *)
Example C85_found_ex : exists V MV lam, mx_muinv cm_d V V = Val MV /\ mx_bands cm_d 4 4 0 false true 0 V MV (map lam (seq 0 4)) lam.
Proof.
  destruct C85_exist_ex as (lam & V & MV & Am & Al). destruct cm_ok as (Wd & Hn & Ho). exists V, MV, lam. split; [apply Am|]. apply (L_Cmp7.modes_bands cm_d 4 0 false V MV); auto.
Qed.
