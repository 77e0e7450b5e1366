(** C84: comparison of structures. *)
From Coq Require Import List ZArith Reals Bool Arith Lia Lra Permutation.
From Verif Require Import Base RC M_Tensor S_Tensor M_Evect S_Evect M_Grid S_Grid M_Op S_Op L_Op4 M_Eig M_Dav S_Eig M_Kpt S_Kpt L_Grid6 M_Mx S_Mir S_Mx L_EigEx L_Mir3 L_Mir4 S_Cmp L_Cmp2 L_Cmp3 L_Cmp4 L_Cmp5 L_Cmp6 L_Cmp7 P_Op P_Mx.
Import ListNotations.
Local Open Scope Z_scope.
Add Ring Cring_pcmp : C_ring_theory.

(** Bands that were found (C79), converged or not, are nowhere below the modes of a structure whose
    permittivity is nowhere smaller: the band with number j in its block is not below mode j. *)
Theorem C84_above d t num bs b0 zero_k negative_ok parity H MH f w m V MV lam :
  wfd d -> 0 < d_nfb d -> orthonormal_basis d -> mx_muinv d H H = Val MH -> mx_bands d num bs b0 zero_k negative_ok parity H MH f w ->
  Z.of_nat (length t) = npts d -> nowhere_above d t (d_eps_inv d) -> all_modes (with_eps d t) m parity zero_k V MV lam ->
  forall l j, (j < bs)%nat -> (b0 + l * bs + j < num)%nat -> (j < m)%nat /\ (lam j <= w (b0 + l * bs + j)%nat)%R.
Proof.
  intros Wd Hn Ho E Bd L Le Am l j Hj Hi. pose proof (mb_fields _ _ _ _ _ _ _ _ _ _ _ Bd) as (FH & PH & _).
  refine (cmp_core d t m parity zero_k V MV lam num (b0 + l * bs) (S j) H MH (fun i => w (b0 + l * bs + i)%nat) Wd Hn Ho L Le Am FH PH E ltac:(lia) _ _ _ _ j ltac:(lia)).
  - eapply block_orth; eassumption.
  - eapply block_curl; eassumption.
  - eapply block_ascend; eassumption.
  - eapply block_allowed; eassumption.
Qed.
Print Assumptions C84_above.

(** The exact frequencies do not rise when the permittivity is raised, and there are as many. *)
Theorem C84_monotone d t parity zero_k m V MV lam m' V' MV' lam' :
  wfd d -> 0 < d_nfb d -> orthonormal_basis d -> Z.of_nat (length t) = npts d -> nowhere_above d t (d_eps_inv d) ->
  all_modes d m parity zero_k V MV lam -> modes_allowed d m parity zero_k V -> all_modes (with_eps d t) m' parity zero_k V' MV' lam' ->
  forall j, (j < m)%nat -> (j < m')%nat /\ (lam' j <= lam j)%R.
Proof.
  intros Wd Hn Ho L Le [ (FV & PV) EV OV CV AV _ ] Al Am j Hj.
  refine (cmp_core d t m' parity zero_k V' MV' lam' m 0 m V MV lam Wd Hn Ho L Le Am FV PV EV ltac:(lia) OV CV AV Al j Hj).
Qed.
Print Assumptions C84_monotone.

(** The light line.  Let the inverse permittivity be at least e everywhere, without permeability.  Then
    at least j + 1 of the values e |k + G|^2, each counted for both polarizations and without the
    constant fields at k = 0, are not above the squared frequency of the band with number j in its
    block. *)
Theorem C84_light_line d e num bs b0 zero_k negative_ok parity H MH f w :
  wfd d -> 0 < d_nfb d -> orthonormal_basis d -> mx_muinv d H H = Val MH -> mx_bands d num bs b0 zero_k negative_ok parity H MH f w ->
  d_mu_inv d = None -> at_least d e ->
  forall l j, (j < bs)%nat -> (b0 + l * bs + j < num)%nat -> exists found, NoDup found /\ length found = S j /\
    forall i, In i found -> (i < 2 * Z.to_nat (npts d))%nat /\ (zero_k = true -> (2 <= i)%nat) /\ (e * wave2 d i <= w (b0 + l * bs + j)%nat)%R.
Proof.
  intros Wd Hn Ho E Bd Em Lb l j Hj Hi. pose proof (mb_fields _ _ _ _ _ _ _ _ _ _ _ Bd) as (FH & PH & _).
  refine (line_core d Wd Hn Ho Em e zero_k num (b0 + l * bs) (S j) H MH (fun i => w (b0 + l * bs + i)%nat) Lb FH PH E ltac:(lia) _ _ _ _ j ltac:(lia)).
  - eapply block_orth; eassumption.
  - eapply block_curl; eassumption.
  - eapply block_ascend; eassumption.
  - intros i r Hi' Z0 Hr. apply (mb_zero _ _ _ _ _ _ _ _ _ _ _ Bd Z0); [lia|exact Hr].
Qed.
Print Assumptions C84_light_line.

(** For every run of either solver. *)
Theorem C84_light_line_cg d e num bs b0 zero_k same negative_ok parity simple potr heev cg pr project reorth reset tol force only quick k fuel0 fuel S2 ev H Hblock BY H' f :
  mx_call d num bs b0 zero_k same parity fuel S2 ev H Hblock BY -> lapack_ok bs potr heev -> pre_fits simple d -> d_mu_inv d = None -> at_least d e ->
  solve_kpoint (mx_parity d parity) (mx_muinv d) (cg_solver potr heev (mx_A d) (mx_B d) (Some (mx_K simple d)) cg pr project reorth reset tol force only quick k fuel0) fuel zero_k same negative_ok parity (Z.of_nat num) S2 ev H Hblock BY = Some (Val (H', f)) ->
  forall l j, (j < bs)%nat -> (b0 + l * bs + j < num)%nat -> exists w found, freq_of negative_ok (nth (b0 + l * bs + j) f 0%R) w /\ NoDup found /\ length found = S j /\
    forall i, In i found -> (i < 2 * Z.to_nat (npts d))%nat /\ (zero_k = true -> (2 <= i)%nat) /\ (e * wave2 d i <= w)%R.
Proof.
  intros Cl La Pf Em Lb E l j Hj Hi. pose proof Cl as (Wd & Ho & Hn & _).
  destruct (C79_cg d num bs b0 zero_k same negative_ok parity simple potr heev cg pr project reorth reset tol force only quick k fuel0 fuel S2 ev H Hblock BY H' f Cl La Pf (fun _ => Em)) as (_ & Q). destruct (Q E) as (MH & w & Em' & Bd).
  destruct (C84_light_line d e num bs b0 zero_k negative_ok parity H' MH f w Wd Hn Ho Em' Bd Em Lb l j Hj Hi) as (found & R). exists (w (b0 + l * bs + j)%nat), found. split; [apply Bd; exact Hi|exact R].
Qed.
Print Assumptions C84_light_line_cg.
Theorem C84_light_line_davidson d e num bs b0 nb zero_k same negative_ok parity simple potr heev tol k ev0 W fuel S2 ev H Hblock BY H' f :
  mx_call d num bs b0 zero_k same parity fuel S2 ev H Hblock BY -> davidson_arrays d bs nb potr heev ev0 W -> pre_fits simple d -> d_mu_inv d = None -> at_least d e ->
  solve_kpoint (mx_parity d parity) (mx_muinv d) (davidson_solver potr heev (mx_A d) (Some (mx_KI simple d)) tol k ev0 W) fuel zero_k same negative_ok parity (Z.of_nat num) S2 ev H Hblock BY = Some (Val (H', f)) ->
  forall l j, (j < bs)%nat -> (b0 + l * bs + j < num)%nat -> exists w found, freq_of negative_ok (nth (b0 + l * bs + j) f 0%R) w /\ NoDup found /\ length found = S j /\
    forall i, In i found -> (i < 2 * Z.to_nat (npts d))%nat /\ (zero_k = true -> (2 <= i)%nat) /\ (e * wave2 d i <= w)%R.
Proof.
  intros Cl Da Pf Em Lb E l j Hj Hi. pose proof Cl as (Wd & Ho & Hn & _).
  destruct (C79_davidson d num bs b0 nb zero_k same negative_ok parity simple potr heev tol k ev0 W fuel S2 ev H Hblock BY H' f Cl Da Pf Em) as (_ & Q). destruct (Q E) as (MH & w & Em' & Bd).
  destruct (C84_light_line d e num bs b0 zero_k negative_ok parity H' MH f w Wd Hn Ho Em' Bd Em Lb l j Hj Hi) as (found & R). exists (w (b0 + l * bs + j)%nat), found. split; [apply Bd; exact Hi|exact R].
Qed.
Print Assumptions C84_light_line_davidson.

(** If the inverse permittivity is between a and b everywhere and there is neither permeability nor
    parity, the exact squared frequencies are between those of the uniform media with a and with b, in
    ascending order, and there is one for each polarization of each plane wave. *)
Theorem C84_between d a b m V MV lam : wfd d -> 0 < d_nfb d -> orthonormal_basis d -> d_mu_inv d = None -> at_least d a -> at_most d b ->
  all_modes d m 0 false V MV lam -> modes_allowed d m 0 false V ->
  exists p q, Permutation (seq 0 (2 * Z.to_nat (npts d))) p /\ Permutation (seq 0 (2 * Z.to_nat (npts d))) q /\ m = (2 * Z.to_nat (npts d))%nat /\
    (forall i j, (i <= j < m)%nat -> (a * wave2 d (nth i p 0%nat) <= a * wave2 d (nth j p 0%nat))%R) /\
    (forall i j, (i <= j < m)%nat -> (b * wave2 d (nth i q 0%nat) <= b * wave2 d (nth j q 0%nat))%R) /\
    forall j, (j < m)%nat -> (a * wave2 d (nth j p 0%nat) <= lam j <= b * wave2 d (nth j q 0%nat))%R.
Proof.
  intros Wd Hn Ho Em La Lb Am Al. assert (Np : 0 <= npts d) by (destruct Wd as (? & ? & ? & _); unfold npts; nia).
  destruct (flat_modes d Wd Hn Ho Em a 0) as (p & Vp & MVp & Pp & Sp & Ap). destruct (flat_modes d Wd Hn Ho Em b 0) as (q & Vq & MVq & Pq & Sq & Aq). set (n := (2 * Z.to_nat (npts d))%nat) in *.
  assert (Lo : forall j, (j < m)%nat -> (j < n)%nat /\ (a * wave2 d (nth j p 0%nat) <= lam j)%R).
  { apply (C84_monotone d (flat d a) 0 false m V MV lam n Vp MVp _ Wd Hn Ho (flat_len d a Np) (least_below d a La) Am Al Ap). }
  assert (Wb : wfd (with_eps d (flat d b))) by (apply (with_wfd d Wd), flat_len; exact Np).
  assert (Up : forall j, (j < n)%nat -> (j < m)%nat /\ (lam j <= b * wave2 d (nth j q 0%nat))%R).
  { apply (C84_monotone (with_eps d (flat d b)) (d_eps_inv d) 0 false n Vq MVq _ m V MV lam Wb Hn Ho).
    - destruct Wd as (_ & _ & _ & _ & _ & _ & _ & _ & _ & Q & _). exact Q.
    - intros r x Hr. cbn [d_eps_inv with_eps]. rewrite flat_at, iso_form by exact Hr. apply Lb. exact Hr.
    - exact Aq.
    - intros i Hi. split; [intros W; exfalso; apply W; reflexivity|]. split; [intros W; exfalso; apply W; reflexivity|discriminate].
    - replace (with_eps (with_eps d (flat d b)) (d_eps_inv d)) with d by (destruct d; reflexivity). exact Am. }
  assert (Emn : m = n).
  { destruct (Nat.lt_trichotomy m n) as [L|[L|L]]; [|exact L|]; [destruct (Up m L); lia|destruct (Lo n L); lia]. }
  exists p, q. split; [exact Pp|]. split; [exact Pq|]. split; [exact Emn|]. rewrite Emn. split; [exact Sp|]. split; [exact Sq|]. intros j Hj. split; [apply Lo; lia|apply Up; exact Hj].
Qed.
Print Assumptions C84_between.

(** s times the inverse permittivity: the same fields are a result with sqrt s times the frequencies. *)
Theorem C84_index d s t num bs b0 zero_k negative_ok parity H MH f w :
  (0 <= s)%R -> scaled_tensors d s t (d_eps_inv d) -> mx_muinv d H H = Val MH -> mx_bands d num bs b0 zero_k negative_ok parity H MH f w ->
  mx_muinv (with_eps d t) H H = Val MH /\ mx_bands (with_eps d t) num bs b0 zero_k negative_ok parity H MH (rescaled negative_ok s f) (fun i => (s * w i)%R).
Proof. intros Hs Sc E Bd. split; [exact E|]. apply (bands_index d s t num bs b0 zero_k negative_ok parity H MH f w Hs Sc Bd). Qed.
Print Assumptions C84_index.

(** All lengths divided by c: the same fields are a result with c times the frequencies. *)
Theorem C84_length c d d' k G1 G2 G3 num bs b0 zero_k negative_ok parity H MH f w :
  (0 < c)%R -> shrunk c d d' k G1 G2 G3 -> mx_bands d num bs b0 zero_k negative_ok parity H MH f w ->
  mx_bands d' num bs b0 zero_k negative_ok parity H MH (rescaled negative_ok (c * c) f) (fun i => (c * c * w i)%R).
Proof. intros Hc Sh Bd. apply (bands_length c d d' k G1 G2 G3 Hc Sh num bs b0 zero_k negative_ok parity H MH f w Bd). Qed.
Print Assumptions C84_length.
Theorem C84_length_exists c d k G1 G2 G3 : made d k G1 G2 G3 -> exists d', shrunk c d d' k G1 G2 G3.
Proof.
  intros Md. pose proof Md as (nx & ny & nz & nfb & t & eps & mu & kn2 & em & Hx & Hy & Hz & E & Le & Lm & ->).
  destruct (table_ok nx ny nz 0 nx (rsc c k) (rsc c G1) (rsc c G2) (rsc c G3) ltac:(lia) ltac:(lia) ltac:(lia)) as (t' & E' & _).
  exists (create_shape nx ny nz nfb t' eps mu kn2 em). split; [exact Md|]. split; [|repeat split].
  exists nx, ny, nz, nfb, t', eps, mu, kn2, em. auto 10.
Qed.
Print Assumptions C84_length_exists.

(** Two points with different permittivities. *)
Definition cm_d : mdata := with_eps (ex_d 1 None) [iso (/ 2); iso (/ 3)].
Lemma cm_ok : wfd cm_d /\ 0 < d_nfb cm_d /\ orthonormal_basis cm_d.
Proof. destruct C66_example as (Wd & _). split; [apply (with_wfd (ex_d 1 None) Wd); reflexivity|]. split; [cbn; lia|]. apply C13_example. Qed.
Lemma size2_pos x : (0 <= size2 x)%R.
Proof. unfold size2. cbn [rsum]. unfold normsqr. pose proof (Rle_0_sqr (re (x 0%nat))). pose proof (Rle_0_sqr (im (x 0%nat))). pose proof (Rle_0_sqr (re (x 1%nat))). pose proof (Rle_0_sqr (im (x 1%nat))). pose proof (Rle_0_sqr (re (x 2%nat))). pose proof (Rle_0_sqr (im (x 2%nat))). unfold Rsqr in *. lra. Qed.
Lemma cm_at r : (r < 2)%nat -> sym_at (d_eps_inv cm_d) r = iso (/ 2) \/ sym_at (d_eps_inv cm_d) r = iso (/ 3).
Proof. intros H. destruct r as [|[|r]]; [left|right|lia]; reflexivity. Qed.
Example C84_bounds_ex : d_mu_inv cm_d = None /\ at_least cm_d (/ 3) /\ at_most cm_d (/ 2).
Proof.
  split; [reflexivity|]. split; intros r x Hr; pose proof (size2_pos x); destruct (cm_at r Hr) as [-> | ->]; rewrite iso_form; lra.
Qed.
Example C84_above_ex : nowhere_above cm_d (flat cm_d (/ 3)) (d_eps_inv cm_d) /\ exists V MV lam, all_modes (with_eps cm_d (flat cm_d (/ 3))) 4 0 false V MV lam.
Proof.
  destruct cm_ok as (Wd & Hn & Ho). split; [apply least_below; apply C84_bounds_ex|]. destruct (flat_modes cm_d Wd Hn Ho eq_refl (/ 3) 0) as (l & V & MV & _ & _ & Q). exists V, MV, (fun j => (/ 3 * wave2 cm_d (nth j l 0%nat))%R). exact Q.
Qed.
(** The modes of a uniform medium as bands, and a medium with twice the inverse permittivity. *)
Example C84_index_ex : let d := with_eps cm_d (flat cm_d (/ 3)) in exists V MV lam, mx_muinv d V V = Val MV /\ mx_bands d 4 4 0 false true 0 V MV (map lam (seq 0 4)) lam /\
  scaled_tensors d 2 (flat cm_d (2 / 3)) (d_eps_inv d).
Proof.
  cbv zeta. destruct cm_ok as (Wd & Hn & Ho). destruct (flat_modes cm_d Wd Hn Ho eq_refl (/ 3) 0) as (l & V & MV & _ & _ & Q). exists V, MV, (fun j => (/ 3 * wave2 cm_d (nth j l 0%nat))%R).
  split; [apply Q|]. split.
  - apply (modes_bands (with_eps cm_d (flat cm_d (/ 3))) 4 0 false V MV); [apply (with_wfd cm_d Wd); reflexivity|exact Hn|lia|exact Q|]. intros i Hi. split; [intros W; exfalso; apply W; reflexivity|]. split; [intros W; exfalso; apply W; reflexivity|discriminate].
  - intros r i j Hr Hi Hj. cbn [d_eps_inv with_eps]. rewrite !flat_at by exact Hr. destruct i as [|[|[|]]], j as [|[|[|]]]; try lia; unfold iso; cbn [entry m00 m11 m22 m01 m02 m12]; apply C_eq; csimp; lra.
Qed.
Example C84_call_ex : mx_call cm_d 2 1 0 false false 0 2 [C0; C0] [0; 0]%R ex_X mx_blk None /\ lapack_ok 1 ex_potr ex_heev /\ pre_fits true cm_d.
Proof.
  destruct cm_ok as (Wd & Hn & Ho). destruct (ex_fields_X cm_d eq_refl) as (F1 & F2). split; [|split; [apply C79_call_ex|reflexivity]].
  split; [exact Wd|]. split; [exact Ho|]. split; [exact Hn|]. split; [left; reflexivity|]. split; [exact F1|]. split; [reflexivity|]. split; [reflexivity|]. split; [lia|]. split; [exact F2|]. split; [reflexivity|].
  split; [split; [discriminate|lia]|]. split; [right; reflexivity|]. split; [cbn; lia|]. split; [reflexivity|]. split; [reflexivity|lia].
Qed.
Example C84_length_ex : exists d d', shrunk 2 d d' mr_k mr_k mr_2 mr_3.
Proof.
  destruct (table_ok 1 1 2 0 1 mr_k mr_k mr_2 mr_3 ltac:(lia) ltac:(lia) ltac:(lia)) as (t & E & _). exists (mr_d t). apply (C84_length_exists 2). apply mr_made. exact E.
Qed.
