(** Properties C67 and C42: the fields of a band, their energies, and energies in parts of the
    cell. *)
From Coq Require Import List ZArith Reals Bool Lia Lra.
From Verif Require Import Base RC M_Tensor S_Tensor M_Evect S_Evect M_Grid S_Grid P_Grid M_Op S_Op L_Op L_Op2 L_Op3 L_Op4 L_Op5 P_Op M_Fld S_Fld L_Fld L_Fld2 L_Fld3.
Import ListNotations.
Local Open Scope Z_scope.

(* ------------------------------------------------------------------ *)
(** * C67: the fields loaded for a band and their energies *)

(** B is the field of the eigenvector divided by the root of the cell volume. *)
Theorem C67_bfield : forall d Vol H band fft, wfd d -> (0 < Vol)%R -> fields d H -> 1 <= band <= ep H -> 3 * npts d <= Z.of_nat (length fft) ->
  exists f, get_bfield d Vol H band fft = Val f /\ length f = length fft /\
    forall r c, (r < Z.to_nat (npts d))%nat -> (c < 3)%nat -> at_point f r c = (RtoC (/ sqrt Vol) * hfield d H (band - 1) r c)%C.
Proof.
  intros d Vol H band fft Wd HV HH Hb Hf. destruct (bfield_ok d Wd Vol H band fft HV HH Hb Hf) as (f & E & L & _ & A). exists f. split; [exact E|]. split; [exact L|].
  intros r c Hr Hc. rewrite A by assumption. rewrite pos_h by assumption. unfold Rdiv. rewrite Rmult_1_l. reflexivity.
Qed.
Print Assumptions C67_bfield.
(** D is the curl of H divided by minus the frequency and the root of the volume. *)
Theorem C67_dfield : forall d Vol freqs H W0 band fft w, wfd d -> orthonormal_basis d -> d_mu_inv d = None -> (0 < Vol)%R -> fields d H -> 1 <= band <= ep H ->
  workspace d W0 fft -> rd freqs (band - 1) = Val w -> w <> 0%R ->
  exists f, get_dfield d Vol freqs H W0 band fft = Val f /\ length f = length fft /\
    forall r c, (r < Z.to_nat (npts d))%nat -> (c < 3)%nat -> at_point f r c = (RtoC (- / (w * sqrt Vol)) * curl d H (band - 1) r c)%C.
Proof.
  intros d Vol freqs H W0 band fft w Wd Ho Hm HV HH Hb WS Ew Hw. destruct (dfield_ok d Wd Vol freqs H W0 band fft w HV HH Hb WS Ew) as (f & E & L & _ & A).
  exists f. split; [exact E|]. split; [exact L|]. intros r c Hr Hc. rewrite A by assumption. unfold mumaybe. rewrite Hm, pos_curl by assumption. f_equal. f_equal.
  unfold dscale. destruct (Reqb_spec w 0); [contradiction|]. pose proof (sqrt_lt_R0 Vol HV). field. lra.
Qed.
Print Assumptions C67_dfield.
(** E is the inverse tensor times D. *)
Theorem C67_efield : forall d Vol freqs H W0 band fft w, wfd d -> (0 < Vol)%R -> fields d H -> 1 <= band <= ep H -> workspace d W0 fft -> rd freqs (band - 1) = Val w ->
  exists f e, get_dfield d Vol freqs H W0 band fft = Val f /\ get_efield d Vol freqs H W0 band fft = Val e /\ length e = length fft /\
    forall r c, (r < Z.to_nat (npts d))%nat -> (c < 3)%nat -> at_point e r c = conjugate (sym_at (d_eps_inv d) r) (at_point f r) c.
Proof. intros d Vol freqs H W0 band fft w Wd. exact (efield_ok d Wd Vol freqs H W0 band fft w). Qed.
Print Assumptions C67_efield.
(** Band numbers outside 1, ..., num_bands are refused. *)
Theorem C67_band_checked : forall d Vol freqs H W0 band fft, ~ (1 <= band <= ep H) ->
  get_dfield d Vol freqs H W0 band fft = Abort /\ get_hfield d Vol H W0 band fft = Abort /\ get_bfield d Vol H band fft = Abort.
Proof. intros d Vol freqs H W0 band fft Hb. unfold get_dfield, get_hfield, get_bfield. rewrite band_bad by exact Hb. split; [|split]; reflexivity. Qed.
Print Assumptions C67_band_checked.

(** The energy density replaces the field in place, point by point: F* V F with V the inverse
    of the medium's tensor; the six sums of parts and the total count each stored point once
    or twice. *)
Theorem C67_density : forall t d twice f, stored d f ->
  exists mem comps sum, energy_internal t d twice (flat f) = Val (mem, comps, sum) /\
    (forall i, 0 <= i < d_out d -> rd mem i = Val (density t d f (Z.to_nat i))) /\
    sum = wsum twice (Z.to_nat (d_out d)) (density t d f) /\
    (forall k, (k < 6)%nat -> nth k comps 0%R = wsum twice (Z.to_nat (d_out d)) (part t d f k)) /\ total comps = sum.
Proof.
  intros t d twice f S. destruct (energy_internal_ok t d twice f S) as (mem & E & _ & H). exists mem. eexists. eexists. split; [exact E|]. split; [exact H|]. split; [reflexivity|]. split.
  - intros k Hk. unfold sixsums. do 6 (destruct k as [|k]; [reflexivity|]). lia.
  - rewrite <- six_total. unfold sixsums. cbn [map seq total fold_right]. reflexivity.
Qed.
Print Assumptions C67_density.

(** The total reported for B (and for H without permeability) is the norm of the eigenvector
    in the product the eigensolver uses, that for D is its Rayleigh quotient divided by the
    squared frequency. *)
Theorem C67_b_energy : forall fuel d Vol H out ft MH g band fft, wfd d -> orthonormal_basis d -> (0 < Vol)%R -> ready fuel d H out ft ->
  muinv_operator fuel d H out ft = Some (Val (MH, g)) -> 1 <= band <= ep H -> 3 * npts d <= Z.of_nat (length fft) ->
  exists f mem fr, get_bfield d Vol H band fft = Val f /\
    compute_field_energy FB d once Vol (mN d) (flat f) = Val (mem, re (dotl H MH (band - 1) (band - 1)) :: fr) /\ length fr = 6%nat.
Proof.
  intros fuel d Vol H out ft MH g band fft Wd Ho HV Rd E Hb Hf. destruct (bfield_ok d Wd Vol H band fft HV (proj1 Rd) Hb Hf) as (f & Ef & _ & A).
  destruct (b_energy fuel d Vol H out ft MH g band FB f Wd Ho HV Rd E Hb (or_introl eq_refl) A) as (mem & fr & E1 & L & _). exists f, mem, fr. auto.
Qed.
Print Assumptions C67_b_energy.
Theorem C67_d_energy : forall fuel d Vol freqs H W0 out ft AH g band fft w, wfd d -> (0 < Vol)%R -> ready fuel d H out ft ->
  maxwell_operator fuel d H out ft = Some (Val (AH, g)) -> 1 <= band <= ep H -> workspace d W0 fft -> rd freqs (band - 1) = Val w -> w <> 0%R ->
  exists f mem fr, get_dfield d Vol freqs H W0 band fft = Val f /\
    compute_field_energy FD d once Vol (mN d) (flat f) = Val (mem, (re (dotl H AH (band - 1) (band - 1)) / (w * w))%R :: fr) /\ length fr = 6%nat.
Proof.
  intros fuel d Vol freqs H W0 out ft AH g band fft w Wd HV Rd E Hb WS Ew Hw. destruct (dfield_ok d Wd Vol freqs H W0 band fft w HV (proj1 Rd) Hb WS Ew) as (f & Ef & _ & A).
  destruct (d_energy fuel d Vol H out ft AH g band f w Wd HV Hw Rd E Hb A) as (mem & fr & E1 & L & _). exists f, mem, fr. auto.
Qed.
Print Assumptions C67_d_energy.
(** For a normalized eigenvector of frequency w both are one, and the six fractions add up to
    one. *)
Theorem C67_unit : forall n1 n2 d Vol freqs H W0 o1 f1 MH g1 o2 f2 AH g2 band fft w, wfd d -> orthonormal_basis d -> (0 < Vol)%R ->
  ready n1 d H o1 f1 -> muinv_operator n1 d H o1 f1 = Some (Val (MH, g1)) -> ready n2 d H o2 f2 -> maxwell_operator n2 d H o2 f2 = Some (Val (AH, g2)) ->
  1 <= band <= ep H -> workspace d W0 fft -> rd freqs (band - 1) = Val w -> w <> 0%R ->
  dotl H MH (band - 1) (band - 1) = C1 -> (forall i, 0 <= i < en H -> entC AH i (band - 1) = (RtoC (w * w) * entC MH i (band - 1))%C) ->
  (exists f mem fr, get_bfield d Vol H band fft = Val f /\ compute_field_energy FB d once Vol (mN d) (flat f) = Val (mem, 1%R :: fr) /\ total fr = 1%R) /\
  (exists f mem fr, get_dfield d Vol freqs H W0 band fft = Val f /\ compute_field_energy FD d once Vol (mN d) (flat f) = Val (mem, 1%R :: fr) /\ total fr = 1%R).
Proof.
  intros n1 n2 d Vol freqs H W0 o1 f1 MH g1 o2 f2 AH g2 band fft w Wd Ho HV R1 E1 R2 E2 Hb WS Ew Hw Nm Eig.
  assert (TT : forall l, total l = fold_right Rplus 0%R l) by (induction l as [|a l IH]; cbn; congruence).
  assert (Sq : sqrt Vol <> 0%R) by (pose proof (sqrt_lt_R0 Vol HV); lra). pose proof (sqrt_sqrt Vol (Rlt_le _ _ HV)) as Sv.
  assert (K : forall t (f : list C) mem fr, compute_field_energy t d once Vol (mN d) (flat f) = Val (mem, 1%R :: fr) -> stored d f ->
    (wsum once (Z.to_nat (npts d)) (density t d f) <> 0%R)).
  { intros t f mem fr E St Z0. unfold compute_field_energy in E. destruct (energy_internal_ok t d once f St) as (m & Ei & _). rewrite Ei in E. cbn [bind] in E.
    rewrite fdiv_nz in E by (apply (N_nz d Wd)). cbn [bind] in E. injection E as _ E _. rewrite (out_N d Wd), Z0 in E. unfold Rdiv in E. rewrite !Rmult_0_l in E. lra. }
  split.
  - destruct WS as (_ & _ & Hf). destruct (bfield_ok d Wd Vol H band fft HV (proj1 R1) Hb Hf) as (f & Ef & _ & A).
    destruct (b_energy n1 d Vol H o1 f1 MH g1 band FB f Wd Ho HV R1 E1 Hb (or_introl eq_refl) A) as (mem & fr & Ee & _ & Fr & _). rewrite Nm in Ee. change (re C1) with 1%R in Ee.
    exists f, mem, fr. split; [exact Ef|]. split; [exact Ee|]. rewrite TT. apply Fr. exact (K FB f mem fr Ee (shows_stored d Wd _ _ _ _ A)).
  - destruct (dfield_ok d Wd Vol freqs H W0 band fft w HV (proj1 R1) Hb WS Ew) as (f & Ef & _ & A).
    destruct (d_energy n2 d Vol H o2 f2 AH g2 band f w Wd HV Hw R2 E2 Hb A) as (mem & fr & Ee & _ & Fr & _).
    rewrite (dotl_scaled H AH MH (band - 1) (w * w) Eig), Nm in Ee. change (re C1) with 1%R in Ee. replace (w * w * 1 / (w * w))%R with 1%R in Ee by (field; exact Hw).
    exists f, mem, fr. split; [exact Ef|]. split; [exact Ee|]. rewrite TT. apply Fr. exact (K FD f mem fr Ee (shows_stored d Wd _ _ _ _ A)).
Qed.
Print Assumptions C67_unit.

(** A uniform medium of dielectric constant 3 in a cell of volume 2: the second of two bands. *)
Definition ex_H : emat C := {| en := 4; ep := 2; ealloc := 2; edata := repeat (/ 2, 0)%R 8 |}.
Definition ex_W : emat C := {| en := 4; ep := 1; ealloc := 2; edata := repeat C0 8 |}.
Example C67_example : let d := create_shape 2 1 1 1 [ex_k (/ 2); ex_k (- / 2)] [iso (/ 3); iso (/ 3)] None [/ 4; / 4]%R (/ 3)%R in
  (exists f mem fr, get_bfield d 2 ex_H 2 (repeat C0 6) = Val f /\ compute_field_energy FB d once 2 (mN d) (flat f) = Val (mem, 1%R :: fr) /\ total fr = 1%R) /\
  (exists f mem fr, get_dfield d 2 [sqrt (/ 12); sqrt (/ 12)] ex_H ex_W 2 (repeat C0 6) = Val f /\ compute_field_energy FD d once 2 (mN d) (flat f) = Val (mem, 1%R :: fr) /\ total fr = 1%R).
Proof.
  cbv zeta. destruct C65_example as (Wd & Ho & Un & _ & _ & _). set (d := create_shape 2 1 1 1 _ _ _ _ _) in *.
  assert (Rd : ready 2 d ex_H ex_H (repeat C0 6)) by (unfold ready, fields, wf, scratch, npts; cbn; repeat split; lia).
  destruct (C13_total 2 d ex_H ex_H (repeat C0 6) Wd Rd) as (AH & g2 & E2 & _).
  destruct (muinv_ok d Wd 2 ex_H ex_H (repeat C0 6)) as (MH & g1 & E1 & _).
  { apply Rd. } { apply Rd. } { reflexivity. } { apply Rd. } { apply Rd. } { apply Rd. }
  assert (Sq : (sqrt (/ 12) * sqrt (/ 12) = / 12)%R) by (apply sqrt_sqrt; lra).
  assert (Sp : (0 < sqrt (/ 12))%R) by (apply sqrt_lt_R0; lra).
  assert (En : forall i, 0 <= i < 4 -> exists g c, (g < 2)%nat /\ 0 <= c < 2 /\ i = 2 * Z.of_nat g + c).
  { intros i Hi. exists (Z.to_nat (i / 2)), (i mod 2). pose proof (Z.div_mod i 2). pose proof (Z.mod_pos_bound i 2 ltac:(lia)). assert (0 <= i / 2 < 2) by (split; [apply Z.div_pos; lia|apply Z.div_lt_upper_bound; lia]). split; [lia|]. split; [lia|]. lia. }
  assert (Kv : forall g, (g < 2)%nat -> rdot (kvec d g) (kvec d g) = (/ 4)%R).
  { intros [|[|g]] Hg; [| |lia]; unfold kvec, kat, d; cbn; lra. }
  assert (Ei : forall i, 0 <= i < 4 -> entC MH i 1 = entC ex_H i 1 /\ entC AH i 1 = (RtoC (/ 12) * entC MH i 1)%C).
  { intros i Hi. destruct (En i Hi) as (g & c & Hg & Hc & ->).
    destruct (C65_eigenvalue 2 2 d ex_H ex_H ex_H (repeat C0 6) (repeat C0 6) MH AH g1 g2 (/ 3) 1 Wd Ho Un eq_refl Rd E1 Rd E2 g c 1) as (Q1 & Q2).
    - unfold npts, d. cbn. lia.
    - exact Hc.
    - cbn. lia.
    - split; [rewrite Q1; change (RtoC 1) with C1; ring|]. rewrite Q2, Kv by exact Hg. f_equal. f_equal. lra. }
  assert (Nm : dotl ex_H MH 1 1 = C1).
  { unfold dotl. change (Z.to_nat (en ex_H)) with 4%nat. rewrite (csum_ext 4 _ (fun i => (Cconj (entC ex_H (Z.of_nat i) 1) * entC ex_H (Z.of_nat i) 1)%C)) by (intros i Hi; rewrite (proj1 (Ei (Z.of_nat i) ltac:(lia))); reflexivity).
    cbn [csum]. change (entC ex_H (Z.of_nat 0) 1) with (/ 2, 0)%R. change (entC ex_H (Z.of_nat 1) 1) with (/ 2, 0)%R. change (entC ex_H (Z.of_nat 2) 1) with (/ 2, 0)%R. change (entC ex_H (Z.of_nat 3) 1) with (/ 2, 0)%R.
    apply C_eq; csimp; field. }
  assert (Ws : workspace d ex_W (repeat C0 6)) by (unfold workspace, fields, wf, npts; cbn; repeat split; lia).
  refine (C67_unit 2 2 d 2 [sqrt (/ 12); sqrt (/ 12)]%R ex_H ex_W ex_H (repeat C0 6) MH g1 ex_H (repeat C0 6) AH g2 2 (repeat C0 6) (sqrt (/ 12)) Wd Ho ltac:(lra) Rd E1 Rd E2 _ Ws eq_refl _ Nm _).
  - cbn. lia.
  - lra.
  - intros i Hi. rewrite Sq. apply Ei. exact Hi.
Qed.

(* ------------------------------------------------------------------ *)
(** * C42: energies in ranges of the dielectric constant and in objects *)

(** The density is nonnegative for positive media. *)
Theorem C42_nonnegative : forall t d twice f, stored d f -> (forall i, PSD (medium t d i)) ->
  exists mem comps sum, energy_internal t d twice (flat f) = Val (mem, comps, sum) /\ (0 <= sum)%R /\ forall i, 0 <= i < d_out d -> exists e, rd mem i = Val e /\ (0 <= e)%R.
Proof.
  intros t d twice f S H. destruct (C67_density t d twice f S) as (mem & comps & sum & E & Hd & -> & _). exists mem, comps, (wsum twice (Z.to_nat (d_out d)) (density t d f)). split; [exact E|].
  assert (D : forall i, (0 <= density t d f i)%R) by (intros i; apply H). split.
  - unfold wsum. apply rsum_nonneg. intros i _. specialize (D i). destruct (twice (Z.of_nat i)); lra.
  - intros i Hi. eexists. split; [apply Hd; exact Hi|apply D].
Qed.
Print Assumptions C42_nonnegative.

(** Each reported energy is a fraction. *)
Theorem C42_range : forall eigs d twice Vol HN lo hi energy eps, epsilons eigs d eps -> normalized twice (d_out d) Vol HN energy ->
  exists x, energy_in_dielectric eigs d twice Vol HN lo hi energy = Val x /\ (0 <= x <= 1)%R.
Proof.
  intros eigs d twice Vol HN lo hi energy eps He Hn. pose proof Hn as (Hl & HH & _ & Hp & _). eexists. split; [apply (dielectric_ok eigs d twice Vol HN lo hi energy eps He Hl); lra|].
  apply (fraction twice (d_out d) Vol HN energy); [exact Hn|]. intros i Hi. apply pick_range. apply Hp. exact Hi.
Qed.
Print Assumptions C42_range.
(** All of the energy is in the range of all dielectric constants. *)
Theorem C42_whole : forall eigs d twice Vol HN lo hi energy eps, epsilons eigs d eps -> normalized twice (d_out d) Vol HN energy ->
  (forall i, (i < Z.to_nat (d_out d))%nat -> (lo <= eps i <= hi)%R) -> energy_in_dielectric eigs d twice Vol HN lo hi energy = Val 1%R.
Proof.
  intros eigs d twice Vol HN lo hi energy eps He Hn Hr. pose proof Hn as (Hl & HH & _ & _ & Ht). rewrite (dielectric_ok eigs d twice Vol HN lo hi energy eps He Hl) by lra. f_equal.
  rewrite <- Ht. f_equal. apply wsum_ext. intros i Hi. destruct (Hr i Hi) as (A & B). unfold pick. destruct (Rleb_spec lo (eps i)); [|lra]. destruct (Rleb_spec (eps i) hi); [reflexivity|lra].
Qed.
Print Assumptions C42_whole.
(** The ranges between ascending limits add up to the whole range, if no point of the grid
    has exactly one of the inner limits as its dielectric constant. *)
Theorem C42_partition_partial : forall eigs d twice Vol HN a l energy eps, epsilons eigs d eps -> normalized twice (d_out d) Vol HN energy ->
  l <> [] -> ascending a l -> (forall i b, (i < Z.to_nat (d_out d))%nat -> In b (removelast l) -> eps i <> b) ->
  exists xs x, mapM (fun ab => energy_in_dielectric eigs d twice Vol HN (fst ab) (snd ab) energy) (ranges a l) = Val xs /\
    energy_in_dielectric eigs d twice Vol HN a (last l a) energy = Val x /\ total xs = x.
Proof.
  intros eigs d twice Vol HN a l energy eps He Hn Hl Ha Hb. pose proof Hn as (Hle & HH & _).
  exists (map (fun ab => wsum twice (Z.to_nat (d_out d)) (fun i => pick (fst ab) (snd ab) (eps i) (nth i energy 0%R)) * (Vol / HN))%R (ranges a l)). eexists. split; [|split].
  - generalize (ranges a l). induction l0 as [|ab l0 IH]; [reflexivity|]. cbn [mapM map]. rewrite (dielectric_ok eigs d twice Vol HN (fst ab) (snd ab) energy eps He Hle) by lra. cbn [bind]. rewrite IH. reflexivity.
  - apply (dielectric_ok eigs d twice Vol HN a (last l a) energy eps He Hle). lra.
  - rewrite (total_wsum twice _ (ranges a l) (fun ab i => pick (fst ab) (snd ab) (eps i) (nth i energy 0%R))). f_equal. apply wsum_ext. intros i Hi.
    exact (parts_sum (eps i) (eps i) (nth i energy 0%R) l a Ha (fun b Hbb => Hb i b Hi Hbb) Hl eq_refl).
Qed.
Print Assumptions C42_partition_partial.
(** Both limits belong to a range: a point whose dielectric constant is a common limit of two
    ranges is counted in both, and the fractions add up to two. *)
Definition ex_eigs (m : sym) : R * R * R := (m00 m, m11 m, m22 m).
Definition ex_c42 : mdata := create_shape 1 1 1 1 [ex_k 1] [iso (/ 2)] None [1%R] (/ 2).
Theorem C42_partition_refuted : exists eigs d energy eps, epsilons eigs d eps /\ normalized once (d_out d) 1 1 energy /\ (forall i, (i < Z.to_nat (d_out d))%nat -> (1 <= eps i <= 3)%R) /\
  mapM (fun ab => energy_in_dielectric eigs d once 1 1 (fst ab) (snd ab) energy) (ranges 1 [2; 3]%R) = Val [1; 1]%R.
Proof.
  assert (He : epsilons ex_eigs ex_c42 (fun _ => 2%R)).
  { split; [reflexivity|]. intros i Hi. destruct i as [|i]; [|cbn in Hi; lia]. unfold mean_medium, ex_eigs, sym_at, ex_c42. cbn [create_shape d_eps_inv nth iso m00 m11 m22]. rewrite fdiv_nz by lra. f_equal. lra. }
  assert (Hn : normalized once (d_out ex_c42) 1 1 [1%R]).
  { split; [cbn; lia|]. split; [lra|]. split; [lra|]. split.
    - intros i Hi. destruct i as [|i]; [cbn; lra|cbn in Hi; lia].
    - unfold wsum, once, ex_c42, create_shape. cbn [d_out]. change (Z.to_nat (1 * 1 * 1)) with 1%nat. cbn [rsum nth]. lra. }
  exists ex_eigs, ex_c42, [1%R], (fun _ => 2%R). split; [exact He|]. split; [exact Hn|]. split; [intros i _; lra|].
  cbn [ranges mapM fst snd]. rewrite !(dielectric_ok ex_eigs ex_c42 once 1 1 _ _ [1%R] (fun _ => 2%R) He) by (cbn; try lia; lra). cbn [bind mapM].
  f_equal. unfold ex_c42, create_shape. cbn [d_out]. change (Z.to_nat (1 * 1 * 1)) with 1%nat. unfold wsum, once, pick. cbn [rsum nth].
  destruct (Rleb_spec 1 2), (Rleb_spec 2 2), (Rleb_spec 2 3); try lra. cbn [andb]. f_equal; [lra|]. f_equal. lra.
Qed.
Print Assumptions C42_partition_refuted.
Example C42_example : epsilons ex_eigs ex_c42 (fun _ => 2%R) /\ ascending 1 [(3 / 2); 3]%R /\ (forall i b, (i < 1)%nat -> In b (removelast [(3 / 2); 3]%R) -> 2%R <> b).
Proof.
  split; [|split].
  - split; [reflexivity|]. intros i Hi. destruct i as [|i]; [|cbn in Hi; lia]. unfold mean_medium, ex_eigs, sym_at, ex_c42. cbn [create_shape d_eps_inv nth iso m00 m11 m22]. rewrite fdiv_nz by lra. f_equal. lra.
  - cbn. lra.
  - intros i b _ [<-|[]]. lra.
Qed.

(** The six component fractions add up to one but are not fractions in an anisotropic
    medium: one can be negative. *)
Definition ex_aniso : mdata := create_shape 1 1 1 1 [ex_k 1] [mkSym 2 1 1 (1, 0)%R C0 C0] None [1%R] 1.
Theorem C42_components_refuted : exists d f mem tot fr, (forall i, (i < Z.to_nat (d_out d))%nat -> PSD (medium FD d i)) /\
  compute_field_energy FD d once 1 1 (flat f) = Val (mem, tot :: fr) /\ (nth 0 fr 0 < 0)%R.
Proof.
  set (f := [(1, 0)%R; (-3, 0)%R; C0]). assert (F0 : at_point f 0 0 = (1, 0)%R) by reflexivity. assert (F1 : at_point f 0 1 = (-3, 0)%R) by reflexivity. assert (F2 : at_point f 0 2 = C0) by reflexivity.
  assert (St : stored ex_aniso f) by (split; [cbn; lia|split; [cbn; lia|split; [reflexivity|discriminate]]]).
  destruct (C67_density FD ex_aniso once _ St) as (mem & comps & sum & E & _ & Hs & Hc & _).
  exists ex_aniso, f, mem. unfold compute_field_energy. rewrite E. cbn [bind]. rewrite fdiv_nz by lra. cbn [bind]. eexists. eexists. split; [|split; [reflexivity|]].
  - intros i Hi. destruct i as [|i]; [|cbn in Hi; lia]. intros x. change (medium FD ex_aniso 0) with (mkSym 2 1 1 (1, 0)%R C0 C0). unfold quad. rewrite !csum3. cbn [entry m00 m11 m22 m01 m02 m12]. destruct (x 0%nat) as [a0 b0], (x 1%nat) as [a1 b1], (x 2%nat) as [a2 b2]. csimp. split; [ring|].
    apply Rle_trans with ((a0 + a1) * (a0 + a1) + a0 * a0 + (b0 + b1) * (b0 + b1) + b0 * b0 + a2 * a2 + b2 * b2)%R; [|right; ring].
    pose proof (Rle_0_sqr (a0 + a1)). pose proof (Rle_0_sqr (b0 + b1)). pose proof (Rle_0_sqr a0). pose proof (Rle_0_sqr b0). pose proof (Rle_0_sqr a2). pose proof (Rle_0_sqr b2). unfold Rsqr in *. lra.
  - assert (Hs' : sum = 5%R).
    { rewrite Hs. unfold ex_aniso at 1, create_shape. cbn [d_out]. change (Z.to_nat (1 * 1 * 1)) with 1%nat. unfold wsum, once. cbn [rsum]. unfold density. change (medium FD ex_aniso 0) with (mkSym 2 1 1 (1, 0)%R C0 C0).
      unfold quad. rewrite !csum3. rewrite !F0, !F1, !F2. cbn [entry m00 m11 m22 m01 m02 m12 Nat.mul Nat.add]. csimp. ring. }
    assert (Hc' : nth 0 comps 0%R = (-1)%R).
    { rewrite (Hc 0%nat) by lia. unfold ex_aniso at 1, create_shape. cbn [d_out]. change (Z.to_nat (1 * 1 * 1)) with 1%nat. unfold wsum, once. cbn [rsum]. unfold part, conjugate. change (medium FD ex_aniso 0) with (mkSym 2 1 1 (1, 0)%R C0 C0).
      rewrite !csum3. change (Nat.div 0 2) with 0%nat. rewrite !F0, !F1, !F2. cbn [entry m00 m11 m22 m01 m02 m12 Nat.even]. csimp. ring. }
    destruct comps as [|c0 comps]; [cbn in Hc'; lra|]. cbn [map nth] in *. rewrite Hc', Hs'. destruct (Reqb_spec 5 0); lra.
Qed.
Print Assumptions C42_components_refuted.
Theorem C42_components_diagonal : forall t d f k i, m01 (medium t d i) = C0 -> m02 (medium t d i) = C0 -> m12 (medium t d i) = C0 ->
  (0 <= m00 (medium t d i) /\ 0 <= m11 (medium t d i) /\ 0 <= m22 (medium t d i))%R -> (k < 6)%nat -> (0 <= part t d f k i)%R.
Proof.
  intros t d f k i H1 H2 H3 (P0 & P1 & P2) Hk. unfold part. set (V := medium t d i) in *. set (x := at_point f i).
  assert (Q : forall p y, (0 <= p)%R -> (0 <= p * y * y)%R) by (intros p y Hp; rewrite Rmult_assoc; apply Rmult_le_pos; [exact Hp|apply Rle_0_sqr]).
  do 6 (destruct k as [|k]; [cbn [Nat.div Nat.divmod fst snd Nat.even]; unfold conjugate; rewrite csum3; cbn [entry]; rewrite ?H1, ?H2, ?H3; generalize (x 0%nat) (x 1%nat) (x 2%nat); intros [a0 b0] [a1 b1] [a2 b2]; csimp;
    (pose proof (Q _ a0 P0); pose proof (Q _ b0 P0); pose proof (Q _ a1 P1); pose proof (Q _ b1 P1); pose proof (Q _ a2 P2); pose proof (Q _ b2 P2); lra)|]). lia.
Qed.
Print Assumptions C42_components_diagonal.

(** Objects (complex fields): the reported energy is that of the grid points whose topmost
    object is not "nothing"; it is a fraction. *)
Theorem C42_object_range : forall n1 n2 n3 sx sy sz Vol HN objects energy, 1 <= n1 -> 1 <= n2 -> 1 <= n3 -> normalized once (n1 * n2 * n3) Vol HN energy ->
  exists x, energy_in_objects (loop_complex n1 n2 n3) once4 n1 n2 n3 sx sy sz Vol HN objects energy = Val x /\ (0 <= x <= 1)%R /\
  ((forall i1 i2 i3, in_cell n1 n2 n3 i1 i2 i3 -> owned objects (place sx sy sz n1 n2 n3 i1 i2 i3)) -> x = 1%R).
Proof.
  intros n1 n2 n3 sx sy sz Vol HN objects energy H1 H2 H3 Hn. pose proof Hn as (Hl & HH & HV & Hp & Ht).
  destruct (C09_complex n1 n2 n3 ltac:(lia) ltac:(lia) ltac:(lia)) as (Ix & _ & Cov).
  assert (Gi : forall i1 i2 i3 idx, In (i1, i2, i3, idx) (loop_complex n1 n2 n3) -> in_cell n1 n2 n3 i1 i2 i3 /\ 0 <= idx < n1 * n2 * n3).
  { intros i1 i2 i3 idx Hin. split.
    - assert (B : box 0 n1 0 n2 0 n3 (i1, i2, i3)) by (apply Cov; apply in_map_iff; exists (i1, i2, i3, idx); auto). exact B.
    - assert (B : In idx (map snd (loop_complex n1 n2 n3))) by (apply in_map_iff; exists (i1, i2, i3, idx); auto). rewrite Ix in B.
      apply in_map_iff in B as (k & <- & Hk). apply in_seq in Hk. lia. }
  assert (G : good_loop (loop_complex n1 n2 n3) n1 n2 n3 energy) by (intros i1 i2 i3 idx Hin; destruct (Gi i1 i2 i3 idx Hin) as ((A & B & C) & D); repeat split; try lia).
  rewrite objects_ok by (assumption || lra). set (S := lsum _ _). eexists. split; [reflexivity|].
  pose proof (lsum_index (fun pt : Z * Z * Z * Z => snd pt) once (fun i => nth i energy 0%R) (loop_complex n1 n2 n3) _ Ix) as T. 
  assert (Q : (0 < Vol / HN)%R) by (apply Rdiv_lt_0_compat; assumption).
  assert (A0 : (0 <= S)%R).
  { apply lsum_nonneg. intros (((i1 & i2) & i3) & idx) Hin. unfold once4, share. destruct (Gi i1 i2 i3 idx Hin) as (_ & D). specialize (Hp (Z.to_nat idx) ltac:(lia)). destruct (counted _ _); lra. }
  assert (A1 : (S <= wsum once (Z.to_nat (n1 * n2 * n3)) (fun i => nth i energy 0))%R).
  { rewrite <- T. apply lsum_le. intros (((i1 & i2) & i3) & idx) Hin. unfold once4, once, share. cbn [snd]. destruct (Gi i1 i2 i3 idx Hin) as (_ & D). specialize (Hp (Z.to_nat idx) ltac:(lia)). destruct (counted _ _); lra. }
  split; [split; [apply Rmult_le_pos; lra|rewrite <- Ht; apply Rmult_le_compat_r; lra]|].
  intros All. rewrite <- Ht. f_equal. rewrite <- T. apply lsum_ext. intros (((i1 & i2) & i3) & idx) Hin. unfold once4, once, share. cbn [snd]. destruct (Gi i1 i2 i3 idx Hin) as (D & _). rewrite (proj2 (counted_owned _ _) (All i1 i2 i3 D)). reflexivity.
Qed.
Print Assumptions C42_object_range.
(** The exact value: the sum of the energies of the grid points owned by an object that is not
    "nothing"; [own] is any decision of that. *)
Theorem C42_object_value : forall n1 n2 n3 sx sy sz Vol HN objects energy own, 1 <= n1 -> 1 <= n2 -> 1 <= n3 -> HN <> 0%R -> n1 * n2 * n3 <= Z.of_nat (length energy) ->
  (forall p, own p = true <-> owned objects p) ->
  energy_in_objects (loop_complex n1 n2 n3) once4 n1 n2 n3 sx sy sz Vol HN objects energy =
  Val (rsum (Z.to_nat n1) (fun i => rsum (Z.to_nat n2) (fun j => rsum (Z.to_nat n3) (fun k =>
    if own (place sx sy sz n1 n2 n3 (Z.of_nat i) (Z.of_nat j) (Z.of_nat k)) then nth ((i * Z.to_nat n2 + j) * Z.to_nat n3 + k) energy 0 else 0))) * (Vol / HN))%R.
Proof.
  intros n1 n2 n3 sx sy sz Vol HN objects energy own H1 H2 H3 HH Hl Ho. rewrite objects_ok; try assumption.
  - rewrite lsum_cell. do 2 f_equal. apply rsum_ext. intros i Hi. apply rsum_ext. intros j Hj. apply rsum_ext. intros k Hk. cbv beta iota. unfold once4, share.
    replace (Z.to_nat ((Z.of_nat i * n2 + Z.of_nat j) * n3 + Z.of_nat k)) with ((i * Z.to_nat n2 + j) * Z.to_nat n3 + k)%nat.
    + set (p := place _ _ _ _ _ _ _ _ _). assert (E : counted (rev objects) p = own p).
      { pose proof (counted_owned objects p) as A. pose proof (Ho p) as B. destruct (counted (rev objects) p), (own p); try reflexivity; [symmetry; apply B, A; reflexivity|apply A, B; reflexivity]. }
      rewrite E. destruct (own p); ring.
    + apply Nat2Z.inj. rewrite Nat2Z.inj_add, Nat2Z.inj_mul, Nat2Z.inj_add, Nat2Z.inj_mul, !Z2Nat.id by nia. reflexivity.
  - intros i1 i2 i3 idx Hin. destruct (C09_complex n1 n2 n3 ltac:(lia) ltac:(lia) ltac:(lia)) as (Ix & _ & Cov).
    assert (B : box 0 n1 0 n2 0 n3 (i1, i2, i3)) by (apply Cov; apply in_map_iff; exists (i1, i2, i3, idx); auto). destruct B as (B1 & B2 & B3). split; [exact B1|]. split; [exact B2|]. split; [exact B3|].
    assert (B : In idx (map snd (loop_complex n1 n2 n3))) by (apply in_map_iff; exists (i1, i2, i3, idx); auto). rewrite Ix in B. apply in_map_iff in B as (k & <- & Hk). apply in_seq in Hk. lia.
Qed.
Print Assumptions C42_object_value.
(** Two points; an object everywhere, covered by "nothing" on the left. *)
Example C42_object_example :
  let left (p : vec) := let '(x, _, _) := p in Rltb x 0 in
  energy_in_objects (loop_complex 2 1 1) once4 2 1 1 1 1 1 2 2 [{| o_in := fun _ => true; o_nothing := false |}; {| o_in := left; o_nothing := true |}] [3; 5]%R = Val 5%R.
Proof.
  intros left. rewrite (C42_object_value _ _ _ _ _ _ _ _ _ _ (fun p => negb (left p))); try lia; try lra.
  - change (Z.to_nat 2) with 2%nat. change (Z.to_nat 1) with 1%nat. cbn [rsum]. unfold place, left, position_of. cbn [Z.eqb Z.of_nat Pos.of_succ_nat Pos.succ Pos.eqb Nat.add Nat.mul nth].
    destruct (Rltb_spec (1 * (0 / 2 - 1 / 2)) 0); [|lra]. destruct (Rltb_spec (1 * (1 / 2 - 1 / 2)) 0); [lra|]. cbn [negb nth]. f_equal. field.
  - cbn. lia.
  - intros p. split.
    + intros H. exists {| o_in := fun _ => true; o_nothing := false |}. split; [|reflexivity]. exists [], [{| o_in := left; o_nothing := true |}]. split; [reflexivity|]. split; [reflexivity|]. intros o' [<-|[]]. cbn [o_in]. destruct (left p); [discriminate|reflexivity].
    + intros (o & (l1 & l2 & E & Ho & Hl) & Hn). destruct l1 as [|a [|b l1]].
      * injection E as E1 E2. subst. specialize (Hl _ (or_introl eq_refl)). cbn [o_in] in Hl. rewrite Hl. reflexivity.
      * injection E as E1 E2 E3. subst o. discriminate.
      * destruct l1; discriminate E.
Qed.
(** Energies of two lists of objects without common grid points add up. *)
Theorem C42_object_disjoint : forall n1 n2 n3 sx sy sz Vol HN objs objs' energy, 1 <= n1 -> 1 <= n2 -> 1 <= n3 -> HN <> 0%R -> n1 * n2 * n3 <= Z.of_nat (length energy) ->
  (forall i1 i2 i3 o o', in_cell n1 n2 n3 i1 i2 i3 -> In o objs -> In o' objs' -> o_in o (place sx sy sz n1 n2 n3 i1 i2 i3) = true -> o_in o' (place sx sy sz n1 n2 n3 i1 i2 i3) = false) ->
  exists x y, energy_in_objects (loop_complex n1 n2 n3) once4 n1 n2 n3 sx sy sz Vol HN objs energy = Val x /\
    energy_in_objects (loop_complex n1 n2 n3) once4 n1 n2 n3 sx sy sz Vol HN objs' energy = Val y /\
    energy_in_objects (loop_complex n1 n2 n3) once4 n1 n2 n3 sx sy sz Vol HN (objs ++ objs') energy = Val (x + y)%R.
Proof.
  intros n1 n2 n3 sx sy sz Vol HN objs objs' energy H1 H2 H3 HH Hl Dj.
  destruct (C09_complex n1 n2 n3 ltac:(lia) ltac:(lia) ltac:(lia)) as (Ix & _ & Cov).
  assert (Gi : forall i1 i2 i3 idx, In (i1, i2, i3, idx) (loop_complex n1 n2 n3) -> in_cell n1 n2 n3 i1 i2 i3 /\ 0 <= idx < n1 * n2 * n3).
  { intros i1 i2 i3 idx Hin. split.
    - assert (B : box 0 n1 0 n2 0 n3 (i1, i2, i3)) by (apply Cov; apply in_map_iff; exists (i1, i2, i3, idx); auto). exact B.
    - assert (B : In idx (map snd (loop_complex n1 n2 n3))) by (apply in_map_iff; exists (i1, i2, i3, idx); auto). rewrite Ix in B.
      apply in_map_iff in B as (k & <- & Hk). apply in_seq in Hk. lia. }
  assert (G : good_loop (loop_complex n1 n2 n3) n1 n2 n3 energy) by (intros i1 i2 i3 idx Hin; destruct (Gi i1 i2 i3 idx Hin) as ((A & B & C) & D); repeat split; try lia).
  rewrite !objects_ok by assumption. eexists. eexists. split; [reflexivity|]. split; [reflexivity|]. f_equal. rewrite <- Rmult_plus_distr_r, <- lsum_add. f_equal. apply lsum_ext.
  intros (((i1 & i2) & i3) & idx) Hin. unfold once4, share. destruct (Gi i1 i2 i3 idx Hin) as (D & _). set (p := place sx sy sz n1 n2 n3 i1 i2 i3).
  rewrite rev_app_distr, counted_app, existsb_rev. destruct (existsb (fun o => o_in o p) objs') eqn:B.
  - rewrite (counted_none (rev objs) p); [destruct (counted (rev objs') p); ring|]. rewrite existsb_rev. apply existsb_exists in B as (o' & Ho' & Hi').
    destruct (existsb (fun o => o_in o p) objs) eqn:B'; [|reflexivity]. apply existsb_exists in B' as (o & Ho & Hi). pose proof (Dj i1 i2 i3 o o' D Ho Ho' Hi) as W. unfold p in Hi'. congruence.
  - rewrite (counted_none (rev objs') p) by (rewrite existsb_rev; exact B). destruct (counted (rev objs) p); ring.
Qed.
Print Assumptions C42_object_disjoint.
(** Real fields: whether the stored points are counted twice is decided by a variable that is
    never set.  Whatever its value, there is an energy density of integral one (points 0, 1, 2
    of four stored; point 1 stands for two) for which the energy in an object filling the
    whole cell is not one. *)
Definition everywhere : object := {| o_in := fun _ => true; o_nothing := false |}.
Theorem C42_object_real_refuted : forall junk, exists energy x, normalized (twice_real 3 4) 3 4 4 energy /\
  energy_in_objects (loop_real 4 1 1) (twice_junk junk 4) 4 1 1 1 1 1 4 4 [everywhere] energy = Val x /\ x <> 1%R.
Proof.
  intros junk.
  assert (K : forall (w : bool) a b c, (forall pt, twice_junk junk 4 pt = w) ->
    energy_in_objects (loop_real 4 1 1) (twice_junk junk 4) 4 1 1 1 1 1 4 4 [everywhere] [a; b; c] = Val ((if w then 2 else 1) * (a + b + c))%R).
  { intros w a b c Hw. rewrite objects_ok; try lia; try lra.
    - f_equal. change (loop_real 4 1 1) with [(0, 0, 0, 0); (1, 0, 0, 1); (2, 0, 0, 2)]. cbn [lsum]. rewrite !Hw. unfold share. cbn [rev app counted everywhere o_in o_nothing negb].
      change (nth (Z.to_nat 0) [a; b; c] 0%R) with a. change (nth (Z.to_nat 1) [a; b; c] 0%R) with b. change (nth (Z.to_nat 2) [a; b; c] 0%R) with c. destruct w; field.
    - intros i1 i2 i3 idx Hin. change (loop_real 4 1 1) with [(0, 0, 0, 0); (1, 0, 0, 1); (2, 0, 0, 2)] in Hin. cbn [In] in Hin. cbn [length]. destruct Hin as [E|[E|[E|[]]]]; injection E as <- <- <- <-; lia. }
  assert (Nn : forall a b c, (0 <= a -> 0 <= b -> 0 <= c -> a + 2 * b + c = 1)%R -> (0 <= a)%R -> (0 <= b)%R -> (0 <= c)%R -> normalized (twice_real 3 4) 3 4 4 [a; b; c]).
  { intros a b c S A B C. specialize (S A B C). split; [cbn; lia|]. split; [lra|]. split; [lra|]. split.
    - intros i Hi. change (Z.to_nat 3) with 3%nat in Hi. destruct i as [|[|[|i]]]; [exact A|exact B|exact C|lia].
    - unfold wsum. change (Z.to_nat 3) with 3%nat. cbn [rsum nth]. change (twice_real 3 4 (Z.of_nat 0)) with false. change (twice_real 3 4 (Z.of_nat 1)) with true. change (twice_real 3 4 (Z.of_nat 2)) with false. cbn iota.
      replace (4 / 4)%R with 1%R by field. lra. }
  destruct (negb (junk =? 0) && negb (2 * junk =? 4)) eqn:J.
  - exists [1; 0; 0]%R. eexists. split; [apply Nn; lra|]. split; [apply (K true); intros pt; exact J|]. lra.
  - exists [0; / 2; 0]%R. eexists. split; [apply Nn; lra|]. split; [apply (K false); intros pt; exact J|]. lra.
Qed.
Print Assumptions C42_object_real_refuted.
