(** Property C64: group velocities. *)
From Coq Require Import List ZArith Reals Bool Lia Lra.
From Verif Require Import Base RC M_Tensor S_Tensor M_Evect S_Evect M_Grid S_Grid M_Op S_Op L_Op L_Op2 L_Op4 L_Op5 P_Op M_Gv S_Gv L_Gv.
Import ListNotations.
Local Open Scope Z_scope.

(** Without permeability: for every number of bands and block size the computation succeeds,
    leaves the eigenvectors alone, and gives the velocities. *)
Theorem C64_velocity : forall d mx bs num_bands same neg u freqs s, wfd d -> orthonormal_basis d -> d_mu_inv d = None -> gv_ready mx bs num_bands same d freqs s ->
  exists v, group_velocity mx num_bands same neg u freqs s = Some (Val (v, g_H s)) /\ Z.of_nat (length v) = num_bands /\
    forall i, 0 <= i < num_bands -> exists f x, rd freqs i = Val f /\ rd v i = Val x /\ is_velocity d neg u (g_H s) i f x.
Proof.
  intros d mx bs nbands same neg u freqs s Wd Ho Hm Rd. destruct (gv_total d mx bs nbands same neg u freqs s Wd Rd) as (v & H' & E & L & Hv & _ & _ & Hsame & _); [congruence|].
  rewrite (Hsame (or_introl Hm)) in E. exists v. split; [exact E|]. split; [exact L|]. intros i Hi. exists (getr freqs i), (getr v i).
  split; [apply getr_in; unfold gv_ready in Rd; lia|]. split; [apply getr_in; lia|]. destruct (Hv i Hi) as (H0 & H1).
  apply (gvv_deriv d u neg (g_H s)); [exact Ho| |exact H0|exact H1]. unfold mumaybe. rewrite Hm. apply feq_refl.
Qed.
Print Assumptions C64_velocity.
(** With permeability, blocks that fit in the scratch array and more than one block: the same,
    with the magnetic fields that the permeability operator gives for the eigenvectors. *)
Theorem C64_velocity_mu_partial : forall d mx bs num_bands same neg u freqs s n o f MH f', wfd d -> orthonormal_basis d -> gv_ready mx bs num_bands same d freqs s -> bs <= mx ->
  ready n d (g_H s) o f -> muinv_operator n d (g_H s) o f = Some (Val (MH, f')) ->
  exists v H', group_velocity mx num_bands same neg u freqs s = Some (Val (v, H')) /\ Z.of_nat (length v) = num_bands /\ (same = false -> H' = g_H s) /\
    forall i, 0 <= i < num_bands -> exists f x, rd freqs i = Val f /\ rd v i = Val x /\ is_velocity d neg u MH i f x.
Proof.
  intros d mx bs nbands same neg u freqs s n o f MH f' Wd Ho Rd Hle R1 E1. destruct (gv_total d mx bs nbands same neg u freqs s Wd Rd) as (v & H' & E & L & Hv & _ & _ & Hsame & _); [auto|].
  destruct (mu_result _ _ _ _ _ _ _ Wd R1 E1) as (_ & _ & HM). exists v, H'. split; [exact E|]. split; [exact L|]. split; [auto|]. intros i Hi. exists (getr freqs i), (getr v i).
  split; [apply getr_in; unfold gv_ready in Rd; lia|]. split; [apply getr_in; lia|]. destruct (Hv i Hi) as (H0 & H1).
  apply (gvv_deriv d u neg (g_H s)); [exact Ho| |exact H0|exact H1]. apply HM. unfold gv_ready in Rd. destruct Rd as (_ & _ & _ & _ & _ & -> & _). exact Hi.
Qed.
Print Assumptions C64_velocity_mu_partial.
(** With permeability and a single block, the eigenvectors are replaced by the magnetic fields;
    here with one relative permeability, all are multiplied by its inverse m. *)
Theorem C64_single_block : forall d mx num_bands neg u freqs s mu m, wfd d -> orthonormal_basis d -> gv_ready mx num_bands num_bands true d freqs s -> num_bands <= mx ->
  d_mu_inv d = Some mu -> uniform d mu m ->
  exists v H', group_velocity mx num_bands true neg u freqs s = Some (Val (v, H')) /\
    forall i b, 0 <= i < 2 * npts d -> 0 <= b < num_bands -> entC H' i b = (RtoC m * entC (g_H s) i b)%C.
Proof.
  intros d mx nbands neg u freqs s mu m Wd Ho Rd Hle Em Um. destruct (gv_total d mx nbands nbands true neg u freqs s Wd Rd) as (v & H' & E & L & Hv & F & P & _ & Q); [auto|].
  exists v, H'. split; [exact E|]. intros i b Hi Hb. specialize (Q eq_refl b Hb). unfold mumaybe in Q. rewrite Em in Q.
  pose proof (Z.div_mod i 2 ltac:(lia)) as Q1. pose proof (Z.mod_pos_bound i 2 ltac:(lia)) as Q2.
  assert (Hg : 0 <= i / 2 < npts d) by (split; [apply Z.div_pos; lia|apply Z.div_lt_upper_bound; lia]).
  pose proof (feq_trans d _ _ _ Q (mucol_iso d Wd mu m (fld (g_H s) b) Ho Um) (i / 2) (i mod 2) Hg ltac:(lia)) as G. cbv beta in G. unfold fld in G.
  replace (2 * (i / 2) + i mod 2) with i in G by lia. exact G.
Qed.
Print Assumptions C64_single_block.
(** With permeability and blocks of more than max_fft_bands bands, the scratch array is overrun. *)
Theorem C64_scratch_overrun : forall d mx bs num_bands same neg u freqs s, wfd d -> gv_ready mx bs num_bands same d freqs s -> d_mu_inv d <> None -> mx < bs ->
  group_velocity mx num_bands same neg u freqs s = Some UB.
Proof. exact gv_overflow. Qed.
Print Assumptions C64_scratch_overrun.

(** The function for a single band: right for every band, with and without permeability, and
    other band numbers are refused. *)
Theorem C64_single : forall d neg u freqs b H W0 W1 fft n o f MH f', wfd d -> orthonormal_basis d -> fields d H -> 1 <= b <= ep H -> Z.of_nat (length freqs) = ep H ->
  fields d W0 -> 1 <= ealloc W0 -> fields d W1 -> 1 <= ealloc W1 -> 0 < d_nfb d -> 3 * npts d <= Z.of_nat (length fft) ->
  ready n d H o f -> muinv_operator n d H o f = Some (Val (MH, f')) ->
  exists w x, rd freqs (b - 1) = Val w /\ group_velocity_1 neg u freqs b d H W0 W1 fft = Some (Val x) /\ is_velocity d neg u MH (b - 1) w x.
Proof.
  intros d neg u freqs b H W0 W1 fft n o f MH f' Wd Ho FH Hb Lq F0 A0 F1 A1 Hn Hf R1 E1.
  destruct (gv1_ok d neg u freqs b H W0 W1 fft Wd FH Hb Lq F0 A0 F1 A1 Hn Hf) as (x & E & H0 & H1). destruct (mu_result _ _ _ _ _ _ _ Wd R1 E1) as (_ & _ & HM).
  exists (getr freqs (b - 1)), x. split; [apply getr_in; lia|]. split; [exact E|]. apply (gvv_deriv d u neg H); [exact Ho|apply HM; lia|exact H0|exact H1].
Qed.
Print Assumptions C64_single.
Theorem C64_single_range : forall d neg u freqs b H W0 W1 fft, wfd d -> fields d H -> ~ (1 <= b <= ep H) -> fields d W0 -> 1 <= ealloc W0 -> fields d W1 -> 1 <= ealloc W1 ->
  group_velocity_1 neg u freqs b d H W0 W1 fft = Some Abort.
Proof. exact gv1_range. Qed.
Print Assumptions C64_single_range.

(** Three bands in blocks of two, and in one block. *)
Definition ex_mat (p : Z) : emat C := {| en := 4; ep := p; ealloc := p; edata := repeat C1 (Z.to_nat (4 * p)) |}.
Definition ex_gs (d : mdata) (mx bs : Z) : gstate :=
  {| g_H := ex_mat 3; g_blk := ex_mat bs; g_W := ex_mat bs; g_d := with_nfb (Z.min bs mx) d; g_nb := bs; g_fft := repeat C0 (Z.to_nat (3 * 2 * Z.min bs mx));
     g_scr := repeat 0%R 6; g_items := repeat 0%R 3 |}.
Example C64_example : let d := ex_d 1 None in gv_ready 1 2 3 false d [1; 0; 2]%R (ex_gs d 1 2) /\ gv_ready 20 3 3 true d [1; 0; 2]%R (ex_gs d 20 3).
Proof. cbv zeta. split; unfold gv_ready, fields, wf, npts; cbn; repeat split; auto; try lia; try discriminate; intros; lia. Qed.
Example C64_mu_example : let mu := [iso (/ 2); iso (/ 2)] in let d := ex_d 1 (Some mu) in
  wfd d /\ orthonormal_basis d /\ uniform d mu (/ 2) /\ gv_ready 20 3 3 true d [1; 0; 2]%R (ex_gs d 20 3) /\ gv_ready 1 2 3 false d [1; 0; 2]%R (ex_gs d 1 2) /\ ready 3 d (ex_mat 3) (ex_mat 3) (repeat C0 6).
Proof.
  cbv zeta. split; [apply create_wfd; try lia; try reflexivity; intros m E; injection E as <-; reflexivity|]. split; [|split; [|split; [|split]]].
  - intros g Hg. unfold npts in Hg. cbn in Hg. destruct g as [|[|g]]; [| |lia]; unfold kat; cbn; repeat split; ring.
  - intros r Hr. unfold npts in Hr. cbn in Hr. destruct r as [|[|r]]; [reflexivity|reflexivity|lia].
  - unfold gv_ready, fields, wf, npts; cbn; repeat split; auto; try lia; try discriminate; intros; lia.
  - unfold gv_ready, fields, wf, npts; cbn; repeat split; auto; try lia; try discriminate; intros; lia.
  - unfold ready, fields, wf, scratch, npts. cbn. repeat split; lia.
Qed.

(** The stored eigenvectors change: one relative permeability of 2, three bands in one block. *)
Theorem C64_unchanged_refuted : exists d freqs s v H', wfd d /\ orthonormal_basis d /\ gv_ready 20 3 3 true d freqs s /\
  group_velocity 20 3 true false (1, 0, 0)%R freqs s = Some (Val (v, H')) /\ exists i b, entC H' i b <> entC (g_H s) i b.
Proof.
  destruct C64_mu_example as (Wd & Ho & Um & R1 & _). destruct (C64_single_block _ _ _ false (1, 0, 0)%R _ _ _ _ Wd Ho R1 ltac:(lia) eq_refl Um) as (v & H' & E & Q).
  eexists _, _, _, v, H'. split; [exact Wd|]. split; [exact Ho|]. split; [exact R1|]. split; [exact E|]. exists 0, 0. rewrite Q; [|unfold npts; cbn; lia|lia].
  change (entC (g_H (ex_gs (ex_d 1 (Some [iso (/ 2); iso (/ 2)])) 20 3)) 0 0) with C1.
  intros K. apply (f_equal fst) in K. revert K. unfold Cmul, RtoC, C1. cbn. lra.
Qed.
Print Assumptions C64_unchanged_refuted.
(** And 21 bands in one block are undefined behaviour. *)
Definition ex_gs21 (d : mdata) : gstate :=
  {| g_H := ex_mat 21; g_blk := ex_mat 21; g_W := ex_mat 21; g_d := with_nfb 20 d; g_nb := 21; g_fft := repeat C0 (Z.to_nat 120);
     g_scr := repeat 0%R 42; g_items := repeat 0%R 21 |}.
Theorem C64_scratch_refuted : exists d freqs s, wfd d /\ gv_ready 20 21 21 true d freqs s /\ group_velocity 20 21 true false (1, 0, 0)%R freqs s = Some UB.
Proof.
  destruct C64_mu_example as (Wd & _). exists (ex_d 1 (Some [iso (/ 2); iso (/ 2)])), (repeat 1%R 21), (ex_gs21 (ex_d 1 (Some [iso (/ 2); iso (/ 2)]))).
  assert (R : gv_ready 20 21 21 true (ex_d 1 (Some [iso (/ 2); iso (/ 2)])) (repeat 1%R 21) (ex_gs21 (ex_d 1 (Some [iso (/ 2); iso (/ 2)])))).
  { unfold gv_ready, fields, wf, npts; cbn; repeat split; auto; try lia; try discriminate; intros; lia. }
  split; [exact Wd|]. split; [exact R|]. apply (gv_overflow _ _ _ _ _ _ _ _ _ Wd R); [cbn; discriminate|lia].
Qed.
Print Assumptions C64_scratch_refuted.
