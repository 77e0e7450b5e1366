(** Property C77: overlaps with stored eigenvectors and consistent phases. *)
From Coq Require Import List ZArith Reals Bool Lia Lra.
From Verif Require Import Base RC M_Tensor S_Tensor M_Evect S_Evect M_Grid S_Grid M_Op S_Op L_Op5 M_Gv S_Gv L_Gv M_Pha S_Pha M_Ovl S_Ovl L_Ovl2 L_Ovl3 P_Op P_Gv.
Import ListNotations.
Local Open Scope Z_scope.

(** dot-eigenvectors: entry (i, j) is the inner product of stored band i with band b_start + j,
    to which the inverse permeability is applied first (MH is what the permeability operator gives
    for the eigenvectors, the eigenvectors themselves if there is none), in blocks or at once;
    the sizes of the work matrix and the number of bands set in mdata are restored. *)
Theorem C77_dots : forall d junk mx num_bands H m b_start W0 fft n o f MH f', wfd d -> ovl_ready mx num_bands d H m b_start W0 fft ->
  ready n d H o f -> muinv_operator n d H o f = Some (Val (MH, f')) ->
  exists s, dot_eigenvectors junk mx num_bands d H m b_start W0 fft = Some (Val s) /\ sp (o_U s) = ep m /\
    (forall i j, 0 <= i < ep m -> 0 <= j < ep m -> sent (o_U s) i j = Val (dotl m MH i (b_start - 1 + j))) /\
    (d_mu_inv d = None -> o_W s = W0 /\ o_d s = d) /\
    (d_mu_inv d <> None -> ep (o_W s) = ep W0 /\ ealloc (o_W s) = ealloc W0 /\ o_d s = with_nfb (Z.min (ealloc W0) mx) d).
Proof. exact dots_result. Qed.
Print Assumptions C77_dots.

(** sqmatrix-ref on the result: entry (i, j) is the overlap of stored band i with band b_start + j;
    other indices are refused. *)
Theorem C77_entry : forall d junk mx num_bands H m b_start W0 fft n o f MH f', wfd d -> ovl_ready mx num_bands d H m b_start W0 fft ->
  ready n d H o f -> muinv_operator n d H o f = Some (Val (MH, f')) ->
  exists s, dot_eigenvectors junk mx num_bands d H m b_start W0 fft = Some (Val s) /\
    (forall i j, 0 <= i < ep m -> 0 <= j < ep m -> sqmatrix_ref (o_U s) i j = Val (dotl m MH i (b_start - 1 + j))) /\
    (forall i j, i < 0 \/ j < 0 \/ ep m <= i \/ ep m <= j -> sqmatrix_ref (o_U s) i j = Abort).
Proof. exact entry_result. Qed.
Print Assumptions C77_entry.

(** Bands that do not exist are refused. *)
Theorem C77_range : forall d junk mx num_bands H m b_start W0 fft, wfd d -> fields d H -> fields d m -> 1 <= ep m ->
  (d_mu_inv d <> None -> fields d W0 /\ ep W0 = ealloc W0 /\ 1 <= ealloc W0) ->
  b_start < 1 \/ num_bands < b_start - 1 + ep m ->
  dot_eigenvectors junk mx num_bands d H m b_start W0 fft = Some Abort.
Proof. exact dots_refused. Qed.
Print Assumptions C77_range.

(** fix-phase-consistency: afterwards the product of each stored band with its band is real and not
    negative, of the same modulus as before; every band is the one before divided by the phase
    returned for it, which has modulus 1; the other bands are left alone. *)
Theorem C77_phases : forall d junk mx num_bands H m b W0 fft, wfd d -> ovl_ready mx num_bands d H m b W0 fft ->
  exists s H' r s', dot_eigenvectors junk mx num_bands d H m b W0 fft = Some (Val s) /\
    fix_phase_consistency junk mx num_bands d H m b W0 fft = Some (Val (H', r)) /\
    fields d H' /\ ep H' = ep H /\ Z.of_nat (length r) = ep m /\
    dot_eigenvectors junk mx num_bands d H' m b W0 fft = Some (Val s') /\
    (forall j, 0 <= j < ep m -> exists c o, nth_error r (Z.to_nat j) = Some c /\ unit_c c /\
       sent (o_U s) j j = Val o /\ sent (o_U s') j j = Val (RtoC (cmod o)) /\ (c * RtoC (cmod o))%C = o /\
       (forall i, 0 <= i < en H -> entC H i (b - 1 + j) = (c * entC H' i (b - 1 + j))%C) /\
       (forall i, 0 <= i < ep m -> exists x, sent (o_U s') i j = Val x /\ sent (o_U s) i j = Val (c * x)%C)) /\
    (forall i j, 0 <= i < en H -> 0 <= j < ep H -> ~ (b - 1 <= j < b - 1 + ep m) -> entC H' i j = entC H i j).
Proof. intros d junk mx num_bands H m b W0 fft. exact (fix_ok d junk mx num_bands H m b W0 fft). Qed.
Print Assumptions C77_phases.

(** With permeability and blocks of more than max_fft_bands (20) bands the transform array is overrun. *)
Theorem C77_scratch_overrun : forall d junk mx num_bands H m b W0 fft, wfd d -> fields d H -> fields d m -> ep H = num_bands ->
  1 <= b -> b - 1 + ep m <= num_bands -> d_mu_inv d <> None -> fields d W0 -> ep W0 = ealloc W0 -> 1 <= ealloc W0 ->
  ealloc W0 <= ep m -> 0 < mx -> mx < ealloc W0 -> Z.of_nat (length fft) = 3 * npts d * mx ->
  dot_eigenvectors junk mx num_bands d H m b W0 fft = Some UB.
Proof. exact dots_overflow. Qed.
Print Assumptions C77_scratch_overrun.

(** Two bands from the second on, one at a time or at once, with and without permeability. *)
Example C77_example : let mu := [iso (/ 2); iso (/ 2)] in
  ovl_ready 20 3 (ex_d 1 None) (ex_mat 3) (ex_mat 2) 2 (ex_mat 1) (repeat C0 6) /\
  ovl_ready 20 3 (ex_d 1 (Some mu)) (ex_mat 3) (ex_mat 2) 2 (ex_mat 1) (repeat C0 6) /\
  ovl_ready 20 3 (ex_d 1 (Some mu)) (ex_mat 3) (ex_mat 2) 2 (ex_mat 3) (repeat C0 18).
Proof. cbv zeta. unfold ovl_ready, fields, wf, npts. cbn. repeat split; auto; try lia; try discriminate; intros; lia. Qed.

(** A band equal to i times the stored one: the phase returned is i. *)
Example C77_turned : let H := {| en := 4; ep := 1; ealloc := 1; edata := [Ci; Ci; Ci; Ci] |} in
  exists H', fix_phase_consistency C0 20 1 (ex_d 1 None) H (ex_mat 1) 1 (ex_mat 1) (repeat C0 6) = Some (Val (H', [Ci])).
Proof.
  cbv zeta. set (H := {| en := 4; ep := 1; ealloc := 1; edata := [Ci; Ci; Ci; Ci] |}).
  assert (Wd : wfd (ex_d 1 None)) by (apply create_wfd; try lia; try reflexivity; intros m E; discriminate).
  destruct (C77_phases (ex_d 1 None) C0 20 1 H (ex_mat 1) 1 (ex_mat 1) (repeat C0 6) Wd) as (s & H' & r & s' & E & F & _ & _ & L & _ & Q & _).
  { unfold ovl_ready, fields, wf, npts. cbn. repeat split; auto; try lia; try discriminate; intros K; contradiction. }
  exists H'. rewrite F. cbn in L. destruct r as [|c [|]]; cbn in L; try lia.
  destruct (Q 0 ltac:(cbn; lia)) as (c' & o & Ec & Uc & Eo & _ & Em & _). cbn in Ec. injection Ec as <-.
  assert (Vo : o = (0, 4)%R).
  { cbn in E. injection E as <-. cbn in Eo. injection Eo as <-. unfold Ci. apply C_eq; cbn; lra. }
  subst o. do 3 f_equal. f_equal. unfold cmod, normsqr in Em. cbn in Em. replace (0 * 0 + 4 * 4)%R with (4 * 4)%R in Em by lra.
  rewrite sqrt_square in Em by lra. destruct c as [x y]. injection Em as E1 E2. apply C_eq; cbn; lra.
Qed.

(** 21 bands in one block, as with eigensolver-block-size set to 21. *)
Theorem C77_scratch_refuted : exists d H m W0 fft, wfd d /\ fields d H /\ fields d m /\ ep H = 21 /\ fields d W0 /\ ealloc W0 = 21 /\
  Z.of_nat (length fft) = 3 * npts d * 20 /\ dot_eigenvectors C0 20 21 d H m 1 W0 fft = Some UB.
Proof.
  destruct C64_mu_example as (Wd & _). exists (ex_d 1 (Some [iso (/ 2); iso (/ 2)])), (ex_mat 21), (ex_mat 21), (ex_mat 21), (repeat C0 120).
  split; [exact Wd|]. assert (F : fields (ex_d 1 (Some [iso (/ 2); iso (/ 2)])) (ex_mat 21)) by (unfold fields, wf, npts; cbn; repeat split; lia).
  repeat (split; [first [exact F|reflexivity]|]).
  apply C77_scratch_overrun; try exact F; try exact Wd; try discriminate; try reflexivity; cbn; lia.
Qed.
Print Assumptions C77_scratch_refuted.
