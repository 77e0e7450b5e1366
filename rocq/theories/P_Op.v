(** Properties C13, C14, C65, C66: the Maxwell operator and its preconditioners. *)
From Coq Require Import List ZArith Reals Bool Lia Lra.
From Verif Require Import Base RC M_Tensor S_Tensor M_Evect S_Evect M_Grid S_Grid L_Grid3 P_Grid M_Op S_Op L_Op L_Op2 L_Op3 L_Op4 L_Op5.
Import ListNotations.
Local Open Scope Z_scope.

(** The hypotheses below hold for the data set up for any grid, k and lattice, and the wave
    vectors are the k+G. *)
Theorem C13_setup : forall nx ny nz nfb k G1 G2 G3 t eps mu kn2 em, 1 <= nx -> 1 <= ny -> 1 <= nz ->
  k_plus_G nx ny nz 0 nx k G1 G2 G3 = Val t -> Z.of_nat (length eps) = nx * ny * nz -> (forall m, mu = Some m -> Z.of_nat (length m) = nx * ny * nz) ->
  let d := create_shape nx ny nz nfb t eps mu kn2 em in
  wfd d /\ orthonormal_basis d /\
  forall x y z, 0 <= x < nx -> 0 <= y < ny -> 0 <= z < nz -> kvec d (Z.to_nat ((x * ny + y) * nz + z)) = kG k G1 G2 G3 (- kidx nx x) (- kidx ny y) (- kidx nz z).
Proof.
  intros nx ny nz nfb k G1 G2 G3 t eps mu kn2 em Hx Hy Hz E Le Lm d.
  destruct (C07_basis nx ny nz 0 nx k G1 G2 G3 ltac:(lia) ltac:(lia) ltac:(lia)) as (t' & E' & Lt & H). rewrite E in E'. injection E' as <-.
  assert (Q : forall x y z, 0 <= x < nx -> 0 <= y < ny -> 0 <= z < nz -> exists e, kat d (Z.to_nat ((x * ny + y) * nz + z)) = e /\
     (rdot (km e) (km e) = 1 /\ rdot (kn e) (kn e) = 1 /\ rdot (km e) (kn e) = 0)%R /\ rsc (kmag e) (rcross (km e) (kn e)) = kG k G1 G2 G3 (- kidx nx x) (- kidx ny y) (- kidx nz z)).
  { intros x y z Hx' Hy' Hz'. destruct (H x y z Hx' Hy' Hz') as (e & Er & Hn & H0). exists e. split.
    - unfold kat, d. cbn [create_shape d_kG]. unfold rd in Er. destruct (Z.ltb_spec ((x * ny + y) * nz + z) 0); [discriminate|].
      destruct (nth_error t (Z.to_nat ((x * ny + y) * nz + z))) as [e'|] eqn:En; [|discriminate]. injection Er as ->. apply nth_error_nth. exact En.
    - rewrite Z.add_0_l in Hn, H0. set (q := kG k G1 G2 G3 (- kidx nx x) (- kidx ny y) (- kidx nz z)) in *.
      destruct (classic_vec q) as [Z0|Z0].
      + destruct (H0 Z0) as (-> & -> & ->). rewrite Z0. unfold rdot, rsc, rcross. split; [repeat split; ring|]. apply (f_equal2 pair); [apply (f_equal2 pair)|]; ring.
      + destruct (Hn Z0) as (A & B & C & _ & _ & D & _). auto. }
  split; [apply create_wfd; assumption|]. split.
  - intros g Hg. unfold npts, d in Hg. cbn [create_shape d_nx d_ny d_nz] in Hg.
    destruct (point_exists nx ny nz (Z.of_nat g) ltac:(lia) ltac:(lia) ltac:(lia)) as (x & y & z & Hx' & Hy' & Hz' & Eg); [lia|].
    destruct (Q x y z Hx' Hy' Hz') as (e & Ek & Ho & _). rewrite <- Eg, Nat2Z.id in Ek. rewrite Ek. exact Ho.
  - intros x y z Hx' Hy' Hz'. destruct (Q x y z Hx' Hy' Hz') as (e & Ek & _ & Hv). unfold kvec. rewrite Ek. exact Hv.
Qed.
Print Assumptions C13_setup.

(* ------------------------------------------------------------------ *)
(** * C13 *)

(** The operator never fails on fields of the right shape. *)
Theorem C13_total : forall fuel d X out fft, wfd d -> ready fuel d X out fft ->
  exists AX f, maxwell_operator fuel d X out fft = Some (Val (AX, f)) /\ fields d AX /\ ep AX = ep X.
Proof.
  intros fuel d X out fft Wd (F1 & F2 & Ep & Hn & Hs & Hf). destruct (operator_ok d Wd fuel X out fft F1 F2 Ep Hn Hs Hf) as (Y & f' & E & FY & EY & _).
  exists Y, f'. auto.
Qed.
Print Assumptions C13_total.
Theorem C13_hermitian : forall n1 n2 d X Y o1 o2 f1 f2 AX AY g1 g2 j l, wfd d -> ready n1 d X o1 f1 -> ready n2 d Y o2 f2 ->
  maxwell_operator n1 d X o1 f1 = Some (Val (AX, g1)) -> maxwell_operator n2 d Y o2 f2 = Some (Val (AY, g2)) ->
  0 <= j < ep X -> 0 <= l < ep Y -> dotl X AY j l = Cconj (dotl Y AX l j).
Proof.
  intros n1 n2 d X Y o1 o2 f1 f2 AX AY g1 g2 j l Wd R1 R2 E1 E2 Hj Hl.
  rewrite (op_dot _ _ X _ _ _ _ _ j l Wd (proj1 R1) R2 E2 Hl), (op_dot _ _ Y _ _ _ _ _ l j Wd (proj1 R2) R1 E1 Hj). apply opcol_herm.
Qed.
Print Assumptions C13_hermitian.
(** Without permeability the operator is the curl of the inverse tensor times the curl: its
    matrix elements are averages over the grid of the fields' curls. *)
Theorem C13_weak_form : forall n d X Y o f AY g j l, wfd d -> orthonormal_basis d -> d_mu_inv d = None -> fields d X -> ready n d Y o f ->
  maxwell_operator n d Y o f = Some (Val (AY, g)) -> 0 <= l < ep Y -> dotl X AY j l = mean_form d (sym_at (d_eps_inv d)) (curl d X j) (curl d Y l).
Proof.
  intros n d X Y o f AY g j l Wd Ho Hm FX Rd E Hl. rewrite (op_dot _ _ X _ _ _ _ _ j l Wd FX Rd E Hl), opcol_form. unfold mumaybe. rewrite Hm. apply gform_curl. exact Ho.
Qed.
Print Assumptions C13_weak_form.
(** With permeability the curls are those of the fields the permeability operator returns, whose
    matrix elements are averages of the inverse permeability. *)
Theorem C13_weak_form_mu : forall n1 n2 n3 d X Y o1 o2 o3 f1 f2 f3 MX MY AY g1 g2 g3 j l, wfd d -> orthonormal_basis d ->
  ready n1 d X o1 f1 -> ready n2 d Y o2 f2 -> ready n3 d Y o3 f3 ->
  muinv_operator n1 d X o1 f1 = Some (Val (MX, g1)) -> muinv_operator n2 d Y o2 f2 = Some (Val (MY, g2)) -> maxwell_operator n3 d Y o3 f3 = Some (Val (AY, g3)) ->
  0 <= j < ep X -> 0 <= l < ep Y ->
  dotl X AY j l = mean_form d (sym_at (d_eps_inv d)) (curl d MX j) (curl d MY l) /\
  (forall mu, d_mu_inv d = Some mu -> dotl X MY j l = mean_form d (sym_at mu) (hfield d X j) (hfield d Y l)).
Proof.
  intros n1 n2 n3 d X Y o1 o2 o3 f1 f2 f3 MX MY AY g1 g2 g3 j l Wd Ho R1 R2 R3 E1 E2 E3 Hj Hl.
  destruct (mu_result _ _ _ _ _ _ _ Wd R1 E1) as (_ & _ & H1). destruct (mu_result _ _ _ _ _ _ _ Wd R2 E2) as (_ & _ & H2). split.
  - rewrite (op_dot _ _ X _ _ _ _ _ j l Wd (proj1 R1) R3 E3 Hl), opcol_form, <- gform_curl by exact Ho.
    apply gform_ext; apply feq_sym; [apply H1; exact Hj|apply H2; exact Hl].
  - intros mu Hm. rewrite (mu_dot _ _ X _ _ _ _ _ j l Wd (proj1 R1) R2 E2 Hl). unfold mumaybe. rewrite Hm, mucol_form. apply gform_h.
Qed.
Print Assumptions C13_weak_form_mu.
Theorem C13_nonnegative : forall n d X o f AX g j, wfd d -> (forall r, (r < Z.to_nat (npts d))%nat -> PSD (sym_at (d_eps_inv d) r)) ->
  ready n d X o f -> maxwell_operator n d X o f = Some (Val (AX, g)) -> 0 <= j < ep X -> im (dotl X AX j j) = 0%R /\ (0 <= re (dotl X AX j j))%R.
Proof.
  intros n d X o f AX g j Wd Hp Rd E Hj. rewrite (op_dot _ _ X _ _ _ _ _ j j Wd (proj1 Rd) Rd E Hj), opcol_form. apply gform_psd; assumption.
Qed.
Print Assumptions C13_nonnegative.
(** Eigenvalues (of the generalized problem with permeability) are real and nonnegative. *)
Theorem C13_eigenvalues : forall n1 n2 d X o1 o2 f1 f2 MX AX g1 g2 j lambda, wfd d -> (forall r, (r < Z.to_nat (npts d))%nat -> PSD (sym_at (d_eps_inv d) r)) ->
  ready n1 d X o1 f1 -> muinv_operator n1 d X o1 f1 = Some (Val (MX, g1)) -> ready n2 d X o2 f2 -> maxwell_operator n2 d X o2 f2 = Some (Val (AX, g2)) ->
  0 <= j < ep X -> (forall i, 0 <= i < 2 * npts d -> entC AX i j = (lambda * entC MX i j)%C) -> (0 < re (dotl X MX j j))%R -> im lambda = 0%R /\ (0 <= re lambda)%R.
Proof.
  intros n1 n2 d X o1 o2 f1 f2 MX AX g1 g2 j lambda Wd Hp R1 E1 R2 E2 Hj Hl Hpos.
  destruct (C13_nonnegative _ _ _ _ _ _ _ _ Wd Hp R2 E2 Hj) as (I0 & P0).
  assert (M0 : im (dotl X MX j j) = 0%R).
  { pose proof (mu_dot _ _ X _ _ _ _ _ j j Wd (proj1 R1) R1 E1 Hj) as Q.
    assert (S : dotl X MX j j = Cconj (dotl X MX j j)).
    { rewrite Q at 1. unfold mumaybe in *. destruct (d_mu_inv d) as [mu|]; [|rewrite inner_conj; rewrite Q; reflexivity].
      rewrite mucol_form, gform_conj, <- mucol_form. rewrite Q. reflexivity. }
    apply (f_equal im) in S. unfold Cconj, im in S. cbn [snd] in S. unfold im. lra. }
  assert (D : dotl X AX j j = (lambda * dotl X MX j j)%C).
  { unfold dotl. rewrite <- csum_scal. apply csum_ext. intros i Hi. destruct R1 as ((_ & En) & _). rewrite Hl by lia. ring. }
  rewrite D in I0, P0. clear - I0 P0 M0 Hpos. destruct lambda as [a b], (dotl X MX j j) as [x y]. csimp. subst y.
  assert (b * x = 0)%R by lra. assert (b = 0%R) by (apply Rmult_integral in H; destruct H; lra). subst b.
  split; [reflexivity|]. destruct (Rle_or_lt 0 a); [assumption|]. exfalso. assert (a * x < 0)%R by nra. lra.
Qed.
Print Assumptions C13_eigenvalues.

(** Two points, an anisotropic and an isotropic material, permeability. *)
Definition ex_k (q : R) : kdata := {| kmag := q; km := (0, 1, 0)%R; kn := (0, 0, 1)%R |}.
Definition ex_eps : sym := mkSym 1 1 1 (/ 2, 0)%R C0 (0, / 4)%R.
Definition ex_d (nfb : Z) (mu : option (list sym)) : mdata := create_shape 2 1 1 nfb [ex_k (/ 2); ex_k (- / 2)] [ex_eps; iso (/ 3)] mu [/ 4; / 4]%R (/ 2)%R.
Definition ex_X : emat C := {| en := 4; ep := 2; ealloc := 2; edata := repeat C1 8 |}.
Example C13_example : let d := ex_d 1 (Some [iso 1; iso (/ 2)]) in
  wfd d /\ orthonormal_basis d /\ (forall r, (r < Z.to_nat (npts d))%nat -> PSD (sym_at (d_eps_inv d) r)) /\ ready 2 d ex_X ex_X (repeat C0 6).
Proof.
  cbv zeta. split; [|split; [|split]].
  - apply create_wfd; try lia; try reflexivity. intros m E. injection E as <-. reflexivity.
  - intros g Hg. unfold npts in Hg. cbn in Hg. destruct g as [|[|g]]; [| |lia]; unfold kat; cbn; repeat split; ring.
  - intros r Hr. unfold npts in Hr. cbn in Hr. intros x. destruct r as [|[|r]]; [| |lia]; unfold sym_at; cbn; unfold quad; cbn [csum];
      destruct (x 0%nat) as [a0 b0], (x 1%nat) as [a1 b1], (x 2%nat) as [a2 b2]; csimp; cbn [entry ex_eps iso m00 m11 m22 m01 m02 m12 fst snd]; csimp; split; try ring.
    + apply Rle_trans with (/ 2 * ((a0 + a1) * (a0 + a1) + (b0 + b1) * (b0 + b1)) + / 4 * ((a1 - b2) * (a1 - b2) + (b1 + a2) * (b1 + a2)) +
        / 2 * (a0 * a0 + b0 * b0) + / 4 * (a1 * a1 + b1 * b1) + 3 * / 4 * (a2 * a2 + b2 * b2))%R;
      [pose proof (Rle_0_sqr (a0 + a1)); pose proof (Rle_0_sqr (b0 + b1)); pose proof (Rle_0_sqr (a1 - b2)); pose proof (Rle_0_sqr (b1 + a2));
       pose proof (Rle_0_sqr a0); pose proof (Rle_0_sqr b0); pose proof (Rle_0_sqr a1); pose proof (Rle_0_sqr b1); pose proof (Rle_0_sqr a2); pose proof (Rle_0_sqr b2); unfold Rsqr in *; lra|].
      right. field.
    + pose proof (Rle_0_sqr a0); pose proof (Rle_0_sqr b0); pose proof (Rle_0_sqr a1); pose proof (Rle_0_sqr b1); pose proof (Rle_0_sqr a2); pose proof (Rle_0_sqr b2); unfold Rsqr in *; lra.
  - unfold ready, fields, wf, scratch, npts. cbn. repeat split; lia.
Qed.

(* ------------------------------------------------------------------ *)
(** * C14 *)

(** Every output entry is the same for all positive batch sizes, all contents of the output
    and scratch arrays. *)
Theorem C14_operator : forall n1 n2 m1 m2 d X o1 o2 f1 f2 A1 A2 g1 g2, wfd d -> ready n1 (with_nfb m1 d) X o1 f1 -> ready n2 (with_nfb m2 d) X o2 f2 ->
  maxwell_operator n1 (with_nfb m1 d) X o1 f1 = Some (Val (A1, g1)) -> maxwell_operator n2 (with_nfb m2 d) X o2 f2 = Some (Val (A2, g2)) ->
  forall i j, 0 <= i < 2 * npts d -> 0 <= j < ep X -> entC A1 i j = entC A2 i j.
Proof.
  intros n1 n2 m1 m2 d X o1 o2 f1 f2 A1 A2 g1 g2 Wd R1 R2 E1 E2 i j Hi Hj.
  destruct (op_result _ _ _ _ _ _ _ (wfd_nfb m1 d Wd) R1 E1) as (F1 & _ & H1). destruct (op_result _ _ _ _ _ _ _ (wfd_nfb m2 d Wd) R2 E2) as (F2 & _ & H2).
  apply (same_ent d A1 A2 j F1 F2); [|destruct F1 as (_ & ->); exact Hi]. exact (feq_trans d _ _ _ (H1 j Hj) (feq_sym d _ _ (H2 j Hj))).
Qed.
Print Assumptions C14_operator.
Theorem C14_permeability : forall n1 n2 m1 m2 d X o1 o2 f1 f2 A1 A2 g1 g2, wfd d -> ready n1 (with_nfb m1 d) X o1 f1 -> ready n2 (with_nfb m2 d) X o2 f2 ->
  muinv_operator n1 (with_nfb m1 d) X o1 f1 = Some (Val (A1, g1)) -> muinv_operator n2 (with_nfb m2 d) X o2 f2 = Some (Val (A2, g2)) ->
  forall i j, 0 <= i < 2 * npts d -> 0 <= j < ep X -> entC A1 i j = entC A2 i j.
Proof.
  intros n1 n2 m1 m2 d X o1 o2 f1 f2 A1 A2 g1 g2 Wd R1 R2 E1 E2 i j Hi Hj.
  destruct (mu_result _ _ _ _ _ _ _ (wfd_nfb m1 d Wd) R1 E1) as (F1 & _ & H1). destruct (mu_result _ _ _ _ _ _ _ (wfd_nfb m2 d Wd) R2 E2) as (F2 & _ & H2).
  apply (same_ent d A1 A2 j F1 F2); [|destruct F1 as (_ & ->); exact Hi]. exact (feq_trans d _ _ _ (H1 j Hj) (feq_sym d _ _ (H2 j Hj))).
Qed.
Print Assumptions C14_permeability.
(** Every band is in exactly one batch, nothing else is. *)
Theorem C14_once : forall p nfb, 0 < nfb -> exists l, batches (Z.to_nat p) 0 p nfb = Some l /\
  forall b, length (filter (in_batch b) l) = (if (0 <=? b) && (b <? p) then 1%nat else 0%nat).
Proof.
  intros p nfb Hn. destruct (batches_some (Z.to_nat p) 0 p nfb Hn) as (l & E); [rewrite Z.sub_0_r; lia|]. exists l. split; [exact E|].
  intros b. exact (batches_count _ _ _ _ _ b Hn E).
Qed.
Print Assumptions C14_once.
Example C14_example : batches 5 0 5 2 = Some [(0, 2); (2, 2); (4, 1)] /\
  ready 2 (with_nfb 1 (ex_d 7 None)) ex_X ex_X (repeat C0 6) /\ ready 2 (with_nfb 20 (ex_d 7 None)) ex_X ex_X (repeat C0 12).
Proof. split; [reflexivity|]. unfold ready, fields, wf, scratch, npts. cbn. repeat split; lia. Qed.

(* ------------------------------------------------------------------ *)
(** * C65: homogeneous media *)

(** Every plane wave is an eigenvector with eigenvalue |k+G|^2 / (eps mu). *)
Theorem C65_eigenvalue : forall n1 n2 d X o1 o2 f1 f2 MX AX g1 g2 e m, wfd d -> orthonormal_basis d -> uniform d (d_eps_inv d) e ->
  (match d_mu_inv d with Some mu => uniform d mu m | None => m = 1%R end) ->
  ready n1 d X o1 f1 -> muinv_operator n1 d X o1 f1 = Some (Val (MX, g1)) -> ready n2 d X o2 f2 -> maxwell_operator n2 d X o2 f2 = Some (Val (AX, g2)) ->
  forall g c b, (g < Z.to_nat (npts d))%nat -> 0 <= c < 2 -> 0 <= b < ep X ->
    entC MX (2 * Z.of_nat g + c) b = (RtoC m * entC X (2 * Z.of_nat g + c) b)%C /\
    entC AX (2 * Z.of_nat g + c) b = (RtoC (e * m * rdot (kvec d g) (kvec d g)) * entC MX (2 * Z.of_nat g + c) b)%C.
Proof.
  intros n1 n2 d X o1 o2 f1 f2 MX AX g1 g2 e m Wd Ho Ue Um R1 E1 R2 E2 g c b Hg Hc Hb.
  destruct (mu_result _ _ _ _ _ _ _ Wd R1 E1) as (_ & _ & H1). destruct (op_result _ _ _ _ _ _ _ Wd R2 E2) as (_ & _ & H2).
  specialize (H1 b Hb). specialize (H2 b Hb).
  assert (M : feq d (mumaybe d (fld X b)) (fun g c => RtoC m * fld X b g c)%C).
  { unfold mumaybe. destruct (d_mu_inv d) as [mu|]; [apply mucol_iso; assumption|]. subst m. intros g' c' _ _. change (RtoC 1) with C1. ring. }
  assert (A : feq d (opcol d (fld X b)) (fun g c => RtoC (e * m * rdot (kvec d (Z.to_nat g)) (kvec d (Z.to_nat g))) * (RtoC m * fld X b g c))%C).
  { unfold opcol, mumaybe in *. destruct (d_mu_inv d) as [mu|].
    - intros g' c' Hg' Hc'. rewrite (mucol_iso d Wd mu m _ Ho Um g' c' Hg' Hc'), (epscol_iso d Wd e _ Ho Ue g' c' Hg' Hc'), (M g' c' Hg' Hc').
      rewrite kvec_sq by (auto; lia). fold (kz d g'). rewrite (RtoC_mul (e * m)), (RtoC_mul e m), (RtoC_mul e). ring.
    - subst m. intros g' c' Hg' Hc'. rewrite (epscol_iso d Wd e _ Ho Ue g' c' Hg' Hc'). rewrite kvec_sq by (auto; lia). fold (kz d g').
      rewrite Rmult_1_r. change (RtoC 1) with C1. ring. }
  assert (Q : 0 <= Z.of_nat g < npts d) by lia.
  pose proof (H1 (Z.of_nat g) c Q Hc) as H1'. pose proof (H2 (Z.of_nat g) c Q Hc) as H2'. unfold fld at 1 in H1'. unfold fld at 1 in H2'.
  rewrite H1', H2', (M _ _ Q Hc), (A _ _ Q Hc). rewrite Nat2Z.id. split; reflexivity.
Qed.
Print Assumptions C65_eigenvalue.
(** There both preconditioners are the exact inverse of the operator, except at k+G = 0. *)
Theorem C65_simple_preconditioner : forall n d X o f AX g' e, wfd d -> orthonormal_basis d -> uniform d (d_eps_inv d) e -> e <> 0%R -> d_mu_inv d = None ->
  Z.of_nat (length (d_kn2 d)) = npts d -> (forall g, (g < Z.to_nat (npts d))%nat -> nth g (d_kn2 d) 0%R = rdot (kvec d g) (kvec d g)) -> d_eps_inv_mean d = e ->
  ready n d X o f -> maxwell_operator n d X o f = Some (Val (AX, g')) ->
  exists Y, simple_precondition d AX = Val Y /\ fields d Y /\ ep Y = ep X /\
    forall g c b, (g < Z.to_nat (npts d))%nat -> 0 <= c < 2 -> 0 <= b < ep X -> rdot (kvec d g) (kvec d g) <> 0%R ->
      entC Y (2 * Z.of_nat g + c) b = entC X (2 * Z.of_nat g + c) b.
Proof.
  intros n d X o f AX g' e Wd Ho Ue He Hm Lk Hk Hmean Rd E. destruct (op_result _ _ _ _ _ _ _ Wd Rd E) as (FA & EA & H).
  destruct (simple_ok d Wd AX FA Lk) as (Y & EY & FY & PY & HY). exists Y. split; [exact EY|]. split; [exact FY|]. split; [congruence|].
  intros g c b Hg Hc Hb Hnz. assert (Q : 0 <= Z.of_nat g < npts d) by lia.
  pose proof (HY b ltac:(lia) (Z.of_nat g) c Q Hc) as Y1. unfold fld at 1 in Y1. rewrite Y1.
  rewrite (H b Hb (Z.of_nat g) c Q Hc). unfold opcol. rewrite Hm, (epscol_iso d Wd e _ Ho Ue _ _ Q Hc).
  rewrite Nat2Z.id, Hk, Hmean by exact Hg. rewrite FIX_id by (intros Z0; apply Rmult_integral in Z0; tauto).
  rewrite (kvec_sq d g Ho Hg) in *. unfold kz. rewrite Nat2Z.id. set (q := kmag (kat d g)) in *. unfold fld.
  transitivity (RtoC (1 / (q * q * e) * (e * (q * q))) * entC X (2 * Z.of_nat g + c) b)%C; [rewrite (RtoC_mul (1 / (q * q * e))); ring|].
  replace (1 / (q * q * e) * (e * (q * q)))%R with 1%R; [change (RtoC 1) with C1; ring|]. field. split; [exact He|]. intros ->. apply Hnz. ring.
Qed.
Print Assumptions C65_simple_preconditioner.
Theorem C65_curl_preconditioner : forall n1 n2 d X o f AX g' f2 e, wfd d -> orthonormal_basis d -> uniform d (d_eps_inv d) e -> e <> 0%R -> d_mu_inv d = None ->
  ready n1 d X o f -> maxwell_operator n1 d X o f = Some (Val (AX, g')) -> scratch d (ep X) f2 -> (Z.to_nat (ep X) <= n2)%nat ->
  exists Y g2, preconditioner2 n2 d AX f2 = Some (Val (Y, g2)) /\ fields d Y /\ ep Y = ep X /\
    forall g c b, (g < Z.to_nat (npts d))%nat -> 0 <= c < 2 -> 0 <= b < ep X -> rdot (kvec d g) (kvec d g) <> 0%R ->
      entC Y (2 * Z.of_nat g + c) b = entC X (2 * Z.of_nat g + c) b.
Proof.
  intros n1 n2 d X o f AX g' f2 e Wd Ho Ue He Hm Rd E Hs Hf. destruct (op_result _ _ _ _ _ _ _ Wd Rd E) as (FA & EA & H).
  destruct Rd as (_ & _ & _ & Hn & _).
  assert (Ht : forall r, 0 <= r < npts d -> trace_at d r <> 0%R).
  { intros r Hr. unfold trace_at. fold (sym_at (d_eps_inv d) (Z.to_nat r)). rewrite Ue by lia. cbn [iso m00 m11 m22]. lra. }
  destruct (precond2_ok d Wd n2 AX f2 Ht FA Hn ltac:(rewrite EA; exact Hs) ltac:(rewrite EA; exact Hf)) as (Y & g2 & EY & FY & PY & _ & HY).
  exists Y, g2. split; [exact EY|]. split; [exact FY|]. split; [congruence|].
  intros g c b Hg Hc Hb Hnz. assert (Q : 0 <= Z.of_nat g < npts d) by lia.
  pose proof (HY b ltac:(lia) (Z.of_nat g) c Q Hc) as Y1. unfold fld at 1 in Y1. rewrite Y1.
  rewrite (precol_iso d Wd e _ Ho Ue He _ _ Q Hc), (H b Hb (Z.of_nat g) c Q Hc). unfold opcol. rewrite Hm, (epscol_iso d Wd e _ Ho Ue _ _ Q Hc).
  rewrite (kvec_sq d g Ho Hg) in Hnz. unfold kz. rewrite Nat2Z.id. set (q := kmag (kat d g)) in *.
  assert (Hq : q <> 0%R) by (intros Z0; apply Hnz; rewrite Z0; ring). rewrite FIX_id by exact Hq. unfold fld.
  transitivity (RtoC (/ (e * (q * q)) * (e * (q * q))) * entC X (2 * Z.of_nat g + c) b)%C; [rewrite (RtoC_mul (/ (e * (q * q)))); ring|].
  rewrite Rinv_l; [change (RtoC 1) with C1; ring|]. intros Z0. apply Rmult_integral in Z0. destruct Z0; [contradiction|]. apply Hnz. exact H0.
Qed.
Print Assumptions C65_curl_preconditioner.
Example C65_example : let d := create_shape 2 1 1 1 [ex_k (/ 2); ex_k (- / 2)] [iso (/ 3); iso (/ 3)] None [/ 4; / 4]%R (/ 3)%R in
  wfd d /\ orthonormal_basis d /\ uniform d (d_eps_inv d) (/ 3) /\ ready 2 d ex_X ex_X (repeat C0 6) /\
  (forall g, (g < Z.to_nat (npts d))%nat -> nth g (d_kn2 d) 0%R = rdot (kvec d g) (kvec d g)) /\ rdot (kvec d 1) (kvec d 1) <> 0%R.
Proof.
  cbv zeta. split; [apply create_wfd; try lia; try reflexivity; discriminate|]. split; [|split; [|split; [|split]]].
  - intros g Hg. unfold npts in Hg. cbn in Hg. destruct g as [|[|g]]; [| |lia]; unfold kat; cbn; repeat split; ring.
  - intros r Hr. unfold npts in Hr. cbn in Hr. destruct r as [|[|r]]; [reflexivity|reflexivity|lia].
  - unfold ready, fields, wf, scratch, npts. cbn. repeat split; lia.
  - intros g Hg. unfold npts in Hg. cbn in Hg. destruct g as [|[|g]]; [| |lia]; unfold kvec, kat; cbn; lra.
  - unfold kvec, kat. cbn. lra.
Qed.

(* ------------------------------------------------------------------ *)
(** * C66: the preconditioners are Hermitian and positive *)

Theorem C66_curl_hermitian : forall n1 n2 d X Y f1 f2 KX KY g1 g2 j l, wfd d -> (forall r, 0 <= r < npts d -> trace_at d r <> 0%R) -> 0 < d_nfb d ->
  fields d X -> fields d Y -> scratch d (ep X) f1 -> scratch d (ep Y) f2 -> (Z.to_nat (ep X) <= n1)%nat -> (Z.to_nat (ep Y) <= n2)%nat ->
  preconditioner2 n1 d X f1 = Some (Val (KX, g1)) -> preconditioner2 n2 d Y f2 = Some (Val (KY, g2)) -> 0 <= j < ep X -> 0 <= l < ep Y ->
  dotl X KY j l = Cconj (dotl Y KX l j).
Proof.
  intros n1 n2 d X Y f1 f2 KX KY g1 g2 j l Wd Ht Hn FX FY S1 S2 B1 B2 E1 E2 Hj Hl.
  destruct (precond2_ok d Wd n1 X f1 Ht FX Hn S1 B1) as (? & ? & E1' & F1 & _ & _ & H1). rewrite E1 in E1'. injection E1' as <- <-.
  destruct (precond2_ok d Wd n2 Y f2 Ht FY Hn S2 B2) as (? & ? & E2' & F2 & _ & _ & H2). rewrite E2 in E2'. injection E2' as <- <-.
  rewrite (dotl_inner d Wd X KY j l FX), (dotl_inner d Wd Y KX l j FY).
  rewrite (inner_ext d _ _ _ _ (feq_refl d (fld X j)) (H2 l Hl)), (inner_ext d _ _ _ _ (feq_refl d (fld Y l)) (H1 j Hj)). apply precol_herm.
Qed.
Print Assumptions C66_curl_hermitian.
Theorem C66_curl_nonnegative : forall n d X f KX g j, wfd d -> (forall r, 0 <= r < npts d -> (0 < trace_at d r)%R) -> 0 < d_nfb d ->
  fields d X -> scratch d (ep X) f -> (Z.to_nat (ep X) <= n)%nat -> preconditioner2 n d X f = Some (Val (KX, g)) -> 0 <= j < ep X ->
  im (dotl X KX j j) = 0%R /\ (0 <= re (dotl X KX j j))%R.
Proof.
  intros n d X f KX g j Wd Ht Hn FX S B E Hj.
  destruct (precond2_ok d Wd n X f ltac:(intros r Hr; specialize (Ht r Hr); lra) FX Hn S B) as (? & ? & E' & F1 & _ & _ & H1). rewrite E in E'. injection E' as <- <-.
  rewrite (dotl_inner d Wd X KX j j FX), (inner_ext d _ _ _ _ (feq_refl d (fld X j)) (H1 j Hj)). apply precol_nonneg; [exact Wd|].
  intros r Hr. apply Ht. lia.
Qed.
Print Assumptions C66_curl_nonnegative.
Theorem C66_simple : forall d X Y KX KY j l, wfd d -> Z.of_nat (length (d_kn2 d)) = npts d -> fields d X -> fields d Y ->
  simple_precondition d X = Val KX -> simple_precondition d Y = Val KY -> 0 <= j < ep X -> 0 <= l < ep Y ->
  dotl X KY j l = Cconj (dotl Y KX l j) /\
  ((0 < d_eps_inv_mean d)%R -> (forall x, In x (d_kn2 d) -> (0 <= x)%R) -> (exists i, 0 <= i < 2 * npts d /\ entC X i j <> C0) ->
   im (dotl X KX j j) = 0%R /\ (0 < re (dotl X KX j j))%R).
Proof.
  intros d X Y KX KY j l Wd Lk FX FY E1 E2 Hj Hl.
  destruct (simple_ok d Wd X FX Lk) as (? & E1' & F1 & _ & H1). rewrite E1 in E1'. injection E1' as <-.
  destruct (simple_ok d Wd Y FY Lk) as (? & E2' & F2 & _ & H2). rewrite E2 in E2'. injection E2' as <-.
  split.
  - rewrite (dotl_inner d Wd X KY j l FX), (dotl_inner d Wd Y KX l j FY).
    rewrite (inner_ext d _ _ _ _ (feq_refl d (fld X j)) (H2 l Hl)), (inner_ext d _ _ _ _ (feq_refl d (fld Y l)) (H1 j Hj)). apply diag_herm.
  - intros He Hk Hx. rewrite (dotl_inner d Wd X KX j j FX), (inner_ext d _ _ _ _ (feq_refl d (fld X j)) (H1 j Hj)). apply diag_pos; [exact Wd| |].
    + intros g Hg. apply Rdiv_lt_0_compat; [lra|]. unfold FIX_DENOM.
      assert (0 <= nth (Z.to_nat g) (d_kn2 d) 0)%R by (apply Hk, nth_In; lia).
      assert (0 <= nth (Z.to_nat g) (d_kn2 d) 0 * d_eps_inv_mean d)%R by (apply Rmult_le_pos; lra).
      destruct (Reqb_spec (nth (Z.to_nat g) (d_kn2 d) 0%R * d_eps_inv_mean d)%R 0%R); lra.
    + destruct Hx as (i & Hi & Hne). exists (i / 2), (i mod 2). pose proof (Z.div_mod i 2 ltac:(lia)). pose proof (Z.mod_pos_bound i 2 ltac:(lia)).
      split; [split; [apply Z.div_pos; lia|apply Z.div_lt_upper_bound; lia]|]. split; [lia|]. unfold fld. replace (2 * (i / 2) + i mod 2) with i by lia. exact Hne.
Qed.
Print Assumptions C66_simple.
Example C66_example : let d := ex_d 1 None in wfd d /\ (forall r, 0 <= r < npts d -> (0 < trace_at d r)%R) /\ Z.of_nat (length (d_kn2 d)) = npts d /\
  fields d ex_X /\ scratch d (ep ex_X) (repeat C0 6) /\ entC ex_X 3 1 = C1.
Proof.
  cbv zeta. split; [apply create_wfd; try lia; try reflexivity; discriminate|]. split; [|split; [reflexivity|split; [|split; [|reflexivity]]]].
  - intros r Hr. unfold npts in Hr. cbn in Hr. assert (r = 0 \/ r = 1) as [-> | ->] by lia; unfold trace_at, sym_at, ex_d, create_shape; change (Z.to_nat 0) with 0%nat; change (Z.to_nat 1) with 1%nat; cbn [d_eps_inv nth Z.to_nat Pos.to_nat Pos.iter_op Nat.add ex_eps iso m00 m11 m22]; lra.
  - unfold fields, wf, npts. cbn. lia.
  - unfold scratch, npts. cbn. lia.
Qed.
