From Coq Require Import List ZArith Reals Bool Lia Lra.
From Verif Require Import Base RC M_Tensor M_Evect S_Evect L_Evect L_Evect3 M_Grid S_Grid M_Op S_Op L_Op L_Op2 L_Op3 L_Op5 M_Gv L_Gv M_Pha S_Pha L_Pha L_Pha2 M_Ovl S_Ovl L_Ovl.
Import ListNotations.
Local Open Scope Z_scope.
Add Ring Cr : C_ring_theory.

Lemma polar_unit o : unit_c (polar_of o).
Proof. unfold unit_c, polar_of, normsqr. cbn. pose proof (sin2_cos2 (atan2 (im o) (re o))) as E. unfold Rsqr in E. lra. Qed.

Lemma conj_unit c : unit_c c -> unit_c (Cconj c).
Proof. unfold unit_c, normsqr. destruct c. cbn. lra. Qed.

Lemma unit_mul c : unit_c c -> (c * Cconj c)%C = C1.
Proof. unfold unit_c, normsqr. destruct c as [x y]. cbn. intros E. apply C_eq; cbn; lra. Qed.

Lemma polar_dot o : (Cconj (polar_of o) * o)%C = RtoC (cmod o).
Proof.
  destruct o as [x y]. unfold cmod, normsqr, polar_of. cbn [re im fst snd].
  destruct (Req_dec x 0) as [Ex|Nx]; [destruct (Req_dec y 0) as [Ey|Ny]|].
  - subst. replace (0 * 0 + 0 * 0)%R with 0%R by lra. rewrite sqrt_0. apply C_eq; cbn; lra.
  - destruct (atan2_ok x y (or_intror Ny)) as (A & B). set (a := atan2 y x) in *. set (q := sqrt (x * x + y * y)) in *.
    pose proof (sin2_cos2 a) as E. unfold Rsqr in E. apply C_eq; cbn; rewrite <- A, <- B; [|ring].
    transitivity (q * (sin a * sin a + cos a * cos a))%R; [ring|rewrite E; ring].
  - destruct (atan2_ok x y (or_introl Nx)) as (A & B). set (a := atan2 y x) in *. set (q := sqrt (x * x + y * y)) in *.
    pose proof (sin2_cos2 a) as E. unfold Rsqr in E. apply C_eq; cbn; rewrite <- A, <- B; [|ring].
    transitivity (q * (sin a * sin a + cos a * cos a))%R; [ring|rewrite E; ring].
Qed.

Lemma diag_ok U (o : Z -> C) : forall n i0, 0 <= i0 -> i0 + Z.of_nat n <= sp U ->
  (forall i, 0 <= i < sp U -> sent U i i = Val (o i)) ->
  diag_phases U i0 n = Val (map (fun k => Cconj (polar_of (o (i0 + Z.of_nat k)))) (seq 0 n)).
Proof.
  induction n as [|n IH]; intros i0 H0 Hn Q; [reflexivity|]. cbn [diag_phases]. unfold sqmatrix_ref, check.
  destruct (Z.leb_spec 0 i0); [|lia]. destruct (Z.ltb_spec i0 (sp U)); [|lia]. cbn [andb bind].
  pose proof (Q i0 ltac:(lia)) as E. unfold sent in E. rewrite E. cbn [bind]. rewrite (IH (i0 + 1)) by (auto; lia). cbn [bind seq map].
  rewrite Z.add_0_r. do 2 f_equal. rewrite <- seq_shift, map_map. apply map_ext. intros k. do 3 f_equal. lia.
Qed.

Lemma scale_all_ok : forall phases b H, wf H -> 1 <= b -> b - 1 + Z.of_nat (length phases) <= ep H ->
  exists H', scale_all b phases H = Val (H', map Cconj phases) /\ wf H' /\ en H' = en H /\ ep H' = ep H /\
    (forall i j c, 0 <= i < en H -> nth_error phases j = Some c -> entC H' i (b - 1 + Z.of_nat j) = (c * entC H i (b - 1 + Z.of_nat j))%C) /\
    (forall i j, 0 <= i < en H -> 0 <= j < ep H -> ~ (b - 1 <= j < b - 1 + Z.of_nat (length phases)) -> entC H' i j = entC H i j).
Proof.
  induction phases as [|c l IH]; intros b H W Hb Hl.
  - exists H. split; [reflexivity|]. split; [exact W|]. split; [reflexivity|]. split; [reflexivity|]. split; [intros i [|j] c' _ E; discriminate|reflexivity].
  - cbn [length] in Hl. cbn [scale_all]. destruct (scal_ok b c H W ltac:(lia)) as (H1 & E1 & W1 & N1 & P1 & A1 & B1).
    rewrite E1. cbn [bind]. destruct (IH (b + 1) H1 W1 ltac:(lia) ltac:(lia)) as (H2 & E2 & W2 & N2 & P2 & A2 & B2).
    rewrite E2. cbn [bind map]. exists H2. split; [reflexivity|]. split; [exact W2|]. split; [congruence|]. split; [congruence|]. split.
    + intros i [|j] c' Hi E.
      * injection E as ->. replace (b - 1 + Z.of_nat 0) with (b - 1) by lia. rewrite B2 by lia. apply A1. exact Hi.
      * cbn [nth_error] in E. replace (b - 1 + Z.of_nat (S j)) with (b + 1 - 1 + Z.of_nat j) by lia.
        assert (Hj : (j < length l)%nat) by (apply nth_error_Some; congruence).
        rewrite (A2 i j c') by (try assumption; lia). rewrite B1 by lia. reflexivity.
    + intros i j Hi Hj Hn. cbn [length] in Hn. rewrite B2 by lia. apply B1; lia.
Qed.

Lemma inner_scal d f h s : inner d f (fun g c => s * h g c)%C = (s * inner d f h)%C.
Proof. unfold inner. rewrite <- csum_scal. apply csum_ext. intros g _. ring. Qed.

Lemma mumaybe_scal d f h s : wfd d -> inner d f (mumaybe d (fun g c => s * h g c)%C) = (s * inner d f (mumaybe d h))%C.
Proof.
  intros Wd. unfold mumaybe. destruct (d_mu_inv d) as [mu|]; [|apply inner_scal].
  rewrite !(mucol_adj d). apply inner_scal.
Qed.

Lemma mumaybe_ext d f f' : feq d f f' -> feq d (mumaybe d f) (mumaybe d f').
Proof. intros E. unfold mumaybe. destruct (d_mu_inv d) as [mu|]; [|exact E]. apply sand_ext. exact E. Qed.

Lemma fix_ok d junk mx num_bands H m b W0 fft : wfd d -> ovl_ready mx num_bands d H m b W0 fft ->
  exists s H' r s', dot_eigenvectors junk mx num_bands d H m b W0 fft = Some (Val s) /\
    fix_phase_consistency junk mx num_bands d H m b W0 fft = Some (Val (H', r)) /\
    fields d H' /\ ep H' = ep H /\ Z.of_nat (length r) = ep m /\
    dot_eigenvectors junk mx num_bands d H' m b W0 fft = Some (Val s') /\
    (forall j, 0 <= j < ep m -> exists c o, nth_error r (Z.to_nat j) = Some c /\ unit_c c /\
       sent (o_U s) j j = Val o /\ sent (o_U s') j j = Val (RtoC (cmod o)) /\ (c * RtoC (cmod o))%C = o /\
       (forall i, 0 <= i < en H -> entC H i (b - 1 + j) = (c * entC H' i (b - 1 + j))%C) /\
       (forall i, 0 <= i < ep m -> exists x, sent (o_U s') i j = Val x /\ sent (o_U s) i j = Val (c * x)%C)) /\
    (forall i j, 0 <= i < en H -> 0 <= j < ep H -> ~ (b - 1 <= j < b - 1 + ep m) -> entC H' i j = entC H i j).
Proof.
  intros Wd Rd. pose proof Rd as (FH & Fm & EH & Hb & Hnb & Hmu).
  destruct (dots_ok d Wd junk mx H m b FH Fm Hb ltac:(lia) num_bands W0 fft Rd) as (s & E & WU & SU & Q & _).
  pose proof Fm as ((Wm1 & Wm2 & Wm3) & Nm). pose proof FH as (WH & NH).
  set (o := ovl d H m b) in *.
  pose proof (diag_ok (o_U s) (fun i => o i i) (Z.to_nat (sp (o_U s))) 0 ltac:(lia) ltac:(lia)) as Dg.
  rewrite SU in Dg. specialize (Dg ltac:(intros i Hi; apply Q; lia)).
  set (ph := map (fun k => Cconj (polar_of (o (0 + Z.of_nat k) (0 + Z.of_nat k)))) (seq 0 (Z.to_nat (ep m)))) in *.
  assert (Lp : length ph = Z.to_nat (ep m)) by (unfold ph; now rewrite map_length, seq_length).
  destruct (scale_all_ok ph b H WH Hb ltac:(lia)) as (H' & E2 & W2 & N2 & P2 & A2 & B2).
  assert (FH' : fields d H') by (split; [exact W2|congruence]).
  assert (Rd' : ovl_ready mx num_bands d H' m b W0 fft).
  { split; [exact FH'|]. split; [exact Fm|]. split; [congruence|]. repeat (split; [assumption|]). exact Hmu. }
  destruct (dots_ok d Wd junk mx H' m b FH' Fm Hb ltac:(lia) num_bands W0 fft Rd') as (s' & E' & WU' & SU' & Q' & _).
  exists s, H', (map Cconj ph), s'. split; [exact E|]. split.
  { unfold fix_phase_consistency. rewrite E. cbn [option_map bind]. rewrite SU, Dg. cbn [bind]. rewrite E2. reflexivity. }
  split; [exact FH'|]. split; [exact P2|]. split; [rewrite map_length, Lp; lia|]. split; [exact E'|].
  assert (PH : forall j, 0 <= j < ep m -> nth_error ph (Z.to_nat j) = Some (Cconj (polar_of (o j j)))).
  { intros j Hj. unfold ph. rewrite (map_nth_error _ (Z.to_nat j) (seq 0 (Z.to_nat (ep m))) (d := Z.to_nat j)).
    - do 4 f_equal; lia.
    - rewrite (nth_error_nth' _ 0%nat) by (rewrite seq_length; lia). rewrite seq_nth by lia. reflexivity. }
  assert (OV : forall i j, 0 <= i < ep m -> 0 <= j < ep m -> ovl d H' m b i j = (Cconj (polar_of (o j j)) * o i j)%C).
  { intros i j Hi Hj. transitivity (Cconj (polar_of (o j j)) * inner d (fld m i) (mumaybe d (fld H (b - 1 + j))))%C; [|reflexivity].
    rewrite <- (mumaybe_scal d _ _ _ Wd). unfold ovl. apply inner_ext; [apply feq_refl|]. apply mumaybe_ext.
    intros g c Hg Hc. unfold fld. pose proof (A2 (2 * g + c) (Z.to_nat j) _ ltac:(rewrite NH; lia) (PH j Hj)) as A. rewrite Z2Nat.id in A by lia. exact A. }
  split.
  - intros j Hj. exists (polar_of (o j j)), (o j j). split.
    { rewrite (map_nth_error Cconj _ _ (PH j Hj)). f_equal. destruct (polar_of (o j j)). apply C_eq; cbn; lra. }
    split; [apply polar_unit|]. split; [apply Q; assumption|]. split; [rewrite Q' by assumption; f_equal; rewrite OV by assumption; apply polar_dot|].
    split. { rewrite <- polar_dot. transitivity (polar_of (o j j) * Cconj (polar_of (o j j)) * o j j)%C; [ring|]. rewrite unit_mul by apply polar_unit. ring. }
    split.
    + intros i Hi. pose proof (A2 i (Z.to_nat j) _ Hi (PH j Hj)) as A. rewrite Z2Nat.id in A by lia. rewrite A.
      transitivity (polar_of (o j j) * Cconj (polar_of (o j j)) * entC H i (b - 1 + j))%C; [rewrite unit_mul by apply polar_unit; ring|ring].
    + intros i Hi. exists (ovl d H' m b i j). split; [apply Q'; assumption|]. rewrite Q by assumption. f_equal. rewrite OV by assumption.
      transitivity (polar_of (o j j) * Cconj (polar_of (o j j)) * o i j)%C; [rewrite unit_mul by apply polar_unit; ring|ring].
  - intros i j Hi Hj Hn. apply B2; try assumption. rewrite Lp. lia.
Qed.
