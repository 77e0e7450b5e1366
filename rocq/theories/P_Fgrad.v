(** Property C95: the gradient of a band's frequency with respect to material-grid parameters. *)
From Coq Require Import List ZArith Reals Lra Lia Bool.
From Verif Require Import Base RC M_Tensor S_Tensor M_Evect S_Evect M_Grid S_Grid M_Op S_Op L_Op L_Op2 L_Op4 L_Op5 P_Op M_Interp S_Interp M_Matgrid S_Matgrid L_Matgrid2 M_Fld S_Fld M_Half S_Half L_Half M_Match S_Match L_Match L_Match2 M_Fgrad S_Fgrad L_Fgrad L_Fgrad2 L_Fgrad3.
Import ListNotations.
Local Open Scope R_scope.

(** The vector that material_grids_addgradient adds to v is [s] times the gradient of the
    frequency: for every direction h of the parameters and every way of following the band along
    it, the square root of the eigenvalue has a derivative, and the product of the added vector
    with h is [s] times that derivative.  Frequencies and fields are exact; the medium has no
    permeability and one mesh point per pixel. *)
Theorem C95_frequency : forall q rest u d Vol freqs H W0 band fft w s v, wfd d -> orthonormal_basis d -> d_mu_inv d = None -> fits q d -> 0 < Vol ->
  length u = S_Matgrid.total (q_grids q) -> length v = length u -> tensors_hold q rest u (d_eps_inv d) ->
  (forall c, In c (whole (q_n1 q) (q_n2 q) (q_n3 q)) -> eps_here q rest c u <> 0 /\ regular (q_grids q) u (there q c)) ->
  (1 <= band <= ep H)%Z -> workspace d W0 fft -> rd freqs (band - 1) = Val w -> 0 < w -> S_Evect.dotl H H (band - 1) (band - 1) = C1 -> eigenfield d H (band - 1) (w * w) ->
  exists v', grids_addgradient q (with_params (q_grids q) u) d Vol freqs H W0 band fft s v = Val v' /\ length v' = length v /\
  forall h Y j lam, length h = length u -> follows q rest u h d H (band - 1) Y j lam ->
    exists dw, derivable_pt_lim (fun t => sqrt (lam t)) 0 dw /\ S_Matgrid.dotl v' h - S_Matgrid.dotl v h = s * dw.
Proof. exact frequency_ok. Qed.
Print Assumptions C95_frequency.

(** Bands that were not computed are refused. *)
Theorem C95_band_checked : forall q gs d Vol freqs H W0 band fft s v, (ep H < band)%Z -> grids_addgradient q gs d Vol freqs H W0 band fft s v = Abort.
Proof. intros. unfold grids_addgradient, check. destruct (Z.leb_spec band (ep H)); [lia|reflexivity]. Qed.
Print Assumptions C95_band_checked.

(** A case meeting the hypotheses: two points, one default grid of one value between 1 and 2,
    wave vectors 1/2 and -1/2; the eigenvalue is 1/(4 eps) with eps = 1 + u, followed along the
    parameter from u = 1/2. *)
Example C95_ex : let u := [/ 2] in let lam t := / (/ 2 + t * 1 + 1) * (/ 2 * / 2) in let w := sqrt (/ 6) in
  wfd fx_d /\ orthonormal_basis fx_d /\ d_mu_inv fx_d = None /\ fits fx_q fx_d /\ tensors_hold fx_q (fun _ => 0) u (d_eps_inv fx_d) /\
  (forall c, In c (whole 2 1 1) -> eps_here fx_q (fun _ => 0) c u <> 0 /\ regular (q_grids fx_q) u (there fx_q c)) /\
  workspace fx_d fx_H (repeat C0 6) /\ 0 < w /\ S_Evect.dotl fx_H fx_H 0 0 = C1 /\ eigenfield fx_d fx_H 0 (w * w) /\
  follows fx_q (fun _ => 0) u [1] fx_d fx_H 0 (fun _ => fx_H) 0 lam /\ lam 0 = w * w.
Proof.
  intros u lam w. assert (W2 : w * w = / 6) by (apply sqrt_sqrt; lra). destruct (fx_wfd (/ 2)) as (Wd & Ho). change (with_eps (fx_es (/ 2)) fx_d) with fx_d in Wd, Ho.
  split; [exact Wd|]. split; [exact Ho|]. split; [reflexivity|]. split; [|split; [|split; [|split; [|split; [|split; [|split; [|split]]]]]]].
  - repeat (split; [reflexivity|]). split; [repeat constructor|]. intros ((i & j) & k) Hc. apply whole_in in Hc. cbn [fx_q q_n1 q_n2 q_n3] in Hc. constructor; [|constructor]. split; [|cbn; lia].
    assert (j = 0 /\ k = 0 /\ (i = 0 \/ i = 1))%Z as (-> & -> & [-> | ->]) by lia; cbn; lra.
  - exact (fx_hold _ (/ 2)).
  - intros c _. unfold u. rewrite fx_eps. split; [lra|exact I].
  - unfold workspace, fields, wf, npts. cbn. repeat split; lia.
  - apply sqrt_lt_R0. lra.
  - unfold S_Evect.dotl. cbn [fx_H en]. change (Z.to_nat 4) with 4%nat. cbn [csum]. change (entC fx_H (Z.of_nat 0) 0) with (/ 2, 0). change (entC fx_H (Z.of_nat 1) 0) with (/ 2, 0). change (entC fx_H (Z.of_nat 2) 0) with (/ 2, 0). change (entC fx_H (Z.of_nat 3) 0) with (/ 2, 0).
    apply C_eq; csimp; lra.
  - rewrite W2. replace (/ 6) with (/ (/ 2 + 1) * (/ 2 * / 2)) by lra. exact (fx_eigen (/ 2)).
  - split.
    + exists 1. split; [lra|]. intros t _. exists (fx_es (/ 2 + t * 1)). split; [exact (fx_hold _ (/ 2 + t * 1))|]. exact (fx_eigen (/ 2 + t * 1)).
    + intros i _. split; [reflexivity|]. split; apply continuity_pt_const; intros x y; reflexivity.
  - rewrite W2. unfold lam. lra.
Qed.
