(** Positive-definiteness is an open condition; derivative of the inverse near a point. *)
From Coq Require Import List ZArith Reals Bool Arith Lia Lra.
From Verif Require Import Base RC Loops M_Evect M_Lin M_Eig S_Evect S_Eig L_Evect L_Evect3 L_Mat L_Eig L_Eig2 L_Eig3 L_Eig4.
Import ListNotations.
Local Open Scope R_scope.
Add Ring Cring_e : C_ring_theory.

Lemma mlim_local F G L : (exists d, 0 < d /\ forall h, Rabs h < d -> F h = G h) -> mlim G L -> mlim F L.
Proof.
  intros (d & Hd & E) H i j. destruct (H i j) as (A & B). split; intros e He.
  - destruct (A e He) as (d2 & Hd2 & Q). exists (Rmin d d2). split; [apply Rmin_pos; auto|]. intros h Hh Hl. rewrite E by (eapply Rlt_le_trans; [exact Hl|apply Rmin_l]). apply Q; [exact Hh|eapply Rlt_le_trans; [exact Hl|apply Rmin_r]].
  - destruct (B e He) as (d2 & Hd2 & Q). exists (Rmin d d2). split; [apply Rmin_pos; auto|]. intros h Hh Hl. rewrite E by (eapply Rlt_le_trans; [exact Hl|apply Rmin_l]). apply Q; [exact Hh|eapply Rlt_le_trans; [exact Hl|apply Rmin_r]].
Qed.
Lemma mder_local F G x L : (exists d, 0 < d /\ forall t, Rabs (t - x) < d -> F t = G t) -> mder G x L -> mder F x L.
Proof.
  intros (d & Hd & E) H. eapply mlim_local; [|exact H]. exists d. split; [exact Hd|]. intros h Hl. rewrite !E; [reflexivity| |].
  - replace (x - x) with 0 by ring. rewrite Rabs_R0. exact Hd.
  - replace (x + h - x) with h by ring. exact Hl.
Qed.
Lemma der_local f g x l : (exists d, 0 < d /\ forall t, Rabs (t - x) < d -> f t = g t) -> derivable_pt_lim g x l -> derivable_pt_lim f x l.
Proof.
  intros (d & Hd & E) H e He. destruct (H e He) as (d2 & Q). assert (Hm : 0 < Rmin d d2) by (apply Rmin_pos; [exact Hd|apply cond_pos]). exists (mkposreal _ Hm). cbn. intros h Hh Hl.
  rewrite !E; [apply Q; [exact Hh|eapply Rlt_le_trans; [exact Hl|apply Rmin_r]]| |].
  - replace (x - x) with 0 by ring. rewrite Rabs_R0. exact Hd.
  - replace (x + h - x) with h by ring. eapply Rlt_le_trans; [exact Hl|apply Rmin_l].
Qed.

(** Squared length of a column. *)
Definition nrm (p : nat) (V : mat) : R := rsum p (fun i => normsqr (V i 0%nat)).
Lemma rsum_nonneg n f : (forall i, (i < n)%nat -> 0 <= f i) -> 0 <= rsum n f.
Proof. induction n as [|n IH]; intros H; cbn [rsum]; [lra|]. pose proof (H n ltac:(lia)). pose proof (IH ltac:(intros; apply H; lia)). lra. Qed.
Lemma nrm_ge p V i : (i < p)%nat -> normsqr (V i 0%nat) <= nrm p V.
Proof. intros Hi. apply (rsum_le_one p (fun i => normsqr (V i 0%nat))); [|exact Hi]. intros. unfold normsqr. nra. Qed.
Lemma nrm_nonneg p V : 0 <= nrm p V.
Proof. apply rsum_nonneg. intros. unfold normsqr. nra. Qed.
Lemma rsum_abs n f g : (forall i, (i < n)%nat -> Rabs (f i) <= g i) -> Rabs (rsum n f) <= rsum n g.
Proof.
  induction n as [|n IH]; intros H; cbn [rsum]; [rewrite Rabs_R0; lra|]. eapply Rle_trans; [apply Rabs_triang|]. pose proof (H n ltac:(lia)). pose proof (IH ltac:(intros; apply H; lia)). lra.
Qed.
Lemma entry_bound a v w k : normsqr v <= k -> normsqr w <= k -> Rabs (re (Cconj v * (a * w))%C) <= c1n a * k.
Proof.
  intros Hv Hw. unfold c1n. destruct a as (b, c), v as (x, y), w as (s, t). csimp.
  replace (x * (b * s - c * t) - - y * (b * t + c * s)) with (b * (x * s + y * t) + c * (y * s - x * t)) by ring.
  
  assert (Q : forall u, u * u <= 4 -> 0 <= x * x + s * s + u * (x * s) /\ 0 <= y * y + t * t + u * (y * t) /\ 0 <= y * y + s * s + u * (y * s) /\ 0 <= x * x + t * t + u * (x * t)).
  { assert (G : forall g h u, u * u <= 4 -> 0 <= g * g + h * h + u * (g * h)).
    { intros g h u Hu. replace (g * g + h * h + u * (g * h)) with (Rsqr (g + u / 2 * h) + (4 - u * u) / 4 * (h * h)) by (unfold Rsqr; field).
      apply Rplus_le_le_0_compat; [apply Rle_0_sqr|]. apply Rmult_le_pos; [lra|apply Rle_0_sqr]. }
    intros u Hu. repeat split; apply G; exact Hu. }
  destruct (Q 2 ltac:(lra)) as (P1 & P2 & P3 & P4). destruct (Q (-2) ltac:(lra)) as (P5 & P6 & P7 & P8).
  assert (A1 : Rabs (x * s + y * t) <= k) by (apply Rabs_le; split; lra). assert (A2 : Rabs (y * s - x * t) <= k) by (apply Rabs_le; split; lra).
  eapply Rle_trans; [apply Rabs_triang|]. rewrite !Rabs_mult. pose proof (Rabs_pos b). pose proof (Rabs_pos c).
  rewrite Rmult_plus_distr_r. apply Rplus_le_compat; apply Rmult_le_compat_l; auto.
Qed.
Lemma quad_bound p A V : Rabs (re (form p A V V 0%nat 0%nat)) <= mnorm p A * nrm p V.
Proof.
  unfold form, mmul, madj. rewrite csum_re. unfold mnorm. rewrite Rmult_comm, <- rsum_scal. apply rsum_abs. intros i Hi. rewrite <- csum_scal, csum_re, <- rsum_scal. apply rsum_abs. intros j Hj.
  rewrite Rmult_comm. apply entry_bound; apply nrm_ge; auto.
Qed.
Lemma quad_id p V : re (mmul p (madj V) V 0%nat 0%nat) = nrm p V.
Proof. unfold mmul, madj, nrm. rewrite csum_re. apply rsum_ext. intros i Hi. rewrite normsqr_conj. reflexivity. Qed.
Lemma form_add_l n A Y Z W : form n A (madd Y Z) W = madd (form n A Y W) (form n A Z W).
Proof. unfold form. rewrite madj_add, mmul_add_l. reflexivity. Qed.
Lemma form_add_r n A Y Z W : form n A W (madd Y Z) = madd (form n A W Y) (form n A W Z).
Proof. unfold form. rewrite !mmul_add_r. reflexivity. Qed.
Lemma form_scal_l n A a Y W : form n A (mscal a Y) W = mscal a (form n A Y W).
Proof. unfold form. rewrite madj_scal, mmul_scal_l. reflexivity. Qed.
Lemma form_scal_r n A a Y W : form n A W (mscal a Y) = mscal a (form n A W Y).
Proof. unfold form. rewrite !mmul_scal_r. reflexivity. Qed.
Lemma form_adj n A Y Z : hermitian A -> madj (form n A Y Z) = form n A Z Y.
Proof. intros H. unfold form. rewrite !madj_mul, madj_adj, H, mmul_assoc. reflexivity. Qed.
Lemma form_add_m n A B Y W : form n (madd A B) Y W = madd (form n A Y W) (form n B Y W).
Proof. unfold form. rewrite mmul_add_l, mmul_add_r. reflexivity. Qed.

Lemma posdef_lower p M N : mdim p p M -> hermitian M -> inverse_of p M N -> posdef p M -> exists c, 0 < c /\ forall V, mdim p 1 V -> c * nrm p V <= re (form p M V V 0%nat 0%nat).
Proof.
  intros DM Hh HN Pd. destruct (inv_both p M N DM Hh HN) as (HhN & NM). destruct HN as (DN & MN).
  set (K := mnorm p N + 1). assert (HK : 0 < K) by (unfold K; pose proof (mnorm_pos p N); lra). exists (/ K). split; [apply Rinv_0_lt_compat; exact HK|].
  intros V DV. set (q := re (form p M V V 0%nat 0%nat)). set (t := - / K).
  assert (Sq : re (form p M (madd V (mscal t (mmul p N V))) (madd V (mscal t (mmul p N V))) 0%nat 0%nat) = q + 2 * t * nrm p V + t * t * re (form p N V V 0%nat 0%nat)).
  { rewrite form_add_l, !form_add_r, !form_scal_l, !form_scal_r.
    assert (F1 : form p M V (mmul p N V) = mmul p (madj V) V) by (unfold form; rewrite <- (mmul_assoc p p M N V), MN, (mid_l p 1) by exact DV; reflexivity).
    assert (F2 : form p M (mmul p N V) V = mmul p (madj V) V).
    { rewrite <- (form_adj p M V) by exact Hh. rewrite F1, madj_mul, madj_adj. reflexivity. }
    assert (F3 : form p M (mmul p N V) (mmul p N V) = form p N V V).
    { unfold form. rewrite madj_mul, HhN, !mmul_assoc. rewrite <- (mmul_assoc p p M N V), MN, (mid_l p 1) by exact DV. reflexivity. }
    rewrite F1, F2, F3. unfold madd, mscal. rewrite <- quad_id. fold q. unfold q. csimp. ring. }
  assert (Nn : 0 <= re (form p M (madd V (mscal t (mmul p N V))) (madd V (mscal t (mmul p N V))) 0%nat 0%nat)).
  { set (W := madd V (mscal t (mmul p N V))). assert (DW : mdim p 1 W) by (apply mdim_add; [exact DV|apply mdim_scal, (mdim_mul p p 1); auto]).
    destruct (List.Exists_dec (fun a => W a 0%nat <> C0) (seq 0 p)) as [Hex|Hno].
    - intros a. destruct (C_dec (W a 0%nat)); [right; auto|left; auto].
    - left. rewrite posdef_iff in Pd. apply Pd; [exact DW|]. apply Exists_exists in Hex. destruct Hex as (a & _ & Na). intros E. apply Na. rewrite E. reflexivity.
    - right. replace W with mzero; [unfold form; rewrite !mmul_zero_r; reflexivity|]. apply mext; intros i j. unfold mzero. destruct (Nat.lt_ge_cases i p); [|symmetry; apply DW; lia]. destruct j; [|symmetry; apply DW; lia].
      destruct (C_dec (W i 0%nat)) as [E|E]; [auto|]. exfalso. apply Hno. apply Exists_exists. exists i. split; [apply in_seq; lia|exact E]. }
  rewrite Sq in Nn. pose proof (quad_bound p N V) as Qb. pose proof (Rle_abs (re (form p N V V 0%nat 0%nat))) as Qa. pose proof (nrm_nonneg p V) as Hn.
  set (u := re (form p N V V 0%nat 0%nat)) in *. assert (u <= K * nrm p V) by (unfold K; nra). unfold t in Nn.
  assert (t2 : - / K * - / K * u <= / K * nrm p V).
  { replace (- / K * - / K * u) with (/ K * (/ K * u)) by ring. apply Rmult_le_compat_l; [left; apply Rinv_0_lt_compat; exact HK|].
    apply Rmult_le_reg_l with K; [exact HK|]. rewrite <- Rmult_assoc, Rinv_r by lra. lra. }
  lra.
Qed.

Lemma posdef_open p M x N : (forall t, mdim p p (M t)) -> hermitian (M x) -> inverse_of p (M x) N -> posdef p (M x) -> mlim (fun h => M (x + h)) (M x) ->
  exists d, 0 < d /\ forall t, Rabs (t - x) < d -> posdef p (M t).
Proof.
  intros DM Hh HN Pd Lm. destruct (posdef_lower p (M x) N (DM x) Hh HN Pd) as (c & Hc & Low).
  assert (HD : rlim (fun h => mnorm p (msub (M (x + h)) (M x))) 0).
  { apply mnorm_lim. eapply mlim_ext with (G := fun h => madd (M (x + h)) (mscal (-1) (M x))); [reflexivity|].
    replace (fun _ _ : nat => C0) with (madd (M x) (mscal (-1) (M x))) by (apply mext; intros i j; unfold madd, mscal; cring). apply mlim_add; [exact Lm|apply mlim_const]. }
  destruct (HD c Hc) as (d & Hd & Q). exists d. split; [exact Hd|]. intros t Ht. destruct (Req_EM_T (t - x) 0) as [E|Ne].
  { replace t with x by lra. exact Pd. }
  specialize (Q (t - x) Ne Ht). rewrite Rminus_0_r in Q. replace (x + (t - x)) with t in Q by ring. rewrite Rabs_right in Q by (apply Rle_ge, mnorm_pos).
  apply posdef_iff. intros V DV Nz.
  assert (Eq : re (form p (M t) V V 0%nat 0%nat) = re (form p (M x) V V 0%nat 0%nat) + re (form p (msub (M t) (M x)) V V 0%nat 0%nat)).
  { replace (form p (M t) V V) with (madd (form p (M x) V V) (form p (msub (M t) (M x)) V V)); [reflexivity|]. rewrite <- form_add_m. f_equal. apply mext; intros i j. unfold msub, madd, mscal. cring. }
  rewrite Eq. pose proof (Low V DV). pose proof (quad_bound p (msub (M t) (M x)) V) as Qb. pose proof (Rle_abs (- re (form p (msub (M t) (M x)) V V 0%nat 0%nat))) as Qa. rewrite Rabs_Ropp in Qa.
  assert (Nn : 0 < nrm p V).
  { destruct (mat_nonzero p V DV Nz) as (i & Hi & Hv). eapply Rlt_le_trans; [|apply (nrm_ge p V i Hi)]. unfold normsqr. destruct (V i 0%nat) as (a & b). cbn in *.
    destruct (Req_EM_T a 0) as [->|Ha]; [|nra]. destruct (Req_EM_T b 0) as [->|Hb]; [|nra]. exfalso. apply Hv. reflexivity. }
  assert (mnorm p (msub (M t) (M x)) * nrm p V < c * nrm p V) by (apply Rmult_lt_compat_r; auto). lra.
Qed.

(** The oracle gives an inverse for any positive-definite matrix. *)
Lemma rep_exists n m M : mdim n m M -> exists d, rep n m d M.
Proof.
  intros D. exists (map (fun k => M (k / m) (k mod m))%nat (seq 0 (n * m))). split; [rewrite map_length, seq_length; lia|]. split; [exact D|]. intros i j Hi Hj.
  pose proof (flat_lt n m i j Hi Hj) as H. set (g := fun k => M (k / m)%nat (k mod m)%nat).
  rewrite (nth_indep (map g (seq 0 (n * m))) C0 (g 0%nat)) by (rewrite map_length, seq_length; exact H). rewrite map_nth, seq_nth by exact H. unfold g. cbn [Nat.add]. f_equal.
  - rewrite Nat.div_add_l by lia. rewrite Nat.div_small by exact Hj. lia.
  - rewrite Nat.add_comm, Nat.mod_add by lia. apply Nat.mod_small. exact Hj.
Qed.
Lemma posdef_inverse_exists p potr M : potr_ok p potr -> mdim p p M -> hermitian M -> posdef p M -> exists N, inverse_of p M N.
Proof.
  intros Hok D Hh Pd. destruct (rep_exists p p M D) as (d & Hd). specialize (Hok d M Hd Hh). destruct (potr (Z.of_nat p) d); [|contradiction]. destruct Hok as (_ & _ & N & DN & HN & _). exists N. split; auto.
Qed.

Lemma mder_inverse_near p M N x L : mder M x L -> (forall t, mdim p p (M t) /\ hermitian (M t)) ->
  (exists d, 0 < d /\ forall t, Rabs (t - x) < d -> inverse_of p (M t) (N t)) -> mder N x (mscal (-1) (mmul p (N x) (mmul p L (N x)))).
Proof.
  intros HM DM (d & Hd & HN).
  set (near := fun t => if Rlt_dec (Rabs (t - x)) d then true else false).
  set (M' := fun t => if near t then M t else M x). set (N' := fun t => if near t then N t else N x).
  assert (Nx : near x = true) by (unfold near; replace (x - x) with 0 by ring; rewrite Rabs_R0; destruct (Rlt_dec 0 d); [reflexivity|contradiction]).
  assert (Nr : forall t, Rabs (t - x) < d -> near t = true) by (intros t Ht; unfold near; destruct (Rlt_dec (Rabs (t - x)) d); [reflexivity|contradiction]).
  assert (Hx : inverse_of p (M x) (N x)) by (apply HN; replace (x - x) with 0 by ring; rewrite Rabs_R0; exact Hd).
  assert (HM' : mder M' x L) by (eapply mder_local; [|exact HM]; exists d; split; [exact Hd|]; intros t Ht; unfold M'; rewrite Nr by exact Ht; reflexivity).
  assert (HN' : forall t, mdim p p (N' t) /\ mmul p (M' t) (N' t) = mid p /\ mmul p (N' t) (M' t) = mid p).
  { intros t. unfold M', N'. destruct (near t) eqn:E.
    - assert (Ht : Rabs (t - x) < d) by (unfold near in E; destruct (Rlt_dec (Rabs (t - x)) d); [auto|discriminate]). specialize (HN t Ht). destruct (DM t) as (D1 & D2). destruct (inv_both p (M t) (N t) D1 D2 HN) as (_ & Q). destruct HN. auto.
    - destruct (DM x) as (D1 & D2). destruct (inv_both p (M x) (N x) D1 D2 Hx) as (_ & Q). destruct Hx. auto. }
  pose proof (mder_inverse p M' N' x L HM' HN') as Q. assert (N' x = N x) as E by (unfold N'; rewrite Nx; reflexivity). rewrite E in Q.
  eapply mder_local; [|exact Q]. exists d. split; [exact Hd|]. intros t Ht. unfold N'. rewrite Nr by exact Ht. reflexivity.
Qed.
