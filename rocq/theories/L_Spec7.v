(** The sum of the lowest values. *)
From Coq Require Import List ZArith Reals Bool Arith Lia Lra.
From Verif Require Import Base RC M_Tensor S_Tensor M_Evect S_Evect M_Grid S_Grid M_Op S_Op L_Op L_Op2 L_Op3 L_Op4 L_Op5 M_Eig S_Eig L_Mat L_Eig2 L_Eig4 L_Eig5 L_Eig7 L_Eig13 L_Kpt2 M_Kpt S_Kpt L_Kpt1 L_Kpt6 M_Mx S_Mir S_Mx L_Mx1 L_Mx2 L_Mx3 L_Mx4 L_Mx6 S_Cmp L_Cmp1 L_Cmp2 L_Cmp3 L_Cmp6 S_Spec L_Spec5 L_Spec6.
From Verif Require L_Grid4.
Import ListNotations.
Local Open Scope R_scope.
Add Ring Cring_sp7 : C_ring_theory.

(** Weights between 0 and 1 of total p: least for the p lowest. *)
Lemma weights m p lam c : (p <= m)%nat -> (forall i j, (i <= j < m)%nat -> lam i <= lam j) -> (forall k, (k < m)%nat -> 0 <= c k <= 1) -> rsum m c = INR p -> rsum p lam <= rsum m (fun k => lam k * c k).
Proof.
  intros Hp As Bc Sc. destruct p as [|q].
  - cbn [rsum]. destruct m as [|m']; [cbn [rsum]; lra|]. assert (Z : forall k, (k < S m')%nat -> c k = 0).
    { intros k Hk. assert (c k <= rsum (S m') c) by (apply rsum_le_one; [intros i Hi; apply Bc; exact Hi|exact Hk]). rewrite Sc in H. cbn in H. pose proof (Bc k Hk). lra. }
    rewrite (rsum_ext _ _ (fun _ => 0)); [rewrite rsum_0; lra|]. intros k Hk. rewrite Z by exact Hk. ring.
  - set (t := lam q). destruct (Nat.le_exists_sub (S q) m Hp) as (r & Em & _). rewrite Nat.add_comm in Em. subst m.
    rewrite L_Grid4.rsum_app in Sc |- *.
    assert (P1 : rsum (S q) (fun k => lam k + t * (c k + -1)) <= rsum (S q) (fun k => lam k * c k)).
    { apply rsum_le. intros k Hk. pose proof (Bc k ltac:(lia)). pose proof (As k q ltac:(lia)). fold t in H0. nra. }
    assert (P2 : rsum r (fun k => t * c (S q + k)%nat) <= rsum r (fun k => lam (S q + k)%nat * c (S q + k)%nat)).
    { apply rsum_le. intros k Hk. pose proof (Bc (S q + k)%nat ltac:(lia)). pose proof (As q (S q + k)%nat ltac:(lia)). fold t in H0. nra. }
    rewrite rsum_add, rsum_scal, rsum_add, rsum_const in P1. rewrite rsum_scal in P2. nra.
Qed.
(** The rows of an isometry. *)
Lemma row_bound m p Cm k : mdim m p Cm -> mmul m (madj Cm) Cm = mid p -> (k < m)%nat -> rsum p (fun i => normsqr (Cm k i)) <= 1.
Proof.
  intros DC Or Hk. set (u := fun (i q : nat) => if (q =? 0)%nat then Cconj (Cm k i) else C0).
  assert (Du : mdim p 1 u) by (intros i q H; unfold u; destruct (Nat.eqb_spec q 0); [rewrite (DC k i) by lia; apply C_eq; csimp; ring|reflexivity]).
  set (v := mmul p Cm u). set (s := rsum p (fun i => normsqr (Cm k i))).
  assert (Vk : v k 0%nat = RtoC s).
  { unfold v, mmul, u. cbn [Nat.eqb]. unfold s. transitivity (csum p (fun i => RtoC (normsqr (Cm k i)))); [apply csum_ext; intros i _; unfold normsqr; apply C_eq; csimp; ring|]. clear. induction p as [|p IH]; [reflexivity|]. cbn [csum rsum]. rewrite IH. apply C_eq; csimp; ring. }
  assert (Nv : nrm m v = s).
  { rewrite <- quad_id. unfold v. rewrite madj_mul, !mmul_assoc, <- (mmul_assoc m p (madj Cm)), Or, (mid_l p 1 u Du), quad_id. unfold nrm, s. apply rsum_ext. intros i _. unfold u. cbn [Nat.eqb]. unfold normsqr. csimp. ring. }
  assert (Le : normsqr (v k 0%nat) <= nrm m v) by (apply nrm_ge; exact Hk). rewrite Vk, Nv in Le. assert (normsqr (RtoC s) = s * s) by (unfold normsqr; csimp; ring). rewrite H in Le.
  assert (0 <= s) by (unfold s; apply rsum_nonneg; intros; apply normsqr_nonneg). nra.
Qed.
Lemma sums n p m A B V lam M w : mdim n n B -> mdim n m V -> form n B V V = mid m -> form n A V V = mdiag m lam -> (forall i j, (i <= j < m)%nat -> lam i <= lam j) ->
  mdim n p M -> M = mmul m V (form n B V M) -> form n B M M = mid p -> (forall i, (i < p)%nat -> re (form n A M M i i) = w i) -> (p <= m)%nat /\ rsum p lam <= rsum p w.
Proof.
  intros DB DV FB FA Al DM EM MB MA. set (Cm := form n B V M) in *.
  assert (DC : mdim m p Cm) by (apply (mdim_mul m n p); [apply mdim_adj; exact DV|apply (mdim_mul n n p); auto]).
  assert (Fs : forall H, form n H M M = mmul m (madj Cm) (mmul m (form n H V V) Cm)) by (intros H; rewrite EM at 1 2; apply form_span).
  assert (Or : mmul m (madj Cm) Cm = mid p) by (rewrite Fs, FB in MB; rewrite (mid_l m p Cm DC) in MB; exact MB).
  assert (Hp : (p <= m)%nat) by (apply (independent_at_most m p V Cm M); [apply (orthonormal_independent n p B); exact MB|exact EM]). split; [exact Hp|].
  assert (Wi : forall i, (i < p)%nat -> w i = rsum m (fun k => lam k * normsqr (Cm k i))).
  { intros i Hi. rewrite <- (MA i Hi), Fs, FA. unfold mmul, madj, mdiag. rewrite csum_re. apply rsum_ext. intros k Hk. rewrite (csum_single m k); [|exact Hk|intros q Hq Nq; destruct (Nat.eqb_spec k q); [congruence|rewrite andb_false_r; ring]].
    rewrite Nat.eqb_refl. destruct (Nat.ltb_spec k m); [|lia]. cbn [andb]. unfold normsqr. csimp. ring. }
  rewrite (rsum_ext p w _ Wi), rsum_swap. rewrite (rsum_ext m _ (fun k => lam k * rsum p (fun i => normsqr (Cm k i)))) by (intros k _; apply rsum_scal).
  apply (weights m p lam); auto.
  - intros k Hk. split; [apply rsum_nonneg; intros; apply normsqr_nonneg|apply (row_bound m p Cm k DC Or Hk)].
  - rewrite <- (rsum_swap p m (fun i k => normsqr (Cm k i))). rewrite (rsum_ext p _ (fun _ => 1)); [rewrite rsum_const; ring|]. intros i Hi.
    apply (f_equal (fun F : mat => re (F i i))) in Or. unfold mmul, madj, mid in Or. rewrite csum_re, Nat.eqb_refl in Or. destruct (Nat.ltb_spec i p); [|lia]. cbn [andb] in Or. replace 1 with (re C1) by (csimp; reflexivity). rewrite <- Or. apply rsum_ext. intros k _. unfold normsqr. csimp. ring.
Qed.

(** The bands of all blocks together. *)
Local Open Scope Z_scope.
Lemma bands_sum d num bs b0 zero_k negative_ok parity H MH f w m lam : wfd d -> 0 < d_nfb d -> orthonormal_basis d -> mx_muinv d H H = Val MH -> mx_bands d num bs b0 zero_k negative_ok parity H MH f w ->
  exact_bands d m parity zero_k lam -> forall p, (b0 + p <= num)%nat -> (p <= m)%nat /\ (rsum p lam <= rsum p (fun j => w (b0 + j)%nat))%R.
Proof.
  intros Wd Hn Ho E Bd Eb p Hp. destruct (fields_modes d Wd Hn Ho parity zero_k m lam Eb) as (Mv & (DV & OV & FV & AV & Cp) & Sv).
  pose proof (mb_fields _ _ _ _ _ _ _ _ _ _ _ Bd) as (FH & PH & _). destruct (of_op d Wd num H FH PH) as (Mh & Fh). pose proof (fields_dim _ _ _ _ Fh) as DH.
  assert (DB : mdim (rows d) (rows d) (omat d (mumaybe d))) by apply omat_dim. assert (DM : mdim (rows d) p (slice b0 p Mh)) by (apply (slice_dim (rows d) num); exact DH).
  apply (sums (rows d) p m (omat d (opcol d)) (omat d (mumaybe d)) Mv lam (slice b0 p Mh) (fun j => w (b0 + j)%nat) DB DV OV FV AV DM).
  - apply (Cp p (slice b0 p Mh)); [exact DM|]. unfold satisfies. rewrite mmul_slice. apply mext; intros r c. unfold slice. destruct (Nat.ltb_spec c p) as [Hc|Hc]; [|reflexivity].
    assert (Al : allowed d parity zero_k H (Z.of_nat (b0 + c))).
    { split; [|split].
      - intros Wz x y z cc Hx Hy Hz Hcc. rewrite PH. apply Bd; [exact Wz| |lia]. repeat split; try apply Hx; try apply Hy; try apply Hz; try apply Hcc; lia.
      - intros Wy x y z cc Hx Hy Hz Hcc. rewrite PH. apply Bd; [exact Wy| |lia]. repeat split; try apply Hx; try apply Hy; try apply Hz; try apply Hcc; lia.
      - intros Z0 r' Hr. apply Bd; [exact Z0|lia|exact Hr]. }
    pose proof (allowed_sat d Wd parity zero_k num H Mh (b0 + c) Fh ltac:(lia) Al) as Q. unfold satisfies in Q. apply (f_equal (fun F : mat => F r 0%nat)) in Q. rewrite mmul_slice in Q. unfold slice in Q. cbn [Nat.ltb Nat.leb] in Q. rewrite Nat.add_0_r in Q. exact Q.
  - apply mext; intros i j. rewrite form_slice. unfold mid. destruct (Nat.ltb_spec i p) as [Hi|Hi], (Nat.ltb_spec j p) as [Hj|Hj]; cbn [andb]; try reflexivity; [|destruct (Nat.eqb_spec i j); [lia|reflexivity]].
    rewrite <- (dot_form d Wd Hn num H MH Mh (b0 + i) (b0 + j) Fh E) by lia. rewrite (mb_orth _ _ _ _ _ _ _ _ _ _ _ Bd) by lia. unfold delta. destruct (Nat.eqb_spec (b0 + i) (b0 + j)), (Nat.eqb_spec i j); try lia; reflexivity.
  - intros i Hi. rewrite form_slice. destruct (Nat.ltb_spec i p); [|lia]. cbn [andb]. rewrite <- (curl_form d Wd Hn num H MH Mh (b0 + i) (b0 + i) Ho Fh E) by lia.
    rewrite (proj1 (mb_curl _ _ _ _ _ _ _ _ _ _ _ Bd (b0 + i)%nat (b0 + i)%nat ltac:(lia) ltac:(lia) ltac:(reflexivity))). unfold delta. rewrite Nat.eqb_refl. csimp. ring.
Qed.
