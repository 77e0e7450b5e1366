(** The values found lie above the exact ones (Poincare). *)
From Coq Require Import List ZArith Reals Bool Arith Lia Lra Psatz.
From Verif Require Import Base RC Loops M_Evect M_Eig S_Evect S_Eig L_Mat L_Eig2 L_Eig4 L_Eig5 L_Eig7.
Import ListNotations.
Local Open Scope R_scope.
Add Ring Cring_e13 : C_ring_theory.

(** k equations in k + 1 unknowns have a solution that is not zero. *)
Definition sk (j0 j : nat) : nat := if (j <? j0)%nat then j else S j.
Lemma csum_sk m j0 f : (j0 <= m)%nat -> csum (S m) f = (f j0 + csum m (fun j => f (sk j0 j)))%C.
Proof.
  induction m as [|m IH]; intros H.
  - assert (j0 = O) by lia. subst. cbn [csum]. ring.
  - cbn [csum]. destruct (Nat.eq_dec j0 (S m)) as [->|N].
    + assert (E : csum m (fun j => f (sk (S m) j)) = csum m f) by (apply csum_ext; intros j Hj; unfold sk; destruct (Nat.ltb_spec j (S m)); [reflexivity|lia]). rewrite E.
      unfold sk. destruct (Nat.ltb_spec m (S m)); [|lia]. ring.
    + change (csum m f + f m)%C with (csum (S m) f). rewrite IH by lia. replace (sk j0 m) with (S m) by (unfold sk; destruct (Nat.ltb_spec m j0); [lia|reflexivity]). ring.
Qed.
Lemma C_eq_dec (z w : C) : z = w \/ z <> w.
Proof. destruct (Req_dec (re z) (re w)) as [A|A], (Req_dec (im z) (im w)) as [B|B]; [left; apply C_eq; auto|right; congruence..]. Qed.
Lemma Cinv_exists z : z <> C0 -> exists w, (z * w)%C = C1.
Proof.
  intros H. assert (N : normsqr z <> 0).
  { unfold normsqr. intros E. apply H. pose proof (Rle_0_sqr (re z)). pose proof (Rle_0_sqr (im z)). unfold Rsqr in *. apply C_eq; csimp; apply Rsqr_0_uniq; unfold Rsqr; lra. }
  exists (Cscal (/ normsqr z) (Cconj z)). unfold normsqr in *. apply C_eq; csimp; field; exact N.
Qed.
Lemma solve k : forall a : nat -> nat -> C, exists c : nat -> C, (exists j, (j <= k)%nat /\ c j <> C0) /\ forall i, (i < k)%nat -> csum (S k) (fun j => (a i j * c j)%C) = C0.
Proof.
  induction k as [|k IH]; intros a.
  - exists (fun _ => C1). split; [exists O; split; [lia|]; intros E; apply (f_equal re) in E; revert E; csimp; lra|]. intros i Hi. lia.
  - assert (D : (exists j0, (j0 <= S k)%nat /\ a k j0 <> C0) \/ forall j, (j <= S k)%nat -> a k j = C0).
    { generalize (S k) as q. intros q. induction q as [|q [(j0 & H & N)|H]].
      - destruct (C_eq_dec (a k O) C0) as [E|E]; [right; intros j Hj; assert (j = O) by lia; subst; exact E|left; exists O; auto].
      - left. exists j0. split; [lia|exact N].
      - destruct (C_eq_dec (a k (S q)) C0) as [E|E]; [right; intros j Hj; destruct (Nat.eq_dec j (S q)) as [->|]; [exact E|apply H; lia]|left; exists (S q); auto]. }
    destruct D as [(j0 & Hj0 & Nz)|Z].
    + destruct (Cinv_exists _ Nz) as (w & Hw). destruct (IH (fun i j => (a i (sk j0 j) - a i j0 * w * a k (sk j0 j))%C)) as (c' & (j & Hj & Nj) & Sol).
      set (un := fun j => if (j <? j0)%nat then j else (j - 1)%nat). set (x0 := (- (w * csum (S k) (fun j => (a k (sk j0 j) * c' j)%C)))%C).
      set (c := fun j => if (j =? j0)%nat then x0 else c' (un j)).
      assert (Ec : forall j, c (sk j0 j) = c' j).
      { intros q. unfold c, un, sk. destruct (Nat.ltb_spec q j0).
        - destruct (Nat.eqb_spec q j0); [lia|]. destruct (Nat.ltb_spec q j0); [reflexivity|lia].
        - destruct (Nat.eqb_spec (S q) j0); [lia|]. destruct (Nat.ltb_spec (S q) j0); [lia|]. f_equal. lia. }
      assert (E0 : c j0 = x0) by (unfold c; rewrite Nat.eqb_refl; reflexivity). exists c. split.
      { exists (sk j0 j). split; [unfold sk; destruct (j <? j0)%nat; lia|rewrite Ec; exact Nj]. }
      intros i Hi. rewrite (csum_sk (S k) j0) by exact Hj0. rewrite E0. rewrite (csum_ext _ (fun j => (a i (sk j0 j) * c (sk j0 j))%C) (fun j => (a i (sk j0 j) * c' j)%C)) by (intros q _; rewrite Ec; reflexivity).
      destruct (Nat.eq_dec i k) as [->|Ni].
      * unfold x0. set (s := csum _ _). replace (a k j0 * - (w * s) + s)%C with (s * (C1 - a k j0 * w))%C by ring. rewrite Hw. ring.
      * specialize (Sol i ltac:(lia)). rewrite (csum_ext _ _ (fun j => (a i (sk j0 j) * c' j + (- (a i j0 * w)) * (a k (sk j0 j) * c' j))%C)) in Sol by (intros q _; ring). rewrite csum_add, csum_scal in Sol. unfold x0.
        set (s := csum (S k) (fun j => (a k (sk j0 j) * c' j)%C)) in *. rewrite <- Sol. ring.
    + destruct (IH a) as (c' & (j & Hj & Nj) & Sol). exists (fun j => if (j <=? k)%nat then c' j else C0). split; [exists j; split; [lia|]; destruct (Nat.leb_spec j k); [exact Nj|lia]|].
      intros i Hi. change (csum (S (S k)) ?f) with (csum (S k) f + f (S k))%C. cbv beta. destruct (Nat.leb_spec (S k) k); [lia|].
      rewrite (csum_ext (S k) _ (fun j => (a i j * c' j)%C)) by (intros q Hq; destruct (Nat.leb_spec q k); [reflexivity|lia]).
      destruct (Nat.eq_dec i k) as [->|Ni]; [|rewrite Sol by lia; ring].
      rewrite (csum_ext (S k) _ (fun _ => C0)) by (intros q Hq; rewrite Z by lia; ring). rewrite csum_0. ring.
Qed.

Lemma normsqr_pos z : z <> C0 -> 0 < normsqr z.
Proof.
  intros H. unfold normsqr. pose proof (Rle_0_sqr (re z)) as A. pose proof (Rle_0_sqr (im z)) as B. unfold Rsqr in *. destruct (Req_dec (re z * re z + im z * im z) 0) as [E|N]; [|lra].
  exfalso. apply H. apply C_eq; csimp; apply Rsqr_0_uniq; unfold Rsqr; lra.
Qed.
Lemma diag_quad p e V : re (form p (mdiag p e) V V 0%nat 0%nat) = rsum p (fun i => e i * normsqr (V i 0%nat)).
Proof.
  unfold form, mmul, madj, mdiag. rewrite csum_re. apply rsum_ext. intros i Hi. rewrite (csum_single p i); [|exact Hi|intros q Hq Nq; destruct (Nat.eqb_spec i q); [congruence|rewrite andb_false_r; ring]].
  rewrite Nat.eqb_refl. destruct (Nat.ltb_spec i p); [|lia]. cbn [andb]. unfold normsqr. csimp. ring.
Qed.
Lemma mid_diag p : mid p = mdiag p (fun _ => 1).
Proof. apply mext; intros i j. unfold mid, mdiag. destruct (_ && _); reflexivity. Qed.

(** Coefficients C (m x p) with orthonormal columns that diagonalize diag(lam). *)
Lemma poincare m p Cm lam e : mdim m p Cm -> mmul m (madj Cm) Cm = mid p -> form m (mdiag m lam) Cm Cm = mdiag p e ->
  (forall i j, (i <= j < m)%nat -> lam i <= lam j) -> (forall i j, (i <= j < p)%nat -> e i <= e j) -> forall k, (k < p)%nat -> (k < m)%nat /\ lam k <= e k.
Proof.
  intros DC Or Fd Al Ae k Hk. destruct (solve k Cm) as (c & (j & Hj & Nj) & Sol).
  set (V := fun (i : nat) (q : nat) => if ((i <=? k) && (q =? 0))%nat then c i else C0).
  assert (DV : mdim p 1 V) by (intros i q H; unfold V; destruct (Nat.leb_spec i k), (Nat.eqb_spec q 0); cbn [andb]; auto; lia).
  set (U := mmul p Cm V).
  assert (U0 : forall i, U i 0%nat = csum (S k) (fun j => (Cm i j * c j)%C)).
  { intros i. unfold U, mmul. replace p with (S k + (p - S k))%nat by lia. rewrite L_Eig.csum_app. rewrite (csum_ext (p - S k) _ (fun _ => C0)), csum_0.
    - transitivity (csum (S k) (fun l => (Cm i l * V l 0%nat)%C)); [ring|]. apply csum_ext. intros q Hq. unfold V. destruct (Nat.leb_spec q k); [reflexivity|lia].
    - intros q Hq. unfold V. destruct (Nat.leb_spec (S k + q) k); [lia|]. cbn [andb]. ring. }
  assert (N1 : nrm m U = nrm p V).
  { rewrite <- !quad_id. unfold U. rewrite madj_mul, !mmul_assoc, <- (mmul_assoc m p (madj Cm)), Or, (mid_l p 1 V DV). reflexivity. }
  assert (N2 : rsum m (fun i => lam i * normsqr (U i 0%nat)) = rsum p (fun i => e i * normsqr (V i 0%nat))).
  { rewrite <- !diag_quad. rewrite <- Fd. unfold form, U. rewrite madj_mul, !mmul_assoc. reflexivity. }
  assert (Pv : 0 < nrm p V).
  { eapply Rlt_le_trans; [|apply (nrm_ge p V j); lia]. apply normsqr_pos. unfold V. destruct (Nat.leb_spec j k); [exact Nj|lia]. }
  assert (Zu : forall i, (i < k)%nat -> normsqr (U i 0%nat) = 0) by (intros i Hi; rewrite U0, Sol by exact Hi; unfold normsqr; csimp; ring).
  assert (Nn : forall z, 0 <= normsqr z) by (intros z; unfold normsqr; pose proof (Rle_0_sqr (re z)); pose proof (Rle_0_sqr (im z)); unfold Rsqr in *; lra).
  destruct (Nat.lt_ge_cases k m) as [Hm|Hm].
  - split; [exact Hm|]. assert (B1 : lam k * nrm m U <= rsum m (fun i => lam i * normsqr (U i 0%nat))).
    { unfold nrm. rewrite <- rsum_scal. apply rsum_le. intros i Hi. destruct (Nat.lt_ge_cases i k) as [L|L]; [rewrite Zu by exact L; lra|]. apply Rmult_le_compat_r; [apply Nn|apply Al; lia]. }
    assert (B2 : rsum p (fun i => e i * normsqr (V i 0%nat)) <= e k * nrm p V).
    { unfold nrm. rewrite <- rsum_scal. apply rsum_le. intros i Hi. destruct (Nat.lt_ge_cases k i) as [L|L]; [|apply Rmult_le_compat_r; [apply Nn|apply Ae; lia]].
      unfold V. destruct (Nat.leb_spec i k); [lia|]. cbn [andb]. unfold normsqr. csimp. lra. }
    rewrite N1, N2 in B1. apply (Rmult_le_reg_r (nrm p V)); [exact Pv|]. lra.
  - exfalso. assert (Z : nrm m U = 0) by (unfold nrm; rewrite (rsum_ext m _ (fun _ => 0)) by (intros i Hi; apply Zu; lia); apply rsum_0). lra.
Qed.
Lemma above n p m P A B V lam M e : hermitian B -> modes n m P A B V lam -> mdim n n B -> mdim n p M -> satisfies n P M -> form n B M M = mid p -> form n A M M = mdiag p e ->
  (forall i j, (i <= j < p)%nat -> e i <= e j) -> forall k, (k < p)%nat -> (k < m)%nat /\ lam k <= e k.
Proof.
  intros HB (DV & FB & FA & Al & Cp) DB DM SM MB MA Ae. pose proof (Cp p M DM SM) as EM. set (Cm := form n B V M) in *.
  assert (DC : mdim m p Cm) by (apply (mdim_mul m n p); [apply mdim_adj; exact DV|apply (mdim_mul n n p); auto]).
  assert (Fs : forall H, form n H M M = mmul m (madj Cm) (mmul m (form n H V V) Cm)) by (intros H; rewrite EM at 1 2; apply form_span).
  apply (poincare m p Cm lam e DC); auto.
  - rewrite Fs, FB in MB. rewrite (mid_l m p Cm DC) in MB. exact MB.
  - rewrite Fs, FA in MA. exact MA.
Qed.
