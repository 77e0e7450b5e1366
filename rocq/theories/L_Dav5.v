(** One iteration of the Davidson solver, continued. *)
From Coq Require Import List ZArith Reals Bool Arith Lia Lra FunctionalExtensionality.
From Verif Require Import Base RC Loops L_Op M_Evect M_Lin M_Eig M_Dav S_Evect S_Eig S_Dav L_Evect L_Evect3 L_Mat L_Eig L_Eig2 L_Eig3 L_Eig4 L_Eig5 L_Eig7 L_Eig12 L_Dav L_Dav2 L_Dav3 L_Dav4.
Import ListNotations.
Local Open Scope R_scope.
Add Ring Cring_d5 : C_ring_theory.

Lemma spanned_mul q p r W M T : mdim p r T -> spanned q p W M -> spanned q r W (mmul p M T).
Proof. intros DT (T0 & D0 & ->). exists (mmul p T0 T). split; [apply (mdim_mul q p r); auto|]. apply mmul_assoc. Qed.
Lemma spanned_add q p W M M' : spanned q p W M -> spanned q p W M' -> spanned q p W (madd M M').
Proof. intros (T & D & ->) (T' & D' & ->). exists (madd T T'). split; [apply mdim_add; auto|]. symmetry. apply mmul_add_r. Qed.
Lemma spanned_scal q p W M a : spanned q p W M -> spanned q p W (mscal a M).
Proof. intros (T & D & ->). exists (mscal a T). split; [apply mdim_scal; auto|]. symmetry. apply mmul_scal_r. Qed.
Lemma spanned_trans q q' p W V M : spanned q q' W V -> spanned q' p V M -> spanned q p W M.
Proof. intros (T & D & ->) (T' & D' & ->). exists (mmul q' T T'). split; [apply (mdim_mul q q' p); auto|]. apply mmul_assoc. Qed.
Lemma csum_more n m f : (n <= m)%nat -> (forall i, (n <= i < m)%nat -> f i = C0) -> csum m f = csum n f.
Proof.
  intros H Z. induction m as [|m IH]; [replace n with O by lia; reflexivity|]. destruct (Nat.eq_dec n (S m)) as [->|N]; [reflexivity|].
  cbn [csum]. rewrite IH; [|lia|intros; apply Z; lia]. rewrite Z by lia. ring.
Qed.
Lemma blocks_more p b b' M M' T r : (1 <= p)%nat -> (b <= b')%nat -> (forall k, (k < b)%nat -> M' k = M k) -> mdim (p * b) r T ->
  mmul (p * b') (blocks p b' M') T = mmul (p * b) (blocks p b M) T.
Proof.
  intros Hp Hb HM DT. apply mext; intros i j. unfold mmul. rewrite (csum_more (p * b) (p * b')); [|nia|].
  - apply csum_ext. intros k Hk. f_equal. unfold blocks. destruct (Nat.ltb_spec k (p * b')); [|nia]. destruct (Nat.ltb_spec k (p * b)); [|lia]. rewrite HM; [reflexivity|]. apply Nat.div_lt_upper_bound; lia.
  - intros k Hk. rewrite (DT k j) by lia. ring.
Qed.
Lemma spanned_more p b b' M M' r X : (1 <= p)%nat -> (b <= b')%nat -> (forall k, (k < b)%nat -> M' k = M k) -> spanned (p * b) r (blocks p b M) X -> spanned (p * b') r (blocks p b' M') X.
Proof.
  intros Hp Hb HM (T & DT & ->). exists T. split; [intros i j H; apply DT; destruct H; [left; nia|right; auto]|]. symmetry. apply (blocks_more p b b' M M' T r); auto.
Qed.
Lemma spanned_block n p b M k : (1 <= p)%nat -> (k < b)%nat -> mdim n p (M k) -> spanned (p * b) p (blocks p b M) (M k).
Proof.
  intros Hp Hk D. exists (fun l j => if ((l =? p * k + j) && (j <? p))%nat then C1 else C0). split.
  - intros l j H. destruct (Nat.eqb_spec l (p * k + j)), (Nat.ltb_spec j p); cbn [andb]; try reflexivity. exfalso. destruct H; [nia|lia].
  - apply mext; intros i j. unfold mmul. destruct (Nat.lt_ge_cases j p) as [Hj|Hj].
    + rewrite (csum_single (p * b) (p * k + j)); [|nia|].
      * rewrite Nat.eqb_refl. destruct (Nat.ltb_spec j p); [|lia]. cbn [andb]. rewrite blocks_at by auto. ring.
      * intros l Hl Nl. destruct (Nat.eqb_spec l (p * k + j)); [contradiction|]. cbn [andb]. ring.
    + rewrite D by auto. symmetry. transitivity (csum (p * b) (fun _ => C0)); [|apply csum_0]. apply csum_ext. intros l Hl. destruct (Nat.ltb_spec j p); [lia|]. rewrite andb_false_r. ring.
Qed.
Lemma madd_sub A B : madd (msub A B) B = A.
Proof. apply mext; intros i j. unfold msub, madd, mscal. apply C_eq; csimp; ring. Qed.
Lemma mscal_m1_add A : madd A (mscal (-1) A) = mzero.
Proof. apply mext; intros i j. unfold madd, mscal, mzero. apply C_eq; csimp; ring. Qed.
Lemma mzero_scal a : mscal a mzero = mzero.
Proof. apply mext; intros i j. unfold mscal, mzero. apply C_eq; csimp; ring. Qed.
Lemma mzero_add A : madd A mzero = A.
Proof. apply mext; intros i j. unfold madd, mzero. apply C_eq; csimp; ring. Qed.
Lemma madj_zero : madj mzero = mzero.
Proof. apply mext; intros i j. unfold madj, mzero. apply C_eq; csimp; ring. Qed.

Section Iter.
Variables (n p nb : nat) (potr : Z -> list C -> option (list C)) (heev : Z -> list C -> list C * list R).
Variables (opA : emat C -> outcome (emat C)) (opK : option (emat C -> emat C -> list R -> outcome (emat C))) (constraint : option (emat C -> outcome (emat C))).
Variables (HA HP : mat) (target tolerance : R).
Hypothesis Ok : davidson_ok n p nb potr heev opA opK constraint HA HP.
Hypothesis Hnb : (2 <= nb)%nat.
Let Hp := dk_p _ _ _ _ _ _ _ _ _ _ Ok. Let Pok := dk_potr _ _ _ _ _ _ _ _ _ _ Ok. Let Eok := dk_heev _ _ _ _ _ _ _ _ _ _ Ok.
Let DA := dk_dimA _ _ _ _ _ _ _ _ _ _ Ok. Let HhA := dk_hermA _ _ _ _ _ _ _ _ _ _ Ok. Let OA := dk_A _ _ _ _ _ _ _ _ _ _ Ok.
Let OK := dk_K _ _ _ _ _ _ _ _ _ _ Ok. Let OP := dk_P _ _ _ _ _ _ _ _ _ _ Ok. Let PP := dk_idem _ _ _ _ _ _ _ _ _ _ Ok.

Lemma new_direction_ok V AV b2 r M MY : (forall k, (k < b2)%nat -> holds n p V k (M k)) -> holds n p V b2 (mmul n HA MY) -> (exists X, holds n p AV b2 X) -> fields n p (r_Y r) MY -> (p <= length (r_e r))%nat ->
  orthoblocks n p b2 M -> (forall k, (k < b2)%nat -> satisfies n HP (M k)) ->
  exists x a X MX Ma, new_direction opK constraint V AV (Z.of_nat b2) r = Val (x, a) /\ fields n p x (residual n p HA MY (fun i => nth i (r_e r) 0)) /\ fields n p a Ma /\ satisfies n HP Ma /\
    (forall k, (k < b2)%nat -> mmul n (madj (M k)) Ma = mzero) /\
    fields n p X MX /\ match opK with Some f => f x (r_Y r) (r_e r) = Val X | None => MX = residual n p HA MY (fun i => nth i (r_e r) 0) end /\
    (exists T, mdim (p * b2) p T /\ mmul n HP MX = madd Ma (mmul (p * b2) (blocks p b2 M) T)) /\ (MX = mzero -> Ma = mzero).
Proof.
  intros HV HVb (XA & HAb) HY He (DM & Om) Kp. unfold new_direction. destruct (holds_rd n p _ _ _ HVb) as (x & -> & Hx). cbn [bind]. rewrite (proj1 HY), (proj1 (proj2 HY)).
  destruct (XpaY_diag_ok n p x _ (-1) (r_Y r) MY (r_e r) Hx HY He) as (d & -> & Hd). cbn [bind]. set (x' := set_data x d) in *. change (madd (mmul n HA MY) (mscal (-1) (mmul p MY (mdiag p (fun i => nth i (r_e r) 0))))) with (residual n p HA MY (fun i => nth i (r_e r) 0)) in Hd.
  destruct (holds_rd n p _ _ _ HAb) as (a & -> & Ha). cbn [bind].
  assert (H0 : exists a0 MX, match opK with Some f => f x' (r_Y r) (r_e r) | None => evectmatrix_copy a x' end = Val a0 /\ fields n p a0 MX /\ match opK with Some f => f x' (r_Y r) (r_e r) = Val a0 | None => MX = residual n p HA MY (fun i => nth i (r_e r) 0) end).
  { pose proof OK as OK'. destruct opK as [f|].
    - destruct (OK' x' (r_Y r) (r_e r) _ _ Hd HY He) as (a0 & MX & E & H). exists a0, MX. auto.
    - destruct (ecopy_ok n p a XA x' _ Ha Hd) as (a0 & E & H). exists a0, (residual n p HA MY (fun i => nth i (r_e r) 0)). auto. }
  destruct H0 as (a0 & MX & -> & H0 & HK). cbn [bind]. destruct (constrain_ok n p constraint HP OP a0 MX H0) as (a1 & -> & H1). cbn [bind].
  destruct (forZ_inv (fun i a => exists Ma, fields n p a Ma /\ satisfies n HP Ma /\ (forall k, (Z.of_nat k < i)%Z -> (k < b2)%nat -> mmul n (madj (M k)) Ma = mzero) /\
      (exists T, mdim (p * b2) p T /\ mmul n HP MX = madd Ma (mmul (p * b2) (blocks p b2 M) T)) /\ (MX = mzero -> Ma = mzero))
    (fun i a => let! v := rd V i in let! U := XtY (create_sq (ep a)) v a (create_sq (ep a)) in XpaYS a (-1) v U false) 0 (Z.of_nat b2) a1) as (a2 & E2 & Ma & Hm & Km & Zm & Sm & Nm); [lia| | |].
  - exists (mmul n HP MX). split; [exact H1|]. split; [unfold satisfies; rewrite <- mmul_assoc, PP; reflexivity|]. split; [intros; lia|]. split.
    + exists mzero. split; [intros i j _; reflexivity|]. rewrite mmul_zero_r, mzero_add. reflexivity.
    + intros ->. apply mmul_zero_r.
  - intros i a2 Hi (Ma & Hm & Km & Zm & (T & DT & ET) & Nm). set (k := Z.to_nat i). assert (Hk : (k < b2)%nat) by lia. replace i with (Z.of_nat k) by lia.
    destruct (holds_rd n p _ _ _ (HV k Hk)) as (v & -> & Hv). cbn [bind]. rewrite (proj1 (proj2 Hm)). pose proof (create_square p) as HW.
    destruct (XtY_ok n p _ _ v _ a2 _ _ _ HW HW Hv Hm) as (U & -> & HU). cbn [bind]. destruct (XpaYS_ok n p a2 Ma (-1) v (M k) U _ false Hp Hm Hv HU) as (a3 & E3 & H3). cbn [opm] in H3.
    exists a3. split; [exact E3|]. set (Ck := mmul n (madj (M k)) Ma) in *. assert (DCk : mdim p p Ck) by (apply (mdim_mul p n p); [apply mdim_adj, DM; exact Hk|apply (fields_dim _ _ _ _ Hm)]). exists (madd Ma (mscal (-1) (mmul p (M k) Ck))). split; [exact H3|].
    split; [unfold satisfies in *; rewrite mmul_add_r, mmul_scal_r, Km, <- mmul_assoc, (Kp k Hk); reflexivity|]. split; [|split].
    + intros l Hl Hlb. rewrite mmul_add_r, mmul_scal_r, <- mmul_assoc, (Om l k Hlb Hk). destruct (Nat.eqb_spec l k) as [->|Nl].
      * fold Ck. rewrite (mid_l p p Ck DCk). apply mscal_m1_add.
      * rewrite (Zm l) by lia. change (fun _ _ : nat => C0) with mzero. rewrite mmul_zero_l, mzero_scal, mzero_add. reflexivity.
    + destruct (spanned_block n p b2 M k Hp Hk (DM k Hk)) as (Tk & DTk & ETk). exists (madd T (mmul p Tk Ck)). split; [apply mdim_add; [exact DT|apply (mdim_mul (p * b2) p p); auto]|].
      rewrite mmul_add_r. rewrite <- (mmul_assoc (p * b2) p). rewrite <- ETk, ET. apply mext; intros i0 j0. unfold madd, mscal. apply C_eq; csimp; ring.
    + intros Z0. specialize (Nm Z0). unfold Ck. rewrite Nm, !mmul_zero_r, mzero_scal, mzero_add. reflexivity.
  - exists x', a2, a0, MX, Ma. split; [rewrite E2; reflexivity|]. split; [exact Hd|]. split; [exact Hm|]. split; [exact Km|]. split; [intros k Hk; apply Zm; lia|]. split; [exact H0|]. split; [exact HK|]. split; [exact Sm|exact Nm].
Qed.

Let dinv := dinv n p nb HA HP. Let rinv := rinv n p nb HA target.
Definition conv (it : Z) (s : dst) (r : ritz) : bool := (0 <? it)%Z && Rltb (Rabs (r_E r - d_prev_E s)) (tolerance * / 2 * (Rabs (r_E r) + Rabs (d_prev_E s) + / 10000000)).

Lemma iterate_ok k s b M : dinv s b M -> exists r it U e, rayleigh_ritz heev opA target s = Val r /\ rinv s b M r it U e /\
  if conv k s r then iterate potr heev opA opK constraint tolerance target (Z.of_nat nb) k s = Val (DConverged r)
  else (iterate potr heev opA opK constraint tolerance target (Z.of_nat nb) k s = Abort /\ stuck n p nb opK HA HP (p * S b) (blocks p (S b) M) r \/
    exists s' b2 M', iterate potr heev opA opK constraint tolerance target (Z.of_nat nb) k s = Val (DAgain r s') /\ (1 <= b2)%nat /\ dinv s' b2 M' /\ d_prev_E s' = r_E r /\ enlarged n p opK HA HP r (p * S b2) (blocks p (S b2) M')) /\
    (zero_to_zero n p opK -> residual n p HA (ritzM p b M it U) (fun i => nth i (r_e r) 0) = mzero -> iterate potr heev opA opK constraint tolerance target (Z.of_nat nb) k s = Abort).
Proof.
  intros Is. destruct (rayleigh_ritz_ok n p nb potr heev opA opK constraint HA HP target Ok Hnb s b M Is) as (r & it & U & e & E & Ir). exists r, it, U, e. split; [exact E|]. split; [exact Ir|].
  unfold iterate, conv. rewrite E. cbn [bind]. destruct ((0 <? k)%Z && _); [reflexivity|].
  pose proof (next_block_ok n p nb potr heev opA opK constraint HA HP target Ok Hnb s b M r it U e Is Ir) as (V & AV & VAV & b2 & M' & -> & Hb & LV & LA & V1 & V2 & V3 & A1 & A2 & S1 & S2 & S3 & S4 & O1 & K1 & Sp1 & Wh). cbn [bind].
  set (MY := ritzM p b M it U) in *. assert (HY : fields n p (r_Y r) MY) by apply (j_Y _ _ _ _ _ _ _ _ _ _ _ _ Ir).
  destruct (new_direction_ok V AV b2 r M' MY V2 V3 (A1 b2 ltac:(lia)) HY (j_le _ _ _ _ _ _ _ _ _ _ _ _ Ir) O1 K1) as (x & a & X & MX & Ma & -> & Hx & Ha & Ka & Oa & HX & HK & (T & DT & ET) & Nz). cbn [bind].
  destruct (holds_wr n p AV b2 a Ma ltac:(lia) Ha) as (AV' & -> & L1 & W1 & W2). cbn [bind].
  destruct (orthonormalize_ok n p nb potr heev opA opK constraint HA HP Ok Hnb a Ma x _ Ha Hx) as [(-> & Nd)|(Z' & MZ & -> & Pd & HZ & Rs & Oz)]; cbn [bind].
  { split; [|auto]. left. split; [reflexivity|]. assert (DMa : mdim n p Ma) by apply (fields_dim _ _ _ _ Ha).
    exists MY, (p * b2)%nat, (blocks p b2 M'), x, X, MX, Ma, T. split; [exact HY|].
    split. { destruct Wh as [(W5 & -> & ->)|(W5 & -> & ->)]; [left; split; [nia|auto]|right]. split; [nia|]. split; [lia|].
      apply mext; intros i j. destruct (Nat.lt_ge_cases j p) as [Hj|Hj].
      - pose proof (blocks_at p Hp 1 (fun _ => MY) i 0 j ltac:(lia) Hj) as Kb. rewrite Nat.mul_0_r in Kb. exact Kb.
      - unfold blocks. destruct (Nat.ltb_spec j (p * 1)); [lia|]. symmetry. apply (fields_dim _ _ _ _ HY). auto. }
    split; [exact Hx|]. split; [exact HX|]. split; [exact HK|]. split; [exact DMa|]. split; [exact DT|]. split; [exact ET|].
    split; [|unfold independent, form; rewrite (mid_l n p Ma DMa); exact Nd].
    apply mext; intros i j. destruct (Nat.lt_ge_cases i (p * b2)) as [Hi|Hi].
    - destruct (divmod_at p Hp i b2 Hi) as (kk & l & Hkk & Hl & ->). transitivity (mmul n (madj (M' kk)) Ma l j); [|rewrite (Oa kk Hkk); reflexivity]. unfold mmul, madj. apply csum_ext. intros y Hy. rewrite blocks_at by auto. reflexivity.
    - unfold mmul, madj, blocks. destruct (Nat.ltb_spec i (p * b2)); [lia|]. transitivity (csum n (fun _ => C0)); [|apply csum_0]. apply csum_ext. intros y Hy. apply C_eq; csimp; ring. }
  destruct (holds_wr n p V b2 Z' MZ ltac:(lia) HZ) as (V' & -> & L2 & W3 & W4). cbn [bind]. split.
  2: { intros ZK Zr. exfalso. assert (Z1 : MX = mzero).
    { pose proof ZK as ZK'. unfold zero_to_zero in ZK'. destruct opK as [f|]; [|rewrite HK; exact Zr].
      change (residual n p HA MY (fun i => nth i (r_e r) 0) = mzero) in Zr. rewrite Zr in Hx. specialize (ZK' x _ _ X Hx HK). apply (rep_fun n p (edata X)); [apply HX|apply ZK']. }
    rewrite (Nz Z1) in Pd. rewrite mmul_zero_r in Pd. specialize (Pd (fun _ => C1)). assert (Q : exists i, (i < p)%nat /\ C1 <> C0). { exists O. split; [exact Hp|]. intros Q. apply (f_equal re) in Q. revert Q. csimp. lra. }
    specialize (Pd Q). revert Pd. replace (csum p _) with C0; [csimp; lra|]. symmetry. transitivity (csum p (fun _ => C0)); [|apply csum_0]. apply csum_ext. intros i Hi. transitivity (csum p (fun _ => C0)); [|apply csum_0]. apply csum_ext. intros j Hj. unfold mzero. ring. }
  right. set (M2 := fun k => if (k =? b2)%nat then MZ else M' k).
  assert (Q1 : forall k, (k < b2)%nat -> M2 k = M' k) by (intros j Hj; unfold M2; destruct (Nat.eqb_spec j b2); [lia|reflexivity]).
  assert (Q2 : M2 b2 = MZ) by (unfold M2; rewrite Nat.eqb_refl; reflexivity).
  assert (DMZ : mdim n p MZ) by apply (fields_dim _ _ _ _ HZ). assert (DMa : mdim n p Ma) by apply (fields_dim _ _ _ _ Ha).
  assert (OZ : forall j, (j < b2)%nat -> mmul n (madj (M' j)) MZ = mzero). { intros j Hj. destruct Rs as (T1 & _ & _ & _ & _ & _ & ->). rewrite <- mmul_assoc, Oa by exact Hj. apply mmul_zero_l. }
  eexists _, b2, M2. split; [reflexivity|]. split; [lia|]. split; [|split; [reflexivity|]].
  - destruct O1 as (D1 & O1). split; cbn [d_ibasis d_V d_AV d_VAV d_Y d_e].
    + reflexivity.
    + lia.
    + lia.
    + lia.
    + intros j Hj. destruct (Nat.eq_dec j b2) as [->|N]; [eauto|]. destruct (V1 j Hj) as (Xj & Hj'). exists Xj. apply W4; auto.
    + intros j Hj. destruct (Nat.eq_dec j b2) as [->|N]; [rewrite Q2; exact W3|]. rewrite Q1 by lia. apply W4; [exact N|]. apply V2. lia.
    + intros j Hj. destruct (Nat.eq_dec j b2) as [->|N]; [eauto|]. destruct (A1 j Hj) as (Xj & Hj'). exists Xj. apply W2; auto.
    + intros j Hj. rewrite Q1 by exact Hj. apply W2; [lia|]. apply A2. exact Hj.
    + exact S1.
    + exact S2.
    + exact S3.
    + intros i j Hij. rewrite S4 by exact Hij. rewrite <- (blocks_fewer n p Hp (S b2) b2 M2 HA) by lia. rewrite (blocks_ext p Hp b2 M2 M' Q1). reflexivity.
    + split.
      * intros j Hj. destruct (Nat.eq_dec j b2) as [->|N]; [rewrite Q2; exact DMZ|]. rewrite Q1 by lia. apply D1. lia.
      * intros i j Hi Hj. destruct (Nat.eq_dec i b2) as [->|Ni], (Nat.eq_dec j b2) as [->|Nj].
        -- rewrite Nat.eqb_refl, Q2. exact Oz.
        -- destruct (Nat.eqb_spec b2 j); [congruence|]. rewrite Q2, Q1 by lia. rewrite <- (madj_adj (M' j)), <- madj_mul, OZ by lia. apply madj_zero.
        -- destruct (Nat.eqb_spec i b2); [congruence|]. rewrite Q2, Q1 by lia. apply OZ. lia.
        -- rewrite !Q1 by lia. apply O1; lia.
    + intros j Hj. destruct (Nat.eq_dec j b2) as [->|N]; [|rewrite Q1 by lia; apply K1; lia]. rewrite Q2. destruct Rs as (T1 & _ & _ & _ & _ & _ & ->). unfold satisfies. rewrite <- mmul_assoc, Ka. reflexivity.
    + eauto.
    + apply (j_le _ _ _ _ _ _ _ _ _ _ _ _ Ir).
  - exists MY. split; [exact HY|]. split; [apply (spanned_more p b2 (S b2) M' M2); auto|]. exists x, X, MX. split; [exact Hx|]. split; [exact HX|]. split; [exact HK|].
    rewrite ET. apply spanned_add.
    + destruct (respan_sym p n Ma MZ DMa Rs) as (T1 & _ & DT1 & _ & _ & _ & ->). apply (spanned_mul _ p); [exact DT1|]. rewrite <- Q2. apply (spanned_block n p (S b2) M2 b2 Hp); [lia|]. rewrite Q2. exact DMZ.
    + apply (spanned_more p b2 (S b2) M' M2); auto. exists T. auto.
Qed.
End Iter.
