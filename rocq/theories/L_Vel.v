(** Perturbation of an eigenvalue by moving the wave vector. *)
From Coq Require Import List ZArith Reals Lra Lia Bool.
From Verif Require Import Base RC M_Tensor S_Tensor M_Evect S_Evect L_Evect3 M_Grid S_Grid L_Grid6 P_Grid M_Op S_Op L_Op L_Op2 L_Op3 L_Op4 P_Op L_Match S_Fgrad L_Fgrad S_Vel.
Import ListNotations.
Local Open Scope R_scope.

Lemma wfd_kG ks d : wfd d -> Z.of_nat (length ks) = npts d -> wfd (with_kG ks d).
Proof. intros (A1 & A2 & A3 & A4 & A5 & A6 & A7 & A8 & A9 & A10 & A11) L. repeat split; try assumption; exact L. Qed.

(** The table of the code: an orthonormal basis for each wave vector k + G. *)
Lemma table_facts d G1 G2 G3 k ks : wfd d -> table_at d G1 G2 G3 k ks ->
  Z.of_nat (length ks) = npts d /\ orthonormal_basis (with_kG ks d) /\
  exists G : nat -> vec, (forall g, (g < Z.to_nat (npts d))%nat -> kvec (with_kG ks d) g = vadd3 k (G g)) /\
    G = (fun g => let i := Z.of_nat g in
          vadd3 (rsc (IZR (- kidx (d_nx d) (i / d_nz d / d_ny d)))%R G1) (vadd3 (rsc (IZR (- kidx (d_ny d) ((i / d_nz d) mod d_ny d))) G2) (rsc (IZR (- kidx (d_nz d) (i mod d_nz d))) G3))).
Proof.
  intros (A1 & A2 & A3 & _) E. destruct (C07_basis (d_nx d) (d_ny d) (d_nz d) 0 (d_nx d) k G1 G2 G3 ltac:(lia) ltac:(lia) ltac:(lia)) as (t & E' & L & H).
  unfold table_at in E. rewrite E in E'. injection E' as <-. split; [exact L|].
  assert (K : forall g, (g < Z.to_nat (npts d))%nat ->
    let i := Z.of_nat g in let q := kG k G1 G2 G3 (- kidx (d_nx d) (i / d_nz d / d_ny d)) (- kidx (d_ny d) ((i / d_nz d) mod d_ny d)) (- kidx (d_nz d) (i mod d_nz d)) in
    (q <> (0, 0, 0) -> triple q (km (kat (with_kG ks d) g)) (kn (kat (with_kG ks d) g)) (kmag (kat (with_kG ks d) g))) /\
    (q = (0, 0, 0) -> kmag (kat (with_kG ks d) g) = 0 /\ km (kat (with_kG ks d) g) = (0, 0, 1) /\ kn (kat (with_kG ks d) g) = (0, 1, 0))).
  { intros g Hg i q. unfold npts in *.
    assert (Hi : (0 <= i < d_nx d * d_ny d * d_nz d)%Z) by (unfold i; lia).
    pose proof (Z.div_mod i (d_nz d) ltac:(lia)) as Q1. pose proof (Z.mod_pos_bound i (d_nz d) ltac:(lia)) as Q2.
    pose proof (Z.div_mod (i / d_nz d) (d_ny d) ltac:(lia)) as Q3. pose proof (Z.mod_pos_bound (i / d_nz d) (d_ny d) ltac:(lia)) as Q4.
    assert (Q5 : (0 <= i / d_nz d < d_nx d * d_ny d)%Z) by (split; [apply Z.div_pos; lia|apply Z.div_lt_upper_bound; lia]).
    assert (Q6 : (0 <= i / d_nz d / d_ny d < d_nx d)%Z) by (split; [apply Z.div_pos; lia|apply Z.div_lt_upper_bound; lia]).
    destruct (H _ _ _ Q6 Q4 Q2) as (e & Ee & T1 & T2). rewrite Z.add_0_l in T1, T2.
    replace ((i / d_nz d / d_ny d * d_ny d + (i / d_nz d) mod d_ny d) * d_nz d + i mod d_nz d)%Z with i in Ee by nia.
    assert (Ke : kat (with_kG ks d) g = e).
    { unfold kat. cbn [with_kG d_kG]. unfold rd in Ee. unfold i in Ee. destruct (Z.of_nat g <? 0)%Z; [discriminate|]. rewrite Nat2Z.id in Ee.
      destruct (nth_error ks g) as [e'|] eqn:En; [|discriminate]. injection Ee as ->. apply nth_error_nth. exact En. }
    rewrite Ke. split; [exact T1|exact T2]. }
  assert (Dec : forall q : vec, q = (0, 0, 0) \/ q <> (0, 0, 0)).
  { intros [[a b] c]. destruct (Req_dec a 0) as [->|N]; [|right; congruence]. destruct (Req_dec b 0) as [->|N]; [|right; congruence]. destruct (Req_dec c 0) as [->|N]; [left; reflexivity|right; congruence]. }
  split.
  - intros g Hg. destruct (K g Hg) as (T1 & T2). change (npts (with_kG ks d)) with (npts d) in *.
    destruct (Dec (kG k G1 G2 G3 (- kidx (d_nx d) (Z.of_nat g / d_nz d / d_ny d)) (- kidx (d_ny d) ((Z.of_nat g / d_nz d) mod d_ny d)) (- kidx (d_nz d) (Z.of_nat g mod d_nz d)))) as [Z0|Z0].
    + destruct (T2 Z0) as (_ & -> & ->). cbn. repeat split; lra.
    + destruct (T1 Z0) as (U1 & U2 & U3 & _). auto.
  - eexists. split; [|reflexivity]. intros g Hg. destruct (K g Hg) as (T1 & T2). unfold kvec.
    change (vadd3 k _) with (kG k G1 G2 G3 (- kidx (d_nx d) (Z.of_nat g / d_nz d / d_ny d)) (- kidx (d_ny d) ((Z.of_nat g / d_nz d) mod d_ny d)) (- kidx (d_nz d) (Z.of_nat g mod d_nz d))).
    destruct (Dec (kG k G1 G2 G3 (- kidx (d_nx d) (Z.of_nat g / d_nz d / d_ny d)) (- kidx (d_ny d) ((Z.of_nat g / d_nz d) mod d_ny d)) (- kidx (d_nz d) (Z.of_nat g mod d_nz d)))) as [Z0|Z0].
    + rewrite Z0. destruct (T2 Z0) as (-> & -> & ->). cbn. f_equal; [f_equal|]; ring.
    + destruct (T1 Z0) as (_ & _ & _ & _ & _ & U & _). exact U.
Qed.
Lemma table_moves d G1 G2 G3 k u ks t kt : wfd d -> table_at d G1 G2 G3 k ks -> table_at d G1 G2 G3 (vadd3 k (rsc t u)) kt ->
  forall g, (g < Z.to_nat (npts d))%nat -> kvec (with_kG kt d) g = vadd3 (kvec (with_kG ks d) g) (rsc t u).
Proof.
  intros Wd E E' g Hg. destruct (table_facts d G1 G2 G3 k ks Wd E) as (_ & _ & G & HG & EG). destruct (table_facts d G1 G2 G3 _ kt Wd E') as (_ & _ & G' & HG' & EG').
  rewrite (HG g Hg), (HG' g Hg), EG, EG'. match goal with |- vadd3 _ ?v = vadd3 (vadd3 _ ?v) _ => generalize v end.
  intros [[a b] c]. destruct k as [[k0 k1] k2], u as [[u0 u1] u2]. cbn. f_equal; [f_equal|]; ring.
Qed.

Lemma RtoC_sub x y : RtoC (x - y) = (RtoC x - RtoC y)%C. Proof. cring. Qed.

(** A Cartesian test field, in the transverse basis of the plane waves. *)
Definition rcdot (v : vec) (F : nat -> C) : C := (RtoC (S_Op.comp 0 v) * F 0%nat + RtoC (S_Op.comp 1 v) * F 1%nat + RtoC (S_Op.comp 2 v) * F 2%nat)%C.
Definition proj_row (d : mdata) (F : nat -> nat -> C) (i : nat) : C :=
  let g := Nat.div2 i in rcdot (if Nat.even i then km (kat d g) else kn (kat d g)) (F g).
Definition projected (d : mdata) (F : nat -> nat -> C) : emat C :=
  {| en := 2 * npts d; ep := 1; ealloc := 1; edata := map (proj_row d F) (seq 0 (Z.to_nat (2 * npts d))) |}.
Lemma projected_fields d F : wfd d -> fields d (projected d F).
Proof.
  intros (A1 & A2 & A3 & _). assert (0 <= npts d)%Z by (unfold npts; apply Z.mul_nonneg_nonneg; [apply Z.mul_nonneg_nonneg|]; lia).
  split; [|reflexivity]. unfold wf, projected. cbn [en ep ealloc edata]. rewrite map_length, seq_length. lia.
Qed.
Lemma projected_ent d F i : (i < Z.to_nat (2 * npts d))%nat -> entC (projected d F) (Z.of_nat i) 0 = proj_row d F i.
Proof.
  intros Hi. unfold entC, gets, projected. cbn [edata ep]. rewrite Z.mul_1_r, Z.add_0_r. unfold rd. destruct (Z.ltb_spec (Z.of_nat i) 0); [lia|]. rewrite Nat2Z.id.
  rewrite nth_error_map. rewrite (nth_error_nth' _ 0%nat) by (rewrite seq_length; exact Hi). rewrite seq_nth by exact Hi. reflexivity.
Qed.
Lemma projected_m d F g : (g < Z.to_nat (npts d))%nat -> entC (projected d F) (2 * Z.of_nat g) 0 = rcdot (km (kat d g)) (F g).
Proof.
  intros Hg. replace (2 * Z.of_nat g)%Z with (Z.of_nat (2 * g)) by lia. rewrite projected_ent by lia. unfold proj_row.
  rewrite Nat.div2_double. rewrite Nat.even_mul. reflexivity.
Qed.
Lemma projected_n d F g : (g < Z.to_nat (npts d))%nat -> entC (projected d F) (2 * Z.of_nat g + 1) 0 = rcdot (kn (kat d g)) (F g).
Proof.
  intros Hg. replace (2 * Z.of_nat g + 1)%Z with (Z.of_nat (S (2 * g))) by lia. rewrite projected_ent by lia. unfold proj_row.
  rewrite Nat.div2_succ_double. rewrite Nat.even_succ. rewrite Nat.odd_mul. reflexivity.
Qed.

(** Its curl is that of the field, and its products with transverse fields too. *)
Definition wcurl (d : mdata) (K : nat -> vec) (F : nat -> nat -> C) : nat -> nat -> C := synth d (fun g => ccross (K g) (F g)).
Definition inner3 (d : mdata) (F G : nat -> nat -> C) : C := csum (Z.to_nat (npts d)) (fun g => csum 3 (fun i => Cconj (F g i) * G g i)%C).

Lemma projected_curl d F r i : orthonormal_basis d -> (i < 3)%nat -> curl d (projected d F) 0 r i = wcurl d (kvec d) F r i.
Proof.
  intros Ho Hi. unfold curl, wcurl, synth. apply csum_ext. intros g Hg. f_equal. destruct (Ho g Hg) as (O1 & O2 & O3).
  unfold cart. rewrite projected_m, projected_n by exact Hg. unfold kvec. destruct (kat d g) as [kk [[m0 m1] m2] [[n0 n1] n2]]. cbn [km kn kmag] in *.
  unfold rcdot, rsc, rcross, rdot in *.
  unfold ccross. destruct i as [|[|[|i]]]; [| | |lia]; cbn [S_Op.comp fst snd].
  all: generalize (F g 0%nat) (F g 1%nat) (F g 2%nat); intros a b c.
  all: set (p := (RtoC m0 * a + RtoC m1 * b + RtoC m2 * c)%C); set (q := (RtoC n0 * a + RtoC n1 * b + RtoC n2 * c)%C).
  - transitivity (RtoC kk * (RtoC n0 * p * RtoC (m0 * m0 + m1 * m1 + m2 * m2) - RtoC m0 * p * RtoC (m0 * n0 + m1 * n1 + m2 * n2) + RtoC n0 * q * RtoC (m0 * n0 + m1 * n1 + m2 * n2) - RtoC m0 * q * RtoC (n0 * n0 + n1 * n1 + n2 * n2)))%C.
    + rewrite ?RtoC_mul, ?RtoC_add, ?RtoC_sub. rewrite ?RtoC_mul. ring.
    + rewrite O1, O2, O3. unfold p, q. change (RtoC 1) with C1. change (RtoC 0) with C0. rewrite ?RtoC_mul, ?RtoC_sub. rewrite ?RtoC_mul. ring.
  - transitivity (RtoC kk * (RtoC n1 * p * RtoC (m0 * m0 + m1 * m1 + m2 * m2) - RtoC m1 * p * RtoC (m0 * n0 + m1 * n1 + m2 * n2) + RtoC n1 * q * RtoC (m0 * n0 + m1 * n1 + m2 * n2) - RtoC m1 * q * RtoC (n0 * n0 + n1 * n1 + n2 * n2)))%C.
    + rewrite ?RtoC_mul, ?RtoC_add, ?RtoC_sub. rewrite ?RtoC_mul. ring.
    + rewrite O1, O2, O3. unfold p, q. change (RtoC 1) with C1. change (RtoC 0) with C0. rewrite ?RtoC_mul, ?RtoC_sub. rewrite ?RtoC_mul. ring.
  - transitivity (RtoC kk * (RtoC n2 * p * RtoC (m0 * m0 + m1 * m1 + m2 * m2) - RtoC m2 * p * RtoC (m0 * n0 + m1 * n1 + m2 * n2) + RtoC n2 * q * RtoC (m0 * n0 + m1 * n1 + m2 * n2) - RtoC m2 * q * RtoC (n0 * n0 + n1 * n1 + n2 * n2)))%C.
    + rewrite ?RtoC_mul, ?RtoC_add, ?RtoC_sub. rewrite ?RtoC_mul. ring.
    + rewrite O1, O2, O3. unfold p, q. change (RtoC 1) with C1. change (RtoC 0) with C0. rewrite ?RtoC_mul, ?RtoC_sub. rewrite ?RtoC_mul. ring.
Qed.
Lemma projected_dot d F Y j : dotl (projected d F) Y 0 j = inner3 d F (cart d Y j).
Proof.
  unfold dotl, inner3. cbn [projected en]. fold (projected d F). replace (Z.to_nat (2 * npts d)) with (2 * Z.to_nat (npts d))%nat by lia.
  rewrite (csum_pairs (Z.to_nat (npts d)) (fun i => (Cconj (entC (projected d F) i 0) * entC Y i j)%C)). apply csum_ext. intros g Hg.
  rewrite projected_m, projected_n by exact Hg. rewrite csum3. unfold cart, rcdot. rewrite !Cconj_add, !Cconj_mul, !Cconj_R. ring.
Qed.

(** The weak form with a Cartesian test field. *)
Lemma weak_cartesian d F Y j lam : wfd d -> orthonormal_basis d -> d_mu_inv d = None -> eigenfield d Y j lam ->
  (RtoC lam * inner3 d F (cart d Y j))%C = mean_form d (sym_at (d_eps_inv d)) (wcurl d (kvec d) F) (curl d Y j).
Proof.
  intros Wd Ho Hm (FY & Hj & n & o & f & AY & g & Rd & E & Ev). pose proof FY as (_ & EY).
  pose proof (C13_weak_form n d (projected d F) Y o f AY g 0 j Wd Ho Hm (projected_fields d F Wd) Rd E Hj) as W.
  transitivity (dotl (projected d F) AY 0 j).
  - rewrite <- projected_dot. unfold dotl. rewrite <- csum_scal. apply csum_ext. intros i Hi. cbn [projected en] in Hi. rewrite (Ev (Z.of_nat i)) by lia. ring.
  - rewrite W. unfold mean_form. f_equal. apply csum_ext. intros r _. apply form_ext; intros i Hi; [apply projected_curl; assumption|reflexivity].
Qed.
