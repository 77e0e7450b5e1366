(** A small instance: two components, two bands solved one by one. *)
From Coq Require Import List ZArith Reals Bool Arith Lia Lra Psatz.
From Verif Require Import Base RC Loops M_Evect M_Lin M_Eig M_Dav M_Kpt S_Evect S_Eig S_Dav S_Kpt L_Evect L_Mat L_Eig L_Eig2 L_Eig4 L_Eig5 L_Eig7 L_Eig13 L_EigEx L_Kpt1 L_Kpt2 L_Kpt3 L_Kpt4 L_Kpt5 L_Kpt6.
Import ListNotations.
Local Open Scope R_scope.
Add Ring Cring_kx : C_ring_theory.

(** The metric [[1, b], [b, 1]]. *)
Definition kxB (b : R) : mat := fun i j => match i, j with 0%nat, 0%nat => C1 | 1%nat, 1%nat => C1 | 0%nat, 1%nat => RtoC b | 1%nat, 0%nat => RtoC b | _, _ => C0 end.
Definition quad2 (H : mat) (x y : C) : R := re (Cconj x * (H 0%nat 0%nat * x + H 0%nat 1%nat * y) + Cconj y * (H 1%nat 0%nat * x + H 1%nat 1%nat * y))%C.
Definition Ceqb (a b : C) : bool := Reqb (re a) (re b) && Reqb (im a) (im b).
Definition mk2 (x y : C) : emat C := {| en := 2; ep := 1; ealloc := 1; edata := [x; y] |}.

(** A solver for one band of two components: the constraint is applied to (1, 0) and, if nothing is
    left, to (0, 1); the result is normalized. *)
Definition rq_solver (A B : mat) (c : emat C -> outcome (emat C)) (Y : emat C) : option (outcome (emat C * list R)) := Some (
  let! X1 := c (mk2 C1 C0) in let! X2 := c (mk2 C0 C1) in
  match edata X1, edata X2 with
  | a :: b :: _, u :: v :: _ =>
      let '(x, y) := if Ceqb a C0 && Ceqb b C0 then (u, v) else (a, b) in
      let N := quad2 B x y in
      if Rltb 0 N then Val (mk2 (Cscal (/ sqrt N) x) (Cscal (/ sqrt N) y), [quad2 A x y / N]) else Abort
  | _, _ => UB
  end).

Lemma Ceqb_spec a b : reflect (a = b) (Ceqb a b).
Proof.
  unfold Ceqb. destruct (Reqb_spec (re a) (re b)), (Reqb_spec (im a) (im b)); cbn [andb]; constructor; [apply C_eq; auto|congruence..].
Qed.
Definition col2 (x y : C) : mat := fun i j => match i, j with 0%nat, 0%nat => x | 1%nat, 0%nat => y | _, _ => C0 end.
Lemma col2_dim x y : mdim 2 1 (col2 x y).
Proof. intros [|[|i]] [|j] H; try reflexivity; lia. Qed.
Lemma col2_of M : mdim 2 1 M -> M = col2 (M 0%nat 0%nat) (M 1%nat 0%nat).
Proof. intros D. apply mext; intros [|[|i]] [|j]; try reflexivity; apply D; lia. Qed.
Lemma mk2_fields x y : fields 2 1 (mk2 x y) (col2 x y).
Proof. split; [reflexivity|]. split; [reflexivity|]. split; [unfold wf; cbn; lia|]. apply rep21_of; [apply col2_dim|reflexivity..]. Qed.
Lemma form2 H x y u v : form 2 H (col2 x y) (col2 u v) 0%nat 0%nat = (Cconj x * (H 0%nat 0%nat * u + H 0%nat 1%nat * v) + Cconj y * (H 1%nat 0%nat * u + H 1%nat 1%nat * v))%C.
Proof. unfold form, mmul, madj. cbn [csum col2]. ring. Qed.
Lemma mmul2 H x y : mdim 2 2 H -> mmul 2 H (col2 x y) = col2 (H 0%nat 0%nat * x + H 0%nat 1%nat * y)%C (H 1%nat 0%nat * x + H 1%nat 1%nat * y)%C.
Proof.
  intros D. apply mext; intros i j. unfold mmul. cbn [csum]. destruct j; [|cbn [col2]; destruct i as [|[|i]]; cbn; ring]. destruct i as [|[|i]]; cbn [col2]; [ring|ring|]. rewrite !(D (Datatypes.S (Datatypes.S i))) by lia. ring.
Qed.

(** What it returns. *)
Lemma rq_run A B c P Y : applies 2 1 c P -> mdim 2 2 P ->
  exists x y, rq_solver A B c Y = Some (if Rltb 0 (quad2 B x y) then Val (mk2 (Cscal (/ sqrt (quad2 B x y)) x) (Cscal (/ sqrt (quad2 B x y)) y), [quad2 A x y / quad2 B x y]) else Abort) /\
    ((P 0%nat 0%nat <> C0 \/ P 1%nat 0%nat <> C0) /\ x = P 0%nat 0%nat /\ y = P 1%nat 0%nat \/ P 0%nat 0%nat = C0 /\ P 1%nat 0%nat = C0 /\ x = P 0%nat 1%nat /\ y = P 1%nat 1%nat).
Proof.
  intros Ap DP. unfold rq_solver. destruct (Ap _ _ (mk2_fields C1 C0)) as (X1 & E1 & F1). destruct (Ap _ _ (mk2_fields C0 C1)) as (X2 & E2 & F2). rewrite E1, E2. cbn [bind].
  rewrite mmul2 in F1, F2 by exact DP. destruct (rep21 _ _ (proj2 (proj2 (proj2 F1)))) as (a & b & r1 & -> & Ea & Eb). destruct (rep21 _ _ (proj2 (proj2 (proj2 F2)))) as (u & v & r2 & -> & Eu & Ev). cbn [col2] in *.
  assert (Qa : a = P 0%nat 0%nat) by (rewrite <- Ea; ring). assert (Qb : b = P 1%nat 0%nat) by (rewrite <- Eb; ring). assert (Qu : u = P 0%nat 1%nat) by (rewrite <- Eu; ring). assert (Qv : v = P 1%nat 1%nat) by (rewrite <- Ev; ring).
  clear Ea Eb Eu Ev. subst a b u v.
  destruct (Ceqb_spec (P 0%nat 0%nat) C0) as [Z1|Z1]; cbn [andb]; [destruct (Ceqb_spec (P 1%nat 0%nat) C0) as [Z2|Z2]|].
  - exists (P 0%nat 1%nat), (P 1%nat 1%nat). split; [reflexivity|]. right. auto.
  - exists (P 0%nat 0%nat), (P 1%nat 0%nat). split; [reflexivity|]. left. auto.
  - exists (P 0%nat 0%nat), (P 1%nat 0%nat). split; [reflexivity|]. left. auto.
Qed.
Lemma quad2_form H x y : hermitian H -> form 2 H (col2 x y) (col2 x y) 0%nat 0%nat = RtoC (quad2 H x y).
Proof.
  intros Hh. rewrite form2. unfold quad2. pose proof (f_equal (fun f => f 0%nat 0%nat) Hh) as E0. pose proof (f_equal (fun f => f 1%nat 1%nat) Hh) as E1. pose proof (f_equal (fun f => f 0%nat 1%nat) Hh) as E2. unfold madj in *. cbv beta in *.
  destruct (H 0%nat 0%nat) as (a, a'), (H 1%nat 1%nat) as (d, d'), (H 0%nat 1%nat) as (b, b'), (H 1%nat 0%nat) as (c, c'), x as (x, x'), y as (y, y'). unfold Cconj in *. cbn [re im fst snd] in *. injection E0 as E0. injection E1 as E1. injection E2 as E2 E3. subst c b'.
  assert (a' = 0) by lra. assert (d' = 0) by lra. subst. apply C_eq; csimp; ring.
Qed.
Lemma col2_scal s x y : col2 (Cscal s x) (Cscal s y) = mscal s (col2 x y).
Proof. apply mext; intros [|[|i]] [|j]; unfold mscal; cbn [col2]; try reflexivity; apply C_eq; csimp; ring. Qed.

Lemma quad2_scal H s x y : quad2 H (Cscal s x) (Cscal s y) = s * s * quad2 H x y.
Proof. unfold quad2. destruct (H 0%nat 0%nat), (H 1%nat 1%nat), (H 0%nat 1%nat), (H 1%nat 0%nat), x, y. csimp. ring. Qed.
Lemma rq_ritz A B c P Y Y' e : hermitian A -> hermitian B -> applies 2 1 c P -> mdim 2 2 P -> mmul 2 P P = P -> rq_solver A B c Y = Some (Val (Y', e)) ->
  exists M', fields 2 1 Y' M' /\ length e = 1%nat /\ ritz_fields 2 1 P A B M' (fun i => nth i e 0).
Proof.
  intros HA HB Ap DP Id E. destruct (rq_run A B c P Y Ap DP) as (x & y & E1 & K). rewrite E1 in E. clear E1. destruct (Rltb_spec 0 (quad2 B x y)) as [Pos|]; [|discriminate]. injection E as <- <-.
  set (s := / sqrt (quad2 B x y)). exists (col2 (Cscal s x) (Cscal s y)). split; [apply mk2_fields|]. split; [reflexivity|]. split; [apply col2_dim|].
  assert (Sx : satisfies 2 P (col2 x y)).
  { unfold satisfies. rewrite mmul2 by exact DP. assert (Q : forall i j, (P i 0%nat * P 0%nat j + P i 1%nat * P 1%nat j)%C = P i j) by (intros i j; transitivity (mmul 2 P P i j); [unfold mmul; cbn [csum]; ring|rewrite Id; reflexivity]).
    destruct K as [(_ & -> & ->)|(_ & _ & -> & ->)]; rewrite !Q; reflexivity. }
  assert (Ss : s * s * quad2 B x y = 1).
  { unfold s. pose proof (sqrt_lt_R0 _ Pos). rewrite <- (sqrt_sqrt (quad2 B x y)) at 3 by lra. field. lra. }
  assert (Fs : forall H, hermitian H -> form 2 H (col2 (Cscal s x) (Cscal s y)) (col2 (Cscal s x) (Cscal s y)) = mdiag 1 (fun _ => s * s * quad2 H x y)).
  { intros H Hh. apply mext; intros i j. unfold mdiag. destruct i as [|i], j as [|j].
    - rewrite quad2_form by exact Hh. cbn [Nat.ltb Nat.leb andb Nat.eqb]. f_equal. apply quad2_scal.
    - cbn [Nat.ltb Nat.leb andb Nat.eqb]. unfold form, mmul. cbn [csum col2]. apply C_eq; csimp; ring.
    - cbn [Nat.ltb Nat.leb andb Nat.eqb]. unfold form, mmul, madj. cbn [csum col2]. apply C_eq; csimp; ring.
    - cbn [Nat.ltb Nat.leb andb Nat.eqb]. unfold form, mmul, madj. cbn [csum col2]. apply C_eq; csimp; ring. }
  split; [|split; [|split]].
  - unfold satisfies. rewrite col2_scal, mmul_scal_r, Sx. reflexivity.
  - rewrite Fs by exact HB. rewrite Ss. apply mext; intros i j. unfold mid, mdiag. destruct (_ && _); [apply C_eq; csimp; ring|reflexivity].
  - rewrite Fs by exact HA. apply mext; intros i j. unfold mdiag. destruct i as [|i]; [|reflexivity]. cbn [Nat.ltb Nat.leb andb nth]. destruct (0 =? j)%nat; [|reflexivity]. f_equal. rewrite <- (Rmult_1_r (quad2 A x y / quad2 B x y)), <- Ss. field. lra.
  - intros i j Hij. assert (i = 0%nat) by lia. assert (j = 0%nat) by lia. subst. lra.
Qed.

(** For A = diag(1, 3) and B = 1 it is exact. *)
Lemma idem2 P : mdim 2 2 P -> mmul 2 P P = P -> P = mid 2 \/ (P 0%nat 0%nat * P 1%nat 1%nat = P 0%nat 1%nat * P 1%nat 0%nat)%C.
Proof.
  intros D Id. set (a := P 0%nat 0%nat). set (b := P 0%nat 1%nat). set (c := P 1%nat 0%nat). set (d := P 1%nat 1%nat).
  assert (Q : forall i j, (P i 0%nat * P 0%nat j + P i 1%nat * P 1%nat j)%C = P i j) by (intros i j; transitivity (mmul 2 P P i j); [unfold mmul; cbn [csum]; ring|rewrite Id; reflexivity]).
  pose proof (Q 0%nat 0%nat) as Q0. pose proof (Q 0%nat 1%nat) as Q1. pose proof (Q 1%nat 0%nat) as Q2. pose proof (Q 1%nat 1%nat) as Q3. fold a b c d in Q0, Q1, Q2, Q3.
  destruct (C_eq_dec (a * d - b * c)%C C0) as [Z|Z].
  - right. transitivity (a * d - b * c + b * c)%C; [ring|]. rewrite Z. ring.
  - left. destruct (Cinv_exists _ Z) as (w & Hw).
    assert (Ka : a = C1). { transitivity (w * (d * (a * a + b * c) - b * (c * a + d * c)) )%C; [transitivity ((a * d - b * c) * w * a)%C; [rewrite Hw; ring|ring]|]. rewrite Q0, Q2. transitivity ((a * d - b * c) * w)%C; [ring|exact Hw]. }
    assert (Kd : d = C1). { transitivity (w * (a * (c * b + d * d) - c * (a * b + b * d)))%C; [transitivity ((a * d - b * c) * w * d)%C; [rewrite Hw; ring|ring]|]. rewrite Q3, Q1. transitivity ((a * d - b * c) * w)%C; [ring|exact Hw]. }
    assert (Kb : b = C0). { rewrite Ka, Kd in Q1. transitivity (C1 * b + b * C1 - b)%C; [ring|rewrite Q1; ring]. }
    assert (Kc : c = C0). { rewrite Ka, Kd in Q2. transitivity (c * C1 + C1 * c - c)%C; [ring|rewrite Q2; ring]. }
    apply mext; intros i j. destruct (le_lt_dec 2 i) as [Hi|Hi]; [|destruct (le_lt_dec 2 j) as [Hj|Hj]].
    + rewrite D by lia. symmetry. apply (mdim_id 2). lia.
    + rewrite D by lia. symmetry. apply (mdim_id 2). lia.
    + destruct i as [|[|i]]; [| |lia]; destruct j as [|[|j]]; try lia; [exact Ka|exact Kb|exact Kc|exact Kd].
Qed.

(** The lowest mode for A = diag(a, b) with a <= b, B = 1. *)
Definition dg (a b : R) : mat := mdiag 2 (fun i => if (i =? 0)%nat then a else b).
Lemma dg_dim a b : mdim 2 2 (dg a b).
Proof. intros i j H. unfold dg, mdiag. destruct (Nat.ltb_spec i 2), (Nat.eqb_spec i j); cbn [andb]; auto; lia. Qed.
Lemma dg_herm a b : hermitian (dg a b).
Proof.
  apply mext; intros i j. unfold madj, dg, mdiag. destruct (Nat.eqb_spec i j) as [->|N].
  - rewrite Nat.eqb_refl. destruct (j <? 2)%nat; cbn [andb]; apply C_eq; csimp; ring.
  - destruct (Nat.eqb_spec j i); [congruence|]. rewrite !andb_false_r. apply C_eq; csimp; ring.
Qed.
Lemma dg_col p q x y : mmul 2 (dg p q) (col2 x y) = col2 (Cscal p x) (Cscal q y).
Proof. rewrite mmul2 by apply dg_dim. unfold dg, mdiag. cbn [Nat.ltb Nat.leb Nat.eqb andb]. f_equal; apply C_eq; csimp; ring. Qed.
Lemma rq_lowest_dg p q c P Y Y' e : p <= q -> applies 2 1 c P -> mdim 2 2 P -> mmul 2 P P = P -> rq_solver (dg p q) (mid 2) c Y = Some (Val (Y', e)) ->
  exists M', fields 2 1 Y' M' /\ length e = 1%nat /\ lowest 2 1 P (dg p q) (mid 2) M' (fun i => nth i e 0).
Proof.
  intros Hpq Ap DP Id E. destruct (rq_ritz (dg p q) (mid 2) c P Y Y' e (dg_herm p q) (mid_herm 2) Ap DP Id E) as (M' & FM & Le & DM & SM & OM & AM & Asc).
  exists M'. split; [exact FM|]. split; [exact Le|]. split; [exact DM|]. split; [exact SM|]. split; [exact OM|].
  destruct (rq_run (dg p q) (mid 2) c P Y Ap DP) as (x & y & E1 & K). rewrite E1 in E. clear E1. destruct (Rltb_spec 0 (quad2 (mid 2) x y)) as [Pos|]; [|discriminate]. injection E as <- <-.
  destruct FM as (_ & _ & _ & Rp). destruct (rep21 _ _ Rp) as (a & b & r & Ed & Ea & Eb). cbn [mk2 edata] in Ed. injection Ed as <- <- <-.
  set (s := / sqrt (quad2 (mid 2) x y)) in *. assert (Hs : s <> 0) by (unfold s; apply Rinv_neq_0_compat; apply Rgt_not_eq, sqrt_lt_R0, Pos).
  assert (EM : M' = col2 (Cscal s x) (Cscal s y)) by (rewrite (col2_of M' DM), Ea, Eb; reflexivity).
  destruct (idem2 P DP Id) as [PI|Det].
  - subst P. assert (Kx : x = C1 /\ y = C0).
    { destruct K as [(_ & -> & ->)|(Z & _)]; [split; reflexivity|]. exfalso. apply (f_equal re) in Z. revert Z. unfold mid. cbn. lra. }
    destruct Kx as (-> & ->). assert (N1 : quad2 (mid 2) C1 C0 = 1) by (unfold quad2, mid; cbn [Nat.ltb Nat.leb Nat.eqb andb]; csimp; ring).
    assert (s1 : s = 1) by (unfold s; rewrite N1, sqrt_1; field). rewrite s1 in EM.
    assert (EM1 : M' = col2 C1 C0) by (rewrite EM; f_equal; apply C_eq; csimp; ring). assert (N2 : quad2 (dg p q) C1 C0 / quad2 (mid 2) C1 C0 = p).
    { rewrite N1. unfold quad2, dg, mdiag. cbn [Nat.ltb Nat.leb Nat.eqb andb]. csimp. field. }
    rewrite N2 in Asc |- *. split; [|split; [exact Asc|]].
    + intros m X DX _. assert (E2 : mmul 2 (dg p q) M' = mscal p (mmul 2 (mid 2) M')) by (rewrite EM1, dg_col, (mid_l 2 1) by apply col2_dim; apply mext; intros [|[|i]] [|j]; unfold mscal; cbn [col2]; apply C_eq; csimp; ring).
      unfold form. rewrite E2. assert (Em : mdiag 1 (fun i => nth i [p] 0) = mscal p (mid 1)) by (apply mext; intros i j; unfold mdiag, mid, mscal; destruct i as [|i]; cbn; [destruct j; apply C_eq; csimp; ring|apply C_eq; csimp; ring]). rewrite Em, !mmul_scal_r.
      rewrite (mid_r m 1); [reflexivity|]. apply (mdim_mul m 2 1); [apply mdim_adj; exact DX|]. rewrite (mid_l 2 1 M' DM). exact DM.
    + intros i X Hi DX _ OX. assert (i = 0%nat) by lia. subst i. rewrite (col2_of X DX) in *. rewrite EM1 in OX. rewrite !quad2_form by (apply dg_herm || apply mid_herm).
      apply (f_equal (fun f => f 0%nat 0%nat)) in OX. rewrite form2 in OX. set (u := X 0%nat 0%nat) in *. set (v := X 1%nat 0%nat) in *. clearbody u v. cbn [nth]. unfold quad2, dg, mid, mdiag in *. cbn [Nat.ltb Nat.leb Nat.eqb andb] in *.
      destruct u as (u, u'), v as (v, v'). pose proof (Rle_0_sqr v). pose proof (Rle_0_sqr v'). unfold Rsqr in *. csimp. nra.
  - (* the range is one-dimensional *)
    assert (Rg : forall m X, mdim 2 m X -> satisfies 2 P X -> exists k : mat, mdim 1 m k /\ X = mmul 1 M' k).
    { intros m X DX SX. assert (Sc : forall i j, X i j = (P i 0%nat * X 0%nat j + P i 1%nat * X 1%nat j)%C) by (intros i j; transitivity (mmul 2 P X i j); [unfold satisfies in SX; rewrite SX; reflexivity|unfold mmul; cbn [csum]; ring]).
      assert (Sp : exists k : nat -> C, forall j, X 0%nat j = (x * k j)%C /\ X 1%nat j = (y * k j)%C).
      { destruct K as [(Nz & -> & ->)|(Z1 & Z2 & -> & ->)].
        - destruct (C_eq_dec (P 0%nat 0%nat) C0) as [Z|Z].
          + destruct Nz as [Nz|Nz]; [contradiction|]. destruct (Cinv_exists _ Nz) as (w & Hw). exists (fun j => X 0%nat j + P 1%nat 1%nat * w * X 1%nat j)%C.
            assert (Hb : P 0%nat 1%nat = C0). { transitivity (P 0%nat 1%nat * P 1%nat 0%nat * w)%C; [transitivity (P 0%nat 1%nat * (P 1%nat 0%nat * w))%C; [rewrite Hw; ring|ring]|]. rewrite <- Det, Z. ring. }
            intros j. split; [rewrite (Sc 0%nat j), Z, Hb; ring|]. rewrite (Sc 1%nat j) at 1. transitivity (P 1%nat 0%nat * X 0%nat j + P 1%nat 1%nat * (P 1%nat 0%nat * w) * X 1%nat j)%C; [rewrite Hw; ring|ring].
          + destruct (Cinv_exists _ Z) as (w & Hw). exists (fun j => X 0%nat j + P 0%nat 1%nat * w * X 1%nat j)%C. intros j. split; [rewrite (Sc 0%nat j) at 1|rewrite (Sc 1%nat j) at 1].
            * transitivity (P 0%nat 0%nat * X 0%nat j + P 0%nat 1%nat * (P 0%nat 0%nat * w) * X 1%nat j)%C; [rewrite Hw; ring|ring].
            * transitivity (P 1%nat 0%nat * X 0%nat j + (P 0%nat 0%nat * P 1%nat 1%nat) * w * X 1%nat j)%C; [|rewrite Det; ring].
              transitivity (P 1%nat 0%nat * X 0%nat j + (P 0%nat 0%nat * w) * P 1%nat 1%nat * X 1%nat j)%C; [rewrite Hw; ring|ring].
        - exists (X 1%nat). intros j. split; [rewrite (Sc 0%nat j), Z1; ring|rewrite (Sc 1%nat j) at 1; rewrite Z2; ring]. }
      destruct Sp as (k & Hk). exists (fun i j => if ((i <? 1) && (j <? m))%nat then Cscal (/ s) (k j) else C0). split.
      - intros i j H. destruct (Nat.ltb_spec i 1), (Nat.ltb_spec j m); cbn [andb]; try reflexivity. lia.
      - apply mext; intros i j. unfold mmul. cbn [csum]. destruct (Nat.ltb_spec j m) as [Hj|Hj].
        + cbn [Nat.ltb Nat.leb andb]. rewrite EM. destruct (Hk j) as (H0 & H1). destruct i as [|[|i]]; cbn [col2]; [rewrite H0|rewrite H1|rewrite DX by lia; ring]; apply C_eq; csimp; field; exact Hs.
        + rewrite (DX i j) by lia. cbn [Nat.ltb Nat.leb andb]. ring. }
    split; [|split; [exact Asc|]].
    + intros m X DX SX. destruct (Rg m X DX SX) as (k & Dk & ->).
      assert (FA : forall H, form 2 H (mmul 1 M' k) M' = mmul 1 (madj k) (form 2 H M' M')) by (intros H; unfold form; rewrite madj_mul, mmul_assoc; reflexivity).
      rewrite !FA, OM, AM. rewrite (mid_r m 1) by (apply mdim_adj; exact Dk). reflexivity.
    + intros i X Hi DX SX OX. destruct (Rg 1%nat X DX SX) as (k & Dk & ->).
      assert (Zk : k = mzero). { assert (FB : form 2 (mid 2) M' (mmul 1 M' k) = mmul 1 (form 2 (mid 2) M' M') k) by (unfold form; rewrite <- !mmul_assoc; reflexivity). rewrite FB, OM, (mid_l 1 1 k Dk) in OX. exact OX. }
      rewrite Zk, mmul_zero_r. assert (Z : forall H, form 2 H mzero mzero = mzero) by (intros H; unfold form; rewrite madj_zero; apply mmul_zero_l). rewrite !Z. unfold mzero. cbn. lra.
Qed.
Lemma rq_lowest c P Y Y' e : applies 2 1 c P -> mdim 2 2 P -> mmul 2 P P = P -> rq_solver exA (mid 2) c Y = Some (Val (Y', e)) ->
  exists M', fields 2 1 Y' M' /\ length e = 1%nat /\ lowest 2 1 P exA (mid 2) M' (fun i => nth i e 0).
Proof. apply (rq_lowest_dg 1 3). lra. Qed.

(** * A permeability that is a matrix *)
Definition mat_muinv (n : nat) (B : mat) (H b : emat C) : outcome (emat C) :=
  let p := Z.to_nat (ep b) in
  Val (set_data b (map (fun t => if (t <? n * p)%nat then csum n (fun k => (B (t / p)%nat k * nth (k * Z.to_nat (ep H) + t mod p) (edata H) C0)%C) else nth t (edata b) C0) (seq 0 (length (edata b))))).
Lemma mat_muinv_ok n B m p H M b N : mdim n n B -> (1 <= p <= m)%nat -> fields n m H M -> fields n p b N ->
  exists b', mat_muinv n B H b = Val b' /\ ealloc b' = ealloc b /\ fields n p b' (slice 0 p (mmul n B M)).
Proof.
  intros DB Hp HH Hb. eexists. split; [reflexivity|]. split; [reflexivity|]. assert (DM : mdim n m M) by apply (fields_dim _ _ _ _ HH). pose proof Hb as (N1 & N2 & N3 & Rb). pose proof HH as (M1 & M2 & M3 & RH).
  apply (fields_set n p b N); [exact Hb|rewrite map_length, seq_length; reflexivity|]. destruct Rb as (Lb & _). destruct RH as (LH & _ & EH).
  split; [rewrite map_length, seq_length; exact Lb|]. split; [apply (slice_dim n m), (mdim_mul n n m); auto|].
  intros i j Hi Hj. rewrite N2, M2, !Nat2Z.id. set (t := (i * p + j)%nat).
  assert (Ht : (t < n * p)%nat) by (unfold t; nia). assert (Dt : (t / p = i)%nat) by (unfold t; rewrite (Nat.mul_comm i p), (Nat.mul_comm p i), Nat.div_add_l, (Nat.div_small j p) by lia; lia).
  assert (Mt : (t mod p = j)%nat) by (unfold t; rewrite Nat.add_comm, Nat.mod_add, Nat.mod_small by lia; reflexivity).
  match goal with |- context [map ?g _] => set (G := g) end. rewrite (nth_indep _ C0 (G 0%nat)) by (rewrite map_length, seq_length; lia).
  rewrite map_nth, seq_nth by lia. unfold G. cbn [Nat.add]. destruct (Nat.ltb_spec t (n * p)); [|lia]. rewrite Dt, Mt. unfold slice. destruct (Nat.ltb_spec j p); [|lia]. cbn [Nat.add]. unfold mmul. apply csum_ext; intros k Hk. rewrite EH by lia. reflexivity.
Qed.

(** * The run *)
Lemma kxB_dim b : mdim 2 2 (kxB b).
Proof. intros [|[|i]] [|[|j]] H; try reflexivity; lia. Qed.
Lemma kxB_herm b : hermitian (kxB b).
Proof. apply mext; intros [|[|i]] [|[|j]]; unfold madj; cbn [kxB]; apply C_eq; csimp; ring. Qed.
Lemma kxB_0 : kxB 0 = mid 2.
Proof. apply mext; intros [|[|i]] [|[|j]]; unfold mid; cbn; reflexivity. Qed.
Lemma id_applies n q : applies n q (fun X => Val X) (mid n).
Proof. intros X M HX. exists X. split; [reflexivity|]. rewrite (mid_l n q M (fields_dim _ _ _ _ HX)). exact HX. Qed.
Lemma kx_ok b : kpoint_ok 2 2 (fun X => Val X) false (mat_muinv 2 (kxB b)) exA (kxB b) (mid 2).
Proof.
  constructor; [apply exA_dim|apply kxB_dim|apply mdim_id|apply exA_herm|apply kxB_herm| |apply (mid_l 2 2), mdim_id|apply mid_herm| |].
  - intros q _. exact (id_applies 2 q).
  - rewrite (mid_l 2 2), (mid_r 2 2) by apply kxB_dim. reflexivity.
  - intros. apply (mat_muinv_ok 2 (kxB b) m p H M b0 N); auto. apply kxB_dim.
Qed.
Definition kx_H : emat C := {| en := 2; ep := 2; ealloc := 2; edata := [C1; C1; C1; C0] |}.
Definition kx_blk : emat C := {| en := 2; ep := 1; ealloc := 1; edata := [C0; C0] |}.
Lemma kx_arrays : arrays 2 2 1 0 (mid 2) false [C0; C0] [0; 0] kx_H kx_blk None.
Proof.
  split; [exists (fun i j => if ((i <? 2) && (j <? 2))%nat then nth (i * 2 + j) (edata kx_H) C0 else C0)|].
  { split; [reflexivity|]. split; [reflexivity|]. split; [unfold wf; cbn; lia|]. split; [cbn; lia|]. split.
    - intros i j H. destruct (Nat.ltb_spec i 2), (Nat.ltb_spec j 2); cbn [andb]; try reflexivity; lia.
    - intros i j Hi Hj. destruct (Nat.ltb_spec i 2), (Nat.ltb_spec j 2); try lia. reflexivity. }
  split; [reflexivity|]. split; [lia|]. split; [unfold wf; cbn; lia|]. split; [reflexivity|]. split; [reflexivity|]. split; [split; [discriminate|lia]|]. split; [right; reflexivity|]. split; [cbn; lia|reflexivity].
Qed.

(** Without an array for it the permeability is not used. *)
Lemma no_mu pc mu1 mu2 solver same zk b0 S2 l : forall s, k_BY s = None -> solve_loop pc mu1 solver same zk b0 S2 l s = solve_loop pc mu2 solver same zk b0 S2 l s.
Proof.
  induction l as [|(ib, q) l IH]; intros s Hs; [reflexivity|]. cbn [solve_loop].
  assert (E : solve_block pc mu1 solver same zk b0 S2 s (ib, q) = solve_block pc mu2 solver same zk b0 S2 s (ib, q)) by (unfold solve_block, add_deflation; rewrite Hs; reflexivity).
  rewrite E. destruct (solve_block pc mu2 solver same zk b0 S2 s (ib, q)) as [[s'| | |]|] eqn:Eb; try reflexivity. apply IH.
  clear E. unfold solve_block, add_deflation in Eb. rewrite Hs in Eb. destruct same.
  - destruct (solver _ _) as [[(Y, e)| | |]|]; try discriminate. injection Eb as Eb. cbn [bind] in Eb. destruct (block_save _ _ _); try discriminate. cbn [bind] in Eb. destruct (put_values _ _ _ _); try discriminate. cbn [bind] in Eb. injection Eb as <-. reflexivity.
  - destruct (evectmatrix_resize _ _ _) as [Hb| | |]; cbn [bind] in Eb; try discriminate. destruct (block_load _ _ _) as [Hb1| | |]; cbn [bind] in Eb; try discriminate.
    destruct (0 <? ib - b0)%Z; cbn [bind] in Eb; (destruct (solver _ _) as [[(Y, e)| | |]|]; try discriminate; injection Eb as Eb; cbn [bind] in Eb; destruct (block_save _ _ _); try discriminate; cbn [bind] in Eb; destruct (put_values _ _ _ _); try discriminate; cbn [bind] in Eb; injection Eb as <-; reflexivity).
Qed.

Definition rq_good (A B : mat) (q : nat) (P M : mat) (e : nat -> R) : Prop := q = 1%nat /\ exists x y,
  ((P 0%nat 0%nat <> C0 \/ P 1%nat 0%nat <> C0) /\ x = P 0%nat 0%nat /\ y = P 1%nat 0%nat \/ P 0%nat 0%nat = C0 /\ P 1%nat 0%nat = C0 /\ x = P 0%nat 1%nat /\ y = P 1%nat 1%nat) /\
  M = col2 (Cscal (/ sqrt (quad2 B x y)) x) (Cscal (/ sqrt (quad2 B x y)) y) /\ e 0%nat = quad2 A x y / quad2 B x y.
Lemma rq_finds_good A B : solver_finds (rq_good A B) 2 1 (rq_solver A B).
Proof.
  intros q c P Y M Y' e Hq Ap DP Id HY E. assert (q = 1%nat) by lia. subst q. destruct (rq_run A B c P Y Ap DP) as (x & y & E1 & K). rewrite E1 in E. destruct (Rltb 0 _); [|discriminate]. injection E as <- <-.
  eexists. split; [apply mk2_fields|]. split; [reflexivity|]. split; [reflexivity|]. exists x, y. auto.
Qed.
Lemma rq_finds A B : hermitian A -> hermitian B -> solver_finds (fun q P M e => ritz_fields 2 q P A B M e) 2 1 (rq_solver A B).
Proof. intros HA HB q c P Y M Y' e Hq Ap DP Id HY E. assert (q = 1%nat) by lia. subst q. apply (rq_ritz A B c P Y Y' e); auto. Qed.
Lemma rq_exact : solver_finds (fun q P M e => lowest 2 q P exA (mid 2) M e) 2 1 (rq_solver exA (mid 2)).
Proof. intros q c P Y M Y' e Hq Ap DP Id HY E. assert (q = 1%nat) by lia. subst q. apply (rq_lowest c P Y Y' e); auto. Qed.
Lemma rq_safe A B : solver_safe 2 1 (rq_solver A B).
Proof. intros q c P Y M Hq Ap DP Id HY. assert (q = 1%nat) by lia. subst q. destruct (rq_run A B c P Y Ap DP) as (x & y & -> & _). destruct (Rltb _ _); discriminate. Qed.

Lemma kx_loop b : exists s', solve_loop (fun X => Val X) (mat_muinv 2 (kxB b)) (rq_solver exA (kxB b)) false false 0 [C0; C0] [(0%Z, 1%Z); (1%Z, 1%Z)] {| k_H := kx_H; k_blk := kx_blk; k_BY := None; k_ev := [0; 0] |} = Some (Val s') /\
  fields 2 2 (k_H s') (mid 2) /\ k_ev s' = [1; 3].
Proof.
  rewrite (no_mu _ _ (mat_muinv 2 (mid 2))) by reflexivity. pose proof (kx_ok 0) as Ok. rewrite kxB_0 in Ok. pose proof kx_arrays as ((M0 & F0) & A0 & _ & Wb & Nb & Ab & Hs & HB & HS & Lv).
  set (s0 := {| k_H := kx_H; k_blk := kx_blk; k_BY := None; k_ev := [0; 0] |}).
  assert (St0 : st_ok 2 2 1 0 false (mid 2) s0 M0) by (repeat (split; [assumption|]); reflexivity).
  assert (Step : forall s M d, st_ok 2 2 1 0 false (mid 2) s M -> (d + 1 <= 2)%nat -> satisfies 2 (mid 2) (slice 0 d M) -> form 2 (mid 2) (slice 0 d M) (slice 0 d M) = mid d ->
     (forall x y, ((dproj 2 d (mid 2) (mid 2) (slice 0 d M) 0%nat 0%nat <> C0 \/ dproj 2 d (mid 2) (mid 2) (slice 0 d M) 1%nat 0%nat <> C0) /\ x = dproj 2 d (mid 2) (mid 2) (slice 0 d M) 0%nat 0%nat /\ y = dproj 2 d (mid 2) (mid 2) (slice 0 d M) 1%nat 0%nat \/
        dproj 2 d (mid 2) (mid 2) (slice 0 d M) 0%nat 0%nat = C0 /\ dproj 2 d (mid 2) (mid 2) (slice 0 d M) 1%nat 0%nat = C0 /\ x = dproj 2 d (mid 2) (mid 2) (slice 0 d M) 0%nat 1%nat /\ y = dproj 2 d (mid 2) (mid 2) (slice 0 d M) 1%nat 1%nat) ->
        x = (if (d =? 0)%nat then C1 else C0) /\ y = (if (d =? 0)%nat then C0 else C1)) ->
     exists s' M', solve_block (fun X => Val X) (mat_muinv 2 (mid 2)) (rq_solver exA (kxB b)) false false 0 [C0; C0] s (Z.of_nat d, 1%Z) = Some (Val s') /\ st_ok 2 2 1 0 false (mid 2) s' M' /\
       slice 0 d M' = slice 0 d M /\ slice d 1 M' = (if (d =? 0)%nat then col2 C1 C0 else col2 C0 C1) /\ nth d (k_ev s') 0 = (if (d =? 0)%nat then 1 else 3) /\ (forall i, (i < d)%nat -> nth i (k_ev s') 0 = nth i (k_ev s) 0)).
  { intros s M d St Hd SY OY Un.
    assert (Qd : quad2 (kxB b) (if (d =? 0)%nat then C1 else C0) (if (d =? 0)%nat then C0 else C1) = 1) by (destruct (d =? 0)%nat; unfold quad2; cbn [kxB]; csimp; ring).
    assert (Qa : quad2 exA (if (d =? 0)%nat then C1 else C0) (if (d =? 0)%nat then C0 else C1) = if (d =? 0)%nat then 1 else 3) by (destruct (d =? 0)%nat; unfold quad2, exA, mdiag; cbn [Nat.ltb Nat.leb Nat.eqb andb]; csimp; ring).
    destruct (solve_block _ _ _ _ _ _ _ s (Z.of_nat d, 1%Z)) as [r|] eqn:Eb.
    - destruct (block_step 2 2 1 0 (fun X => Val X) false false (mat_muinv 2 (mid 2)) (rq_solver exA (kxB b)) exA (mid 2) (mid 2) [C0; C0] _ Ok ltac:(lia) ltac:(lia) ltac:(cbn; lia) Hs (rq_finds_good exA (kxB b)) s M d 1%nat r St ltac:(lia) Hd ltac:(discriminate) SY OY Eb)
        as [(s' & M' & Mq & e & -> & St' & E0 & E1 & (_ & x & y & K & EM & Ee) & V1 & V2)|(l & X & r0 & Ap & FX & Er & Cs)].
      + exists s', M'. destruct (Un x y K) as (Ex & Ey). rewrite Ex, Ey, Qd in EM, Ee. rewrite Qa in Ee. split; [reflexivity|]. split; [exact St'|]. split; [exact E0|]. split; [|split].
        * rewrite E1, EM, sqrt_1. destruct (d =? 0)%nat; f_equal; apply C_eq; csimp; field.
        * specialize (V1 0%nat ltac:(lia)). rewrite Nat.add_0_r in V1. cbn [Nat.add] in V1. rewrite V1, Ee. field.
        * intros i Hi. apply V2. exact Hi.
      + exfalso. destruct (rq_run exA (kxB b) _ _ X Ap) as (x & y & E1 & K); [apply dproj_dim; [apply mdim_id|apply mdim_id|apply (slice_dim 2 2), (fields_dim _ _ _ _ (proj1 St))|exact SY]|]. destruct (Un x y K) as (Ex & Ey). rewrite Ex, Ey, Qd in E1.
        destruct (Rltb_spec 0 1); [|lra]. rewrite E1 in Er. injection Er as <-. exact Cs.
    - exfalso. unfold solve_block in Eb. cbv iota in Eb. destruct (let! Hb := _ in _) as [(((X, Hb), l), BY)| | |]; try discriminate Eb. }
  assert (D0 : mdim 2 2 M0) by apply (fields_dim _ _ _ _ F0).
  assert (P0 : dproj 2 0 (mid 2) (mid 2) (slice 0 0 M0) = mid 2).
  { apply mext; intros i j. unfold dproj, yyb, slice, msub, madd, mscal, mmul, madj, mid. cbn [csum]. destruct i as [|[|i]], j as [|[|j]]; cbn; apply C_eq; csimp; try ring; destruct (_ =? _)%nat; csimp; ring. }
  destruct (Step s0 M0 0%nat St0 ltac:(lia)) as (s1 & M1 & E1 & St1 & _ & C1' & V1 & _).
  { unfold satisfies. apply (mid_l 2 0). apply (slice_dim 2 2). exact D0. }
  { apply mext; intros i j. rewrite form_slice. destruct (Nat.ltb_spec i 0), (Nat.ltb_spec j 0); try lia. cbn [andb]. symmetry. apply (mdim_id 0). lia. }
  { rewrite P0. intros x y [(_ & -> & ->)|(Z & _)]; [split; reflexivity|]. exfalso. apply (f_equal re) in Z. revert Z. unfold mid. cbn. lra. }
  cbn [solve_loop]. change (Z.of_nat 0) with 0%Z in E1. rewrite E1. cbn [Nat.eqb] in C1', V1.
  assert (D1 : mdim 2 2 M1) by apply (fields_dim _ _ _ _ (proj1 St1)).
  assert (P1 : dproj 2 1 (mid 2) (mid 2) (slice 0 1 M1) = fun i j => if ((i =? 1) && (j =? 1))%nat then C1 else C0).
  { rewrite C1'. apply mext; intros i j. unfold dproj, yyb, msub, madd, mscal, mmul, madj, mid. cbn [csum]. destruct i as [|[|i]], j as [|[|j]]; cbn; apply C_eq; csimp; try ring. }
  destruct (Step s1 M1 1%nat St1 ltac:(lia)) as (s2 & M2 & E2 & St2 & C2 & C3 & V2 & V3).
  { unfold satisfies. apply (mid_l 2 1). apply (slice_dim 2 2). exact D1. }
  { rewrite C1'. apply dim1; [apply form_dim; [apply mdim_id|apply col2_dim|apply col2_dim]|apply mdim_id|]. rewrite form2. unfold mid. cbn. apply C_eq; csimp; ring. }
  { rewrite P1. cbn. intros x y [([Z|Z] & _)|(_ & _ & -> & ->)]; [exfalso; apply Z; reflexivity..|split; reflexivity]. }
  change (Z.of_nat 1) with 1%Z in E2. rewrite E2. exists s2. split; [reflexivity|]. cbn [Nat.eqb] in C3, V2.
  assert (D2 : mdim 2 2 M2) by apply (fields_dim _ _ _ _ (proj1 St2)).
  split.
  - assert (M2 = mid 2) as <-; [|apply (proj1 St2)]. rewrite C1' in C2. apply mext; intros i j. destruct (le_lt_dec 2 j) as [Hj|Hj]; [rewrite D2, (mdim_id 2) by lia; reflexivity|].
    destruct j as [|[|j]]; [| |lia].
    + pose proof (f_equal (fun f => f i 0%nat) C2) as Q. unfold slice in Q. cbn in Q. rewrite Q. destruct i as [|[|i]]; reflexivity.
    + pose proof (f_equal (fun f => f i 0%nat) C3) as Q. unfold slice in Q. cbn in Q. rewrite Q. destruct i as [|[|i]]; reflexivity.
  - destruct St2 as (_ & _ & _ & _ & _ & _ & L2). specialize (V3 0%nat ltac:(lia)). rewrite V1 in V3. destruct (k_ev s2) as [|a [|c [|? ?]]]; try discriminate L2. cbn in V2, V3. congruence.
Qed.
Lemma kx_run b : exists H', solve_kpoint (fun X => Val X) (mat_muinv 2 (kxB b)) (rq_solver exA (kxB b)) 2 false false false 0 2 [C0; C0] [0; 0] kx_H kx_blk None = Some (Val (H', [1; sqrt 3])) /\ fields 2 2 H' (mid 2).
Proof.
  destruct (kx_loop b) as (s' & E & F & Ev). exists (k_H s'). split; [|exact F]. unfold solve_kpoint. change (solver_blocks 2 0 (ealloc kx_blk) 2 (ealloc kx_blk)) with (Some [(0%Z, 1%Z); (1%Z, 1%Z)]). cbv beta iota. rewrite E. cbv beta iota. cbn [bind]. rewrite Ev. cbv -[Rltb sqrt Rplus Rmult Rinv IZR]. 
  destruct (Rltb_spec 1 0) as [K|K]; [lra|]. destruct (Rltb_spec 3 0); [lra|]. rewrite sqrt_1. reflexivity.
Qed.
