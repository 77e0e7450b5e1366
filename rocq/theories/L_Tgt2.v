(** Nearest values; exact modes; the invariants of the loop. *)
From Coq Require Import List ZArith Reals Bool Arith Lia Lra Psatz Classical.
From Verif Require Import Base RC Loops M_Evect M_Lin M_Eig M_Kpt M_Tgt S_Evect S_Eig S_Kpt S_Tgt L_Evect L_Mat L_Eig L_Eig2 L_Eig4 L_Eig5 L_Eig7 L_Eig13 L_Kpt1 L_Kpt2 L_Kpt3 L_Kpt5 L_Tgt1.
Import ListNotations.
Local Open Scope R_scope.
Add Ring Cring_tg2 : C_ring_theory.

Definition col (j : nat) (M : mat) : mat := slice j 1 M.
Lemma col_dim n m j M : mdim n m M -> mdim n 1 (col j M).
Proof. apply slice_dim. Qed.
Lemma form_col n A i j M N : form n A (col i M) (col j N) 0%nat 0%nat = form n A M N i j.
Proof. unfold col. rewrite form_slice. cbn. rewrite !Nat.add_0_r. reflexivity. Qed.

(** |X|^2, for one column. *)
Lemma nrm_gram n X : nrm n X = re (mmul n (madj X) X 0%nat 0%nat).
Proof. unfold nrm, mmul, madj. rewrite csum_re. apply rsum_ext. intros i _. rewrite normsqr_conj. reflexivity. Qed.
Lemma nrm_form n X : mdim n 1 X -> nrm n X = re (form n (mid n) X X 0%nat 0%nat).
Proof. intros D. unfold form. rewrite (mid_l n 1 X D). apply nrm_gram. Qed.
Lemma nrm_pos n X : 0 <= nrm n X.
Proof. apply RC.rsum_nonneg. intros i _. apply normsqr_nonneg. Qed.
Lemma nrm_zero n X : mdim n 1 X -> nrm n X = 0 -> X = mzero.
Proof.
  intros D E. destruct (classic (X = mzero)) as [|N]; [assumption|]. exfalso. destruct (mat_nonzero n X D N) as (i & Hi & Nz).
  assert (normsqr (X i 0%nat) <= nrm n X) by (apply (rsum_le_one n (fun k => normsqr (X k 0%nat))); [intros k _; apply normsqr_nonneg|exact Hi]).
  pose proof (RC.normsqr_pos (X i 0%nat)). assert (0 < normsqr (X i 0%nat)) by auto. lra.
Qed.
(** The form of (A - t)^2 is the norm of (A - t) X. *)
Lemma sq_form n A t X : hermitian A -> form n (square_shift n A t) X X = mmul n (madj (mmul n (shift n A t) X)) (mmul n (shift n A t) X).
Proof. intros H. unfold form, square_shift. rewrite madj_mul, (shift_herm n A t H), !mmul_assoc. reflexivity. Qed.
Lemma mode_sq n P A t X mu : hermitian A -> mode n P A X mu -> re (form n (square_shift n A t) X X 0%nat 0%nat) = (mu - t) * (mu - t) * re (form n (mid n) X X 0%nat 0%nat).
Proof.
  intros H (D & _ & _ & E). rewrite (sq_form n A t X H), (shift_mul n 1 A t X D), E.
  replace (madd (mscal mu X) (mscal (- t) X)) with (mscal (mu - t) X) by (apply mext; intros; unfold madd, mscal; apply C_eq; csimp; ring).
  rewrite madj_scal, mmul_scal_l, mmul_scal_r. unfold form. rewrite (mid_l n 1 X D). unfold mscal. csimp. ring.
Qed.
(** The distance of a quotient from t is at most that of the squared operator. *)
Lemma quotient_sq n A t X w : mdim n n A -> hermitian A -> mdim n 1 X -> re (form n (mid n) X X 0%nat 0%nat) = 1 -> re (form n A X X 0%nat 0%nat) = w ->
  (w - t) * (w - t) <= re (form n (square_shift n A t) X X 0%nat 0%nat).
Proof.
  intros DA H D N W. rewrite (sq_form n A t X H), (shift_mul n 1 A t X D). set (Z := madd (mmul n A X) (mscal (- t) X)).
  pose proof (nrm_pos n (madd Z (mscal (- (w - t)) X))) as Q. rewrite nrm_gram in Q.
  assert (N' : re (mmul n (madj X) X 0%nat 0%nat) = 1) by (rewrite <- N; unfold form; rewrite (mid_l n 1 X D); reflexivity).
  assert (W1 : re (mmul n (madj X) (mmul n A X) 0%nat 0%nat) = w) by exact W.
  assert (W2 : re (mmul n (madj (mmul n A X)) X 0%nat 0%nat) = w) by (rewrite madj_mul, H, mmul_assoc; exact W).
  unfold Z in *. rewrite !madj_add, !madj_scal in *. repeat rewrite ?mmul_add_l, ?mmul_add_r, ?mmul_scal_l, ?mmul_scal_r in Q. repeat rewrite ?mmul_add_l, ?mmul_add_r, ?mmul_scal_l, ?mmul_scal_r.
  unfold madd, mscal in *. revert Q. csimp.
  set (aa := re (mmul n (madj (mmul n A X)) (mmul n A X) 0%nat 0%nat)) in *. set (ab := re (mmul n (madj (mmul n A X)) X 0%nat 0%nat)) in *. set (ba := re (mmul n (madj X) (mmul n A X) 0%nat 0%nat)) in *. set (bb := re (mmul n (madj X) X 0%nat 0%nat)) in *.
  intros Q. rewrite W2, W1, N' in *. nra.
Qed.
Lemma sq_abs x y : x * x <= y * y -> Rabs x <= Rabs y.
Proof. intros H. apply Rsqr_le_abs_0. unfold Rsqr. exact H. Qed.

(** Fields that are unitary combinations of the lowest modes of (A - t)^2 are nearest to t. *)
Definition combined (d : nat) (M N T : mat) : Prop := unitary d T /\ M = mmul d N T.
Lemma near_ok n d P A t M N T e w : mdim n n A -> hermitian A -> combined d M N T -> lowest n d P (square_shift n A t) (mid n) N e -> (forall i, (i < d)%nat -> re (form n A M M i i) = w i) ->
  form n (mid n) M M = mid d -> forall i X mu, (i < d)%nat -> mode n P A X mu -> apart n M X -> Rabs (w i - t) <= Rabs (mu - t).
Proof.
  intros DA HA ((DT & U1 & U2) & EM) L W OM i X mu Hi Mo Ap. pose proof L as (DN & _). pose proof (lowest_ritz _ _ _ _ _ _ _ L) as (_ & _ & ON & FN & _). destruct L as (_ & _ & _ & _ & _ & Lo).
  pose proof Mo as (DX & SX & Nz & _).
  assert (Bd : forall j, (j < d)%nat -> e j <= (mu - t) * (mu - t)).
  { intros j Hj. assert (Z : form n (mid n) N X = (fun _ _ => C0)).
    { unfold form. rewrite (mid_l n 1 X DX). rewrite <- (mid_l d 1 (mmul n (madj N) X)) by (apply (mdim_mul d n 1); [apply mdim_adj; exact DN|exact DX]). rewrite <- U1, mmul_assoc, <- (mmul_assoc d n (madj T)), <- madj_mul, <- EM.
      unfold apart in Ap. rewrite Ap. apply mmul_zero_r. }
    pose proof (Lo j X Hj DX SX Z) as Q. rewrite (mode_sq n P A t X mu HA Mo) in Q. assert (0 < re (form n (mid n) X X 0%nat 0%nat)).
    { rewrite <- (nrm_form n X DX). pose proof (nrm_pos n X) as [|E]; [assumption|]. exfalso. apply Nz. apply (nrm_zero n X DX). symmetry. exact E. }
    nra. }
  apply sq_abs. assert (DM : mdim n d M) by (rewrite EM; apply (mdim_mul n d d); auto).
  eapply Rle_trans.
  - apply (quotient_sq n A t (col i M) (w i) DA HA (col_dim n d i M DM)); [rewrite form_col, OM|rewrite form_col; apply W; exact Hi].
    unfold mid. destruct (Nat.ltb_spec i d); [|lia]. rewrite Nat.eqb_refl. reflexivity.
  - assert (EC : col i M = mmul d N (col i T)) by (rewrite EM; unfold col; rewrite mmul_slice; reflexivity).
    rewrite EC, form_span, FN. fold (form d (mdiag d e) (col i T) (col i T)). rewrite diag_quad.
    apply Rle_trans with (rsum d (fun j => (mu - t) * (mu - t) * normsqr (col i T j 0%nat))).
    + apply rsum_le. intros j Hj. pose proof (Bd j Hj). pose proof (normsqr_nonneg (col i T j 0%nat)). nra.
    + rewrite rsum_scal. assert (E1 : rsum d (fun j => normsqr (col i T j 0%nat)) = 1); [|rewrite E1; lra].
      transitivity (re (mmul d (madj (col i T)) (col i T) 0%nat 0%nat)).
      * unfold mmul, madj. rewrite csum_re. apply rsum_ext. intros j _. rewrite normsqr_conj. reflexivity.
      * transitivity (re (mmul d (madj T) T i i)); [unfold mmul, madj, col, slice; cbn; rewrite !Nat.add_0_r; reflexivity|]. rewrite U2. unfold mid. destruct (Nat.ltb_spec i d); [|lia]. rewrite Nat.eqb_refl. reflexivity.
Qed.

(** ** Exact modes *)
(** Lowest modes are exact if A commutes with the constraint. *)
Lemma lowest_exact n d P A N e : mdim n n A -> mdim n n P -> hermitian A -> hermitian P -> mmul n P P = P -> mmul n P A = mmul n A P -> lowest n d P A (mid n) N e -> mmul n A N = mmul d N (mdiag d e).
Proof.
  intros DA DP HA HP Id Cm (DN & SN & _ & St & _). specialize (St n P DP Id). unfold form in St. rewrite (mid_l n d N DN), HP, <- mmul_assoc, Cm, mmul_assoc, SN in St. exact St.
Qed.
Lemma eigen_split n P A t s X : mdim n n A -> hermitian A -> mmul n P A = mmul n A P -> no_tie n P A t -> mdim n 1 X -> satisfies n P X -> mmul n (square_shift n A t) X = mscal (s * s) X ->
  exists a, mmul n A X = mscal a X.
Proof.
  intros DA HA Cm Nt DX SX E. set (B := shift n A t) in *. assert (DB : mdim n n B) by (apply shift_dim; exact DA).
  assert (E2 : mmul n B (mmul n B X) = mscal (s * s) X) by (rewrite <- mmul_assoc; exact E).
  assert (SA : forall Y, satisfies n P Y -> satisfies n P (mmul n A Y)) by (intros Y SY; unfold satisfies in *; rewrite <- mmul_assoc, Cm, mmul_assoc, SY; reflexivity).
  assert (AB : mmul n A X = madd (mmul n B X) (mscal t X)) by (unfold B; rewrite (shift_mul n 1 A t X DX); apply mext; intros; unfold madd, mscal; apply C_eq; csimp; ring).
  set (Y r := madd (mmul n B X) (mscal r X)).
  assert (DY : forall r, mdim n 1 (Y r)) by (intros r; apply mdim_add; [apply (mdim_mul n n 1); auto|apply mdim_scal; exact DX]).
  assert (EY : forall r, Y r = madd (mmul n A X) (mscal (r - t) X)) by (intros r; unfold Y; rewrite AB; apply mext; intros; unfold madd, mscal; apply C_eq; csimp; ring).
  assert (SY : forall r, satisfies n P (Y r)).
  { intros r. rewrite EY. unfold satisfies. rewrite mmul_add_r, mmul_scal_r. rewrite (SA X SX), SX. reflexivity. }
  assert (BY : forall r, r * r = s * s -> mmul n A (Y r) = mscal (t + r) (Y r)).
  { intros r Hr. transitivity (madd (mmul n B (Y r)) (mscal t (Y r))).
    - unfold B. rewrite (shift_mul n 1 A t (Y r) (DY r)). apply mext; intros; unfold madd, mscal; apply C_eq; csimp; ring.
    - unfold Y at 1. rewrite mmul_add_r, mmul_scal_r, E2, <- Hr. unfold Y. apply mext; intros; unfold madd, mscal; apply C_eq; csimp; ring. }
  assert (Fin : forall r, Y r = mzero -> mmul n A X = mscal (t - r) X).
  { intros r Z. rewrite EY in Z. apply mext; intros i j. pose proof (f_equal (fun F : mat => F i j) Z) as Q. cbv beta in Q. unfold madd, mscal, mzero in *. destruct (mmul n A X i j), (X i j). revert Q. csimp. intros Q. injection Q as Q1 Q2. apply C_eq; csimp; lra. }
  destruct (classic (Y s = mzero)) as [Z|N1]; [eexists; apply (Fin _ Z)|]. destruct (classic (Y (- s) = mzero)) as [Z|N2]; [eexists; apply (Fin _ Z)|]. exfalso.
  assert (M1 : mode n P A (Y s) (t + s)) by (split; [apply DY|split; [apply SY|split; [exact N1|apply BY; ring]]]).
  assert (M2 : mode n P A (Y (- s)) (t + - s)) by (split; [apply DY|split; [apply SY|split; [exact N2|apply BY; ring]]]).
  assert (s = 0) by (pose proof (Nt _ _ _ _ M1 M2 ltac:(ring)); lra). subst s.
  apply N1. apply (nrm_zero n (Y 0) (DY 0)). rewrite nrm_gram. assert (EB : Y 0 = mmul n B X) by (unfold Y; apply mext; intros; unfold madd, mscal; apply C_eq; csimp; ring). rewrite EB.
  rewrite madj_mul, (shift_herm n A t HA : madj B = B), mmul_assoc, E2, mmul_scal_r. unfold mscal. csimp. ring.
Qed.
Lemma mmul_diag_r d N a i j : mmul d N (mdiag d a) i j = if (j <? d)%nat then (N i j * RtoC (a j))%C else C0.
Proof.
  unfold mmul, mdiag. destruct (Nat.ltb_spec j d) as [Hj|Hj].
  - rewrite (csum_single d j); [|exact Hj|].
    + rewrite Nat.eqb_refl. destruct (Nat.ltb_spec j d); [reflexivity|lia].
    + intros k _ Nk. destruct (Nat.eqb_spec k j); [congruence|]. rewrite andb_false_r. ring.
  - rewrite (csum_ext d _ (fun _ => C0)); [apply csum_0|]. intros k Hk. destruct (Nat.eqb_spec k j); [lia|]. rewrite andb_false_r. ring.
Qed.
Lemma cols_diag n d A N : mdim n d N -> (forall j, (j < d)%nat -> exists a, mmul n A (col j N) = mscal a (col j N)) -> exists a : nat -> R, mmul n A N = mmul d N (mdiag d a).
Proof.
  intros DN H. assert (Ch : exists a : nat -> R, forall j, (j < d)%nat -> mmul n A (col j N) = mscal (a j) (col j N)).
  { clear DN. induction d as [|d IH]; [exists (fun _ => 0); intros; lia|]. destruct IH as (a & Ha); [intros; apply H; lia|]. destruct (H d ltac:(lia)) as (b & Hb).
    exists (fun j => if (j =? d)%nat then b else a j). intros j Hj. destruct (Nat.eqb_spec j d) as [->|]; [exact Hb|apply Ha; lia]. }
  destruct Ch as (a & Ha). exists a. apply mext; intros i j. rewrite mmul_diag_r. destruct (Nat.ltb_spec j d) as [Hj|Hj].
  - pose proof (f_equal (fun F : mat => F i 0%nat) (Ha j Hj)) as Q. cbv beta in Q. unfold col in Q. rewrite mmul_slice in Q. unfold slice, mscal in Q. cbn in Q. rewrite Nat.add_0_r in Q. rewrite Q. apply C_eq; csimp; ring.
  - unfold mmul. rewrite (csum_ext n _ (fun _ => C0)); [apply csum_0|]. intros k _. rewrite DN by lia. ring.
Qed.
(** Fields that diagonalize A and are unitary combinations of exact modes are exact modes. *)
Lemma rotate_exact n d A M N T a w : mdim n d N -> combined d M N T -> form n (mid n) N N = mid d -> mmul n A N = mmul d N (mdiag d a) -> form n A M M = mdiag d w -> mmul n A M = mmul d M (mdiag d w).
Proof.
  intros DN ((DT & U1 & U2) & EM) ON EN FM. assert (ON' : mmul n (madj N) N = mid d) by (unfold form in ON; rewrite (mid_l n d N DN) in ON; exact ON).
  assert (EA : mmul d (mdiag d a) T = mmul d T (mdiag d w)).
  { rewrite <- FM, EM, form_span. unfold form. rewrite EN. rewrite <- (mmul_assoc n d (madj N)), ON', (mid_l d d (mdiag d a) (diag_dim d a)).
    rewrite <- (mmul_assoc d d T (madj T)), U1. symmetry. apply (mid_l d d). apply (mdim_mul d d d); [apply diag_dim|exact DT]. }
  rewrite EM at 1. rewrite <- mmul_assoc, EN, mmul_assoc, EA, <- mmul_assoc, <- EM. reflexivity.
Qed.

(** * The invariants *)
Section Inv.
Variables (n num bs : nat) (parity_c : emat C -> outcome (emat C)) (zero_k : bool) (muinv : emat C -> emat C -> outcome (emat C)) (A P0 : mat) (t : R).
Hypothesis Ok : kpoint_ok n num parity_c zero_k muinv A (mid n) P0.
Hypothesis Hbs : (1 <= bs)%nat.
Let A2 := square_shift n A t.

(** What a solver for the squared operator gives for a block, after the final diagonalization. *)
Definition tgood (q : nat) (Q M : mat) (w : nat -> R) : Prop := ritz_fields n q Q A (mid n) M w /\ exists N T e, combined q M N T /\ lowest n q Q A2 (mid n) N e.
Definition inv_near (d : nat) (M : mat) (w : nat -> R) : Prop :=
  inv_ritz n bs A (mid n) P0 d M w /\ exists N T e, combined d (slice 0 d M) N T /\ lowest n d P0 A2 (mid n) N e.

Lemma unitary_sum d q T Tq : unitary d T -> unitary q Tq ->
  unitary (d + q) (fun i j => if (i <? d)%nat then (if (j <? d)%nat then T i j else C0) else if (j <? d)%nat then C0 else Tq (i - d)%nat (j - d)%nat).
Proof.
  assert (E : forall U V U' V', mdim d d U -> mdim q q V -> mdim d d U' -> mdim q q V' -> mmul d U U' = mid d -> mmul q V V' = mid q ->
    mmul (d + q) (fun i j => if (i <? d)%nat then (if (j <? d)%nat then U i j else C0) else if (j <? d)%nat then C0 else V (i - d)%nat (j - d)%nat)
      (fun i j => if (i <? d)%nat then (if (j <? d)%nat then U' i j else C0) else if (j <? d)%nat then C0 else V' (i - d)%nat (j - d)%nat) = mid (d + q)).
  { intros U V U' V' _ _ _ _ E1 E2. apply mext; intros i j. unfold mmul. rewrite csum_app.
    rewrite (csum_ext d _ (fun k => if ((i <? d) && (j <? d))%nat then (U i k * U' k j)%C else C0)).
    2: { intros k Hk. destruct (Nat.ltb_spec k d); [|lia]. destruct (Nat.ltb_spec i d), (Nat.ltb_spec j d); cbn [andb]; ring. }
    rewrite (csum_ext q _ (fun k => if ((i <? d) || (j <? d))%nat then C0 else (V (i - d)%nat k * V' k (j - d)%nat)%C)).
    2: { intros k Hk. destruct (Nat.ltb_spec (d + k) d); [lia|]. replace (d + k - d)%nat with k by lia. destruct (Nat.ltb_spec i d), (Nat.ltb_spec j d); cbn [orb]; ring. }
    pose proof (f_equal (fun F : mat => F i j) E1) as Q1. pose proof (f_equal (fun F : mat => F (i - d)%nat (j - d)%nat) E2) as Q2. cbv beta in Q1, Q2. unfold mmul in Q1, Q2. unfold mid in *.
    destruct (Nat.ltb_spec i d), (Nat.ltb_spec j d); cbn [andb orb] in *.
    - rewrite Q1, csum_0. destruct (Nat.ltb_spec i (d + q)); [|lia]. cbn [andb]. ring.
    - rewrite !csum_0. destruct (Nat.eqb_spec i j); [lia|]. rewrite andb_false_r. ring.
    - rewrite !csum_0. destruct (Nat.eqb_spec i j); [lia|]. rewrite andb_false_r. ring.
    - rewrite Q2, csum_0. destruct (Nat.ltb_spec (i - d) q), (Nat.ltb_spec i (d + q)), (Nat.eqb_spec (i - d) (j - d)), (Nat.eqb_spec i j); try lia; cbn [andb]; ring. }
  intros (D1 & U1 & U2) (D2 & V1 & V2). split; [|].
  - intros i j H. destruct (Nat.ltb_spec i d), (Nat.ltb_spec j d); try reflexivity; [lia|apply D2; lia].
  - match goal with |- mmul _ ?X (madj ?X) = _ /\ _ => replace (madj X) with (fun i j => if (i <? d)%nat then (if (j <? d)%nat then madj T i j else C0) else if (j <? d)%nat then C0 else madj Tq (i - d)%nat (j - d)%nat) end.
    + split; apply E; auto using mdim_adj.
    + apply mext; intros i j. unfold madj. destruct (Nat.ltb_spec i d), (Nat.ltb_spec j d); try reflexivity; apply C_eq; csimp; ring.
Qed.
Lemma combined_join d q M N T Mq Nq Tq : combined d M N T -> combined q Mq Nq Tq ->
  combined (d + q) (hcat d M Mq) (hcat d N Nq) (fun i j => if (i <? d)%nat then (if (j <? d)%nat then T i j else C0) else if (j <? d)%nat then C0 else Tq (i - d)%nat (j - d)%nat).
Proof.
  intros (U & EM) (Uq & EMq). split; [apply unitary_sum; auto|]. apply mext; intros i j. unfold mmul. rewrite csum_app. unfold hcat at 1. rewrite EM, EMq.
  destruct (Nat.ltb_spec j d).
  - rewrite (csum_ext q _ (fun _ => C0)), csum_0.
    + transitivity (csum d (fun l => (N i l * T l j)%C)); [reflexivity|]. rewrite (csum_ext d _ (fun l => (hcat d N Nq i l * (if (l <? d)%nat then T l j else C0))%C)); [ring|].
      intros l Hl. unfold hcat. destruct (Nat.ltb_spec l d); [reflexivity|lia].
    + intros l Hl. destruct (Nat.ltb_spec (d + l) d); [lia|]. ring.
  - rewrite (csum_ext d _ (fun _ => C0)), csum_0.
    + transitivity (csum q (fun l => (Nq i l * Tq l (j - d)%nat)%C)); [reflexivity|]. rewrite (csum_ext q (fun l => (Nq i l * Tq l (j - d)%nat)%C) (fun l => (hcat d N Nq i (d + l)%nat * (if (d + l <? d)%nat then C0 else Tq (d + l - d)%nat (j - d)%nat))%C)); [ring|].
      intros l Hl. unfold hcat. destruct (Nat.ltb_spec (d + l) d); [lia|]. replace (d + l - d)%nat with l by lia. reflexivity.
    + intros l Hl. destruct (Nat.ltb_spec l d); [|lia]. ring.
Qed.
Lemma combined_proj d M N T : mdim n d N -> combined d M N T -> dproj n d (mid n) P0 M = dproj n d (mid n) P0 N.
Proof.
  intros DN ((DT & U1 & U2) & EM). unfold dproj, yyb. f_equal. f_equal. rewrite EM. rewrite madj_mul.
  rewrite (mid_r d n) by (apply (mdim_mul d d n); [apply mdim_adj; exact DT|apply mdim_adj; exact DN]). rewrite (mid_r d n) by (apply mdim_adj; exact DN).
  rewrite mmul_assoc, <- (mmul_assoc d d T), U1, (mid_l d n) by (apply mdim_adj; exact DN). reflexivity.
Qed.

Lemma inv_near_step m k q M w M' e w' : let d := (k * bs)%nat in (1 <= q <= bs)%nat -> (d + q <= m)%nat -> mdim n m M -> mdim n m M' -> inv_near d M w -> slice 0 d M' = slice 0 d M ->
  tgood q (dproj n d (mid n) P0 (slice 0 d M)) (slice d q M') e -> (forall j, (j < q)%nat -> w' (d + j)%nat = e j) -> (forall i, (i < d)%nat -> w' i = w i) -> inv_near (d + q) M' w'.
Proof.
  intros d Hq Hd DM DM' (I & N & T & eN & Co & L) Es (G & Nq & Tq & eq & Cq & Lq) V1 V2. pose proof Ok as [DA DB DP HA HB Base Id HP Cm Mu].
  split; [apply (inv_ritz_step n num bs parity_c zero_k muinv A (mid n) P0 Ok Hbs m k q M w M' e w'); auto|].
  pose proof L as (DN & SN & ON & _). rewrite (slice_join bs Hbs d q M M' Es).
  rewrite (combined_proj d (slice 0 d M) N T DN Co) in Lq.
  pose proof (lowest_join n d A2 (mid n) P0 N DB DP HB HP Id Cm DN SN ON (sq_dim n A t DA) (sq_herm n A t HA) eN q Nq eq L Lq) as J.
  eexists _, _, _. split; [apply combined_join; eassumption|exact J].
Qed.

(** Exact modes, in blocks of growing distance. *)
Definition inv_exact (d : nat) (M : mat) (w : nat -> R) : Prop :=
  inv_near d M w /\ mmul n A (slice 0 d M) = mmul d (slice 0 d M) (mdiag d w) /\ (forall i j, (i < d)%nat -> (j < d)%nat -> (i / bs < j / bs)%nat -> Rabs (w i - t) <= Rabs (w j - t)).

Lemma exact_mode P d M w j : mdim n d M -> satisfies n P M -> form n (mid n) M M = mid d -> mmul n A M = mmul d M (mdiag d w) -> (j < d)%nat -> mode n P A (col j M) (w j).
Proof.
  intros DM SM OM EM Hj. split; [apply (col_dim n d); exact DM|]. split; [unfold col; apply satisfies_slice; exact SM|]. split.
  - intros Z. pose proof (form_col n (mid n) j j M M) as F. rewrite OM, Z in F. unfold mid in F at 2. rewrite Nat.eqb_refl in F. destruct (Nat.ltb_spec j d); [|lia]. cbn [andb] in F.
    unfold form in F. fold mzero in F. rewrite mmul_zero_r, mmul_zero_r in F. injection F as F. lra.
  - unfold col. rewrite mmul_slice, EM. apply mext; intros i l. unfold slice, mscal. destruct (Nat.ltb_spec l 1); [|apply C_eq; csimp; ring]. replace (j + l)%nat with j by lia. rewrite mmul_diag_r. destruct (Nat.ltb_spec j d); [|lia]. apply C_eq; csimp; ring.
Qed.
Hypothesis Comm : mmul n P0 A = mmul n A P0.
Hypothesis Nt : no_tie n P0 A t.

Lemma near_inv d m M w i X mu : mdim n m M -> inv_near d M w -> (i < d)%nat -> mode n P0 A X mu -> apart n (slice 0 d M) X -> Rabs (w i - t) <= Rabs (mu - t).
Proof.
  intros DM ((SM & OM & Blk) & N & T & e & Co & L) Hi Mo Ap. pose proof Ok as [DA DB DP HA HB Base Id HP Cm Mu].
  apply (near_ok n d P0 A t (slice 0 d M) N T e w DA HA Co L) with (X := X); auto.
  intros l Hl. destruct (Blk l l Hl Hl eq_refl) as (F & _). rewrite Nat.eqb_refl in F. rewrite form_slice. destruct (Nat.ltb_spec l d); [|lia]. cbn [andb Nat.add]. rewrite F. reflexivity.
Qed.
Lemma inv_exact_step m k q M w M' e w' : let d := (k * bs)%nat in (1 <= q <= bs)%nat -> (d + q <= m)%nat -> mdim n m M -> mdim n m M' -> inv_exact d M w -> slice 0 d M' = slice 0 d M ->
  tgood q (dproj n d (mid n) P0 (slice 0 d M)) (slice d q M') e -> (forall j, (j < q)%nat -> w' (d + j)%nat = e j) -> (forall i, (i < d)%nat -> w' i = w i) -> inv_exact (d + q) M' w'.
Proof.
  intros d Hq Hd DM DM' (I & Ex & Or) Es G V1 V2. pose proof Ok as [DA DB DP HA HB Base Id HP Cm Mu].
  pose proof (inv_near_step m k q M w M' e w' Hq Hd DM DM' I Es G V1 V2) as I'.
  destruct G as ((Dq & Sq & Oq & Fq & Aq) & Nq & Tq & eq & Cq & Lq). pose proof I as ((SY & OY & _) & _).
  set (Y := slice 0 d M) in *. assert (DY : mdim n d Y) by (apply (slice_dim n m); exact DM). set (Q := dproj n d (mid n) P0 Y) in *.
  destruct (dproj_sat n d (mid n) P0 Y DB DP HP Id Cm DY SY OY _ Sq) as (Sq0 & Zq).
  assert (EQ : Q = msub P0 (mmul d Y (madj Y))). { unfold Q. rewrite (dproj_eq n d (mid n) P0 Y DP SY). unfold yyb. rewrite (mid_r d n) by (apply mdim_adj; exact DY). reflexivity. }
  assert (CQ : mmul n Q A = mmul n A Q).
  { rewrite EQ. unfold msub. rewrite mmul_add_l, mmul_add_r, mmul_scal_l, mmul_scal_r, Comm. f_equal. f_equal. rewrite <- mmul_assoc, Ex, !mmul_assoc. f_equal.
    pose proof (f_equal madj Ex) as Ea. rewrite !madj_mul, HA, mdiag_adj in Ea. exact Ea. }
  assert (HQ : hermitian Q). { rewrite EQ. unfold hermitian, msub. rewrite madj_add, madj_scal, madj_mul, madj_adj, HP. reflexivity. }
  assert (CQ2 : mmul n Q A2 = mmul n A2 Q).
  { assert (CS : mmul n Q (shift n A t) = mmul n (shift n A t) Q).
    { assert (DQ : mdim n n Q) by (unfold Q; apply dproj_dim; auto). rewrite (shift_mul n n A t Q DQ). unfold shift, msub. rewrite mmul_add_r, !mmul_scal_r, (mid_r n n Q DQ), CQ. f_equal. apply mext; intros; unfold mscal; apply C_eq; csimp; ring. }
    unfold A2, square_shift. rewrite <- mmul_assoc, CS, mmul_assoc, CS, mmul_assoc. reflexivity. }
  pose proof Lq as (DN & SN & ON & _).
  destruct (dproj_sat n d (mid n) P0 Y DB DP HP Id Cm DY SY OY _ SN) as (SN0 & _).
  assert (E2 : mmul n A2 Nq = mmul q Nq (mdiag q eq)).
  { apply (lowest_exact n q Q); auto; [apply sq_dim; exact DA|unfold Q; apply dproj_dim; auto|apply sq_herm; exact HA|unfold Q; apply dproj_idem; auto]. }
  assert (Ev : forall j, (j < q)%nat -> exists a, mmul n A (col j Nq) = mscal a (col j Nq)).
  { intros j Hj. assert (E2j : mmul n A2 (col j Nq) = mscal (eq j) (col j Nq)).
    { unfold col. rewrite mmul_slice, E2. apply mext; intros i l. unfold slice, mscal. destruct (Nat.ltb_spec l 1); [|apply C_eq; csimp; ring]. replace (j + l)%nat with j by lia. rewrite mmul_diag_r. destruct (Nat.ltb_spec j q); [|lia]. apply C_eq; csimp; ring. }
    assert (Pe : 0 <= eq j).
    { pose proof (lowest_ritz _ _ _ _ _ _ _ Lq) as (_ & _ & _ & FN & _). pose proof (f_equal (fun F : mat => re (F j j)) FN) as Fj. cbv beta in Fj. rewrite <- form_col in Fj. unfold A2 in Fj. rewrite (sq_form n A t _ HA) in Fj. rewrite <- nrm_gram in Fj.
      unfold mdiag in Fj. destruct (Nat.ltb_spec j q); [|lia]. rewrite Nat.eqb_refl in Fj. cbn in Fj. rewrite <- Fj. apply nrm_pos. }
    apply (eigen_split n P0 A t (sqrt (eq j)) (col j Nq)); auto; [apply (col_dim n q); exact DN|unfold col; apply satisfies_slice; exact SN0|]. rewrite sqrt_sqrt by exact Pe. exact E2j. }
  destruct (cols_diag n q A Nq DN Ev) as (a & Ea).
  pose proof (rotate_exact n q A (slice d q M') Nq Tq a e DN Cq ON Ea Fq) as Eq.
  assert (Ew : forall i, (i < d + q)%nat -> w' i = if (i <? d)%nat then w i else e (i - d)%nat).
  { intros i Hi. destruct (Nat.ltb_spec i d); [apply V2; auto|]. rewrite <- (V1 (i - d)%nat) by lia. f_equal. lia. }
  split; [exact I'|]. split.
  - rewrite (slice_join bs Hbs d q M M' Es), mmul_hcat. fold Y. rewrite Ex, Eq. apply mext; intros i j. rewrite mmul_diag_r. unfold hcat. rewrite !mmul_diag_r. destruct (Nat.ltb_spec j (d + q)) as [Hj|Hj].
    + rewrite Ew by exact Hj. destruct (Nat.ltb_spec j d); [reflexivity|]. destruct (Nat.ltb_spec (j - d) q); [reflexivity|lia].
    + destruct (Nat.ltb_spec j d); [lia|]. destruct (Nat.ltb_spec (j - d) q); [lia|reflexivity].
  - intros i j Hi Hj Hb. rewrite !Ew by assumption. destruct (Nat.ltb_spec i d) as [Hid|Hid], (Nat.ltb_spec j d) as [Hjd|Hjd].
    + apply Or; auto.
    + apply (near_inv d m M w i (col (j - d) (slice d q M')) _ DM I Hid).
      * apply (exact_mode P0 q); auto. lia.
      * fold Y. unfold apart, col. rewrite mmul_slice. unfold form in Zq. rewrite (mid_l n q _ Dq) in Zq. rewrite Zq. apply mext; intros x y. unfold slice, mzero. destruct (_ <? _)%nat; reflexivity.
    + exfalso. pose proof (Nat.div_lt_upper_bound j bs k ltac:(lia) ltac:(unfold d in *; lia)). pose proof (Nat.div_le_lower_bound i bs k ltac:(lia) ltac:(unfold d in *; lia)). lia.
    + exfalso. assert (i / bs = k)%nat by (symmetry; apply (Nat.div_unique i bs k (i - d)); unfold d in *; lia). assert (j / bs = k)%nat by (symmetry; apply (Nat.div_unique j bs k (j - d)); unfold d in *; lia). lia.
Qed.
End Inv.
